(** The type [f32] of Rust, and the ratios of the statistics of a provider. *)
From Coq Require Import SpecFloat.
From Verif Require Import Base.

(** IEEE 754 binary32: a significand of 24 bits; infinity is beyond 2^128. The operations are those of Coq's standard
    library, rounding to the nearest, ties to even. *)
Definition f32 := spec_float.
(** [n as f32] for [n : usize] *)
Definition f32_of (n : N) : f32 := binary_normalize 24 128 (Z.of_N n) 0 false.
(** [/] *)
Definition f32_div : f32 -> f32 -> f32 := SFdiv 24 128.

(** crates/provider/sqlite3/src/provider.rs 1104, 1127: [language_data.1.count as f32 / _count as f32]; and [0f32] in 976-1018,
    where it is not computed. *)
Definition f32_ratio (r : option (N * N)) : f32 :=
  match r with
  | Some (count, default_count) => f32_div (f32_of count) (f32_of default_count)
  | None => S754_zero false
  end.
