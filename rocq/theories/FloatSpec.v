(** The numbers of type [f32]. *)
From Coq Require Import SpecFloat QArith Qabs.
From Verif Require Import Base.

(** [k] times a power of two. *)
Definition scaled (k e : Z) : Q := (inject_Z k * Qpower 2 e)%Q.
(** The numbers that are not negative and that binary32 has. *)
Definition in_f32 (q : Q) : Prop := exists k e, (0 <= k < 2 ^ 24)%Z /\ (-149 <= e <= 104)%Z /\ (q == scaled k e)%Q.
(** A value is a number, and which one. *)
Inductive is_number : spec_float -> Q -> Prop :=
| num_zero s q : (q == 0)%Q -> is_number (S754_zero s) q
| num_finite m e q : (q == scaled (Z.pos m) e)%Q -> is_number (S754_finite false m e) q
| num_negative m e q : (q == - scaled (Z.pos m) e)%Q -> is_number (S754_finite true m e) q.
(** No number of binary32 is nearer to [q] than [r]. *)
Definition nearest (q r : Q) : Prop := in_f32 r /\ forall x, in_f32 x -> (Qabs (r - q) <= Qabs (x - q))%Q.
