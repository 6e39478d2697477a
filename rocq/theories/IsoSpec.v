(** ISO 8601 dates and times as the documentation of the readers describes them (formatter.rs 860-890 and 949-968),
    independent of the reading functions. *)
From Verif Require Import Base ValueModel.

(** A string of decimal digits and the number it denotes, by place value. *)
Definition is_digit (c : uchar) : Prop := (48 <= c <= 57)%N.
Definition digits (w : ustr) : Prop := Forall is_digit w.
Fixpoint place_value (w : ustr) : N :=
  match w with [] => 0 | c :: r => (c - 48) * 10 ^ N.of_nat (List.length r) + place_value r end%N.
(** [number k w n]: exactly [k] digits denoting [n]. *)
Definition number (k : nat) (w : ustr) (n : N) : Prop := List.length w = k /\ digits w /\ place_value w = n.

(** A year: four digits, or a sign and at least five digits, or a minus sign and four digits. [plus] tells whether the
    year is written with a plus sign. *)
Inductive year_string : bool -> ustr -> Z -> Prop :=
| ys_plain w n : number 4 w n -> year_string false w (Z.of_N n)
| ys_minus w n k : number k w n -> 4 <= k -> year_string false (ch "-" :: w) (- Z.of_N n)
| ys_plus w n k : number k w n -> 5 <= k -> year_string true (ch "+" :: w) (Z.of_N n).

Inductive date_string : ustr -> Z -> N -> N -> Prop :=
| ds_full p ys y ms m ds d : year_string p ys y -> number 2 ms m -> number 2 ds d ->
    date_string (ys ++ ch "-" :: ms ++ ch "-" :: ds) y m d
| ds_month p ys y ms m : year_string p ys y -> number 2 ms m -> date_string (ys ++ ch "-" :: ms) y m 1
| ds_year p ys y : year_string p ys y -> date_string ys y 1 1
| ds_basic ys y ms m ds d : number 4 ys y -> number 2 ms m -> number 2 ds d -> date_string (ys ++ ms ++ ds) (Z.of_N y) m d.

(** The reduced form with only a year written with a plus sign. *)
Definition only_expanded_year (s : ustr) : Prop := exists y, year_string true s y.

(** Years of ICU4X: 32 bits. *)
Definition year_range (y : Z) : Prop := (-2147483648 <= y <= 2147483647)%Z.

(** Times. The separator [:] is optional, and so is the leading [T]. *)
Definition opt (c : uchar) (s : ustr) : Prop := s = [] \/ s = [c].
Inductive time_string : ustr -> N -> N -> N -> option ustr -> Prop :=
| ts_none t : opt (ch "T") t -> time_string t 0 0 0 None
| ts_hour t hs h : opt (ch "T") t -> number 2 hs h -> time_string (t ++ hs) h 0 0 None
| ts_minute t hs h c ms m : opt (ch "T") t -> number 2 hs h -> opt (ch ":") c -> number 2 ms m ->
    time_string (t ++ hs ++ c ++ ms) h m 0 None
| ts_second t hs h c ms m ss s : opt (ch "T") t -> number 2 hs h -> opt (ch ":") c -> number 2 ms m -> number 2 ss s ->
    time_string (t ++ hs ++ c ++ ms ++ c ++ ss) h m s None
| ts_fraction t hs h c ms m ss s f : opt (ch "T") t -> number 2 hs h -> opt (ch ":") c -> number 2 ms m -> number 2 ss s ->
    digits f -> f <> [] -> time_string (t ++ hs ++ c ++ ms ++ c ++ ss ++ ch "." :: f) h m s (Some f).

(** The nanoseconds a fraction of a second stands for, if it has at most nine digits. *)
Definition fraction_nanos (f : ustr) : N := (place_value f * 10 ^ N.of_nat (9 - List.length f))%N.

(** ** What the readers accept in fact *)

(** No prefix of [s] is [n] bytes long. *)
Definition no_cut (n : nat) (s : ustr) : Prop := forall a b, s = a ++ b -> blen a <> n.
(** Digits denoting at most [max], possibly after a plus sign. *)
Definition plus_number (max : N) (w : ustr) (n : N) : Prop :=
  exists d, (w = d \/ w = ch "+" :: d) /\ d <> [] /\ digits d /\ place_value d = n /\ (n <= max)%N.
Definition plus_number2 (w : ustr) (n : N) : Prop := List.length w = 2 /\ plus_number 255 w n.

(** Month and day after the year; whatever follows the day after a further hyphen is ignored. *)
Inductive hyphen_tail : ustr -> N -> N -> Prop :=
| ht_none : hyphen_tail [] 1 1
| ht_month ms m : plus_number 255 ms m -> hyphen_tail (ch "-" :: ms) m 1
| ht_day ms m ds d r : plus_number 255 ms m -> plus_number 255 ds d -> (r = [] \/ exists x, r = ch "-" :: x) ->
    hyphen_tail (ch "-" :: ms ++ ch "-" :: ds ++ r) m d.

Inductive accepted_date : ustr -> Z -> N -> N -> Prop :=
| ad_plus s y m d : accepted_date s y m d -> accepted_date (ch "+" :: s) y m d
| ad_hyphen w r m d : w <> [] -> digits w -> r <> [] -> hyphen_tail r m d -> accepted_date (w ++ r) (Z.of_N (place_value w)) m d
| ad_negative w r m d : w <> [] -> digits w -> hyphen_tail r m d -> accepted_date (ch "-" :: w ++ r) (- Z.of_N (place_value w)) m d
| ad_short s : ~ In (ch "-") s -> hd_error s <> Some (ch "+") -> no_cut 4 s -> accepted_date s 0 1 1
| ad_year ys y r : number 4 ys y -> ~ In (ch "-") r -> no_cut 2 r -> accepted_date (ys ++ r) (Z.of_N y) 1 1
| ad_month ys y ms m r : number 4 ys y -> plus_number2 ms m -> ~ In (ch "-") r -> no_cut 2 r ->
    accepted_date (ys ++ ms ++ r) (Z.of_N y) m 1
| ad_day ys y ms m ds d r : number 4 ys y -> plus_number2 ms m -> plus_number2 ds d -> ~ In (ch "-") r ->
    accepted_date (ys ++ ms ++ ds ++ r) (Z.of_N y) m d.

(** Any number of characters [c], and then something else. *)
Definition padded (c : uchar) (s w : ustr) : Prop := exists k, s = repeat c k ++ w /\ hd_error w <> Some c.

(** A time without its time zone: no plus sign and no hyphen. *)
Inductive accepted_clock : ustr -> N -> N -> N -> N -> Prop :=
| ac_short w : no_cut 2 w -> accepted_clock w 0 0 0 0
| ac_hour hs h r w : number 2 hs h -> padded (ch ":") r w -> no_cut 2 w -> accepted_clock (hs ++ r) h 0 0 0
| ac_minute hs h ms m c r w : number 2 hs h -> padded (ch ":") c (ms ++ r) -> number 2 ms m -> padded (ch ":") r w -> no_cut 2 w ->
    accepted_clock (hs ++ c) h m 0 0
| ac_second hs h ms m c ss sec c' r n f : number 2 hs h -> padded (ch ":") c (ms ++ c') -> number 2 ms m ->
    padded (ch ":") c' (ss ++ r) -> number 2 ss sec -> padded (ch ".") r f -> f <> [] -> digits f -> place_value f = n ->
    accepted_clock (hs ++ c) h m sec n.
Definition no_zone (w : ustr) : Prop := ~ In (ch "+") w /\ ~ In (ch "-") w.
Definition accepted_time (s : ustr) (h m sec n : N) : Prop :=
  exists a w z, padded (ch "T") s a /\ a = w ++ z /\ no_zone w /\ (z = [] \/ exists x, z = ch "+" :: x \/ z = ch "-" :: x) /\
    accepted_clock w h m sec n.
