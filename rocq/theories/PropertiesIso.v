(** Property theorems C21, C22 (ISO readers) and C23, C24 (commands). *)
From Verif Require Import Base BaseFacts ValueModel CommandModel CommandProofs IsoModel IsoSpec IsoProofs IsoProofs2 FormatterProofs3 FmtExample.

(** ** C21: dates *)

(** Every documented form, except a year alone written with a plus sign, is read as the date it denotes. [valid] is
    ICU4X's check of the date. *)
Theorem C21_date_forms_partial : forall valid s y m d, date_string s y m d -> ~ only_expanded_year s -> year_range y ->
  decompose_iso_date valid s = if valid y m d then Ok (mk_date y m d) else Err IsoCalendar.
Proof. exact date_forms. Qed.
Print Assumptions C21_date_forms_partial.

Theorem C21_valid : forall valid s dt, decompose_iso_date valid s = Ok dt ->
  valid (dt_year dt) (dt_month dt) (dt_day dt) = true.
Proof. exact date_valid. Qed.
Print Assumptions C21_valid.

Theorem C21_no_panic : forall valid s, decompose_iso_date valid s <> Panic.
Proof. intros valid s. apply excl_panic. exact (iso_date_excl true valid s). Qed.
Print Assumptions C21_no_panic.

(** The exception, and strings that are no dates but are accepted. *)
Theorem C21_date_refuted :
  (date_string (us "+12345") 12345 1 1 /\ decompose_iso_date valid_iso (us "+12345") = Ok (mk_date 1234 1 1)) /\
  (forall s, In s [us "x"; us "202"; us "2024-02-29-junk"; us "++2024"; us "20240229junk"; us "202402"; us "+1-+2-+3"] ->
     (forall y m d, ~ date_string s y m d) /\ exists dt, decompose_iso_date valid_iso s = Ok dt).
Proof.
  split.
  - split; [|vm_compute; reflexivity]. apply (ds_year true). apply (ys_plus _ 12345 5); [|lia].
    split; [reflexivity|]. split; [|reflexivity]. repeat constructor; vm_compute; discriminate.
  - intros s H. split.
    + intros y m d Hd. apply date_string_shape in Hd. cbn [In] in H.
      repeat (destruct H as [<-|H]; [vm_compute in Hd; discriminate Hd|]). contradiction.
    + cbn [In] in H. repeat (destruct H as [<-|H]; [eexists; vm_compute; reflexivity|]). contradiction.
Qed.
Print Assumptions C21_date_refuted.

(** Exactly which strings are accepted, and as what. *)
Theorem C21_accepted_iff : forall valid s y m d, decompose_iso_date valid s = Ok (mk_date y m d) <->
  accepted_date s y m d /\ year_range y /\ valid y m d = true.
Proof. exact date_accepted. Qed.
Print Assumptions C21_accepted_iff.

Ltac digs := split; [reflexivity|]; split; [repeat constructor; vm_compute; discriminate|reflexivity].
Example C21_example : date_string (us "2024-02-29") 2024 2 29 /\ ~ only_expanded_year (us "2024-02-29") /\
  decompose_iso_date valid_iso (us "2024-02-29") = Ok (mk_date 2024 2 29) /\
  decompose_iso_date valid_iso (us "2023-02-29") = Err IsoCalendar /\
  date_string (us "-0044-03") (-44) 3 1 /\ decompose_iso_date valid_iso (us "-0044-03") = Ok (mk_date (-44) 3 1) /\
  decompose_iso_date valid_iso (us "19991231") = Ok (mk_date 1999 12 31).
Proof.
  split; [apply (ds_full false (us "2024") 2024 (us "02") 2 (us "29") 29); [apply (ys_plain _ 2024); digs|digs|digs]|].
  split; [intros (y & H); inversion H|]. split; [vm_compute; reflexivity|]. split; [vm_compute; reflexivity|].
  split; [apply (ds_month false (us "-0044") (-44) (us "03") 3); [apply (ys_minus _ 44 4); [digs|lia]|digs]|].
  split; vm_compute; reflexivity.
Qed.

Example C21_accepted_example : accepted_date (us "+202402") 2024 2 1 /\ ~ (exists y m d, accepted_date (us "2024-x") y m d /\ year_range y).
Proof.
  split.
  - apply ad_plus. apply (ad_month (us "2024") 2024 (us "02") 2 []); [digs| |intros []|intros a b H].
    + split; [reflexivity|]. exists (us "02"). split; [now left|]. split; [discriminate|].
      split; [repeat constructor; vm_compute; discriminate|]. split; [reflexivity|vm_compute; discriminate].
    + symmetry in H. apply app_eq_nil in H as (-> & _). discriminate.
  - intros (y & m & d & H & Hr). pose proof (proj2 (C21_accepted_iff (fun _ _ _ => true) _ y m d) (conj H (conj Hr eq_refl))) as E.
    vm_compute in E. discriminate E.
Qed.

(** ** C22: times *)

(** Hours and minutes; seconds with a fraction. The digits of the fraction are taken as a number of nanoseconds, which
    is right for nine digits. *)
Theorem C22_time_forms_partial : forall s h m sec f, time_string s h m sec (Some f) -> (h <= 24)%N -> (m <= 60)%N -> (sec <= 61)%N ->
  decompose_iso_time s = if (place_value f <=? 999999999)%N then Ok (mk_time h m sec (place_value f)) else Err IsoCalendar.
Proof. intros s h m sec f H. inversion H; subst. intros. now apply time_second_fraction. Qed.
Print Assumptions C22_time_forms_partial.

Theorem C22_nanoseconds_partial : forall s h m sec f, time_string s h m sec (Some f) -> List.length f = 9 ->
  (h <= 24)%N -> (m <= 60)%N -> (sec <= 61)%N -> decompose_iso_time s = Ok (mk_time h m sec (fraction_nanos f)).
Proof. exact time_nine. Qed.
Print Assumptions C22_nanoseconds_partial.

(** The reduced forms T, hh, hh:mm are read with zero for what is missing. *)
Theorem C22_reduced_forms : forall t hs h c ms m, opt (ch "T") t -> number 2 hs h -> opt (ch ":") c -> number 2 ms m ->
  (h <= 24)%N -> (m <= 60)%N ->
  decompose_iso_time t = Ok (mk_time 0 0 0 0) /\ decompose_iso_time (t ++ hs) = Ok (mk_time h 0 0 0) /\
  decompose_iso_time (t ++ hs ++ c ++ ms) = Ok (mk_time h m 0 0).
Proof.
  intros t hs h c ms m Ht Hh Hc Hm H1 H2.
  exact (conj (time_none t Ht) (conj (time_hour t hs h Ht Hh H1) (time_minute t hs h c ms m Ht Hh Hc Hm H1 H2))).
Qed.
Print Assumptions C22_reduced_forms.

Theorem C22_time_refuted :
  (time_string (us "12:30:15") 12 30 15 None /\ decompose_iso_time (us "12:30:15") = Err IsoCalendar) /\
  (time_string (us "12:30:15.5") 12 30 15 (Some (us "5")) /\ fraction_nanos (us "5") = 500000000%N /\
     decompose_iso_time (us "12:30:15.5") = Ok (mk_time 12 30 15 5)) /\
  decompose_iso_time (us "12:30:15.000000000Z") = Err IsoCalendar.
Proof.
  split; [|split; [|vm_compute; reflexivity]].
  - split; [|vm_compute; reflexivity].
    apply (ts_second [] (us "12") 12 (us ":") (us "30") 30 (us "15") 15); try digs; [now left|now right].
  - split; [|split; vm_compute; reflexivity].
    apply (ts_fraction [] (us "12") 12 (us ":") (us "30") 30 (us "15") 15 (us "5")); try digs; [now left|now right| |discriminate].
    repeat constructor; vm_compute; discriminate.
Qed.
Print Assumptions C22_time_refuted.

(** More generally a time without a fraction never has seconds. *)
Theorem C22_seconds_always_rejected : forall t hs h c ms m ss s, opt (ch "T") t -> number 2 hs h -> opt (ch ":") c ->
  number 2 ms m -> number 2 ss s -> forall tm, decompose_iso_time (t ++ hs ++ c ++ ms ++ c ++ ss) <> Ok tm.
Proof. exact time_second. Qed.
Print Assumptions C22_seconds_always_rejected.

(** A numeric time zone is ignored, whatever precedes it. *)
Theorem C22_zone_ignored : forall s z, decompose_iso_time (s ++ ch "+" :: z) = decompose_iso_time s /\
  decompose_iso_time (s ++ ch "-" :: z) = decompose_iso_time s.
Proof. exact zone_ignored. Qed.
Print Assumptions C22_zone_ignored.

(** Exactly which strings are accepted, and as what. *)
Theorem C22_accepted_iff : forall s h m sec n, decompose_iso_time s = Ok (mk_time h m sec n) <->
  accepted_time s h m sec n /\ (h <= 24 /\ m <= 60 /\ sec <= 61 /\ n <= 999999999)%N.
Proof. exact time_accepted. Qed.
Print Assumptions C22_accepted_iff.
Example C22_accepted_example : accepted_time (us "TT12::3+x") 12 0 0 0 /\
  ~ (exists h m sec n, accepted_time (us "123x") h m sec n /\ (h <= 24 /\ m <= 60 /\ sec <= 61 /\ n <= 999999999)%N).
Proof.
  split.
  - exists (us "12::3+x"), (us "12::3"), (us "+x"). split; [exists 2; split; [reflexivity|discriminate]|]. split; [reflexivity|].
    split; [split; intros H; cbn in H; repeat (destruct H as [H|H]; [discriminate H|]); exact H|]. split; [right; exists (us "x"); now left|].
    apply (ac_hour (us "12") 12 (us "::3") (us "3")); [digs|exists 2; split; [reflexivity|discriminate]|].
    intros a b H E. destruct a as [|x [|y a]]; [discriminate E| |].
    + injection H as <- _. discriminate E.
    + injection H as _ H. discriminate H.
  - intros (h & m & sec & n & H & Hr). pose proof (proj2 (C22_accepted_iff _ h m sec n) (conj H Hr)) as E. vm_compute in E. discriminate E.
Qed.

Theorem C22_range : forall s tm, decompose_iso_time s = Ok tm ->
  (tm_hour tm <= 24 /\ tm_minute tm <= 60 /\ tm_second tm <= 61 /\ tm_nano tm <= 999999999)%N.
Proof. exact time_range. Qed.
Print Assumptions C22_range.

Theorem C22_no_panic : forall s, decompose_iso_time s <> Panic.
Proof. intros s. apply excl_panic. exact (iso_time_excl true s). Qed.
Print Assumptions C22_no_panic.

Example C22_example : time_string (us "T121530.000000123") 12 15 30 (Some (us "000000123")) /\
  decompose_iso_time (us "T121530.000000123") = Ok (mk_time 12 15 30 123) /\
  decompose_iso_time (us "12:15+01:00") = Ok (mk_time 12 15 0 0) /\
  decompose_iso_time (us "25:00") = Err IsoCalendar.
Proof.
  split; [|repeat split; vm_compute; reflexivity].
  apply (ts_fraction (us "T") (us "12") 12 [] (us "15") 15 (us "30") 30 (us "000000123")); try digs; [now right|now left| |discriminate].
  repeat constructor; vm_compute; discriminate.
Qed.

(** ** C23: the command registry. A history is the list of the [insert] calls made; [mget name h] is the command of the
    first insertion of [name]. *)
Theorem C23_lookup : forall h name, creg_command (after_inserts creg_new h) name = ok_or (mget name h) (NotFound name).
Proof. exact registry_lookup. Qed.
Print Assumptions C23_lookup.
Theorem C23_insert : forall h name f, let r := after_inserts creg_new h in
  (In name (map fst h) -> creg_insert r name f = (r, Err (AlreadyExists name))) /\
  (~ In name (map fst h) -> snd (creg_insert r name f) = Ok tt /\ forall n, creg_command (fst (creg_insert r name f)) n =
     if ueqb n name then Ok f else creg_command r n).
Proof. exact registry_insert. Qed.
Print Assumptions C23_insert.
Theorem C23_list : forall h, NoDup (creg_list (after_inserts creg_new h)) /\
  forall name, In name (creg_list (after_inserts creg_new h)) <-> In name (map fst h).
Proof. exact registry_list. Qed.
Print Assumptions C23_list.
Example C23_example :
  let h := [(us "a", file_path); (us "b", english_a_or_an); (us "a", english_a_or_an)] in
  creg_command (after_inserts creg_new h) (us "a") = Ok file_path /\ creg_list (after_inserts creg_new h) = [us "a"; us "b"] /\
  creg_command (after_inserts creg_new h) (us "c") = Err (NotFound (us "c")).
Proof. repeat split. Qed.

(** ** C24: built-in commands. They panic for the parameters given here and no others. *)
Theorem C24_panic_refuted : file_path [] = Panic /\ english_a_or_an [] = Panic /\
  english_a_or_an [VString (us "english_a_or_an"); VString []] = Panic.
Proof. repeat split. Qed.
Print Assumptions C24_panic_refuted.
Theorem C24_file_path_partial : forall ps, file_path ps = Panic <-> ps = [].
Proof. exact file_path_panics. Qed.
Print Assumptions C24_file_path_partial.
Theorem C24_english_partial : forall ps, english_a_or_an ps = Panic <-> ps = [] \/ exists name r, ps = VString name :: VString [] :: r.
Proof. exact english_panics. Qed.
Print Assumptions C24_english_partial.
Theorem C24_article : forall name c w r, english_a_or_an (VString name :: VString (c :: w) :: r) =
  Ok (if existsb (N.eqb c) (us "aeiou") then us "an" else us "a").
Proof. exact english_article. Qed.
Print Assumptions C24_article.
(** The results of both, for every parameter vector. *)
Theorem C24_results : forall ps,
  (forall s, file_path ps = Ok s <-> exists name r, ps = VString name :: VString s :: r) /\
  (forall s, english_a_or_an ps = Ok s -> exists name c w r, ps = VString name :: VString (c :: w) :: r) /\
  (forall f name n, (f = file_path \/ f = english_a_or_an) -> (f ps = Err (ParameterMissing name n) <-> ps = [VString name] /\ n = 1)) /\
  (forall f name n, (f = file_path \/ f = english_a_or_an) -> (f ps = Err (InvalidType name n) <->
     (exists v r, ps = VString name :: v :: r /\ (forall s, v <> VString s) /\ n = 1) \/
     (exists v r, ps = v :: r /\ (forall s, v <> VString s) /\ name = us "command identifier" /\ n = 0))) /\
  (forall f e, (f = file_path \/ f = english_a_or_an) -> f ps = Err e -> exists name n, e = ParameterMissing name n \/ e = InvalidType name n) /\
  file_path ps <> NoFuel /\ english_a_or_an ps <> NoFuel.
Proof. exact command_results. Qed.
Print Assumptions C24_results.
Example C24_example : english_a_or_an [VString (us "x"); VString (us "owl")] = Ok (us "an") /\
  english_a_or_an [VString (us "x"); VString (us "dog")] = Ok (us "a") /\ file_path [VString (us "x"); VString (us "a/b")] = Ok (us "a/b").
Proof. repeat split. Qed.
