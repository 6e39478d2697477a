(** C107: a tag has no more references than there are threads. *)
From Verif Require Import Base RegistryModel RegistrySpec RegistryProofs PropertiesRegistry RegThreadsModel RegThreadsSpec PropertiesRegThreads RegFew RegFew2.

(** Under every schedule, whatever and however often the threads ask, the references they get for a tag, under all its spellings, are no
    more than there are threads, and one if there is one thread or the tag was known. *)
Theorem C107_few_partial : forall L, locid_ok L -> forall h rs r ps n sch y l, reachable L h rs r -> (forall i, n <= i -> ps i = REnd) -> NoDup l ->
  (forall x, In x l -> r_tag x = y /\ exists i s, In (i, STag s (Ok x)) (w_log (world_run L (world_start r ps) sch))) -> List.length l <= Nat.max 1 n.
Proof. exact few_references. Qed.
Print Assumptions C107_few_partial.
(** Three threads may indeed get three, though each asks twice. *)
Example C107_few_example : let two s := ask s (ask s REnd) in
  let w := run_ex [two (us "EN-US"); two (us "en-US"); two (us "en_us")] (List.concat (repeat [0; 1; 2] 20)) in
  let l := [mk_tref 0 (us "en-US"); mk_tref 1 (us "en-US"); mk_tref 2 (us "en-US")] in
  NoDup l /\ forall x, In x l -> r_tag x = us "en-US" /\ exists i s, In (i, STag s (Ok x)) (w_log w).
Proof.
  cbn zeta. split; [repeat constructor; cbn; intuition discriminate|]. intros x [<-|[<-|[<-|[]]]]; (split; [reflexivity|]).
  - exists 0, (us "EN-US"). vm_compute. tauto.
  - exists 1, (us "en-US"). vm_compute. tauto.
  - exists 2, (us "en_us"). vm_compute. tauto.
Qed.
(** The same of the locales of a tag. *)
Theorem C107_few_locales_partial : forall L r ps n sch k l, (forall i, n <= i -> ps i = REnd) -> NoDup l ->
  (forall x, In x l -> exists i t, In (i, SIcu t (Ok x)) (w_log (world_run L (world_start r ps) sch)) /\ r_tag t = k) -> List.length l <= Nat.max 1 n.
Proof. exact few_locales. Qed.
Print Assumptions C107_few_locales_partial.
Example C107_few_locales_example : let two := ask_locale (us "de") (ask_locale (us "DE") REnd) in
  let w := run_ex [two; two] (List.concat (repeat [0; 1] 40)) in
  exists x x', x <> x' /\ forall z, In z [x; x'] -> exists i t, In (i, SIcu t (Ok z)) (w_log w) /\ r_tag t = us "de".
Proof.
  cbn zeta. exists (mk_tref 2 (us "de")), (mk_tref 3 (us "de")). split; [discriminate|]. intros z [<-|[<-|[]]].
  - exists 0, (mk_tref 0 (us "de")). split; [vm_compute; tauto|reflexivity].
  - exists 1, (mk_tref 1 (us "de")). split; [vm_compute; tauto|reflexivity].
Qed.
