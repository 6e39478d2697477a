(** Property theorems C79: the order in which a map of options or selectors is gone through
    (crates/localiser/src/formatter.rs, [part_pattern]). *)
From Coq Require Import Permutation.
From Verif Require Import Base BaseFacts LexerModel LexerSpec IcuExample TreeModel TreeSpec DocSpec DocCheck ValueModel CommandModel IsoModel
  FormatterModel FormatterSpec FmtExample DefectSpec RegistryModel LocaliserModel LocaliserSpec LocaliserProofs PropertiesLocaliser
  OrderModel OrderSpec OrderProofs OrderProofs2.

Definition inserted : nat -> amap ustr -> amap ustr := fun _ m => m.
Definition reversed : nat -> amap ustr -> amap ustr := fun _ m => rev m.
Lemma inserted_order : an_order inserted.
Proof. intros i m. apply Permutation_refl. Qed.
Lemma reversed_order : an_order reversed.
Proof. intros i m. apply Permutation_rev. Qed.
Definition build_in (order : nat -> amap ustr -> amap ustr) (s : ustr) : fout formatter :=
  formatter_try_new_in order icu_ex l10n_grammar env_ex reg_ex (us "en") (us "en") s.

(** Which error is reported depends on the order, so on chance. *)
Theorem C79_order_refuted : exists o1 o2 s e1 e2, an_order o1 /\ an_order o2 /\
  build_in o1 s = Err e1 /\ build_in o2 s = Err e2 /\ e1 <> e2.
Proof.
  exists inserted, reversed, (us "{n plural few#x lots#x}#{x y}"), (FSelectorNamed (us "few") (us "few") (us "n")),
    (FInvalidSelector (us "lots") (us "plural") (us "n")).
  split; [exact inserted_order|]. split; [exact reversed_order|]. split; [vm_compute; reflexivity|]. split; [vm_compute; reflexivity|discriminate].
Qed.
Print Assumptions C79_order_refuted.

(** Nothing else does: the same strings are accepted, and the formatter is the same. *)
Theorem C79_order_partial : forall o1 o2 d g fe reg tag locale s, an_order o1 -> an_order o2 ->
  agree (formatter_try_new_in o1 d g fe reg tag locale s) (formatter_try_new_in o2 d g fe reg tag locale s) /\
  forall fm, formatter_try_new_in o1 d g fe reg tag locale s = Ok fm <-> formatter_try_new d g fe reg tag locale s = Ok fm.
Proof.
  intros o1 o2 d g fe reg tag locale s H1 H2.
  pose proof (formatter_agree o1 d g fe reg tag locale s H1) as A1. pose proof (formatter_agree o2 d g fe reg tag locale s H2) as A2.
  destruct (formatter_try_new d g fe reg tag locale s), (formatter_try_new_in o1 d g fe reg tag locale s),
    (formatter_try_new_in o2 d g fe reg tag locale s); cbn in *; try contradiction; subst; (split; [auto|]); intros fm; split; congruence.
Qed.
Print Assumptions C79_order_partial.

(** Looking a selector up in a formatter does not depend on it either. *)
Theorem C79_lookup : forall (m m' : amap ustr) k, Permutation m m' -> NoDup (mkeys m) -> mget k m = mget k m'.
Proof. exact (fun m m' k => perm_mget m m' k). Qed.
Print Assumptions C79_lookup.

(** Whichever error comes out, it is about something in the string: C67 for every order. *)
Theorem C79_errors : forall order d fe reg tag locale s a e, an_order order -> icu_ok d -> content_of d l10n_grammar s a -> s <> [] ->
  formatter_try_new_in order d l10n_grammar fe reg tag locale s = Err e ->
  (e = FNoGrammar /\ forall c, In c s -> ~ In c l10n_grammar) \/ reports reg a e.
Proof. exact ordered_reports. Qed.
Print Assumptions C79_errors.

(** The map of values: formatting looks values up only, and going through the values of localisation data in another order
    gives the same text in the same language. *)
Theorem C79_values : forall fuel fe reg fm vals vals', Permutation vals vals' -> NoDup (mkeys vals) ->
  format fuel fe reg fm vals = format fuel fe reg fm vals'.
Proof. intros fuel fe reg fm vals vals' HP Hn. apply format_ext. intros k. now apply perm_mget. Qed.
Print Assumptions C79_values.
Theorem C79_data : forall PE (E : lenv PE) st d d' t fb ca w t', icu_ok (le_icu E) -> keys_distinct d -> same_data d d' ->
  uncached_result E st (CallData d t fb ca) = Some (Ok (w, t')) <-> uncached_result E st (CallData d' t fb ca) = Some (Ok (w, t')).
Proof.
  intros PE E st d d' t fb ca w t' Hd Hk Hs. rewrite (C33_inside_out PE E st d t fb ca w t' Hd Hk).
  rewrite (C33_inside_out PE E st d' t fb ca w t' Hd (proj1 same_distinct d d' Hs Hk)). now apply same_text.
Qed.
Print Assumptions C79_data.

Example C79_example :
  an_order inserted /\ an_order reversed /\
  build_in inserted (us "{n decimal group#auto sign#auto}") = Err (FInvalidOptionValue (us "group") (us "group") (us "decimal")) /\
  build_in reversed (us "{n decimal group#auto sign#auto}") = Err (FInvalidOptionValue (us "sign") (us "sign") (us "decimal")) /\
  (exists fm, build_in inserted (us "{n plural one#one other#other}#{one a}{other b}") = Ok fm /\
     build_in reversed (us "{n plural one#one other#other}#{one a}{other b}") = Ok fm /\ List.length (fm_patterns fm) = 3).
Proof.
  split; [exact inserted_order|]. split; [exact reversed_order|]. split; [vm_compute; reflexivity|]. split; [vm_compute; reflexivity|].
  eexists. split; [vm_compute; reflexivity|]. split; vm_compute; reflexivity.
Qed.

Definition two_values (b : bool) : ldata :=
  let x := (us "name", VData (LData (us "app") (us "bye") None)) in let y := (us "other", VUnsigned 3) in
  LData (us "app") (us "greet") (Some (if b then [x; y] else [y; x])).
Example C79_data_example : same_data (two_values true) (two_values false) /\ keys_distinct (two_values true) /\
  outcome_after [] (CallDataDefaults (two_values true)) = Some (Ok (us "Hello Bye!", us "en")) /\
  outcome_after [] (CallDataDefaults (two_values false)) = Some (Ok (us "Hello Bye!", us "en")).
Proof.
  split; [|split; [|split; vm_compute; reflexivity]].
  - eapply sd_some; [|apply perm_swap]. constructor; [constructor|]. constructor; [discriminate|constructor].
  - constructor; [repeat constructor; cbn; intuition discriminate|]. constructor; [constructor|]. constructor; [discriminate|constructor].
Qed.
