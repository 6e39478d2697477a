(** Property theorems C84: the size of syntax trees (crates/localiser/src/tree.rs). *)
From Verif Require Import Base BaseFacts LexerModel LexerSpec IcuExample PropertiesLexer TreeModel TreeRefine3 TreeProofs ArenaSpec ArenaProofs.
From Coq Require Import Sorted.

Lemma accepted_parse d s g tr : tree_try_new d s g = Ok tr -> exists ts, tokenise d s g = Ok ts /\ parse_tokens ts = Ok tr.
Proof. unfold tree_try_new. destruct (tokenise d s g) as [ts|e| |]; cbn [map_err bind]; try discriminate. eauto. Qed.

Theorem C84_small : forall d s g tr, tree_try_new d s g = Ok tr -> small_tree tr.
Proof. intros d s g tr H. destruct (accepted_parse _ _ _ _ H) as (ts & _ & H'). exact (parse_small ts tr H'). Qed.
Print Assumptions C84_small.

(** In characters of the string. *)
Theorem C84_characters : forall d s g tr, tree_try_new d s g = Ok tr ->
  List.length (tr_nodes tr) <= List.length s + 2 /\ List.length (used_tokens tr) <= List.length s.
Proof.
  intros d s g tr H. destruct (accepted_parse _ _ _ _ H) as (ts & Ht & H'). pose proof (parse_small ts tr H') as [H1 _ H3 H4 _].
  destruct (parse_sound _ _ H') as (_ & Hts & _). rewrite Hts in *.
  assert (Hl : List.length ts <= List.length s).
  { pose proof (fun t => C02_homogeneous d s g ts t Ht) as Hne. destruct (C01_lossless _ _ _ _ Ht) as (E & _). rewrite <- E. clear -Hne.
    induction ts as [|t ts IH]; [cbn; lia|]. cbn [map List.concat]. rewrite app_length. cbn [List.length].
    assert (t_string t <> []) by (destruct (Hne t (or_introl eq_refl)) as (X & _); exact X).
    destruct (t_string t); [contradiction|]. cbn. specialize (IH (fun t Hin => Hne t (or_intror Hin))). lia. }
  split; [lia|]. etransitivity; [|exact Hl]. rewrite <- (seq_length (List.length ts) 0). apply NoDup_incl_length.
  - clear -H3. induction H3 as [|x l Hs IH Hf]; constructor; [|exact IH]. intros Hin. rewrite Forall_forall in Hf. specialize (Hf x Hin). lia.
  - intros j Hj. apply in_seq. specialize (H4 j Hj). lia.
Qed.
Print Assumptions C84_characters.

(** Both bounds are reached. *)
Example C84_example : exists tr, tree_try_new icu_ex (us "a#{b c{d select e#f}}") l10n_grammar = Ok tr /\
  List.length (tr_tokens tr) = 16 /\ List.length (tr_nodes tr) = 14 /\ used_tokens tr = [0; 3; 5; 7; 9; 11; 13] /\ level (tr_nodes tr) 13 6.
Proof.
  eexists. split; [vm_compute; reflexivity|]. split; [reflexivity|]. split; [reflexivity|]. split; [reflexivity|].
  repeat (eapply lv_child; [reflexivity|reflexivity|]). apply lv_root.
Qed.
Example C84_example_nodes : exists tr, tree_try_new icu_ex (us "a") l10n_grammar = Ok tr /\ List.length (tr_tokens tr) = 1 /\ List.length (tr_nodes tr) = 3.
Proof. eexists. split; [vm_compute; reflexivity|]. split; reflexivity. Qed.
