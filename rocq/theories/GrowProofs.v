(** Proofs for C102: a registry with more commands. *)
From Verif Require Import Base BaseFacts LexerModel TreeModel ValueModel CommandModel FormatterModel RegistryModel LocaliserModel LocaliserSpec LocaliserProofs GrowModel GrowSpec.

Section Mono.
  Variables (r r' : cregistry).
  Hypothesis Hext : extends r r'.
  (** The same, or an error for want of a command. *)
  Definition less {A} (x y : fout A) : Prop := x = y \/ exists e, lacking r e /\ x = Err e.
  Lemma less_refl {A} (x : fout A) : less x x.
  Proof. now left. Qed.
  Lemma less_bind {A B} (x y : fout A) (f g : A -> fout B) : less x y -> (forall a, less (f a) (g a)) -> less (bind x f) (bind y g).
  Proof.
    intros [->|(e & He & ->)] H.
    - destruct y as [a|e| |]; cbn [bind]; [apply H|now left..].
    - right. exists e. now split.
  Qed.
  Lemma less_command name : less (map_err FCommand (creg_command r name)) (map_err FCommand (creg_command r' name)).
  Proof.
    unfold creg_command. destruct (mget name r) as [f|] eqn:Ef.
    - rewrite (Hext _ _ Ef). now left.
    - right. exists (FCommand (NotFound name)). split; [now exists name|reflexivity].
  Qed.
  Ltac go := repeat (first [apply less_refl | apply less_command | apply less_bind; [|intros ?] | match goal with |- less (match ?x with _ => _ end) _ => destruct x end
                          | match goal with |- less (let (_, _) := ?x in _) _ => destruct x end | match goal with |- less (if ?b then _ else _) _ => destruct b end]).
  Lemma less_part_command tr i : less (part_command r tr i) (part_command r' tr i).
  Proof. unfold part_command. go. Qed.
  Lemma less_child fe locale known main tr i b : less (part_child fe r locale known main tr i b) (part_child fe r' locale known main tr i b).
  Proof.
    unfold part_child. apply less_bind; [apply less_refl|]. intros ty. destruct (ntype_eqb ty NText); [apply less_refl|]. destruct (ntype_eqb ty NNumberSign && negb main); [apply less_refl|].
    destruct (ntype_eqb ty NPattern); [apply less_refl|]. destruct (ntype_eqb ty NCommand); [|apply less_refl]. apply less_bind; [apply less_part_command|]. intros p. apply less_refl.
  Qed.
  Lemma less_parts fe locale known main tr : forall cs b, less (string_parts fe r locale known main tr cs b) (string_parts fe r' locale known main tr cs b).
  Proof.
    induction cs as [|c cs IH]; intros b; [apply less_refl|]. cbn [string_parts]. apply less_bind; [apply less_child|]. intros (p & b1). apply less_bind; [apply IH|]. intros (ps & b2). apply less_refl.
  Qed.
  Lemma less_named fe locale tr : forall ns pats b, less (named_strings fe r locale tr ns pats b) (named_strings fe r' locale tr ns pats b).
  Proof.
    induction ns as [|n ns IH]; intros pats b; [apply less_refl|]. cbn [named_strings]. do 3 (apply less_bind; [apply less_refl|]; intros ?). destruct (mhas _ pats); [apply less_refl|].
    do 3 (apply less_bind; [apply less_refl|]; intros ?). apply less_bind; [apply less_parts|]. intros (parts & b1). apply IH.
  Qed.
  Lemma less_build d g fe tag locale s : less (formatter_try_new d g fe r tag locale s) (formatter_try_new d g fe r' tag locale s).
  Proof.
    unfold formatter_try_new. apply less_bind; [apply less_refl|]. intros tr. unfold formatter_of_tree. destruct (negb (tr_has_grammar tr)); [apply less_refl|].
    apply less_bind; [apply less_refl|]. intros ty. destruct (negb _); [apply less_refl|]. apply less_bind; [apply less_refl|]. intros root.
    apply less_bind.
    - destruct root as [|x [|y root]]; [apply less_refl..|]. apply less_bind; [apply less_refl|]. intros ns. apply less_named.
    - intros (pats & b). do 2 (apply less_bind; [apply less_refl|]; intros ?). apply less_bind; [apply less_parts|]. intros (parts & b2). apply less_refl.
  Qed.

  (** *** Formatting *)
  Definition less' {S A} (x y : S * fout A) : Prop := x = y \/ exists e, lacking r e /\ snd x = Err e.
  Section Format.
    Variables (fe : fmtenv) (fm : formatter) (vals : amap pvalue).
    Definition less_rec (rec rec' : ustr -> nums -> fst_out ustr) : Prop := forall n ns, less' (rec n ns) (rec' n ns).
    Lemma less_format_command l : less (format_command r vals l) (format_command r' vals l).
    Proof.
      unfold format_command. destruct l as [|v l]; [apply less_refl|]. destruct v; try apply less_refl. apply less_bind; [apply less_refl|]. intros ps. apply less_bind; [apply less_command|]. intros f. apply less_refl.
    Qed.
    Lemma less_find rec rec' d rules idx ns : less_rec rec rec' -> less' (find_number_sign fe fm rec d rules idx ns) (find_number_sign fe fm rec' d rules idx ns).
    Proof.
      intros H. unfold find_number_sign. destruct (fe_decimal fe (fm_locale fm) None); [|now left]. cbv zeta. destruct (nth_error _ _); [|now left]. destruct (mget _ a); [|now left].
      destruct (mget _ (fm_patterns fm)); [|now left]. destruct (update_numbers _ _ _) as (ns1 & [u|e| |]); [apply H|now left..].
    Qed.
    Lemma less_part rec rec' p ns : less_rec rec rec' -> less' (format_part fe r fm vals rec p ns) (format_part fe r' fm vals rec' p ns).
    Proof.
      intros H. destruct p; try (now left); cbn [format_part].
      - destruct (mget _ vals) as [v|]; [|now left]. unfold format_complex. destruct c.
        + destruct (fe_cardinal _ _); [|now left]. destruct (number_of _ _ _); [now apply less_find|now left..].
        + destruct (fe_ordinal _ _); [|now left]. destruct v; try (now left). now apply less_find.
        + destruct (value_text v); [|now left]. unfold format_select. destruct (nth_error _ _); [|now left]. destruct (mget _ _); [apply H|now left].
      - destruct (less_format_command strings) as [->|(e & He & G)]; [now left|]. right. exists e. now split.
    Qed.
    Lemma less_loop rec rec' : less_rec rec rec' -> forall ps ns, less' (format_parts fe r fm vals rec ps ns) (format_parts fe r' fm vals rec' ps ns).
    Proof.
      intros H. induction ps as [|p ps IH]; intros ns; [now left|]. cbn [format_parts]. destruct (less_part rec rec' p ns H) as [->|(e & He & G)].
      - destruct (format_part fe r' fm vals rec' p ns) as (ns1 & [s|e| |]); try (now left). destruct (IH ns1) as [->|(e & He & G)]; [now left|].
        destruct (format_parts fe r fm vals rec ps ns1) as (ns2 & x). cbn [snd] in G. subst x. right. exists e. now split.
      - destruct (format_part fe r fm vals rec p ns) as (ns1 & x). cbn [snd] in G. subst x. right. exists e. now split.
    Qed.
    Lemma less_pattern fuel : less_rec (format_pattern fe r fm vals fuel) (format_pattern fe r' fm vals fuel).
    Proof.
      induction fuel as [|fuel IH]; intros n ns; [now left|]. cbn [format_pattern]. destruct (mget n (fm_patterns fm)); [|now left]. now apply less_loop.
    Qed.
    Lemma less_format fuel : less' (format fuel fe r fm vals) (format fuel fe r' fm vals).
    Proof.
      unfold format. destruct (less_pattern fuel (us "_") (fm_numbers fm)) as [->|(e & He & G)]; [now left|].
      destruct (format_pattern fe r fm vals fuel _ _) as (ns & x). cbn [snd] in G. subst x. right. exists e. now split.
    Qed.
  End Format.

  (** *** The localiser *)
  Section Localiser.
    Context {PE : Type}.
    Variable E : lenv PE.
    Notation E1 := (with_reg E r).
    Notation E2 := (with_reg E r').
    Definition ltext {S} (x y : S * lout (PE := PE) (ustr * ustr)) : Prop := x = y \/ exists e, lacking r e /\ snd x = Err (LFormatter e).
    Lemma less_run fm vals : ltext (run_formatter E1 fm vals) (run_formatter E2 fm vals).
    Proof.
      unfold run_formatter. cbn [with_reg le_fuel le_fmt le_reg]. destruct (less_format (le_fmt E) fm vals (le_fuel E)) as [->|(e & He & G)]; [now left|].
      destruct (format (le_fuel E) (le_fmt E) r fm vals) as (fm' & x). cbn [snd] in G. subst x. right. exists e. now split.
    Qed.
    Lemma less_actual_literal st c i t fb ca : actual_literal E1 st c i t fb ca = actual_literal E2 st c i t fb ca.
    Proof. reflexivity. Qed.
    Lemma less_actual_format st c i vals t fb ca : ltext (actual_format E1 st c i vals t fb ca) (actual_format E2 st c i vals t fb ca).
    Proof.
      unfold actual_format. destruct (cached st t (combined c i)) as [[s t'|fm]|]; [now left| |].
      - destruct (less_run fm vals) as [->|(e & He & G)]; [now left|]. destruct (run_formatter E1 fm vals) as (fm' & x). cbn [snd] in G. subst x. right. exists e. now split.
      - change (find_string E1 c i t fb) with (find_string E2 c i t fb). destruct (find_string E2 c i t fb) as [(s & t')|e| |]; try (now left). destruct s as [|x s]; [now left|].
        cbn [with_reg le_icu le_fmt le_reg le_locale]. destruct (less_build (le_icu E) localiser_grammar (le_fmt E) t' (le_locale E t') (x :: s)) as [->|(e & He & ->)].
        + destruct (formatter_try_new _ _ _ r' _ _ _) as [fm|e| |]; try (now left). destruct (less_run fm vals) as [->|(e & He & G)]; [now left|].
          destruct (run_formatter E1 fm vals) as (fm' & x'). cbn [snd] in G. subst x'. right. exists e. now split.
        + right. exists e. split; [exact He|]. destruct He as (name & _ & ->). reflexivity.
    Qed.
    Lemma less_data t fb ca : forall d st, ltext (actual_format_data E1 d t fb ca st) (actual_format_data E2 d t fb ca st).
    Proof.
      fix IH 1. intros [c i [vs|]] st; [|now left]. cbn [actual_format_data]. revert st. generalize (@nil (ustr * pvalue)). induction vs as [|(ph & v) vs IHvs]; intros new st; [apply less_actual_format|].
      destruct v; try (apply IHvs). destruct (IH d st) as [->|(e & He & G)].
      - destruct (actual_format_data E2 d t fb ca st) as (st1 & [(s & t')|e| |]); try (now left). apply IHvs.
      - destruct (actual_format_data E1 d t fb ca st) as (st1 & x). cbn [snd] in G. subst x. right. exists e. now split.
    Qed.
    Theorem less_step st c : lstep E1 st c = lstep E2 st c \/ lacking_answer r (snd (lstep E1 st c)).
    Proof.
      assert (G : forall x y : lstate * lout (PE := PE) (ustr * ustr), ltext x y -> (fst x, Some (snd x)) = (fst y, Some (snd y)) \/ lacking_answer r (Some (snd x))).
      { intros x y [->|(e & He & H)]; [now left|]. right. exists e. split; [exact He|]. now rewrite H. }
      destruct c; try (now left); cbn [lstep snd].
      - exact (G _ _ (less_actual_format st component identifier vals tag _ _)).
      - exact (G _ _ (less_actual_format st component identifier vals _ _ _)).
      - exact (G _ _ (less_data _ _ _ d st)).
      - exact (G _ _ (less_data _ _ _ d st)).
    Qed.
  End Localiser.
End Mono.
