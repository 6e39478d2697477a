(** Proofs for C102: scripts of calls and of commands registered. *)
From Verif Require Import Base BaseFacts LexerModel LexerSpec TreeModel TreeSpec DocSpec ValueModel CommandModel IsoModel FormatterModel FormatterSpec
  RegistryModel LocaliserModel LocaliserSpec LocaliserProofs GrowModel GrowSpec GrowProofs GrowProofs2.
Local Opaque us.

Lemma extends_refl r : extends r r.
Proof. intros name f H. exact H. Qed.
Lemma extends_trans a b c : extends a b -> extends b c -> extends a c.
Proof. intros H1 H2 name f H. exact (H2 _ _ (H1 _ _ H)). Qed.
Lemma extends_insert r name f : extends r (fst (creg_insert r name f)).
Proof.
  unfold creg_insert. destruct (mhas name r) eqn:Eh; cbn [fst]; [apply extends_refl|]. intros n g Hg. rewrite mget_minsert. destruct (ueqb_spec n name) as [->|]; [|exact Hg].
  unfold mhas in Eh. rewrite Hg in Eh. discriminate Eh.
Qed.

Section Scripts.
  Context {PE : Type}.
  Variable E : lenv PE.
  Lemma step_extends x e : extends (snd x) (snd (fst (gstep E x e))).
  Proof.
    destruct e as [name f|c]; cbn [gstep].
    - pose proof (extends_insert (snd x) name f) as H. now destruct (creg_insert (snd x) name f).
    - destruct (lstep _ (fst x) c). apply extends_refl.
  Qed.
  Lemma run_extends h : forall x, extends (snd x) (snd (fst (grun E x h))).
  Proof.
    induction h as [|e h IH]; intros x; [apply extends_refl|]. cbn [grun]. pose proof (step_extends x e) as H. destruct (gstep E x e) as (x1 & a). specialize (IH x1).
    destruct (grun E x1 h) as (x2 & l). exact (extends_trans _ _ _ H IH).
  Qed.
  (** The same script with all commands there from the beginning. *)
  Theorem all_along r' h : forall x, well_supplied E x h -> extends (snd (fst (grun E x h))) r' ->
    fst (fst (grun E x h)) = lrun (with_reg E r') (fst x) (calls h) /\ answers (snd (grun E x h)) = call_answers (with_reg E r') (fst x) (calls h).
  Proof.
    induction h as [|e h IH]; intros x Hw Hr; [now split|]. cbn [well_supplied] in Hw. destruct Hw as (Hw1 & Hw2). cbn [grun] in Hr |- *.
    pose proof (step_extends x e) as He. pose proof (run_extends h (fst (gstep E x e))) as Hh. specialize (IH (fst (gstep E x e)) Hw2).
    destruct e as [name f|c]; cbn [gstep] in *.
    - destruct (creg_insert (snd x) name f) as (r1 & a). cbn [fst snd] in *. destruct (grun E (fst x, r1) h) as (x2 & l). cbn [fst snd] in *. exact (IH Hr).
    - destruct (lstep (with_reg E (snd x)) (fst x) c) as (st1 & a) eqn:Es. cbn [fst snd] in *. destruct (grun E (st1, snd x) h) as (x2 & l). cbn [fst snd] in *.
      destruct (IH Hr) as (H1 & H2). pose proof (less_step (snd x) r' (extends_trans _ _ _ Hh Hr) E (fst x) c) as [H|H]; rewrite Es in H; [|contradiction (Hw1 H)].
      change (calls (Use c :: h)) with (c :: calls h). cbn [call_answers]. change (lrun (with_reg E r') (fst x) (c :: calls h)) with (lrun (with_reg E r') (fst (lstep (with_reg E r') (fst x) c)) (calls h)). rewrite <- H. cbn [fst snd]. split; [exact H1|].
      change (answers (Answered a :: l)) with (a :: answers l). now rewrite H2.
  Qed.

  (** ** Transparency *)
  Lemma grow_ok r r' rs st : extends r r' -> g_cache_ok (with_reg E r) rs st -> g_cache_ok (with_reg E r') rs st.
  Proof.
    intros Hx H t key e He. specialize (H t key e He). destruct e as [s t'|fm]; cbn [g_entry_from] in *.
    - destruct H as (-> & q & H1 & H2 & H3 & H4). split; [reflexivity|]. exists q. split; [exact H1|]. split; [exact H2|]. split; [exact H3|].
      destruct H4 as [H4|[H4|H4]]; [now left|right; now left|right; right]. cbn [with_reg le_icu le_fmt le_reg le_locale] in *.
      destruct (less_build r r' Hx (le_icu E) localiser_grammar (le_fmt E) t (le_locale E t) s) as [G|(e & (name & _ & ->) & G)]; congruence.
    - destruct H as (q & s & t' & fm0 & H1 & H2 & H3 & H4 & H5 & H6 & H7 & H8). exists q, s, t', fm0. repeat (split; [assumption|]). split; [|exact H8].
      cbn [with_reg le_icu le_fmt le_reg le_locale] in *.
      destruct (less_build r r' Hx (le_icu E) localiser_grammar (le_fmt E) t' (le_locale E t') s) as [G|(e & _ & G)]; congruence.
  Qed.
  Lemma run_ok rs h : forall x, g_cache_ok (with_reg E (snd x)) rs (fst x) -> (forall q, In q (script_requests E x h) -> In q rs) ->
    g_cache_ok (with_reg E (snd (fst (grun E x h)))) rs (fst (fst (grun E x h))).
  Proof.
    induction h as [|e h IH]; intros x Hc Hq; [exact Hc|]. cbn [script_requests] in Hq. cbn [grun].
    assert (Hc1 : g_cache_ok (with_reg E (snd (fst (gstep E x e)))) rs (fst (fst (gstep E x e)))).
    { destruct e as [name f|c]; cbn [gstep].
      - pose proof (extends_insert (snd x) name f) as H. destruct (creg_insert (snd x) name f) as (r1 & a). exact (grow_ok _ _ _ _ H Hc).
      - assert (G := g_step_cache_ok (with_reg E (snd x)) rs (fst x) c Hc (fun q Hi => Hq q (in_or_app _ _ _ (or_introl Hi)))). now destruct (lstep (with_reg E (snd x)) (fst x) c) as (st1 & a). }
    specialize (IH (fst (gstep E x e)) Hc1 (fun q Hi => Hq q (in_or_app _ _ _ (or_intror Hi)))).
    destruct (gstep E x e) as (x1 & a). cbn [fst] in IH. now destruct (grun E x1 h) as (x2 & l).
  Qed.
  Lemma script_app h c : forall x, script_requests E x (h ++ [Use c]) = script_requests E x h ++ call_requests (fst (fst (grun E x h))) c.
  Proof.
    induction h as [|e h IH]; intros x; cbn [app script_requests grun]; [now rewrite app_nil_r|]. rewrite IH, app_assoc.
    destruct (gstep E x e) as (x1 & a). cbn [fst]. now destruct (grun E x1 h).
  Qed.
  Lemma found_reg r c i t fb s t' : found (with_reg E r) c i t fb s t' <-> found E c i t fb s t'.
  Proof. split; (intros [H|d H1 H2 H3 H4]; [now apply fd_asked|apply (fd_default _ _ _ _ _ _ _ d); assumption]). Qed.
  Lemma harmless_reg r rs : harmless E rs -> harmless (with_reg E r) rs.
  Proof. intros (H1 & H2 & H3). split; [exact H1|]. split; [|exact H3]. intros q q' s t' A B C D F G Hf. apply found_reg in Hf. exact (H2 q q' s t' A B C D F G Hf). Qed.
  Theorem grown_transparent fb ca tag r h c : icu_ok (le_icu E) -> answers_again E -> provider_hash_ok E ->
    let x := (localiser_new E fb ca tag, r) in let rs := script_requests E x (h ++ [Use c]) in harmless E rs ->
    let y := fst (grun E x h) in
    snd (lstep (with_reg E (snd y)) (fst y) c) = uncached_result (with_reg E (snd y)) (fst y) c \/
    (snd (lstep (with_reg E (snd y)) (fst y) c) = Some Panic /\ ~ same_language E rs).
  Proof.
    intros Hi Ha Hh x rs Hr y. unfold rs in *. rewrite script_app in *. rewrite uncached_pure.
    destruct (g_step_transparent (with_reg E (snd y)) Hi (script_requests E x h ++ call_requests (fst (fst (grun E x h))) c) (fst y) c Ha Hh (harmless_reg _ _ Hr)) as [H|(H1 & H2)].
    - apply run_ok; [intros t key e H; discriminate H|]. intros q Hq. apply in_or_app. now left.
    - intros q Hq. apply in_or_app. now right.
    - now left.
    - right. split; [exact H1|]. intros G. apply H2. intros q s t' Hq Hf. apply found_reg in Hf. exact (G q s t' Hq Hf).
  Qed.
End Scripts.
