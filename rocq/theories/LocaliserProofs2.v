(** Proofs about the localiser: what its errors mean. *)
From Verif Require Import Base BaseFacts LexerModel LexerSpec TreeModel TreeSpec DocSpec ValueModel CommandModel FormatterModel FormatterSpec FormatterProofs FormatterProofs2 FormatterProofs3 FormatterProofs4 FormatterProofs5
  RegistryModel LocaliserModel LocaliserSpec DefectSpec LocaliserSpec2 LocaliserProofs.

Section Errors.
  Context {PE : Type}.
  Variable E : lenv PE.
  Hypothesis Hicu : icu_ok (le_icu E).
  Local Notation build t s := (formatter_try_new (le_icu E) localiser_grammar (le_fmt E) (le_reg E) t (le_locale E t) s).

  Lemma find_string_err c i t fb e : find_string E c i t fb = Err e ->
    (e = LStringNotFound c i t fb /\ missing E c i t fb) \/ exists e', e = LProvider e' /\ provider_fails E c i t fb e'.
  Proof.
    unfold find_string. intros H. destruct (pv_string (le_provider E) c i t) as [[r|]|e1| |] eqn:E1; cbn in H; try discriminate.
    2:{ injection H as <-. right. exists e1. split; [reflexivity|]. now apply pf_asked. }
    destruct fb; cbn in H.
    2:{ injection H as <-. left. split; [reflexivity|]. now apply ms_no_fallback. }
    destruct (pv_default (le_provider E) c) as [d|e1| |] eqn:E2; cbn in H; try discriminate.
    2:{ injection H as <-. right. exists e1. split; [reflexivity|]. now apply pf_default. }
    destruct (pv_string (le_provider E) c i d) as [[r|]|e1| |] eqn:E3; cbn in H; try discriminate; injection H as <-.
    - left. split; [reflexivity|]. now apply ms_default with d.
    - right. exists e1. split; [reflexivity|]. now apply pf_string with d.
  Qed.
  Lemma key_combined q q' : combined (rq_component q) (rq_identifier q) = combined (rq_component q') (rq_identifier q') -> rq_tag q = rq_tag q' -> same_key q q'.
  Proof. intros H1 H2. split; [exact H1 | exact H2]. Qed.
  Lemma same_key_refl q : same_key q q.
  Proof. split; reflexivity. Qed.
  Lemma built_syntax t s fm : s <> [] -> build t s = Ok fm -> ~ no_syntax s.
  Proof.
    intros Hs Hb Hn. assert (G : build t s = Err FNoGrammar) by exact (proj2 (no_grammar_iff (le_icu E) (le_fmt E) (le_reg E) t (le_locale E t) s Hicu Hs) Hn). congruence.
  Qed.
  Lemma failed_syntax t s e : s <> [] -> e <> FNoGrammar -> build t s = Err e -> ~ no_syntax s.
  Proof.
    intros Hs He Hb Hn. assert (G : build t s = Err FNoGrammar) by exact (proj2 (no_grammar_iff (le_icu E) (le_fmt E) (le_reg E) t (le_locale E t) s Hicu Hs) Hn). congruence.
  Qed.
  Lemma run_err fm vals e : snd (run_formatter E fm vals) = Err e ->
    exists e', e = LFormatter e' /\ snd (format (le_fuel E) (le_fmt E) (le_reg E) fm vals) = Err e'.
  Proof.
    rewrite run_formatter_result. destruct (snd (format _ _ _ fm vals)) as [w|e1| |]; cbn; intros H; try discriminate. injection H as <-. eauto.
  Qed.

  Lemma find_reports rs qs q e : In q qs -> find_string E (rq_component q) (rq_identifier q) (rq_tag q) (rq_fallback q) = Err e -> localiser_reports E rs qs e.
  Proof.
    intros Hq H. destruct q as [c i t fb l]. cbn in H. apply find_string_err in H as [(-> & Hm)|(e' & -> & He)]; cbn [localiser_reports].
    - split; [eauto | exact Hm].
    - exists (mk_request c i t fb l). split; [exact Hq | exact He].
  Qed.
  Lemma literal_reports rs qs st c i t fb ca e : cache_ok E rs st -> In (mk_request c i t fb true) rs -> In (mk_request c i t fb true) qs ->
    snd (actual_literal E st c i t fb ca) = Err e -> localiser_reports E rs qs e.
  Proof.
    intros Hc Hr Hq H. destruct (actual_literal E st c i t fb ca) as [st' r] eqn:Ea. cbn in H. subst r.
    destruct (literal_step E rs st c i t fb ca st' _ Hc Hr Ea) as (_ & G).
    destruct (cached st t (combined c i)) as [[s t'|fm]|] eqn:Ec.
    - discriminate G.
    - injection G as ->. specialize (Hc _ _ _ Ec). cbn in Hc. destruct Hc as (q & s & t' & fm0 & H1 & H2 & H3 & H4 & H5 & H6 & H7 & _).
      cbn [localiser_reports]. exists t, fb, q, s, t'. split; [exact Hq|]. split; [exact H1|].
      split; [apply key_combined; [exact H2 | cbn; congruence]|]. split; [exact H4|].
      split; [unfold request_found; rewrite H3; apply find_string_iff; exact H5|]. split; [exact (built_syntax t' s fm0 H6 H7) | exact (built_content _ _ _ _ _ _ _ _ H7)].
    - destruct G as [G|(G & _)]; [|discriminate G]. apply (find_reports rs qs (mk_request c i t fb true)); [exact Hq | symmetry; exact G].
  Qed.
  Lemma pure_text_err vals s t e : pure_text E vals s t = Err e -> exists e', e = LFormatter e' /\ string_fails E s t e'.
  Proof.
    unfold pure_text. destruct s as [|x w]; [discriminate|]. destruct (build t (x :: w)) as [fm|e1| |] eqn:Eb; try discriminate.
    - intros H. apply run_err in H as (e' & -> & H). exists e'. split; [reflexivity|]. split; [exact (built_syntax t (x :: w) fm ltac:(discriminate) Eb)|].
      right. exists fm, fm, vals. split; [exact Eb|]. split; [apply af_fresh | exact H].
    - intros H. assert (He : e = LFormatter e1 /\ e1 <> FNoGrammar) by (destruct e1; try discriminate H; injection H as <-; (split; [reflexivity | discriminate])).
      destruct He as (-> & Hne). exists e1. split; [reflexivity|]. split; [|left; exact Eb]. exact (failed_syntax t (x :: w) e1 ltac:(discriminate) Hne Eb).
  Qed.
  Lemma format_reports rs qs st c i vals t fb ca e : cache_ok E rs st -> In (mk_request c i t fb false) rs -> In (mk_request c i t fb false) qs ->
    snd (actual_format E st c i vals t fb ca) = Err e -> localiser_reports E rs qs e.
  Proof.
    intros Hc Hr Hq H. destruct (actual_format E st c i vals t fb ca) as [st' r] eqn:Ea. cbn in H. subst r.
    destruct (format_step E rs st c i vals t fb ca st' _ Hc Hr Ea) as (_ & G).
    destruct (cached st t (combined c i)) as [[s t'|fm]|] eqn:Ec.
    - discriminate G.
    - symmetry in G. apply run_err in G as (e' & -> & G). specialize (Hc _ _ _ Ec). cbn in Hc.
      destruct Hc as (q & s & t' & fm0 & H1 & H2 & H3 & H4 & H5 & H6 & H7 & H8).
      cbn [localiser_reports]. exists (mk_request c i t fb false), q, s, t'. split; [exact Hq|]. split; [reflexivity|]. split; [exact H1|].
      split; [apply key_combined; [exact H2 | cbn; congruence]|]. split; [exact H4|]. split; [unfold request_found; rewrite H3; apply find_string_iff; exact H5|].
      split; [exact (built_syntax t' s fm0 H6 H7)|]. right. exists fm0, fm, vals. auto.
    - destruct G as [G|(G & _)]; [|discriminate G]. unfold pure_format in G.
      destruct (find_string E c i t fb) as [[s t']|e1| |] eqn:Ef; cbn [bind] in G; try discriminate G.
      + symmetry in G. apply pure_text_err in G as (e' & -> & G). cbn [localiser_reports].
        exists (mk_request c i t fb false), (mk_request c i t fb false), s, t'. split; [exact Hq|]. split; [reflexivity|]. split; [exact Hr|]. split; [apply same_key_refl|].
        split; [reflexivity|]. split; [apply find_string_iff; exact Ef | exact G].
      + injection G as <-. apply (find_reports rs qs (mk_request c i t fb false)); [exact Hq | exact Ef].
  Qed.
  Lemma data_reports rs qs t fb ca : forall d st e, cache_ok E rs st -> (forall q, In q (data_requests t fb d) -> In q rs /\ In q qs) ->
    snd (actual_format_data E d t fb ca st) = Err e -> localiser_reports E rs qs e.
  Proof.
    fix IH 1. intros [c i [vs|]] st e Hc Hq.
    - cbn [data_requests] in Hq. fold (go_requests t fb) in Hq. cbn [actual_format_data].
      assert (Hlast : In (mk_request c i t fb false) rs /\ In (mk_request c i t fb false) qs) by (apply Hq; apply in_or_app; right; now left).
      assert (Hfront : forall q, In q (go_requests t fb vs) -> In q rs /\ In q qs) by (intros q Hi; apply Hq; apply in_or_app; now left).
      clear Hq. revert Hfront st Hc. generalize (@nil (ustr * pvalue)) at 1. induction vs as [|[ph v] vs IHvs]; intros new Hq st Hc.
      + apply format_reports; tauto.
      + destruct v; try (apply IHvs; [intros q Hi; now apply Hq|exact Hc]).
        assert (Hq' : forall q, In q (data_requests t fb d) -> In q rs /\ In q qs) by (intros q Hi; apply Hq; apply in_or_app; now left).
        pose proof (IH d st e Hc Hq') as He. pose proof (data_cache_ok E rs t fb ca d st Hc (fun q Hi => proj1 (Hq' q Hi))) as Hc1.
        destruct (actual_format_data E d t fb ca st) as [st1 [[s t']|e1| |]]; try exact He.
        apply IHvs; [|exact Hc1]. intros q Hi. apply Hq. apply in_or_app. now right.
    - cbn. apply literal_reports; [exact Hc| |]; apply Hq; now left.
  Qed.
  Theorem history_reports fb ca tag h c e : let st0 := localiser_new E fb ca tag in let st := lrun E st0 h in
    snd (lstep E st c) = Some (Err e) -> localiser_reports E (history_requests E st0 (h ++ [c])) (call_requests st c) e.
  Proof.
    intros st0 st. rewrite history_app. fold st. set (rs := _ ++ _).
    assert (Hc : cache_ok E rs st) by (apply run_new; intros q Hi; apply in_or_app; now left).
    assert (Hq : forall q, In q (call_requests st c) -> In q rs /\ In q (call_requests st c)) by (intros q Hi; split; [apply in_or_app; now right | exact Hi]).
    intros H. destruct c; cbn [lstep snd] in H; cbn [call_requests] in Hq |- *; try discriminate; injection H as H; revert H.
    - apply format_reports; [exact Hc|apply Hq; now left|now left].
    - apply format_reports; [exact Hc|apply Hq; now left|now left].
    - apply literal_reports; [exact Hc|apply Hq; now left|now left].
    - apply literal_reports; [exact Hc|apply Hq; now left|now left].
    - apply data_reports; assumption.
    - apply data_reports; assumption.
  Qed.

  (** Requests of other strings have other keys. *)
  Lemma reports_says rs qs e : no_slashes rs -> same_fallback E rs -> (forall q, In q qs -> In q rs) -> localiser_reports E rs qs e ->
    match e with
    | LCacheEntry c i => exists t fb s t', In (mk_request c i t fb true) qs /\ found E c i t fb s t' /\ ~ no_syntax s
    | _ => localiser_says E qs e
    end.
  Proof.
    intros Hs Hf Hi H.
    assert (Hsame : forall q q' s t, In q rs -> In q' rs -> same_key q q' -> request_found E q' s t -> request_found E q s t).
    { intros q q' s t Hq Hq' (Hk & Ht) Hr. apply combined_inj in Hk as (H1 & H2); [|exact (Hs q Hq) | exact (Hs q' Hq')].
      unfold request_found in *. apply find_string_iff. rewrite (same_found E rs q q' Hf Hq Hq' H1 H2 Ht). apply find_string_iff. exact Hr. }
    destruct e as [e|e|e|c i t fb|c i|]; cbn [localiser_reports localiser_says] in *; try exact H.
    - destruct H as (q & q' & s & t & H1 & H2 & H3 & H4 & _ & H5 & H6). exists q, s, t. split; [exact H1|]. split; [exact H2|]. split; [|exact H6].
      exact (Hsame q q' s t (Hi q H1) H3 H4 H5).
    - destruct H as (t & fb & q' & s & t' & H1 & H2 & H3 & _ & H4 & H5 & _). exists t, fb, s, t'. split; [exact H1|]. split; [|exact H5].
      exact (Hsame (mk_request c i t fb true) q' s t' (Hi _ H1) H2 H3 H4).
  Qed.
End Errors.
