(** Proofs for C102: the invariant of the cache with a registry that grows, following [LocaliserProofs]. *)
From Verif Require Import Base BaseFacts LexerModel LexerSpec IcuExample TreeModel TreeSpec DocSpec ValueModel CommandModel IsoModel FormatterModel
  FormatterAbs FormatterRefine FormatterRefine2 FormatterSim FormatterActs FormatterSpec FormatterProofs FormatterProofs2 FormatterProofs3 FormatterProofs4 FormatterProofs5 RegistryModel LocaliserModel LocaliserSpec LocaliserProofs
  GrowModel GrowSpec GrowProofs.
Local Opaque us.

(** What a formatter becomes by formatting, whatever is registered meanwhile. *)
Definition held (fm0 fm : formatter) : Prop := exists ns st, fm = set_numbers fm0 ns /\ R fm0 ns st.
Section Held.
  Variables (d : icu) (g : ustr) (fe : fmtenv) (reg : cregistry) (tag locale s : ustr) (fm0 : formatter).
  Hypothesis Hb : formatter_try_new d g fe reg tag locale s = Ok fm0.
  Lemma held_fresh : held fm0 fm0.
  Proof.
    destruct (built_content _ _ _ _ _ _ _ _ Hb) as (a & Ha). destruct (try_new_inv _ _ _ _ _ _ _ _ _ Ha Hb) as (_ & Hrep & _).
    exists (fm_numbers fm0), (fun _ => []). split; [symmetry; apply set_own|]. exact (R_init _ _ _ _ _ Hrep).
  Qed.
  Lemma held_format fm vals fuel : held fm0 fm -> held fm0 (fst (format fuel fe reg fm vals)).
  Proof.
    intros (ns & st & -> & HR). destruct (built_content _ _ _ _ _ _ _ _ Hb) as (a & Ha). destruct (try_new_inv _ _ _ _ _ _ _ _ _ Ha Hb) as (_ & Hrep & _).
    rewrite format_set. cbn [fst]. pose proof (sim_pattern fe reg locale fm0 a vals Hrep fuel (us "_") ns st HR) as (HR' & _).
    eexists _, _. split; [reflexivity|exact HR'].
  Qed.
  Lemma held_result a fm vals fuel : content_of d g s a -> hash_in_plurals_only a -> held fm0 fm -> snd (format fuel fe reg fm vals) = snd (format fuel fe reg fm0 vals).
  Proof.
    intros Ha Hh (ns & st & -> & HR). destruct (try_new_inv _ _ _ _ _ _ _ _ _ Ha Hb) as (Hc & Hrep & _).
    rewrite <- (set_own fm0) at 2. rewrite !format_set. cbn [snd].
    destruct (pattern_alike fe reg fm0 vals fuel (us "_") ns (fm_numbers fm0) (proj1 HR)) as (_ & Hsh).
    destruct Hsh as [((t & H1) & t2 & H2)|H]; [|exact H]. rewrite H1, H2.
    pose proof (proj2 (sim_pattern fe reg locale fm0 a vals Hrep fuel (us "_") ns st HR)) as S1.
    pose proof (proj2 (sim_pattern fe reg locale fm0 a vals Hrep fuel (us "_") _ _ (R_init _ _ _ _ _ Hrep))) as S2.
    apply (same_ok _ _ _ S1) in H1. apply (same_ok _ _ _ S2) in H2. rewrite <- H1, <- H2.
    apply (ev_history fe reg locale vals (strings_of a) (fun m l => strings_checked fe reg locale a m l Hc)
      (fun k l x m l' => select_targets fe reg locale a Hc Hh vals k l x m l')) with (l := fst a).
    - cbn [strings_of mget]. now rewrite ueqb_refl.
    - exact (main_no_hash _ _ _ _ Hc).
  Qed.
End Held.
Lemma held_tag fm0 fm : held fm0 fm -> fm_tag fm = fm_tag fm0.
Proof. intros (ns & st & -> & _). reflexivity. Qed.

Section Localiser.
  Context {PE : Type}.
  Variable E : lenv PE.
  Local Notation build t s := (formatter_try_new (le_icu E) localiser_grammar (le_fmt E) (le_reg E) t (le_locale E t) s).
  Lemma held_run t s fm0 fm vals : build t s = Ok fm0 -> held fm0 fm -> held fm0 (fst (run_formatter E fm vals)).
  Proof.
    intros Hb H. pose proof (held_format _ _ _ _ _ _ _ _ Hb fm vals (le_fuel E) H) as G. unfold run_formatter. destruct (format _ _ _ fm vals) as (fm' & r). exact G.
  Qed.

  Local Notation gap_panic := (LocaliserProofs.gap_panic E).
  Local Notation pure_text := (LocaliserProofs.pure_text E).
  Local Notation pure_format := (LocaliserProofs.pure_format E).
  Local Notation pure_data := (LocaliserProofs.pure_data E).
  Local Notation pure_call := (LocaliserProofs.pure_call E).
  Local Notation found_again := (LocaliserProofs.found_again E).
  Local Notation same_found := (LocaliserProofs.same_found E).
  Local Notation run_formatter_result := (LocaliserProofs.run_formatter_result E).
  Local Notation no_gap_panic := (LocaliserProofs.no_gap_panic E).
  Definition g_entry_from (rs : list request) (t key : ustr) (e : cache_data) : Prop :=
    match e with
    | CLocalised s t' => t' = t /\ exists q, In q rs /\ key = combined (rq_component q) (rq_identifier q) /\
        find_string E (rq_component q) (rq_identifier q) (rq_tag q) (rq_fallback q) = Ok (s, t) /\
        (rq_literal q = true \/ s = [] \/ build t s = Err FNoGrammar)
    | CFormatter fm => exists q s t' fm0, In q rs /\ key = combined (rq_component q) (rq_identifier q) /\ rq_tag q = t /\ rq_literal q = false /\
        find_string E (rq_component q) (rq_identifier q) t (rq_fallback q) = Ok (s, t') /\ s <> [] /\ build t' s = Ok fm0 /\
        held fm0 fm
    end.
  Definition g_cache_ok (rs : list request) (st : lstate) : Prop :=
    forall t key e, cached st t key = Some e -> g_entry_from rs t key e.

  Lemma g_put_ok rs st t key e st' : g_cache_ok rs st -> put st t key e st' -> g_entry_from rs t key e -> g_cache_ok rs st'.
  Proof. intros Hc (_ & _ & _ & _ & Hp) He t' key' e' H. destruct (Hp _ _ _ H) as [(-> & -> & ->)|H']; [exact He|exact (Hc _ _ _ H')]. Qed.
  Lemma g_cache_ok_more rs rs' st : (forall q, In q rs -> In q rs') -> g_cache_ok rs st -> g_cache_ok rs' st.
  Proof.
    intros Hi Hc t key e H. specialize (Hc t key e H). destruct e as [s t'|fm]; cbn in *.
    - destruct Hc as (H1 & q & H2 & H3). split; [exact H1|]. exists q. split; [now apply Hi|exact H3].
    - destruct Hc as (q & s & t' & fm0 & H2 & H3). exists q, s, t', fm0. split; [now apply Hi|exact H3].
  Qed.

  Lemma g_literal_step rs st c i t fb ca st' r : g_cache_ok rs st -> In (mk_request c i t fb true) rs ->
    actual_literal E st c i t fb ca = (st', r) -> g_cache_ok rs st' /\
    match cached st t (combined c i) with
    | Some (CLocalised s t') => r = Ok (s, t')
    | Some (CFormatter _) => r = Err (LCacheEntry c i)
    | None => r = find_string E c i t fb \/ (r = Panic /\ gap_panic st c i t fb ca)
    end.
  Proof.
    intros Hc Hq H. unfold actual_literal in H. destruct (cached st t (combined c i)) as [[s t'|fm]|] eqn:Ec.
    - injection H as <- <-. auto.
    - injection H as <- <-. auto.
    - destruct (find_string E c i t fb) as [[s t']|e| |] eqn:Ef; try (injection H as <- <-; auto).
      apply return_string_cases in H as [(-> & [->|Hp])|(-> & -> & -> & Hh & Hm)]; auto.
      + split; [|auto]. apply (g_put_ok rs st _ _ _ _ Hc Hp). cbn. split; [reflexivity|]. exists (mk_request c i t fb true). cbn. auto.
      + split; [exact Hc|]. right. split; [reflexivity|]. split; [reflexivity|]. split; [exact Ec|]. exists s, t'. split; [exact Ef|now apply mhas_gap].
  Qed.
  Lemma g_format_step rs st c i vals t fb ca st' r : g_cache_ok rs st -> In (mk_request c i t fb false) rs ->
    actual_format E st c i vals t fb ca = (st', r) -> g_cache_ok rs st' /\
    match cached st t (combined c i) with
    | Some (CLocalised s t') => r = Ok (s, t')
    | Some (CFormatter fm) => r = snd (run_formatter E fm vals)
    | None => r = pure_format c i vals t fb \/ (r = Panic /\ gap_panic st c i t fb ca)
    end.
  Proof.
    intros Hc Hq H. unfold actual_format in H. unfold pure_format, pure_text. destruct (cached st t (combined c i)) as [[s t'|fm]|] eqn:Ec.
    - injection H as <- <-. auto.
    - destruct (run_formatter E fm vals) as [fm' r'] eqn:Er. injection H as <- <-.
      split; [|reflexivity]. apply (g_put_ok rs st _ _ _ _ Hc (put_formatter_put st t _ fm')).
      specialize (Hc _ _ _ Ec). cbn in Hc. destruct Hc as (q & s & t' & fm0 & H1 & H2 & H3 & H4 & H5 & H6 & H7 & H8).
      exists q, s, t', fm0. repeat (split; [assumption|]). pose proof (held_run _ _ _ _ vals H7 H8) as G. rewrite Er in G. exact G.
    - destruct (find_string E c i t fb) as [[s t']|e| |] eqn:Ef; try (injection H as <- <-; auto). cbn [bind].
      assert (Hs : forall st' r, return_string (PE := PE) st (mhas t (ls_cache st)) ca (combined c i) s t' = (st', r) ->
        (rq_literal (mk_request c i t fb false) = true \/ s = [] \/ build t' s = Err FNoGrammar) ->
        g_cache_ok rs st' /\ (r = Ok (s, t') \/ (r = Panic /\ gap_panic st c i t fb ca))).
      { clear H. intros st1 r1 H Hl. apply return_string_cases in H as [(-> & [->|Hp])|(-> & -> & -> & Hh & Hm)]; auto.
        - split; [|auto]. apply (g_put_ok rs st _ _ _ _ Hc Hp). cbn [g_entry_from]. split; [reflexivity|]. exists (mk_request c i t fb false). auto.
        - split; [exact Hc|]. right. split; [reflexivity|]. split; [reflexivity|]. split; [exact Ec|]. exists s, t'. split; [exact Ef|now apply mhas_gap]. }
      destruct s as [|x w]; [apply Hs; auto|].
      destruct (build t' (x :: w)) as [fm|e| |] eqn:Eb; [| |injection H as <- <-; auto ..].
      + pose proof (held_run _ _ _ _ vals Eb (held_fresh _ _ _ _ _ _ _ _ Eb)) as Ha. destruct (run_formatter E fm vals) as [fm' r'] eqn:Er. injection H as <- <-.
        split; [|auto]. destruct ca; [|exact Hc]. apply (g_put_ok rs st _ _ _ _ Hc (put_formatter_put st t _ fm')).
        exists (mk_request c i t fb false), (x :: w), t', fm. cbn. repeat split; auto. discriminate.
      + destruct e; try (injection H as <- <-; auto). apply Hs; auto.
  Qed.

  Hypothesis Hicu : icu_ok (le_icu E).
  Section Harmless.
    Variable rs : list request.
    Hypothesis Hagain : answers_again E.
    Hypothesis Hhash : provider_hash_ok E.
    Hypothesis Hharm : harmless E rs.
    Local Notation no_gaps := (LocaliserProofs.no_gaps E rs).

    Lemma g_literal_transparent st c i t fb ca st' r : g_cache_ok rs st -> In (mk_request c i t fb true) rs ->
      actual_literal E st c i t fb ca = (st', r) -> g_cache_ok rs st' /\
      (r = find_string E c i t fb \/ (r = Panic /\ gap_panic st c i t fb ca)).
    Proof.
      intros Hc Hq H. destruct Hharm as (Hsl & Hmix & Hfb). destruct (g_literal_step rs st c i t fb ca st' r Hc Hq H) as (Hc' & G). split; [exact Hc'|].
      destruct (cached st t (combined c i)) as [e|] eqn:Ec; [|exact G]. specialize (Hc _ _ _ Ec). destruct e as [s t'|fm]; subst r; left.
      - destruct Hc as (-> & q & Hin & Hk & Hf & _). apply combined_inj in Hk as (-> & ->); [|exact (Hsl _ Hq)|exact (Hsl _ Hin)].
        symmetry. apply find_string_iff. apply find_string_iff in Hf. exact (found_again _ _ _ _ _ _ _ Hagain Hf).
      - destruct Hc as (q & s & t' & fm0 & Hin & Hk & Ht & Hl & Hf & Hne & Hb & _).
        apply combined_inj in Hk as (Hc1 & Hi1); [|exact (Hsl _ Hq)|exact (Hsl _ Hin)]. exfalso.
        pose proof (same_found rs _ _ Hfb Hq Hin Hc1 Hi1 (eq_sym Ht)) as Hs. cbn in Hs. rewrite Ht, Hf in Hs.
        apply find_string_iff in Hs. pose proof (Hmix _ _ _ _ Hq Hin Hc1 Hi1 eq_refl Hl Hs) as Hn.
        destruct (plain_no_grammar E Hicu s t' Hn); congruence.
    Qed.
    Lemma g_format_transparent st c i vals t fb ca st' r : g_cache_ok rs st -> In (mk_request c i t fb false) rs ->
      actual_format E st c i vals t fb ca = (st', r) -> g_cache_ok rs st' /\
      (r = pure_format c i vals t fb \/ (r = Panic /\ gap_panic st c i t fb ca)).
    Proof.
      intros Hc Hq H. destruct Hharm as (Hsl & Hmix & Hfb). destruct (g_format_step rs st c i vals t fb ca st' r Hc Hq H) as (Hc' & G). split; [exact Hc'|].
      destruct (cached st t (combined c i)) as [e|] eqn:Ec; [|exact G]. specialize (Hc _ _ _ Ec). destruct e as [s t'|fm]; subst r; left.
      - destruct Hc as (-> & q & Hin & Hk & Hf & Hl). apply combined_inj in Hk as (Hc1 & Hi1); [|exact (Hsl _ Hq)|exact (Hsl _ Hin)].
        apply find_string_iff in Hf. pose proof (found_again _ _ _ _ fb _ _ Hagain Hf) as Hf'.
        assert (Hp : s = [] \/ build t s = Err FNoGrammar).
        { destruct Hl as [Hl|Hl]; [|exact Hl]. apply (plain_no_grammar E Hicu). exact (Hmix q _ s t Hin Hq (eq_sym Hc1) (eq_sym Hi1) Hl eq_refl Hf). }
        unfold pure_format. rewrite <- Hc1, <- Hi1 in Hf'. apply find_string_iff in Hf'. rewrite Hf'. cbn. now rewrite plain_pure.
      - destruct Hc as (q & s & t' & fm0 & Hin & Hk & Ht & Hl & Hf & Hne & Hb & Haf).
        apply combined_inj in Hk as (Hc1 & Hi1); [|exact (Hsl _ Hq)|exact (Hsl _ Hin)].
        pose proof (same_found rs _ _ Hfb Hq Hin Hc1 Hi1 (eq_sym Ht)) as Hs. cbn in Hs. rewrite Ht, Hf in Hs.
        unfold pure_format. rewrite Hs. cbn. unfold pure_text. destruct s as [|x w]; [congruence|]. rewrite Hb.
        rewrite !run_formatter_result. rewrite (held_tag fm0 fm Haf).
        destruct (built_content _ _ _ _ _ _ _ _ Hb) as (a & Ha).
        assert (Hh : hash_in_plurals_only a) by (apply find_string_iff in Hs as [Hs|d _ _ _ Hs]; exact (Hhash _ _ _ _ _ _ Hs Ha)).
        now rewrite (held_result _ _ _ _ _ _ _ fm0 Hb a fm vals (le_fuel E) Ha Hh Haf).
    Qed.


    Lemma g_data_transparent t fb ca : forall d st st' r, g_cache_ok rs st -> (forall q, In q (data_requests t fb d) -> In q rs) ->
      actual_format_data E d t fb ca st = (st', r) -> g_cache_ok rs st' /\ (r = pure_data t fb d \/ (r = Panic /\ ~ no_gaps)).
    Proof.
      fix IH 1. intros [c i [vs|]] st st' r Hc Hq H.
      - cbn [data_requests] in Hq. cbn [actual_format_data] in H. cbn [pure_data].
        assert (Hlast : In (mk_request c i t fb false) rs) by (apply Hq; apply in_or_app; right; now left).
        assert (Hfront : forall q, In q ((fix go (vs : list (ustr * pvalue)) : list request :=
           match vs with
           | [] => []
           | (_, v) :: r => (match v with VData d' => data_requests t fb d' | _ => [] end) ++ go r
           end) vs) -> In q rs) by (intros q Hi; apply Hq; apply in_or_app; now left).
        clear Hq. revert Hfront st st' r Hc H. generalize (@nil (ustr * pvalue)) at 1 2. induction vs as [|[ph v] vs IHvs]; intros new Hq st st' r Hc H.
        + destruct (g_format_transparent st c i new t fb ca st' r Hc Hlast H) as (Hc' & [-> | (-> & Hg)]); split; auto.
          right. split; [reflexivity|]. intros Hn. exact (no_gap_panic rs st _ ca Hn Hlast Hg).
        + destruct v; try (eapply IHvs; [|exact Hc|exact H]; intros q Hi; now apply Hq).
          destruct (actual_format_data E d t fb ca st) as [st1 r1] eqn:E1.
          destruct (IH d st st1 r1 Hc (fun q Hi => Hq q (in_or_app _ _ _ (or_introl Hi))) E1) as (Hc1 & [-> | (-> & Hg)]).
          * destruct (pure_data t fb d) as [[s t']|e| |] eqn:Ep; [|injection H as <- <-; auto ..].
            eapply IHvs; [|exact Hc1|exact H]. intros q Hi. apply Hq. apply in_or_app. now right.
          * injection H as <- <-. auto.
      - cbn in H. destruct (g_literal_transparent st c i t fb ca st' r Hc (Hq _ (or_introl eq_refl)) H) as (Hc' & [-> | (-> & Hg)]); split; auto.
        right. split; [reflexivity|]. intros Hn. exact (no_gap_panic rs st _ ca Hn (Hq _ (or_introl eq_refl)) Hg).
    Qed.
  End Harmless.

  Lemma g_literal_cache_ok rs st c i t fb ca : g_cache_ok rs st -> In (mk_request c i t fb true) rs -> g_cache_ok rs (fst (actual_literal E st c i t fb ca)).
  Proof. intros Hc Hq. destruct (actual_literal E st c i t fb ca) as [st' r] eqn:H. exact (proj1 (g_literal_step rs st c i t fb ca st' r Hc Hq H)). Qed.
  Lemma g_format_cache_ok rs st c i vals t fb ca : g_cache_ok rs st -> In (mk_request c i t fb false) rs ->
    g_cache_ok rs (fst (actual_format E st c i vals t fb ca)).
  Proof. intros Hc Hq. destruct (actual_format E st c i vals t fb ca) as [st' r] eqn:H. exact (proj1 (g_format_step rs st c i vals t fb ca st' r Hc Hq H)). Qed.
  Lemma g_data_cache_ok rs t fb ca : forall d st, g_cache_ok rs st -> (forall q, In q (data_requests t fb d) -> In q rs) ->
    g_cache_ok rs (fst (actual_format_data E d t fb ca st)).
  Proof.
    fix IH 1. intros [c i [vs|]] st Hc Hq.
    - cbn [data_requests] in Hq. fold (go_requests t fb) in Hq. cbn [actual_format_data].
      assert (Hlast : In (mk_request c i t fb false) rs) by (apply Hq; apply in_or_app; right; now left).
      assert (Hfront : forall q, In q (go_requests t fb vs) -> In q rs) by (intros q Hi; apply Hq; apply in_or_app; now left).
      clear Hq. revert Hfront st Hc. generalize (@nil (ustr * pvalue)) at 1. induction vs as [|[ph v] vs IHvs]; intros new Hq st Hc.
      + now apply g_format_cache_ok.
      + destruct v; try (apply IHvs; [intros q Hi; now apply Hq|exact Hc]).
        pose proof (IH d st Hc (fun q Hi => Hq q (in_or_app _ _ _ (or_introl Hi)))) as Hc1.
        destruct (actual_format_data E d t fb ca st) as [st1 [[s t']|e| |]]; try exact Hc1.
        apply IHvs; [|exact Hc1]. intros q Hi. apply Hq. apply in_or_app. now right.
    - cbn. apply g_literal_cache_ok; [exact Hc|]. apply Hq. now left.
  Qed.
  Lemma g_step_cache_ok rs st c : g_cache_ok rs st -> (forall q, In q (call_requests st c) -> In q rs) -> g_cache_ok rs (fst (lstep E st c)).
  Proof.
    intros Hc Hq. destruct c; cbn [lstep fst]; cbn [call_requests] in Hq.
    - apply g_format_cache_ok; [exact Hc|]. apply Hq. now left.
    - apply g_format_cache_ok; [exact Hc|]. apply Hq. now left.
    - apply g_literal_cache_ok; [exact Hc|]. apply Hq. now left.
    - apply g_literal_cache_ok; [exact Hc|]. apply Hq. now left.
    - now apply g_data_cache_ok.
    - now apply g_data_cache_ok.
    - exact Hc.
  Qed.
  Lemma g_step_transparent rs st c : answers_again E -> provider_hash_ok E -> harmless E rs -> g_cache_ok rs st ->
    (forall q, In q (call_requests st c) -> In q rs) ->
    snd (lstep E st c) = pure_call st c \/ (snd (lstep E st c) = Some Panic /\ ~ same_language E rs).
  Proof.
    intros Ha Hh Hr Hc Hq.
    assert (HL : forall c i t fb ca, In (mk_request c i t fb true) rs ->
      snd (actual_literal E st c i t fb ca) = find_string E c i t fb \/ (snd (actual_literal E st c i t fb ca) = Panic /\ ~ same_language E rs)).
    { intros c0 i t fb ca Hi. destruct (actual_literal E st c0 i t fb ca) as [st' r] eqn:H. cbn.
      destruct (g_literal_transparent rs Ha Hr st c0 i t fb ca st' r Hc Hi H) as (_ & [G|(G & Hg)]); [now left|right]. split; [exact G|].
      intros Hn. exact (no_gap_panic rs st _ ca Hn Hi Hg). }
    assert (HF : forall c i vals t fb ca, In (mk_request c i t fb false) rs ->
      snd (actual_format E st c i vals t fb ca) = pure_format c i vals t fb \/ (snd (actual_format E st c i vals t fb ca) = Panic /\ ~ same_language E rs)).
    { intros c0 i vals t fb ca Hi. destruct (actual_format E st c0 i vals t fb ca) as [st' r] eqn:H. cbn.
      destruct (g_format_transparent rs Ha Hh Hr st c0 i vals t fb ca st' r Hc Hi H) as (_ & [G|(G & Hg)]); [now left|right]. split; [exact G|].
      intros Hn. exact (no_gap_panic rs st _ ca Hn Hi Hg). }
    assert (HD : forall d t fb ca, (forall q, In q (data_requests t fb d) -> In q rs) ->
      snd (actual_format_data E d t fb ca st) = pure_data t fb d \/ (snd (actual_format_data E d t fb ca st) = Panic /\ ~ same_language E rs)).
    { intros d t fb ca Hi. destruct (actual_format_data E d t fb ca st) as [st' r] eqn:H. cbn.
      exact (proj2 (g_data_transparent rs Ha Hh Hr t fb ca d st st' r Hc Hi H)). }
    destruct c; cbn [lstep snd pure_call]; cbn [call_requests] in Hq.
    - unfold loc_format. destruct (HF component identifier vals tag (unwrap_or fallback (ls_fallback st)) (unwrap_or caching (ls_caching st)) (Hq _ (or_introl eq_refl))) as [->|(-> & G)]; auto.
    - unfold loc_format_with_defaults. destruct (HF component identifier vals (ls_tag st) (ls_fallback st) (ls_caching st) (Hq _ (or_introl eq_refl))) as [->|(-> & G)]; auto.
    - unfold loc_literal. destruct (HL component identifier tag (unwrap_or fallback (ls_fallback st)) (unwrap_or caching (ls_caching st)) (Hq _ (or_introl eq_refl))) as [->|(-> & G)]; auto.
    - unfold loc_literal_with_defaults. destruct (HL component identifier (ls_tag st) (ls_fallback st) (ls_caching st) (Hq _ (or_introl eq_refl))) as [->|(-> & G)]; auto.
    - unfold loc_format_data. destruct (HD d tag (unwrap_or fallback (ls_fallback st)) (unwrap_or caching (ls_caching st)) Hq) as [->|(-> & G)]; auto.
    - unfold loc_format_data_with_defaults. destruct (HD d (ls_tag st) (ls_fallback st) (ls_caching st) Hq) as [->|(-> & G)]; auto.
    - now left.
  Qed.
End Localiser.
