(** Proofs for C90: exactly what a call stores and what it removes. *)
From Verif Require Import Base BaseFacts LexerModel IcuExample DocSpec ValueModel CommandModel FormatterModel FormatterSpec RegistryModel
  LocaliserModel LocaliserSpec LocaliserProofs MemorySpec MemoryProofs.

Section Localiser.
  Context {PE : Type}.
  Variable E : lenv PE.

  Lemma found_fun c i t fb s t' s2 t2 : found E c i t fb s t' -> found E c i t fb s2 t2 -> s2 = s /\ t2 = t'.
  Proof. intros H1 H2. apply find_string_iff in H1, H2. rewrite H1 in H2. injection H2 as <- <-. auto. Qed.

  (** What storing a string as it is does. *)
  Lemma return_lost st t c i s t' ca t0 key0 : cached st t0 key0 <> None ->
    (cached (fst (return_string (PE := PE) st (mhas t (ls_cache st)) ca (combined c i) s t')) t0 key0 = None <->
     ca = true /\ mget t (ls_cache st) = None /\ t0 = t' /\ key0 <> combined c i).
  Proof.
    intros H. unfold return_string. destruct ca; [|split; [intros E1; contradiction|intros (H1 & _); discriminate]].
    unfold add_string_to_cache, mhas. destruct (mget t (ls_cache st)) as [m|] eqn:Em; cbn [negb fst].
    - destruct (mget t' (ls_cache st)) as [m'|] eqn:Em'; cbn [fst].
      + split; [|intros (_ & H1 & _); discriminate]. intros Hn. exfalso. destruct (insert_kept st t' (combined c i) (CLocalised s t') m' Em') as (K & _). exact (K _ _ H Hn).
      + split; [intros E1; contradiction|intros (_ & H1 & _); discriminate].
    - rewrite cached_put. destruct (ueqb_spec t0 t') as [->|N].
      + cbn. destruct (ueqb_spec key0 (combined c i)) as [->|Nk].
        * split; [discriminate|]. intros (_ & _ & _ & N). now destruct N.
        * split; [auto|reflexivity].
      + split; [intros E1; contradiction|]. intros (_ & _ & E1 & _). contradiction.
  Qed.
  Lemma return_stored st t c i s t' r : cached st t (combined c i) = None ->
    snd (return_string (PE := PE) st (mhas t (ls_cache st)) true (combined c i) s t') = Ok r ->
    (cached (fst (return_string (PE := PE) st (mhas t (ls_cache st)) true (combined c i) s t')) t (combined c i) <> None <-> t' = t).
  Proof.
    intros H. unfold return_string, add_string_to_cache. destruct (mhas t (ls_cache st)); cbn [negb].
    - destruct (mget t' (ls_cache st)) as [m'|] eqn:Em'; cbn [fst snd]; [|discriminate]. intros _. rewrite cached_put. destruct (ueqb_spec t t') as [->|N].
      + rewrite mget_minsert, ueqb_refl. split; [reflexivity|discriminate].
      + split; [intros H1; contradiction|congruence].
    - cbn [fst snd]. intros _. rewrite cached_put. destruct (ueqb_spec t t') as [->|N].
      + cbn. rewrite ueqb_refl. split; [reflexivity|discriminate].
      + split; [intros H1; contradiction|congruence].
  Qed.

  Section One.
    Variables (st : lstate) (c i t : ustr) (fb ca : bool).
    Lemma nothing_cached t0 : mget t (ls_cache st) = None -> cached st t t0 = None.
    Proof. intros H. unfold cached. now rewrite H. Qed.

    Lemma literal_lost t0 key0 : cached st t0 key0 <> None ->
      (cached (fst (actual_literal E st c i t fb ca)) t0 key0 = None <->
       ca = true /\ mget t (ls_cache st) = None /\ key0 <> combined c i /\ exists s, found E c i t fb s t0).
    Proof.
      intros H. unfold actual_literal. destruct (cached st t (combined c i)) as [[s t'|fm]|] eqn:Ec; cbn [fst].
      - split; [intros E1; contradiction|]. intros (_ & H1 & _). rewrite (nothing_cached _ H1) in Ec. discriminate.
      - split; [intros E1; contradiction|]. intros (_ & H1 & _). rewrite (nothing_cached _ H1) in Ec. discriminate.
      - destruct (find_string E c i t fb) as [[s t']|e| |] eqn:Ef; cbn [fst].
        2-4: (split; [intros E1; contradiction|]; intros (_ & _ & _ & s & Hs); apply find_string_iff in Hs; congruence).
        apply find_string_iff in Ef. rewrite (return_lost st t c i s t' ca t0 key0 H). split.
        + intros (H1 & H2 & -> & H3). eauto 6.
        + intros (H1 & H2 & H3 & s2 & Hs2). destruct (found_fun _ _ _ _ _ _ _ _ Ef Hs2) as (_ & ->). auto.
    Qed.
    Lemma literal_stored r : ca = true -> snd (actual_literal E st c i t fb ca) = Ok r ->
      (cached (fst (actual_literal E st c i t fb ca)) t (combined c i) <> None <->
       cached st t (combined c i) <> None \/ exists s, found E c i t fb s t).
    Proof.
      intros -> Hr. unfold actual_literal in *. destruct (cached st t (combined c i)) as [[s t'|fm]|] eqn:Ec; cbn [fst snd] in *.
      - rewrite Ec. split; [left; discriminate|discriminate].
      - rewrite Ec. split; [left; discriminate|discriminate].
      - destruct (find_string E c i t fb) as [[s t']|e| |] eqn:Ef; cbn [fst snd] in *; try discriminate. apply find_string_iff in Ef.
        rewrite (return_stored st t c i s t' r Ec Hr). split.
        + intros ->. right. eauto.
        + intros [H|(s2 & H)]; [now destruct H|]. destruct (found_fun _ _ _ _ _ _ _ _ Ef H) as (_ & ->). reflexivity.
    Qed.

    Hypothesis Hd : icu_ok (le_icu E).
    Lemma format_lost vals t0 key0 : cached st t0 key0 <> None ->
      (cached (fst (actual_format E st c i vals t fb ca)) t0 key0 = None <->
       ca = true /\ mget t (ls_cache st) = None /\ key0 <> combined c i /\ exists s, found E c i t fb s t0 /\ no_syntax s).
    Proof.
      intros H. unfold actual_format. destruct (cached st t (combined c i)) as [[s t'|fm]|] eqn:Ec; cbn [fst].
      - split; [intros E1; contradiction|]. intros (_ & H1 & _). rewrite (nothing_cached _ H1) in Ec. discriminate.
      - destruct (run_formatter E fm vals) as [fm' r]. cbn [fst]. destruct (put_formatter_kept st t (combined c i) fm') as (K & _). split.
        + intros E1. now destruct (K _ _ H).
        + intros (_ & H1 & _). rewrite (nothing_cached _ H1) in Ec. discriminate.
      - destruct (find_string E c i t fb) as [[s t']|e| |] eqn:Ef; cbn [fst].
        2-4: (split; [intros E1; contradiction|]; intros (_ & _ & _ & s & Hs & _); apply find_string_iff in Hs; congruence).
        apply find_string_iff in Ef.
        assert (Hp : no_syntax s -> (cached (fst (return_string (PE := PE) st (mhas t (ls_cache st)) ca (combined c i) s t')) t0 key0 = None <->
          ca = true /\ mget t (ls_cache st) = None /\ key0 <> combined c i /\ exists s, found E c i t fb s t0 /\ no_syntax s)).
        { intros Hn. rewrite (return_lost st t c i s t' ca t0 key0 H). split.
          - intros (H1 & H2 & -> & H3). eauto 7.
          - intros (H1 & H2 & H3 & s2 & Hs2 & _). destruct (found_fun _ _ _ _ _ _ _ _ Ef Hs2) as (_ & ->). auto. }
        assert (Hq : ~ no_syntax s -> forall st', kept st st' -> (cached st' t0 key0 = None <->
          ca = true /\ mget t (ls_cache st) = None /\ key0 <> combined c i /\ exists s, found E c i t fb s t0 /\ no_syntax s)).
        { intros Hn st' K. split; [intros E1; now destruct (K _ _ H)|]. intros (_ & _ & _ & s2 & Hs2 & Hn2). destruct (found_fun _ _ _ _ _ _ _ _ Ef Hs2) as (-> & _). contradiction. }
        destruct s as [|x w]; [apply Hp; intros ? []|]. assert (Hne : x :: w <> []) by discriminate.
        pose proof (no_grammar_iff (le_icu E) (le_fmt E) (le_reg E) t' (le_locale E t') (x :: w) Hd Hne) as Hi. change IcuExample.l10n_grammar with localiser_grammar in Hi. change (forall c : N, In c (x :: w) -> ~ In c localiser_grammar) with (no_syntax (x :: w)) in Hi.
        destruct (formatter_try_new _ _ _ _ _ _ _) as [fm|e| |]; cbn [fst].
        + apply Hq; [intros Hn; apply Hi in Hn; discriminate|]. destruct (run_formatter E fm vals) as [fm' r]. cbn [fst]. destruct ca; [apply put_formatter_kept|apply kept_refl].
        + assert (He : e = FNoGrammar \/ e <> FNoGrammar) by (destruct e; auto; right; discriminate). destruct He as [->|He].
          * apply Hp. now apply Hi.
          * destruct e; try (now destruct He); cbn [fst]; (apply Hq; [intros Hn; apply Hi in Hn; discriminate|apply kept_refl]).
        + apply Hq; [intros Hn; apply Hi in Hn; discriminate|apply kept_refl].
        + apply Hq; [intros Hn; apply Hi in Hn; discriminate|apply kept_refl].
    Qed.
    Lemma format_stored vals r : ca = true -> snd (actual_format E st c i vals t fb ca) = Ok r ->
      (cached (fst (actual_format E st c i vals t fb ca)) t (combined c i) <> None <->
       cached st t (combined c i) <> None \/ exists s t', found E c i t fb s t' /\ (t' = t \/ ~ no_syntax s)).
    Proof.
      intros Hca Hr. unfold actual_format in *. destruct (cached st t (combined c i)) as [[s t'|fm]|] eqn:Ec; cbn [fst snd] in *.
      - rewrite Ec. split; [left; discriminate|discriminate].
      - destruct (run_formatter E fm vals) as [fm' r']. cbn [fst]. destruct (put_formatter_kept st t (combined c i) fm') as (_ & K). split; [left; discriminate|auto].
      - destruct (find_string E c i t fb) as [[s t']|e| |] eqn:Ef; cbn [fst snd] in *; try discriminate. apply find_string_iff in Ef.
        assert (Hp : no_syntax s -> snd (return_string (PE := PE) st (mhas t (ls_cache st)) ca (combined c i) s t') = Ok r ->
          (cached (fst (return_string (PE := PE) st (mhas t (ls_cache st)) ca (combined c i) s t')) t (combined c i) <> None <->
           (@None cache_data) <> None \/ exists s t', found E c i t fb s t' /\ (t' = t \/ ~ no_syntax s))).
        { intros Hn Hr'. subst ca. rewrite (return_stored st t c i s t' r Ec Hr'). split.
          - intros ->. right. exists s, t. auto.
          - intros [H|(s2 & t2 & H & Ht)]; [now destruct H|]. destruct (found_fun _ _ _ _ _ _ _ _ Ef H) as (-> & ->). now destruct Ht. }
        destruct s as [|x w]; [apply Hp; [intros ? []|exact Hr]|]. assert (Hne : x :: w <> []) by discriminate.
        pose proof (no_grammar_iff (le_icu E) (le_fmt E) (le_reg E) t' (le_locale E t') (x :: w) Hd Hne) as Hi. change IcuExample.l10n_grammar with localiser_grammar in Hi. change (forall c : N, In c (x :: w) -> ~ In c localiser_grammar) with (no_syntax (x :: w)) in Hi.
        destruct (formatter_try_new _ _ _ _ _ _ _) as [fm|e| |]; cbn [fst snd] in *; try discriminate.
        + destruct (run_formatter E fm vals) as [fm' r']. cbn [fst]. subst ca. destruct (put_formatter_kept st t (combined c i) fm') as (_ & K). split; [|auto].
          intros _. right. exists (x :: w), t'. split; [exact Ef|]. right. intros Hn. apply Hi in Hn. discriminate.
        + destruct e; cbn [snd] in Hr; try discriminate. apply Hp; [now apply Hi|exact Hr].
    Qed.
  End One.

  (** ** Exactly what is remembered needs no provider *)
  Definition other_provider (P : provider PE) : lenv PE := mk_lenv (le_icu E) (le_fmt E) (le_reg E) (le_locale E) P (le_script E) (le_fuel E).
  Lemma other_elsewhere P : elsewhere E (other_provider P).
  Proof. repeat split. Qed.
  Lemma format_needs st c i vals t fb ca : cached st t (combined c i) = None -> exists E1 E2, elsewhere E E1 /\ elsewhere E E2 /\
    snd (actual_format E1 st c i vals t fb ca) <> snd (actual_format E2 st c i vals t fb ca).
  Proof.
    intros Hc. exists (other_provider (mk_provider (fun _ _ _ => Panic) (fun _ => Panic))), (other_provider (mk_provider (fun _ _ _ => Ok None) (fun _ => Ok t))).
    split; [apply other_elsewhere|]. split; [apply other_elsewhere|]. unfold actual_format. rewrite Hc. cbn. destruct fb; discriminate.
  Qed.
  Lemma literal_needs st c i t fb ca : cached st t (combined c i) = None -> exists E1 E2, elsewhere E E1 /\ elsewhere E E2 /\
    snd (actual_literal E1 st c i t fb ca) <> snd (actual_literal E2 st c i t fb ca).
  Proof.
    intros Hc. exists (other_provider (mk_provider (fun _ _ _ => Panic) (fun _ => Panic))), (other_provider (mk_provider (fun _ _ _ => Ok None) (fun _ => Ok t))).
    split; [apply other_elsewhere|]. split; [apply other_elsewhere|]. unfold actual_literal. rewrite Hc. cbn. destruct fb; discriminate.
  Qed.
  Lemma memory_needs st x q : asks_one st x = Some q -> from_memory E st x -> cached st (rq_tag q) (combined (rq_component q) (rq_identifier q)) <> None.
  Proof.
    intros Hq Hm Hc. destruct x; cbn [asks_one] in Hq; try discriminate; injection Hq as <-; cbn [rq_tag rq_component rq_identifier] in Hc.
    - destruct (format_needs st component identifier vals tag (unwrap_or fallback (ls_fallback st)) (unwrap_or caching (ls_caching st)) Hc) as (E1 & E2 & H1 & H2 & H3).
      apply H3. pose proof (f_equal snd (eq_trans (Hm E1 H1) (eq_sym (Hm E2 H2)))) as H. cbn in H. unfold loc_format in H. now injection H.
    - destruct (format_needs st component identifier vals (ls_tag st) (ls_fallback st) (ls_caching st) Hc) as (E1 & E2 & H1 & H2 & H3).
      apply H3. pose proof (f_equal snd (eq_trans (Hm E1 H1) (eq_sym (Hm E2 H2)))) as H. cbn in H. unfold loc_format_with_defaults in H. now injection H.
    - destruct (literal_needs st component identifier tag (unwrap_or fallback (ls_fallback st)) (unwrap_or caching (ls_caching st)) Hc) as (E1 & E2 & H1 & H2 & H3).
      apply H3. pose proof (f_equal snd (eq_trans (Hm E1 H1) (eq_sym (Hm E2 H2)))) as H. cbn in H. unfold loc_literal in H. now injection H.
    - destruct (literal_needs st component identifier (ls_tag st) (ls_fallback st) (ls_caching st) Hc) as (E1 & E2 & H1 & H2 & H3).
      apply H3. pose proof (f_equal snd (eq_trans (Hm E1 H1) (eq_sym (Hm E2 H2)))) as H. cbn in H. unfold loc_literal_with_defaults in H. now injection H.
  Qed.
  Theorem memory_iff st x q : asks_one st x = Some q ->
    (from_memory E st x <-> cached st (rq_tag q) (combined (rq_component q) (rq_identifier q)) <> None).
  Proof.
    intros Hq. split; [now apply memory_needs|]. intros Hc. apply covered_memory. intros q' Hq'.
    destruct x; cbn [asks_one] in Hq; try discriminate; injection Hq as <-; cbn [call_requests] in Hq'; destruct Hq' as [<-|[]]; exact Hc.
  Qed.
End Localiser.
