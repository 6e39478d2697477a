(** C63: a command that panics disturbs only calls for the same string in the same language. *)
From Verif Require Import Base BaseFacts LexerModel LexerSpec TreeModel TreeSpec DocSpec ValueModel CommandModel IsoModel FormatterModel
  FormatterAbs FormatterRefine FormatterRefine2 FormatterSpec FormatterProofs4 FormatterProofs5 RegistryModel LocaliserModel LocaliserSpec LocaliserProofs
  SyncModel SyncSpec SyncProofs IsolationSpec.
Local Opaque us.

Section Isolation.
  Context {PE : Type}.
  Variable E : lenv PE.
  Local Notation text := (outcome (localiser_error PE) (ustr * ustr)).
  Local Notation prog := (prog (PE := PE)).
  Local Notation build t s := (formatter_try_new (le_icu E) localiser_grammar (le_fmt E) (le_reg E) t (le_locale E t) s).
  Hypothesis Hicu : icu_ok (le_icu E).
  Variable rs : list request.
  Hypothesis Hagain : answers_again E.
  Hypothesis Hhash : provider_hash_ok E.
  Hypothesis Hharm : harmless E rs.
  Variable T : list ustr.
  Variable F : list bool.
  Variable rs' : list request.
  Hypothesis rs_in : forall q, In q rs' -> In q rs.
  Hypothesis Hsame : same_language E rs'.
  Variable blamed : ustr -> ustr -> Prop.
  Definition bad_place (t key : ustr) : Prop :=
    (exists q, In q rs' /\ dangerous E q /\ rq_tag q = t /\ combined (rq_component q) (rq_identifier q) = key) /\ blamed t key.

  Definition inv (g : systate) : Prop :=
    cache_ok E rs (sy_ls g) /\ In (ls_tag (sy_ls g)) T /\ In (ls_fallback (sy_ls g)) F /\
    sy_poisoned g = false /\ prepared rs' (sy_ls g) /\ forall t key, In (t, key) (sy_bad g) -> bad_place t key.
  Definition keeps (g g' : systate) : Prop :=
    forall t key fm, cached (sy_ls g) t key = Some (CFormatter fm) -> exists fm', cached (sy_ls g') t key = Some (CFormatter fm').
  Lemma keeps_refl g : keeps g g.
  Proof. intros t key fm H. eauto. Qed.
  Lemma keeps_cache g g' : ls_cache (sy_ls g') = ls_cache (sy_ls g) -> keeps g g'.
  Proof. intros Hc t key fm H. exists fm. unfold cached in *. now rewrite Hc. Qed.
  Lemma keeps_trans a b c : keeps a b -> keeps b c -> keeps a c.
  Proof. intros H1 H2 t key fm H. destruct (H1 _ _ _ H) as (fm1 & K). exact (H2 _ _ _ K). Qed.
  Local Notation safe := (safe E inv keeps).
  Lemma replaced_in g w t key x : In x (replaced g w t key) -> In x (sy_bad g).
  Proof. unfold replaced. intros H. now apply filter_In in H as (H & _). Qed.

  Section Prog.
    Variable Q : option text -> Prop.
    Lemma safe_add g c i t fb lit s t' k : In (mk_request c i t fb lit) rs' -> find_string E c i t fb = Ok (s, t') ->
      (lit = true \/ s = [] \/ build t' s = Err FNoGrammar) -> (forall g, safe Q g k) -> safe Q g (PAdd true (combined c i) s t' k).
    Proof.
      intros Hq Hf Hl Hk. split; [discriminate|]. intros g1 g2 p' _ Hi Hs. cbn [prog_step] in Hs. pose proof Hi as (Hc & HT & HF & Hp0 & Hpr & Hbad). rewrite Hp0 in Hs. injection Hs as Hs.
      assert (Ht : t' = t) by (apply find_string_iff in Hf; exact (Hsame _ s t' Hq Hf)). subst t'.
      destruct (add_string_to_cache (sy_ls g1) true (combined c i) s t) as [st'|] eqn:Ea; injection Hs as <- <-; unfold add_string_to_cache in Ea; cbn in Ea.
      - destruct (mget t (ls_cache (sy_ls g1))) as [m|] eqn:Em; [|discriminate Ea]. injection Ea as <-.
        pose proof (put_old (sy_ls g1) t (combined c i) (CLocalised s t) m Em) as Hp. split; [|split; [|apply Hk]].
        + refine (conj _ (conj _ (conj _ (conj _ (conj _ _))))); cbn [sy_ls sy_poisoned sy_bad].
          * apply (put_ok E rs _ _ _ _ _ Hc Hp). split; [reflexivity|]. exists (mk_request c i t fb lit). cbn. split; [exact (rs_in _ Hq)|]. split; [reflexivity|]. split; [exact Hf|exact Hl].
          * exact HT.
          * exact HF.
          * exact Hp0.
          * now apply prepared_insert.
          * intros t1 key1 Hb. apply Hbad. exact (replaced_in _ _ _ _ _ Hb).
        + intros t1 key1 fm Hfm. cbn [sy_ls]. rewrite cached_put. destruct (ueqb_spec t1 t) as [->|N]; [|eauto]. rewrite mget_minsert. destruct (ueqb_spec key1 (combined c i)) as [->|N].
          * exfalso. exact (plain_built E Hicu rs Hharm c i t fb lit s t fm (sy_ls g1) Hc (rs_in _ Hq) Hf Hl Hfm).
          * unfold cached in Hfm. rewrite Em in Hfm. eauto.
      - exfalso. destruct (mget t (ls_cache (sy_ls g1))) as [m|] eqn:Em; [discriminate Ea|]. exact (Hpr _ Hq Em).
    Qed.

    Lemma use_step g t c i fb fm vals g' r : inv g -> In (mk_request c i t fb false) rs' -> cached (sy_ls g) t (combined c i) = Some (CFormatter fm) ->
      use_formatter E g t (combined c i) fm vals = (g', r) -> (pure_format E c i vals t fb = Panic -> blamed t (combined c i)) -> inv g' /\ keeps g g' /\ (r = pure_format E c i vals t fb \/ (r = Panic /\ bad_place t (combined c i))).
    Proof.
      intros Hi Hq He Hu Hbl. pose proof Hi as (Hc & HT & HF & Hp0 & Hpr & Hbad).
      pose proof (hit_format E Hicu rs Hagain Hhash Hharm _ c i vals t fb _ Hc (rs_in _ Hq) He) as Hr. cbn in Hr.
      unfold use_formatter in Hu. destruct (is_bad g t (combined c i)) eqn:Eb.
      { injection Hu as <- <-. split; [exact Hi|]. split; [apply keeps_refl|]. right. split; [reflexivity|]. unfold is_bad in Eb. apply existsb_exists in Eb as ([t1 k1] & Hin & Eb).
        cbn [fst snd] in Eb. destruct (ueqb_spec t1 t) as [->|]; [|discriminate Eb]. destruct (ueqb_spec k1 (combined c i)) as [->|]; [|discriminate Eb]. exact (Hbad _ _ Hin). }
      pose proof (Hc _ _ _ He) as (q & s & t' & fm0 & H1 & H2 & H3 & H4 & H5 & H6 & H7 & H8). pose proof (run_formatter_after E fm0 fm vals H8) as Ha.
      destruct (run_formatter E fm vals) as [fm' r'] eqn:Er. cbn [fst snd] in *. injection Hu as <- <-.
      pose proof (put_formatter_put (sy_ls g) t (combined c i) fm') as Hp. split; [|split].
      - refine (conj _ (conj _ (conj _ (conj _ (conj _ _))))); cbn [sy_ls sy_poisoned sy_bad].
        + apply (put_ok E rs _ _ _ _ _ Hc Hp). exists q, s, t', fm0. auto 10.
        + destruct Hp as (_ & _ & -> & _). exact HT.
        + destruct Hp as (-> & _). exact HF.
        + exact Hp0.
        + unfold put_formatter. destruct (mget t _) as [m|]; now apply prepared_insert.
        + intros t1 key1 Hb. destruct (panicked r') eqn:Epn; [|exact (Hbad _ _ Hb)]. destruct Hb as [Hb|Hb]; [|exact (Hbad _ _ Hb)]. injection Hb as <- <-.
          split; [|apply Hbl; rewrite <- Hr; destruct r'; try discriminate Epn; reflexivity]. exists (mk_request c i t fb false). split; [exact Hq|]. split; [|auto]. split; [reflexivity|]. exists vals. rewrite uncached_pure. cbn [pure_call rq_component rq_identifier rq_tag rq_fallback unwrap_or]. rewrite <- Hr. destruct r'; try discriminate Epn. reflexivity.
      - intros t1 key1 fm1 Hfm. cbn. unfold put_formatter. unfold cached in He. destruct (mget t (ls_cache (sy_ls g))) as [m|] eqn:Em; [|discriminate].
        rewrite cached_put. destruct (ueqb_spec t1 t) as [->|N]; [|eauto]. rewrite mget_minsert. destruct (ueqb key1 (combined c i)); [eauto|].
        unfold cached in Hfm. rewrite Em in Hfm. eauto.
      - now left.
    Qed.

    Lemma safe_format g c i vals t fb ca k : In (mk_request c i t fb false) rs' -> (pure_format E c i vals t fb = Panic -> blamed t (combined c i)) -> (forall g, safe Q g (k (pure_format E c i vals t fb))) ->
      (bad_place t (combined c i) -> forall g, safe Q g (k Panic)) -> safe Q g (sync_format E c i vals t fb ca k).
    Proof.
      intros Hq Hbl Hk Hkp. split; [discriminate|]. intros g1 g2 p' _ Hi Hs. cbn [sync_format prog_step] in Hs. pose proof Hi as (Hc & HT & HF & Hp0 & Hpr & Hbad). rewrite Hp0 in Hs.
      destruct (cached (sy_ls g1) t (combined c i)) as [[s t'|fm]|] eqn:Ec.
      - injection Hs as <- <-. split; [exact Hi|]. split; [apply keeps_refl|].
        pose proof (hit_format E Hicu rs Hagain Hhash Hharm _ c i vals t fb _ Hc (rs_in _ Hq) Ec) as Hr. cbn in Hr. rewrite <- Hr. apply Hk.
      - destruct (use_formatter E g1 t (combined c i) fm vals) as [g' r] eqn:Eu. injection Hs as <- <-.
        destruct (use_step g1 t c i fb fm vals g' r Hi Hq Ec Eu Hbl) as (K1 & K2 & [->|(-> & Hn)]); auto.
      - injection Hs as <- <-. split; [exact Hi|]. split; [apply keeps_refl|].
        assert (Hb : mhas t (ls_cache (sy_ls g1)) = true) by exact (mhas_prepared rs' _ _ Hpr Hq). rewrite Hb.
        unfold pure_format in Hk. destruct (find_string E c i t fb) as [[s t']|e| |] eqn:Ef; cbn [bind] in Hk; [|exact (Hk g1)|exact (Hk g1)|exact (Hk g1)].
        cbv beta iota.
        assert (Hret : s = [] \/ build t' s = Err FNoGrammar -> safe Q g1 (if ca then PAdd true (combined c i) s t' (k (Ok (s, t'))) else k (Ok (s, t')))).
        { intros Hpl. assert (Hk' : forall g, safe Q g (k (Ok (s, t')))).
          { intros g0. specialize (Hk g0). rewrite plain_pure in Hk by exact Hpl. exact Hk. }
          destruct ca; [|apply Hk']. apply (safe_add g1 c i t fb false s t' _ Hq Ef); auto. }
        destruct s as [|x w]; [apply Hret; now left|].
        unfold pure_text in Hk. destruct (build t' (x :: w)) as [fm|e| |] eqn:Eb; [| |exact (Hk g1)|exact (Hk g1)].
        + destruct ca; [|exact (Hk g1)]. split; [discriminate|]. intros g3 g4 p1 _ Hi3 Hs3. cbn [prog_step] in Hs3.
          pose proof Hi3 as (Hc3 & HT3 & HF3 & Hp3 & Hpr3 & Hbad3). rewrite Hp3 in Hs3. injection Hs3 as Hs3.
          destruct (insert_formatter (sy_ls g3) true t (combined c i) fm) as [st'|] eqn:Ea; injection Hs3 as <- <-; unfold insert_formatter in Ea; cbn in Ea.
          * destruct (mget t (ls_cache (sy_ls g3))) as [m|] eqn:Em; [|discriminate Ea]. injection Ea as <-.
            pose proof (put_old (sy_ls g3) t (combined c i) (CFormatter fm) m Em) as Hp. split; [|split].
            -- refine (conj _ (conj _ (conj _ (conj _ (conj _ _))))); cbn [sy_ls sy_poisoned sy_bad].
               ++ apply (put_ok E rs _ _ _ _ _ Hc3 Hp). exists (mk_request c i t fb false), (x :: w), t', fm. cbn. repeat split; auto; solve [discriminate | constructor].
               ++ exact HT3.
               ++ exact HF3.
               ++ exact Hp3.
               ++ now apply prepared_insert.
               ++ intros t1 key1 Hb1. apply Hbad3. exact (replaced_in _ _ _ _ _ Hb1).
            -- intros t1 key1 fm1 Hfm. cbn [sy_ls]. rewrite cached_put.
               destruct (ueqb_spec t1 t) as [->|N]; [|eauto]. rewrite mget_minsert. destruct (ueqb key1 (combined c i)); [eauto|].
               unfold cached in Hfm. rewrite Em in Hfm. eauto.
            -- split; [discriminate|]. intros g5 g6 p2 HR5 Hi5 Hs5. cbn [prog_step] in Hs5. pose proof Hi5 as (Hc5 & _ & _ & Hp5 & _). rewrite Hp5 in Hs5.
               destruct (cached (sy_ls g5) t (combined c i)) as [[s1 t1|fm1]|] eqn:Ec5.
               ++ exfalso. exact (built_plain E Hicu rs Hagain Hharm c i t fb (x :: w) t' fm s1 t1 (sy_ls g5) Hc5 (rs_in _ Hq) Ef ltac:(discriminate) Eb Ec5).
               ++ destruct (use_formatter E g5 t (combined c i) fm1 vals) as [g' r] eqn:Eu. injection Hs5 as <- <-.
                  destruct (use_step g5 t c i fb fm1 vals g' r Hi5 Hq Ec5 Eu Hbl) as (K1 & K2 & [->|(-> & Hn)]); auto. split; [exact K1|]. split; [exact K2|].
                  unfold pure_format, pure_text. rewrite Ef. cbn [bind]. rewrite Eb. exact (Hk _).
               ++ exfalso. destruct (HR5 t (combined c i) fm) as (fm' & K); [|congruence]. cbn [sy_ls]. rewrite cached_put, ueqb_refl. apply mget_minsert_eq.
          * exfalso. destruct (mget t (ls_cache (sy_ls g3))) as [m|] eqn:Em; [discriminate Ea|]. exact (Hpr3 _ Hq Em).
        + destruct e; try exact (Hk g1). apply Hret. now right.
    Qed.

    Lemma safe_literal g c i t fb ca k : In (mk_request c i t fb true) rs' -> (forall g, safe Q g (k (find_string E c i t fb))) ->
      safe Q g (sync_literal E c i t fb ca k).
    Proof.
      intros Hq Hk. split; [discriminate|]. intros g1 g2 p' _ Hi Hs. cbn [sync_literal prog_step] in Hs. pose proof Hi as (Hc & HT & HF & Hp0 & Hpr & Hbad). rewrite Hp0 in Hs.
      injection Hs as <- <-; (split; [exact Hi|]; split; [apply keeps_refl|]).
      destruct (cached (sy_ls g1) t (combined c i)) as [e|] eqn:Ec.
      - destruct (hit_literal E Hicu rs Hagain Hharm _ c i t fb e Hc (rs_in _ Hq) Ec) as (s & t' & -> & <-). apply Hk.
      - assert (Hb : mhas t (ls_cache (sy_ls g1)) = true) by exact (mhas_prepared rs' _ _ Hpr Hq). rewrite Hb.
        destruct (find_string E c i t fb) as [[s t']|e| |] eqn:Ef; [|exact (Hk _)|exact (Hk _)|exact (Hk _)]. cbv beta iota. destruct ca; [|exact (Hk _)].
        apply (safe_add g1 c i t fb true s t' _ Hq Ef); auto.
    Qed.
  End Prog.

  Definition endangered (l : list request) : Prop := exists q, In q l /\ rq_literal q = false /\ bad_place (rq_tag q) (combined (rq_component q) (rq_identifier q)).
  Definition to_blame (l : list request) : Prop := forall q, In q l -> rq_literal q = false -> blamed (rq_tag q) (combined (rq_component q) (rq_identifier q)).
  Lemma safe_data (Q : option text -> Prop) t fb ca : forall d k g, (forall q, In q (data_requests t fb d) -> In q rs') ->
    (pure_data E t fb d = Panic -> to_blame (data_requests t fb d)) ->
    (forall g, safe Q g (k (pure_data E t fb d))) -> (endangered (data_requests t fb d) -> forall g, safe Q g (k Panic)) -> safe Q g (sync_data E d t fb ca k).
  Proof.
    fix IH 1. intros [c i [vs|]] k g Hq Hbl Hk Hkp.
    - cbn [data_requests] in Hq, Hkp, Hbl. fold (go_requests t fb) in Hq, Hkp, Hbl. cbn [sync_data]. cbn [pure_data] in Hk, Hbl.
      assert (Hlast : In (mk_request c i t fb false) rs') by (apply Hq; apply in_or_app; right; now left).
      assert (Hfront : forall q, In q (go_requests t fb vs) -> In q rs') by (intros q Hi; apply Hq; apply in_or_app; now left).
      assert (Hpl : bad_place t (combined c i) -> forall g, safe Q g (k Panic)).
      { intros Hb. apply Hkp. exists (mk_request c i t fb false). split; [apply in_or_app; right; now left|]. auto. }
      assert (Hpf : endangered (go_requests t fb vs) -> forall g, safe Q g (k Panic)).
      { intros (q & Hi & Hb). apply Hkp. exists q. split; [apply in_or_app; now left|exact Hb]. }
      clear Hq Hkp. revert Hfront Hpf Hbl Hk g. generalize (@nil (ustr * pvalue)). induction vs as [|[ph v] vs IHvs]; intros new Hq Hpf Hbl Hk g.
      + apply safe_format; auto. intros Hp. apply (Hbl Hp (mk_request c i t fb false)); [now left|reflexivity].
      + destruct v.
        1-6, 8-11: (apply IHvs; [intros q Hi; now apply Hq|exact Hpf|exact Hbl|exact Hk]).
        apply IH.
        * intros q Hi. apply Hq. cbn. apply in_or_app. now left.
        * intros Hp q Hi. rewrite Hp in Hbl. apply (Hbl eq_refl). cbn. apply in_or_app. left. apply in_or_app. now left.
        * intros g1. destruct (pure_data E t fb d) as [[s t']|e| |]; [|exact (Hk _)|exact (Hk _)|exact (Hk _)].
          apply IHvs; [intros q Hi; apply Hq; cbn; apply in_or_app; now right| | |exact Hk].
          2: { intros Hp q Hi. apply (Hbl Hp). cbn. rewrite <- app_assoc. apply in_or_app. now right. }
          intros (q & Hi & Hb). apply Hpf. exists q. split; [cbn; apply in_or_app; now right|exact Hb].
        * intros (q & Hi & Hb). apply Hpf. exists q. split; [cbn; apply in_or_app; now left|exact Hb].
    - cbn [sync_data]. apply safe_literal; [apply Hq; now left|exact Hk].
  Qed.

  Lemma safe_tag (Q : option text -> Prop) g k : (forall t g, In t T -> safe Q g (k t)) -> safe Q g (PTag k).
  Proof. intros Hk. split; [discriminate|]. intros g1 g2 p' _ Hi [= <- <-]. split; [exact Hi|]. split; [apply keeps_refl|]. apply Hk. apply Hi. Qed.
  Lemma safe_fallback (Q : option text -> Prop) g k : (forall b g, In b F -> safe Q g (k b)) -> safe Q g (PFallback k).
  Proof. intros Hk. split; [discriminate|]. intros g1 g2 p' _ Hi [= <- <-]. split; [exact Hi|]. split; [apply keeps_refl|]. apply Hk. apply Hi. Qed.
  Lemma safe_caching (Q : option text -> Prop) g k : (forall b g, safe Q g (k b)) -> safe Q g (PCaching k).
  Proof. intros Hk. split; [discriminate|]. intros g1 g2 p' _ Hi [= <- <-]. split; [exact Hi|]. split; [apply keeps_refl|]. apply Hk. Qed.

  Definition expected (c : lcall) (r : option text) : Prop :=
    (exists t fb, In t T /\ In fb F /\ r = pure_call E (seen t fb) c) \/
    (r = Some Panic /\ exists t fb, In t T /\ In fb F /\ endangered (call_requests (seen t fb) c)).
  Hypothesis T_some : T <> [].
  Hypothesis F_some : F <> [].
  Lemma safe_call c g : (forall t fb q, In t T -> In fb F -> In q (call_requests (seen t fb) c) -> In q rs') ->
    (forall t, set_tag c = Some t -> In t T) -> (forall b, set_fallback c = Some b -> In b F) ->
    (forall t fb, In t T -> In fb F -> pure_call E (seen t fb) c = Some Panic -> to_blame (call_requests (seen t fb) c)) -> safe (expected c) g (sync_call E c).
  Proof.
    intros Hq HT HF Hbl.
    assert (Hfin : forall t fb r, In t T -> In fb F -> Some r = pure_call E (seen t fb) c -> forall g, safe (expected c) g (finish r)).
    { intros t fb r Ht Hb Hr g0. apply safe_ret. left. exists t, fb. auto. }
    assert (Hfp : forall t fb, In t T -> In fb F -> endangered (call_requests (seen t fb) c) -> forall g, safe (expected c) g (finish Panic)).
    { intros t fb Ht Hb Hd g0. apply safe_ret. right. split; [reflexivity|]. exists t, fb. auto. }
    assert (Ht0 : exists t, In t T) by (destruct T as [|t]; [congruence|exists t; now left]). destruct Ht0 as (t0 & Ht0).
    destruct c; cbn [sync_call].
    - apply safe_fallback. intros fb g1 Hfb. apply safe_caching. intros ca g2.
      apply safe_format; [apply (Hq t0 fb); auto; now left|intros Hp; refine (Hbl t0 fb Ht0 Hfb (f_equal Some Hp) _ (or_introl eq_refl) eq_refl)|intros g3; exact (Hfin t0 fb _ Ht0 Hfb eq_refl g3)|].
      intros Hb. apply (Hfp t0 fb Ht0 Hfb). eexists. split; [now left|]. split; [reflexivity|exact Hb].
    - apply safe_tag. intros t g0 Ht. apply safe_fallback. intros fb g1 Hfb. apply safe_caching. intros ca g2.
      apply safe_format; [apply (Hq t fb); auto; now left|intros Hp; refine (Hbl t fb Ht Hfb (f_equal Some Hp) _ (or_introl eq_refl) eq_refl)|intros g3; exact (Hfin t fb _ Ht Hfb eq_refl g3)|].
      intros Hb. apply (Hfp t fb Ht Hfb). eexists. split; [now left|]. split; [reflexivity|exact Hb].
    - apply safe_fallback. intros fb g1 Hfb. apply safe_caching. intros ca g2.
      apply safe_literal; [apply (Hq t0 fb); auto; now left|]. intros g3. exact (Hfin t0 fb _ Ht0 Hfb eq_refl g3).
    - apply safe_tag. intros t g0 Ht. apply safe_fallback. intros fb g1 Hfb. apply safe_caching. intros ca g2.
      apply safe_literal; [apply (Hq t fb); auto; now left|]. intros g3. exact (Hfin t fb _ Ht Hfb eq_refl g3).
    - apply safe_fallback. intros fb g1 Hfb. apply safe_caching. intros ca g2.
      apply safe_data; [intros q Hi; exact (Hq t0 fb q Ht0 Hfb Hi)|intros Hp; exact (Hbl t0 fb Ht0 Hfb (f_equal Some Hp))|intros g3; exact (Hfin t0 fb _ Ht0 Hfb eq_refl g3)|]. intros Hd. exact (Hfp t0 fb Ht0 Hfb Hd).
    - apply safe_tag. intros t g0 Ht. apply safe_fallback. intros fb g1 Hfb. apply safe_caching. intros ca g2.
      apply safe_data; [intros q Hi; exact (Hq t fb q Ht Hfb Hi)|intros Hp; exact (Hbl t fb Ht Hfb (f_equal Some Hp))|intros g3; exact (Hfin t fb _ Ht Hfb eq_refl g3)|]. intros Hd. exact (Hfp t fb Ht Hfb Hd).
    - assert (Hf0 : exists b, In b F) by (destruct F as [|b]; [congruence|exists b; now left]). destruct Hf0 as (f0 & Hf0).
      assert (Hend : forall g, safe (expected (CallDefaults tag fallback caching)) g (PRet None)).
      { intros g0. apply safe_ret. left. exists t0, f0. auto. }
      assert (Hlast : forall g, safe (expected (CallDefaults tag fallback caching)) g (match caching with Some b => PSetCaching b (PRet None) | None => PRet None end)).
      { intros g0. destruct caching as [b|]; [|apply Hend]. split; [discriminate|]. intros g1 g2 p' _ Hi [= <- <-]. split; [exact Hi|].
        split; [now apply keeps_cache|]. apply Hend. }
      assert (Hrest : forall g, safe (expected (CallDefaults tag fallback caching)) g
        (match fallback with Some b => PSetFallback b (match caching with Some b => PSetCaching b (PRet None) | None => PRet None end)
         | None => match caching with Some b => PSetCaching b (PRet None) | None => PRet None end end)).
      { intros g0. destruct fallback as [b|]; [|apply Hlast]. split; [discriminate|]. intros g1 g2 p' _ (Hi1 & Hi2 & Hi3 & Hi4) [= <- <-].
        split; [|split; [now apply keeps_cache|apply Hlast]]. split; [exact Hi1|]. split; [exact Hi2|]. split; [|exact Hi4]. apply HF. reflexivity. }
      destruct tag as [t|]; [|apply Hrest]. split; [discriminate|]. intros g1 g2 p' _ (Hi1 & Hi2 & Hi3 & Hi4) Hs. cbn [prog_step] in Hs.
      destruct (sy_readers g1); [|discriminate]. injection Hs as <- <-. split; [|split; [now apply keeps_cache|]].
      { split; [exact Hi1|]. split; [apply HT; reflexivity|]. auto. }
      split; [discriminate|]. intros g3 g4 p1 _ Hi5 [= <- <-]. split; [exact Hi5|]. split; [now apply keeps_cache|].
      split; [discriminate|]. intros g6 g7 p2 _ Hi8 [= <- <-]. split; [exact Hi8|]. split; [now apply keeps_cache|]. apply Hrest.
  Qed.
End Isolation.

Theorem isolation {PE} (E : lenv PE) fb ca tag h calls sch c r :
  icu_ok (le_icu E) -> answers_again E -> provider_hash_ok E ->
  let st := lrun E (localiser_new E fb ca tag) h in
  harmless E (history_requests E (localiser_new E fb ca tag) h ++ sync_requests st calls) ->
  same_language E (sync_requests st calls) -> prepared (sync_requests st calls) st ->
  returned (sys_run E (sys_start st calls) sch) c r ->
  result_alone E st calls c r \/ (r = Some Panic /\ disturbed E st calls c).
Proof.
  intros Hicu Ha Hh st Hr Hsl Hpr Hret. set (rs := history_requests E (localiser_new E fb ca tag) h ++ sync_requests st calls) in *.
  assert (K : expected E (tags_seen st calls) (fallbacks_seen st calls) (sync_requests st calls) (culprit E st calls) c r).
  { revert Hret. apply (run_results E (inv E rs (tags_seen st calls) (fallbacks_seen st calls) (sync_requests st calls) (culprit E st calls)) keeps keeps_refl keeps_trans _ (List.concat calls)).
    - intros c0 g Hc0. apply in_concat in Hc0 as (l & Hl & Hc0). apply (safe_call E Hicu rs Ha Hh Hr); auto.
      + intros q Hq. apply in_or_app. now right.
      + discriminate.
      + discriminate.
      + intros t f q Ht Hf Hq. exact (in_requests st calls t f c0 q l Hl Hc0 Ht Hf Hq).
      + intros t Ht. exact (in_tags st calls t c0 l Hl Hc0 Ht).
      + intros b Hb. exact (in_fallbacks st calls b c0 l Hl Hc0 Hb).
      + intros t f Ht Hf Hp q Hq Hlit. exists l, c0, t, f, q. rewrite uncached_pure. auto 12.
    - refine (conj _ (conj (or_introl eq_refl) (conj (or_introl eq_refl) (conj eq_refl (conj Hpr _))))); [|intros t key []].
      apply run_new. intros q Hq. apply in_or_app. now left.
    - intros c0 l Hl Hc0. apply in_concat. eauto. }
  destruct K as [(t & f & Ht & Hf & K)|(K & t & f & Ht & Hf & q & Hq & Hlit & (q' & Hin & Hd & Etag & Ekey) & Hcul)]; [left; exists t, f; rewrite uncached_pure; auto|right].
  split; [exact K|]. exists t, f, q. repeat (split; [assumption|]). split; [|exact Hcul]. exists q'. auto 10.
Qed.
