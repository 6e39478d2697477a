(** Proofs about threads that use one localiser. *)
From Verif Require Import Base BaseFacts LexerModel LexerSpec TreeModel TreeSpec DocSpec ValueModel CommandModel IsoModel FormatterModel
  FormatterAbs FormatterRefine FormatterRefine2 FormatterSpec FormatterProofs4 FormatterProofs5 RegistryModel LocaliserModel LocaliserSpec LocaliserProofs
  SyncModel SyncSpec.
Local Opaque us.

Section Sync.
  Context {PE : Type}.
  Variable E : lenv PE.
  Local Notation text := (outcome (localiser_error PE) (ustr * ustr)).
  Local Notation prog := (prog (PE := PE)).
  Local Notation sthread := (sthread (PE := PE)).
  Local Notation sys := (sys (PE := PE)).
  Local Notation build t s := (formatter_try_new (le_icu E) localiser_grammar (le_fmt E) (le_reg E) t (le_locale E t) s).

  (** ** Programs under interference: the state satisfies [I] at all times, and every step of any thread is in [R]. *)
  Section Rely.
    Variable I : systate -> Prop.
    Variable R : systate -> systate -> Prop.
    Hypothesis R_refl : forall g, R g g.
    Hypothesis R_trans : forall a b c, R a b -> R b c -> R a c.

    Inductive safe (Q : option text -> Prop) (g : systate) (p : prog) : Prop :=
    | safe_intro : (forall r, p = PRet r -> Q r) ->
        (forall g' g'' p', R g g' -> I g' -> prog_step E p g' = Some (g'', p') -> I g'' /\ R g' g'' /\ safe Q g'' p') -> safe Q g p.

    Lemma safe_later (Q : option text -> Prop) g g' p : safe Q g p -> R g g' -> safe Q g' p.
    Proof. intros [H1 H2] HR. split; [exact H1|]. intros g1 g2 p' HR1. apply H2. exact (R_trans _ _ _ HR HR1). Qed.
    Lemma safe_ret (Q : option text -> Prop) g r : Q r -> safe Q g (PRet r).
    Proof. intros H. split; [now intros r' [= <-]|discriminate]. Qed.

    (** A thread, and a system of threads. *)
    Variable Q : lcall -> option text -> Prop.
    Variable cs : list lcall.
    Definition thread_ok (g : systate) (th : sthread) : Prop :=
      (forall c r, In (c, r) (th_done th) -> Q c r) /\ (forall c p, th_now th = Some (c, p) -> safe (Q c) g p) /\
      (forall c, In c (th_todo th) -> In c cs).
    Hypothesis calls_ok : forall c g, In c cs -> safe (Q c) g (sync_call E c).

    Lemma thread_later g g' th : thread_ok g th -> R g g' -> thread_ok g' th.
    Proof. intros (H1 & H2 & H3) HR. split; [exact H1|]. split; [|exact H3]. intros c p Hc. exact (safe_later _ _ _ _ (H2 c p Hc) HR). Qed.
    Lemma thread_step_ok g th g' th' : I g -> thread_ok g th -> thread_step E g th = Some (g', th') -> I g' /\ R g g' /\ thread_ok g' th'.
    Proof.
      intros Hi (H1 & H2 & H3) Hs. unfold thread_step in Hs. destruct (th_now th) as [[c p]|] eqn:En.
      - assert (Hstep : forall q, p = q -> match prog_step E q g with Some (g1, p1) => Some (g1, mk_sthread (th_done th) (Some (c, p1)) (th_todo th)) | None => None end = Some (g', th') ->
          I g' /\ R g g' /\ thread_ok g' th').
        { intros q -> Hq. destruct (prog_step E q g) as [[g1 p1]|] eqn:Ep; [|discriminate]. injection Hq as <- <-.
          destruct (H2 _ _ eq_refl) as [_ K]. destruct (K _ _ _ (R_refl g) Hi Ep) as (K1 & K2 & K3). split; [exact K1|]. split; [exact K2|].
          split; [exact H1|]. split; [|exact H3]. intros c' p' [= <- <-]. exact K3. }
        destruct p as [r|k|k|k|t k|k|s k|b k|b k|t key k|t key vals k|b key s t k|b t key fm k|t key vals k]; try exact (Hstep _ eq_refl Hs).
        injection Hs as <- <-. split; [exact Hi|]. split; [apply R_refl|]. split; [|split; [discriminate|]]; cbn.
        + intros c' r' Hin. apply in_app_or in Hin as [Hin|[[= <- <-]|[]]]; [exact (H1 _ _ Hin)|]. destruct (H2 _ _ eq_refl) as [K _]. exact (K r eq_refl).
        + intros c' Hin. apply H3. destruct r as [[]|]; try exact Hin. destruct Hin.
      - destruct (th_todo th) as [|c r] eqn:Et; [discriminate|]. injection Hs as <- <-. split; [exact Hi|]. split; [apply R_refl|].
        split; [exact H1|]. split; cbn.
        + intros c' p' [= <- <-]. apply calls_ok. apply H3. now left.
        + intros c' Hin. apply H3. now right.
    Qed.
    Definition sys_ok (x : sys) : Prop := I (sys_state x) /\ forall th, In th (sys_threads x) -> thread_ok (sys_state x) th.
    Lemma lset_In {A} (l : list A) i x y : In y (lset l i x) -> y = x \/ In y l.
    Proof.
      revert i. induction l as [|a l IH]; intros [|i] H; cbn in *; auto.
      - destruct H as [->|H]; auto.
      - destruct H as [->|H]; [auto|]. destruct (IH i H); auto.
    Qed.
    Lemma sys_step_ok x i x' : sys_ok x -> sys_step E x i = Some x' -> sys_ok x'.
    Proof.
      intros (H1 & H2) Hs. unfold sys_step in Hs. destruct (nth_error (sys_threads x) i) as [th|] eqn:En; [|discriminate].
      destruct (thread_step E (sys_state x) th) as [[g th']|] eqn:Et; [|discriminate]. injection Hs as <-.
      destruct (thread_step_ok _ _ _ _ H1 (H2 th (nth_error_In _ _ En)) Et) as (K1 & K2 & K3). split; [exact K1|]. cbn.
      intros th1 Hin. apply lset_In in Hin as [->|Hin]; [exact K3|]. exact (thread_later _ _ _ (H2 _ Hin) K2).
    Qed.
    Lemma sys_run_ok sch : forall x, sys_ok x -> sys_ok (sys_run E x sch).
    Proof.
      induction sch as [|i sch IH]; intros x Hx; [exact Hx|]. cbn. apply IH. destruct (sys_step E x i) eqn:Es; [|exact Hx]. exact (sys_step_ok _ _ _ Hx Es).
    Qed.
    Lemma run_results st calls sch c r : I (mk_systate st 0 false []) -> (forall c l, In l calls -> In c l -> In c cs) ->
      returned (sys_run E (sys_start st calls) sch) c r -> Q c r.
    Proof.
      intros Hi Hc (th & Hin & Hd). assert (H : sys_ok (sys_start st calls)).
      { split; [exact Hi|]. cbn. intros th' Ht. apply in_map_iff in Ht as (l & <- & Hl). split; [intros ? ? []|]. split; [discriminate|].
        cbn. intros c' Hc'. exact (Hc c' l Hl Hc'). }
      apply (sys_run_ok sch) in H as (_ & H). destruct (H th Hin) as (K & _). exact (K c r Hd).
    Qed.
  End Rely.

  (** ** Results of calls *)
  Section Harmless.
    Hypothesis Hicu : icu_ok (le_icu E).
    Variable rs : list request.
    Hypothesis Hagain : answers_again E.
    Hypothesis Hhash : provider_hash_ok E.
    Hypothesis Hharm : harmless E rs.
    Variable T : list ustr.
    Variable F : list bool.
    (** The additional conditions, under which nothing panics. *)
    Variable S : Prop.
    Hypothesis Scalm : S -> calm E.
    (** The requests of the threads; those of earlier calls are in [rs] as well. *)
    Variable rs' : list request.
    Hypothesis rs_in : forall q, In q rs' -> In q rs.
    Hypothesis Ssame : S -> same_language E rs'.

    Definition inv (g : systate) : Prop :=
      cache_ok E rs (sy_ls g) /\ In (ls_tag (sy_ls g)) T /\ In (ls_fallback (sy_ls g)) F /\
      (S -> sy_poisoned g = false /\ sy_bad g = [] /\ prepared rs' (sy_ls g)).
    Definition keeps (g g' : systate) : Prop := S ->
      forall t key fm, cached (sy_ls g) t key = Some (CFormatter fm) -> exists fm', cached (sy_ls g') t key = Some (CFormatter fm').
    Lemma keeps_refl g : keeps g g.
    Proof. intros _ t key fm H. eauto. Qed.
    Lemma keeps_cache g g' : ls_cache (sy_ls g') = ls_cache (sy_ls g) -> keeps g g'.
    Proof. intros Hc _ t key fm H. exists fm. unfold cached in *. now rewrite Hc. Qed.
    Lemma keeps_trans a b c : keeps a b -> keeps b c -> keeps a c.
    Proof. intros H1 H2 HS t key fm H. destruct (H1 HS _ _ _ H) as (fm1 & K). exact (H2 HS _ _ _ K). Qed.
    Local Notation safe := (safe inv keeps).

    Lemma hit_format st c i vals t fb e : cache_ok E rs st -> In (mk_request c i t fb false) rs -> cached st t (combined c i) = Some e ->
      match e with
      | CLocalised s t' => pure_format E c i vals t fb = Ok (s, t')
      | CFormatter fm => snd (run_formatter E fm vals) = pure_format E c i vals t fb
      end.
    Proof.
      intros Hc Hq He. destruct (actual_format E st c i vals t fb false) as [st' r] eqn:Ha.
      destruct (format_transparent E Hicu rs Hagain Hhash Hharm st c i vals t fb false st' r Hc Hq Ha) as (_ & [K|(_ & K & _)]); [|discriminate].
      unfold actual_format in Ha. rewrite He in Ha. destruct e as [s t'|fm].
      - injection Ha as _ <-. now symmetry.
      - destruct (run_formatter E fm vals) as [fm' r']. injection Ha as _ <-. exact K.
    Qed.
    Lemma hit_literal st c i t fb e : cache_ok E rs st -> In (mk_request c i t fb true) rs -> cached st t (combined c i) = Some e ->
      exists s t', e = CLocalised s t' /\ find_string E c i t fb = Ok (s, t').
    Proof.
      intros Hc Hq He. destruct (actual_literal E st c i t fb false) as [st' r] eqn:Ha.
      destruct (literal_transparent E Hicu rs Hagain Hharm st c i t fb false st' r Hc Hq Ha) as (_ & [K|(_ & K & _)]); [|discriminate].
      unfold actual_literal in Ha. rewrite He in Ha. destruct e as [s t'|fm]; injection Ha as _ <-; [eauto|].
      exfalso. revert K. unfold find_string. destruct (pv_string _ _ _ _) as [[]|e| |]; cbn; try discriminate. destruct fb; cbn; [|discriminate].
      destruct (pv_default _ _) as [d|e| |]; cbn; try discriminate. destruct (pv_string _ _ _ d) as [[]|e| |]; cbn; discriminate.
    Qed.
    (** The kinds of entry do not clash. *)
    Lemma built_plain c i t fb s t' fm s1 t1 st : cache_ok E rs st -> In (mk_request c i t fb false) rs -> find_string E c i t fb = Ok (s, t') -> s <> [] ->
      build t' s = Ok fm -> cached st t (combined c i) = Some (CLocalised s1 t1) -> False.
    Proof.
      intros Hc Hq Hf Hne Hb He. destruct Hharm as (Hsl & Hmix & Hfb). specialize (Hc _ _ _ He). destruct Hc as (-> & q & Hin & Hk & Hfq & Hl).
      apply combined_inj in Hk as (Hc1 & Hi1); [|exact (Hsl _ Hq)|exact (Hsl _ Hin)]. cbn in Hc1, Hi1. subst c i.
      apply find_string_iff in Hfq. pose proof (found_again E _ _ _ _ fb _ _ Hagain Hfq) as Hf'. apply find_string_iff in Hf'. rewrite Hf in Hf'. injection Hf' as <- <-.
      destruct Hl as [Hl|[Hl|Hl]]; [|congruence|congruence].
      pose proof (Hmix q _ s t' Hin Hq eq_refl eq_refl Hl eq_refl Hfq) as Hn. destruct (plain_no_grammar E Hicu s t' Hn); congruence.
    Qed.
    Lemma plain_built c i t fb lit s t' fm st : cache_ok E rs st -> In (mk_request c i t fb lit) rs -> find_string E c i t fb = Ok (s, t') ->
      (lit = true \/ s = [] \/ build t' s = Err FNoGrammar) -> cached st t (combined c i) = Some (CFormatter fm) -> False.
    Proof.
      intros Hc Hq Hf Hl He. destruct Hharm as (Hsl & Hmix & Hfb). specialize (Hc _ _ _ He).
      destruct Hc as (q & s1 & t1 & fm0 & Hin & Hk & Ht & Hlq & Hfq & Hne & Hb & _).
      apply combined_inj in Hk as (Hc1 & Hi1); [|exact (Hsl _ Hq)|exact (Hsl _ Hin)].
      pose proof (same_found E rs _ _ Hfb Hq Hin Hc1 Hi1 (eq_sym Ht)) as Hs. cbn in Hs. rewrite Ht, Hfq, Hf in Hs. injection Hs as <- <-.
      destruct Hl as [Hl|[Hl|Hl]]; [|congruence|congruence]. subst lit.
      apply find_string_iff in Hf. pose proof (Hmix _ _ _ _ Hq Hin Hc1 Hi1 eq_refl Hlq Hf) as Hn. destruct (plain_no_grammar E Hicu s t' Hn); congruence.
    Qed.

    Lemma prepared_insert st t m : prepared rs' st -> prepared rs' (set_cache st (minsert t m (ls_cache st))).
    Proof. intros H q Hq. cbn. rewrite mget_minsert. destruct (ueqb _ _); [discriminate|exact (H q Hq)]. Qed.
    Lemma mhas_prepared st q : prepared rs' st -> In q rs' -> mhas (rq_tag q) (ls_cache st) = true.
    Proof. intros H Hq. specialize (H q Hq). unfold mhas. now destruct (mget _ _). Qed.

    Section Prog.
      Variable Q : option text -> Prop.
      Hypothesis Qpanic : ~ S -> Q (Some Panic).
      Lemma poisoned_panic g : inv g -> sy_poisoned g = true -> ~ S.
      Proof. intros (_ & _ & _ & H) Hp HS. destruct (H HS) as (K & _). congruence. Qed.

      Lemma safe_add g c i t fb lit b s t' k : In (mk_request c i t fb lit) rs' -> find_string E c i t fb = Ok (s, t') ->
        (lit = true \/ s = [] \/ build t' s = Err FNoGrammar) -> (S -> b = true) -> (forall g, safe Q g k) -> safe Q g (PAdd b (combined c i) s t' k).
      Proof.
        intros Hq Hf Hl HbS Hk. split; [discriminate|]. intros g1 g2 p' _ Hi Hs. cbn [prog_step] in Hs.
        destruct (sy_poisoned g1) eqn:Ep; injection Hs as Hs.
        { subst g2 p'. split; [exact Hi|]. split; [apply keeps_refl|]. apply safe_ret. apply Qpanic. exact (poisoned_panic _ Hi Ep). }
        destruct (add_string_to_cache (sy_ls g1) b (combined c i) s t') as [st'|] eqn:Ea; injection Hs as <- <-.
        - assert (Hp : put (sy_ls g1) t' (combined c i) (CLocalised s t') st').
          { unfold add_string_to_cache in Ea. destruct b; cbn in Ea.
            - destruct (mget t' (ls_cache (sy_ls g1))) as [m|] eqn:Em; [|discriminate]. injection Ea as <-. now apply put_old.
            - injection Ea as <-. apply put_new. }
          pose proof Hi as (Hc & HT & HF & HS). split; [split; [|split; [|split]]|split].
          + apply (put_ok E rs _ _ _ _ _ Hc Hp). split; [reflexivity|]. exists (mk_request c i t fb lit). cbn. split; [exact (rs_in _ Hq)|]. split; [reflexivity|]. split; [exact Hf|exact Hl].
          + cbn. destruct Hp as (_ & _ & -> & _). exact HT.
          + cbn. destruct Hp as (-> & _). exact HF.
          + intros Hst. destruct (HS Hst) as (K1 & K2 & K3). cbn. split; [exact K1|]. split; [unfold replaced; now rewrite K2|].
            unfold add_string_to_cache in Ea. destruct b; cbn in Ea.
            * destruct (mget t' (ls_cache (sy_ls g1))) as [m|] eqn:Em; [|discriminate]. injection Ea as <-. now apply prepared_insert.
            * injection Ea as <-. now apply prepared_insert.
          + intros Hst t1 key1 fm Hfm. cbn. rewrite (HbS Hst) in Ea. unfold add_string_to_cache in Ea. cbn in Ea.
            destruct (mget t' (ls_cache (sy_ls g1))) as [m|] eqn:Em; [|discriminate]. injection Ea as <-. rewrite cached_put.
            destruct (ueqb_spec t1 t') as [->|N]; [|eauto]. rewrite mget_minsert. destruct (ueqb_spec key1 (combined c i)) as [->|N].
            * exfalso. apply find_string_iff in Hf as Hf'. pose proof (Ssame Hst _ s t' Hq Hf') as Ht. cbn in Ht. subst t'.
              exact (plain_built c i t fb lit s t fm (sy_ls g1) Hc (rs_in _ Hq) Hf Hl Hfm).
            * unfold cached in Hfm. rewrite Em in Hfm. eauto.
          + apply Hk.
        - assert (Hn : ~ S).
          { intros Hst. destruct Hi as (_ & _ & _ & HS). destruct (HS Hst) as (_ & _ & K3). unfold add_string_to_cache in Ea. destruct b; cbn in Ea; [|discriminate].
            destruct (mget t' (ls_cache (sy_ls g1))) as [m|] eqn:Em; [discriminate|]. apply find_string_iff in Hf.
            pose proof (Ssame Hst _ s t' Hq Hf) as Ht. cbn in Ht. subst t'. exact (K3 _ Hq Em). }
          destruct Hi as (Hc & HT & HF & HS). split; [split; [exact Hc|]; split; [exact HT|]; split; [exact HF|]; now intros|].
          split; [now intros ?|]. apply safe_ret. now apply Qpanic.
      Qed.

      Lemma use_step g t c i fb fm vals g' r : inv g -> In (mk_request c i t fb false) rs -> cached (sy_ls g) t (combined c i) = Some (CFormatter fm) ->
        use_formatter E g t (combined c i) fm vals = (g', r) -> inv g' /\ keeps g g' /\ (r = pure_format E c i vals t fb \/ (r = Panic /\ ~ S)).
      Proof.
        intros Hi Hq He Hu. pose proof Hi as (Hc & HT & HF & HS). pose proof (hit_format _ c i vals t fb _ Hc Hq He) as Hr. cbn in Hr.
        unfold use_formatter in Hu. destruct (is_bad g t (combined c i)) eqn:Eb.
        { injection Hu as <- <-. split; [exact Hi|]. split; [apply keeps_refl|]. right. split; [reflexivity|]. intros Hst. destruct (HS Hst) as (_ & K & _).
          unfold is_bad in Eb. rewrite K in Eb. discriminate. }
        pose proof (Hc _ _ _ He) as (q & s & t' & fm0 & H1 & H2 & H3 & H4 & H5 & H6 & H7 & H8). pose proof (run_formatter_after E fm0 fm vals H8) as Ha.
        assert (Hcalm : S -> snd (run_formatter E fm vals) <> Panic) by (intros Hst; exact (run_calm E (Scalm Hst) t' s fm0 fm vals H7 H8)).
        destruct (run_formatter E fm vals) as [fm' r'] eqn:Er. cbn [fst snd] in *. injection Hu as <- <-.
        pose proof (put_formatter_put (sy_ls g) t (combined c i) fm') as Hp. split; [split; [|split; [|split]]|split].
        - apply (put_ok E rs _ _ _ _ _ Hc Hp). exists q, s, t', fm0. auto 10.
        - cbn. destruct Hp as (_ & _ & -> & _). exact HT.
        - cbn. destruct Hp as (-> & _). exact HF.
        - intros Hst. destruct (HS Hst) as (K1 & K2 & K3). cbn. split; [exact K1|]. split.
          + specialize (Hcalm Hst). destruct r'; try exact K2. congruence.
          + unfold put_formatter. destruct (mget t _) as [m|]; now apply prepared_insert.
        - intros Hst t1 key1 fm1 Hfm. cbn. unfold put_formatter. unfold cached in He. destruct (mget t (ls_cache (sy_ls g))) as [m|] eqn:Em; [|discriminate].
          rewrite cached_put. destruct (ueqb_spec t1 t) as [->|N]; [|eauto]. rewrite mget_minsert. destruct (ueqb key1 (combined c i)); [eauto|].
          unfold cached in Hfm. rewrite Em in Hfm. eauto.
        - now left.
      Qed.

      Lemma safe_format g c i vals t fb ca k : In (mk_request c i t fb false) rs' -> (forall g, safe Q g (k (pure_format E c i vals t fb))) ->
        (~ S -> forall g, safe Q g (k Panic)) -> safe Q g (sync_format E c i vals t fb ca k).
      Proof.
        intros Hq Hk Hkp. split; [discriminate|]. intros g1 g2 p' _ Hi Hs. cbn [sync_format prog_step] in Hs.
        destruct (sy_poisoned g1) eqn:Ep.
        { injection Hs as <- <-. split; [exact Hi|]. split; [apply keeps_refl|]. apply safe_ret. apply Qpanic. exact (poisoned_panic _ Hi Ep). }
        pose proof Hi as (Hc & HT & HF & HS).
        destruct (cached (sy_ls g1) t (combined c i)) as [[s t'|fm]|] eqn:Ec.
        - injection Hs as <- <-. split; [exact Hi|]. split; [apply keeps_refl|].
          pose proof (hit_format _ c i vals t fb _ Hc (rs_in _ Hq) Ec) as Hr. cbn in Hr. rewrite <- Hr. apply Hk.
        - destruct (use_formatter E g1 t (combined c i) fm vals) as [g' r] eqn:Eu. injection Hs as <- <-.
          destruct (use_step g1 t c i fb fm vals g' r Hi (rs_in _ Hq) Ec Eu) as (K1 & K2 & [->|(-> & Hn)]); auto.
        - set (b := mhas t (ls_cache (sy_ls g1))) in Hs. injection Hs as <- <-. split; [exact Hi|]. split; [apply keeps_refl|].
          assert (HbS : S -> b = true) by (intros Hst; destruct (HS Hst) as (_ & _ & K); exact (mhas_prepared _ _ K Hq)). clearbody b.
          unfold pure_format in Hk. destruct (find_string E c i t fb) as [[s t']|e| |] eqn:Ef; cbn [bind] in Hk; [|exact (Hk g1)|exact (Hk g1)|exact (Hk g1)].
          cbv beta iota.
          assert (Hret : s = [] \/ build t' s = Err FNoGrammar -> safe Q g1 (if ca then PAdd b (combined c i) s t' (k (Ok (s, t'))) else k (Ok (s, t')))).
          { intros Hpl. assert (Hk' : forall g, safe Q g (k (Ok (s, t')))).
            { intros g0. specialize (Hk g0). rewrite plain_pure in Hk by exact Hpl. exact Hk. }
            destruct ca; [|apply Hk']. apply (safe_add g1 c i t fb false b s t' _ Hq Ef); auto. }
          destruct s as [|x w]; [apply Hret; now left|].
          unfold pure_text in Hk. destruct (build t' (x :: w)) as [fm|e| |] eqn:Eb; [| |exact (Hk g1)|exact (Hk g1)].
          + destruct ca; [|exact (Hk g1)]. split; [discriminate|]. intros g3 g4 p1 _ Hi3 Hs3. cbn [prog_step] in Hs3.
            destruct (sy_poisoned g3) eqn:Ep3; injection Hs3 as Hs3.
            { subst g4 p1. split; [exact Hi3|]. split; [apply keeps_refl|]. apply safe_ret. apply Qpanic. exact (poisoned_panic _ Hi3 Ep3). }
            pose proof Hi3 as (Hc3 & HT3 & HF3 & HS3).
            destruct (insert_formatter (sy_ls g3) b t (combined c i) fm) as [st'|] eqn:Ea; injection Hs3 as <- <-.
            * assert (Hp : put (sy_ls g3) t (combined c i) (CFormatter fm) st' /\ cached st' t (combined c i) = Some (CFormatter fm)).
              { unfold insert_formatter in Ea. destruct b; cbn in Ea.
                - destruct (mget t (ls_cache (sy_ls g3))) as [m|] eqn:Em; [|discriminate]. injection Ea as <-. split; [now apply put_old|].
                  rewrite cached_put, ueqb_refl. apply mget_minsert_eq.
                - injection Ea as <-. split; [apply put_new|]. rewrite cached_put, ueqb_refl. cbn. now rewrite ueqb_refl. }
              destruct Hp as (Hp & Hcs). split; [split; [|split; [|split]]|split].
              -- apply (put_ok E rs _ _ _ _ _ Hc3 Hp). exists (mk_request c i t fb false), (x :: w), t', fm. cbn. repeat split; auto; solve [discriminate | constructor].
              -- cbn. destruct Hp as (_ & _ & -> & _). exact HT3.
              -- cbn. destruct Hp as (-> & _). exact HF3.
              -- intros Hst. destruct (HS3 Hst) as (K1 & K2 & K3). cbn. split; [exact K1|]. split; [unfold replaced; now rewrite K2|].
                 unfold insert_formatter in Ea. destruct b; cbn in Ea.
                 ++ destruct (mget t (ls_cache (sy_ls g3))) as [m|] eqn:Em; [|discriminate]. injection Ea as <-. now apply prepared_insert.
                 ++ injection Ea as <-. now apply prepared_insert.
              -- intros Hst t1 key1 fm1 Hfm. cbn. rewrite (HbS Hst) in Ea. unfold insert_formatter in Ea. cbn in Ea.
                 destruct (mget t (ls_cache (sy_ls g3))) as [m|] eqn:Em; [|discriminate]. injection Ea as <-. rewrite cached_put.
                 destruct (ueqb_spec t1 t) as [->|N]; [|eauto]. rewrite mget_minsert. destruct (ueqb key1 (combined c i)); [eauto|].
                 unfold cached in Hfm. rewrite Em in Hfm. eauto.
              -- split; [discriminate|]. intros g5 g6 p2 HR5 Hi5 Hs5. cbn [prog_step] in Hs5. destruct (sy_poisoned g5) eqn:Ep5.
                 { injection Hs5 as <- <-. split; [exact Hi5|]. split; [apply keeps_refl|]. apply safe_ret. apply Qpanic. exact (poisoned_panic _ Hi5 Ep5). }
                 destruct (cached (sy_ls g5) t (combined c i)) as [[s1 t1|fm1]|] eqn:Ec5.
                 ++ exfalso. destruct Hi5 as (Hc5 & _). exact (built_plain c i t fb (x :: w) t' fm s1 t1 (sy_ls g5) Hc5 (rs_in _ Hq) Ef ltac:(discriminate) Eb Ec5).
                 ++ destruct (use_formatter E g5 t (combined c i) fm1 vals) as [g' r] eqn:Eu. injection Hs5 as <- <-.
                    destruct (use_step g5 t c i fb fm1 vals g' r Hi5 (rs_in _ Hq) Ec5 Eu) as (K1 & K2 & [->|(-> & Hn)]); auto. split; [exact K1|]. split; [exact K2|].
                    unfold pure_format, pure_text. rewrite Ef. cbn [bind]. rewrite Eb. exact (Hk _).
                 ++ injection Hs5 as <- <-. split; [exact Hi5|]. split; [apply keeps_refl|]. apply safe_ret. apply Qpanic. intros Hst.
                    destruct (HR5 Hst t (combined c i) fm Hcs) as (fm' & K). congruence.
            * assert (Hn : ~ S).
              { intros Hst. destruct (HS3 Hst) as (_ & _ & K3). unfold insert_formatter in Ea. destruct b; cbn in Ea; [|discriminate].
                destruct (mget t (ls_cache (sy_ls g3))) as [m|] eqn:Em; [discriminate|]. exact (K3 _ Hq Em). }
              split; [split; [exact Hc3|]; split; [exact HT3|]; split; [exact HF3|]; now intros|].
              split; [now intros ?|]. apply safe_ret. now apply Qpanic.
          + destruct e; try exact (Hk g1). apply Hret. now right.
      Qed.

      Lemma safe_literal g c i t fb ca k : In (mk_request c i t fb true) rs' -> (forall g, safe Q g (k (find_string E c i t fb))) ->
        safe Q g (sync_literal E c i t fb ca k).
      Proof.
        intros Hq Hk. split; [discriminate|]. intros g1 g2 p' _ Hi Hs. cbn [sync_literal prog_step] in Hs.
        destruct (sy_poisoned g1) eqn:Ep; injection Hs as <- <-; (split; [exact Hi|]; split; [apply keeps_refl|]).
        { apply safe_ret. apply Qpanic. exact (poisoned_panic _ Hi Ep). }
        pose proof Hi as (Hc & HT & HF & HS).
        destruct (cached (sy_ls g1) t (combined c i)) as [e|] eqn:Ec.
        - destruct (hit_literal _ c i t fb e Hc (rs_in _ Hq) Ec) as (s & t' & -> & <-). apply Hk.
        - assert (HbS : S -> mhas t (ls_cache (sy_ls g1)) = true) by (intros Hst; destruct (HS Hst) as (_ & _ & K); exact (mhas_prepared _ _ K Hq)).
          destruct (find_string E c i t fb) as [[s t']|e| |] eqn:Ef; [|exact (Hk _)|exact (Hk _)|exact (Hk _)]. cbv beta iota. destruct ca; [|exact (Hk _)].
          apply (safe_add g1 c i t fb true _ s t' _ Hq Ef); auto.
      Qed.
    End Prog.

    Lemma safe_data (Q : option text -> Prop) t fb ca : (~ S -> Q (Some Panic)) -> forall d k g, (forall q, In q (data_requests t fb d) -> In q rs') ->
      (forall g, safe Q g (k (pure_data E t fb d))) -> (~ S -> forall g, safe Q g (k Panic)) -> safe Q g (sync_data E d t fb ca k).
    Proof.
      intros Qp. fix IH 1. intros [c i [vs|]] k g Hq Hk Hkp.
      - cbn [data_requests] in Hq. fold (go_requests t fb) in Hq. cbn [sync_data]. cbn [pure_data] in Hk.
        assert (Hlast : In (mk_request c i t fb false) rs') by (apply Hq; apply in_or_app; right; now left).
        assert (Hfront : forall q, In q (go_requests t fb vs) -> In q rs') by (intros q Hi; apply Hq; apply in_or_app; now left).
        clear Hq. revert Hfront Hk g. generalize (@nil (ustr * pvalue)). induction vs as [|[ph v] vs IHvs]; intros new Hq Hk g.
        + now apply safe_format.
        + destruct v.
          1-6, 8-11: (apply IHvs; [intros q Hi; now apply Hq|exact Hk]).
          apply IH.
          * intros q Hi. apply Hq. cbn. apply in_or_app. now left.
          * intros g1. destruct (pure_data E t fb d) as [[s t']|e| |]; [|exact (Hk _)|exact (Hk _)|exact (Hk _)].
            apply IHvs; [intros q Hi; apply Hq; cbn; apply in_or_app; now right|exact Hk].
          * intros Hn. now apply Hkp.
      - cbn [sync_data]. apply safe_literal; [exact Qp|apply Hq; now left|exact Hk].
    Qed.

    Lemma safe_tag (Q : option text -> Prop) g k : (forall t g, In t T -> safe Q g (k t)) -> safe Q g (PTag k).
    Proof. intros Hk. split; [discriminate|]. intros g1 g2 p' _ Hi [= <- <-]. split; [exact Hi|]. split; [apply keeps_refl|]. apply Hk. apply Hi. Qed.
    Lemma safe_fallback (Q : option text -> Prop) g k : (forall b g, In b F -> safe Q g (k b)) -> safe Q g (PFallback k).
    Proof. intros Hk. split; [discriminate|]. intros g1 g2 p' _ Hi [= <- <-]. split; [exact Hi|]. split; [apply keeps_refl|]. apply Hk. apply Hi. Qed.
    Lemma safe_caching (Q : option text -> Prop) g k : (forall b g, safe Q g (k b)) -> safe Q g (PCaching k).
    Proof. intros Hk. split; [discriminate|]. intros g1 g2 p' _ Hi [= <- <-]. split; [exact Hi|]. split; [apply keeps_refl|]. apply Hk. Qed.

    Definition expected (c : lcall) (r : option text) : Prop :=
      (exists t fb, In t T /\ In fb F /\ r = pure_call E (seen t fb) c) \/ (r = Some Panic /\ ~ S).
    Hypothesis T_some : T <> [].
    Hypothesis F_some : F <> [].
    Lemma safe_call c g : (forall t fb q, In t T -> In fb F -> In q (call_requests (seen t fb) c) -> In q rs') ->
      (forall t, set_tag c = Some t -> In t T) -> (forall b, set_fallback c = Some b -> In b F) -> safe (expected c) g (sync_call E c).
    Proof.
      intros Hq HT HF.
      assert (Qp : ~ S -> expected c (Some Panic)) by (intros H; right; auto).
      assert (Hfin : forall t fb r, In t T -> In fb F -> Some r = pure_call E (seen t fb) c -> forall g, safe (expected c) g (finish r)).
      { intros t fb r Ht Hb Hr g0. apply safe_ret. left. exists t, fb. auto. }
      assert (Hfp : ~ S -> forall g, safe (expected c) g (finish Panic)) by (intros H g0; apply safe_ret; now apply Qp).
      assert (Ht0 : exists t, In t T) by (destruct T as [|t]; [congruence|exists t; now left]). destruct Ht0 as (t0 & Ht0).
      destruct c; cbn [sync_call].
      - apply safe_fallback. intros fb g1 Hfb. apply safe_caching. intros ca g2.
        apply safe_format; auto; [apply (Hq t0 fb); auto; now left|]. intros g3. exact (Hfin t0 fb _ Ht0 Hfb eq_refl g3).
      - apply safe_tag. intros t g0 Ht. apply safe_fallback. intros fb g1 Hfb. apply safe_caching. intros ca g2.
        apply safe_format; auto; [apply (Hq t fb); auto; now left|]. intros g3. exact (Hfin t fb _ Ht Hfb eq_refl g3).
      - apply safe_fallback. intros fb g1 Hfb. apply safe_caching. intros ca g2.
        apply safe_literal; auto; [apply (Hq t0 fb); auto; now left|]. intros g3. exact (Hfin t0 fb _ Ht0 Hfb eq_refl g3).
      - apply safe_tag. intros t g0 Ht. apply safe_fallback. intros fb g1 Hfb. apply safe_caching. intros ca g2.
        apply safe_literal; auto; [apply (Hq t fb); auto; now left|]. intros g3. exact (Hfin t fb _ Ht Hfb eq_refl g3).
      - apply safe_fallback. intros fb g1 Hfb. apply safe_caching. intros ca g2.
        apply safe_data; auto; [intros q Hi; exact (Hq t0 fb q Ht0 Hfb Hi)|]. intros g3. exact (Hfin t0 fb _ Ht0 Hfb eq_refl g3).
      - apply safe_tag. intros t g0 Ht. apply safe_fallback. intros fb g1 Hfb. apply safe_caching. intros ca g2.
        apply safe_data; auto; [intros q Hi; exact (Hq t fb q Ht Hfb Hi)|]. intros g3. exact (Hfin t fb _ Ht Hfb eq_refl g3).
      - assert (Hf0 : exists b, In b F) by (destruct F as [|b]; [congruence|exists b; now left]). destruct Hf0 as (f0 & Hf0).
        assert (Hend : forall g, safe (expected (CallDefaults tag fallback caching)) g (PRet None)).
        { intros g0. apply safe_ret. left. exists t0, f0. auto. }
        assert (Hlast : forall g, safe (expected (CallDefaults tag fallback caching)) g (match caching with Some b => PSetCaching b (PRet None) | None => PRet None end)).
        { intros g0. destruct caching as [b|]; [|apply Hend]. split; [discriminate|]. intros g1 g2 p' _ Hi [= <- <-]. split; [exact Hi|].
          split; [now apply keeps_cache|]. apply Hend. }
        assert (Hrest : forall g, safe (expected (CallDefaults tag fallback caching)) g
          (match fallback with Some b => PSetFallback b (match caching with Some b => PSetCaching b (PRet None) | None => PRet None end)
           | None => match caching with Some b => PSetCaching b (PRet None) | None => PRet None end end)).
        { intros g0. destruct fallback as [b|]; [|apply Hlast]. split; [discriminate|]. intros g1 g2 p' _ (Hi1 & Hi2 & Hi3 & Hi4) [= <- <-].
          split; [|split; [now apply keeps_cache|apply Hlast]]. split; [exact Hi1|]. split; [exact Hi2|]. split; [|exact Hi4]. apply HF. reflexivity. }
        destruct tag as [t|]; [|apply Hrest]. split; [discriminate|]. intros g1 g2 p' _ (Hi1 & Hi2 & Hi3 & Hi4) Hs. cbn [prog_step] in Hs.
        destruct (sy_readers g1); [|discriminate]. injection Hs as <- <-. split; [|split; [now apply keeps_cache|]].
        { split; [exact Hi1|]. split; [apply HT; reflexivity|]. auto. }
        split; [discriminate|]. intros g3 g4 p1 _ Hi5 [= <- <-]. split; [exact Hi5|]. split; [now apply keeps_cache|].
        split; [discriminate|]. intros g6 g7 p2 _ Hi8 [= <- <-]. split; [exact Hi8|]. split; [now apply keeps_cache|]. apply Hrest.
    Qed.
  End Harmless.

  Lemma in_tags st calls t c l : In l calls -> In c l -> set_tag c = Some t -> In t (tags_seen st calls).
  Proof. intros Hl Hc Ht. right. apply in_flat_map. exists c. split; [apply in_concat; eauto|]. rewrite Ht. now left. Qed.
  Lemma in_fallbacks st calls b c l : In l calls -> In c l -> set_fallback c = Some b -> In b (fallbacks_seen st calls).
  Proof. intros Hl Hc Ht. right. apply in_flat_map. exists c. split; [apply in_concat; eauto|]. rewrite Ht. now left. Qed.
  Lemma in_requests st calls t fb c q l : In l calls -> In c l -> In t (tags_seen st calls) -> In fb (fallbacks_seen st calls) ->
    In q (call_requests (seen t fb) c) -> In q (sync_requests st calls).
  Proof.
    intros Hl Hc Ht Hb Hq. apply in_flat_map. exists t. split; [exact Ht|]. apply in_flat_map. exists fb. split; [exact Hb|].
    apply in_flat_map. exists c. split; [apply in_concat; eauto|exact Hq].
  Qed.

  (** After any history, under every schedule. *)
  Theorem sync_results fb ca tag h calls sch c r :
    icu_ok (le_icu E) -> answers_again E -> provider_hash_ok E ->
    let st := lrun E (localiser_new E fb ca tag) h in
    let rs := history_requests E (localiser_new E fb ca tag) h ++ sync_requests st calls in
    harmless E rs -> returned (sys_run E (sys_start st calls) sch) c r ->
    result_alone E st calls c r \/ (r = Some Panic /\ ~ (calm E /\ same_language E (sync_requests st calls) /\ prepared (sync_requests st calls) st)).
  Proof.
    intros Hicu Ha Hh st rs Hr Hret. set (S := calm E /\ same_language E (sync_requests st calls) /\ prepared (sync_requests st calls) st).
    assert (K : expected (tags_seen st calls) (fallbacks_seen st calls) S c r).
    { revert Hret. apply (run_results (inv rs (tags_seen st calls) (fallbacks_seen st calls) S (sync_requests st calls)) (keeps S) (keeps_refl S) (keeps_trans S) _ (List.concat calls)).
      - intros c0 g Hc0. apply in_concat in Hc0 as (l & Hl & Hc0). apply (safe_call Hicu rs Ha Hh Hr); auto.
        + now intros (H & _).
        + intros q Hq. apply in_or_app. now right.
        + now intros (_ & H & _).
        + discriminate.
        + discriminate.
        + intros t f q Ht Hf Hq. exact (in_requests st calls t f c0 q l Hl Hc0 Ht Hf Hq).
        + intros t Ht. exact (in_tags st calls t c0 l Hl Hc0 Ht).
        + intros b Hb. exact (in_fallbacks st calls b c0 l Hl Hc0 Hb).
      - split; [|split; [now left|split; [now left|]]].
        + apply run_new. intros q Hq. apply in_or_app. now left.
        + intros (_ & _ & Hp). auto.
      - intros c0 l Hl Hc0. apply in_concat. eauto. }
    destruct K as [(t & f & Ht & Hf & K)|K]; [left|right; exact K]. exists t, f. rewrite uncached_pure. auto.
  Qed.
End Sync.
