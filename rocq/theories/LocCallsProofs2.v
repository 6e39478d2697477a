(** Proofs for C96: the commands a localiser calls. *)
From Verif Require Import Base BaseFacts LexerModel LexerSpec TreeModel TreeSpec DocSpec ValueModel CommandModel IsoModel FormatterModel FormatterSpec FormatterProofs4
  RegistryModel LocaliserModel LocaliserSpec LocaliserProofs MemorySpec MemoryProofs CallsModel CallsSpec CallsProofs CallsProofs2 LocCallsModel LocCallsSpec LocCallsProofs.
Local Opaque us.

Section LocCalls.
  Context {PE W : Type}.
  Variables (E : lenv PE) (reg : wregistry W).
  Hypothesis Hd : icu_ok (le_icu E).
  Notation build t s w := (wformatter_try_new (le_icu E) localiser_grammar (le_fmt E) reg t (le_locale E t) s w).

  (** ** The invariant of the cache *)
  Definition entry_good (t key : ustr) (e : cache_data) : Prop :=
    match e with
    | CLocalised s t' => t' = t /\ exists c i tag fb, combined c i = key /\ found E c i tag fb s t
    | CFormatter fm => exists s t' a w0 w1 fm0, source E t key s t' /\ content E s a /\ build t' s w0 = (w1, Ok fm0) /\ wafter (le_fmt E) reg fm0 fm
    end.
  Definition good (st : lstate) : Prop := forall t key e, cached st t key = Some e -> entry_good t key e.
  Lemma put_good st t key e st' : good st -> put st t key e st' -> entry_good t key e -> good st'.
  Proof. intros Hc (_ & _ & _ & _ & Hp) He t' key' e' H. destruct (Hp _ _ _ H) as [(-> & -> & ->)|H']; [exact He|exact (Hc _ _ _ H')]. Qed.
  Lemma return_good st b ca c i tag fb s t : good st -> found E c i tag fb s t -> good (fst (return_string (PE := PE) st b ca (combined c i) s t)).
  Proof.
    intros Hg Hf. destruct (return_string st b ca (combined c i) s t) as [st' r] eqn:Er. cbn.
    destruct (return_string_cases _ _ _ _ _ _ _ _ Er) as [(_ & [->|Hp])|(_ & -> & _)]; [exact Hg| |exact Hg].
    apply (put_good _ _ _ _ _ Hg Hp). cbn. split; [reflexivity|]. exists c, i, tag, fb. now split.
  Qed.
  Lemma literal_good st c i tag fb ca : good st -> good (fst (actual_literal E st c i tag fb ca)).
  Proof.
    intros Hg. unfold actual_literal. destruct (cached st tag (combined c i)) as [[s t|fm]|]; try exact Hg.
    destruct (find_string E c i tag fb) as [[s t]|e| |] eqn:Ef; try exact Hg. apply find_string_iff in Ef. now apply return_good with tag fb.
  Qed.

  Lemma run_cases fm vals w w' fm' r : wrun_formatter E reg fm vals w = (w', (fm', r)) ->
    exists o, wformat (le_fuel E) (le_fmt E) reg fm vals w = (w', (fm', o)) /\ r = (let! s := map_err LFormatter o in Ok (s, fm_tag fm')).
  Proof. unfold wrun_formatter. destruct (wformat _ _ _ _ _ _) as (w1 & fm1 & o). intros [= <- <- <-]. eauto. Qed.
  Lemma run_makes s t a w0 w1 fm0 fm vals w w' fm' r : content E s a -> build t s w0 = (w1, Ok fm0) -> wafter (le_fmt E) reg fm0 fm ->
    wrun_formatter E reg fm vals w = (w', (fm', r)) -> wafter (le_fmt E) reg fm0 fm' /\
    exists cs, delayed_first E t a vals cs /\ attempted reg cs w w' /\ (forall x, r = Ok x -> delayed_shown E t a vals cs /\ made reg cs w w').
  Proof.
    intros Hc Hb Ha Hr. apply run_cases in Hr as (o & Hf & ->). split.
    - pose proof (wa_call (le_fmt E) reg fm0 fm vals (le_fuel E) w Ha) as G. rewrite Hf in G. exact G.
    - destruct (format_makes _ _ _ _ _ _ _ _ _ _ _ _ _ _ _ _ _ _ Hc Hb Ha Hf) as (cs & H1 & H2 & H3). exists cs. split; [exact H1|]. split; [exact H2|].
      intros x Hx. destruct o as [text| | |]; try discriminate. now apply (H3 text).
  Qed.

  (** ** One string *)
  Section Format.
    Variables (st : lstate) (c i : ustr) (vals : amap pvalue) (tag : ustr) (fb ca : bool) (w w' : W) (st' : lstate) (r : lout (PE := PE) (ustr * ustr)).
    Hypothesis Hg : good st.
    Hypothesis Hf : wactual_format E reg st c i vals tag fb ca w = (w', (st', r)).
    Let key := combined c i.

    Lemma format_again fm : cached st tag key = Some (CFormatter fm) -> good st' /\
      exists s t a cs, source E tag key s t /\ content E s a /\ delayed_first E t a vals cs /\ attempted reg cs w w' /\
        (forall x, r = Ok x -> delayed_shown E t a vals cs /\ made reg cs w w').
    Proof.
      intros Hc. unfold wactual_format in Hf. fold key in Hf. rewrite Hc in Hf. destruct (wrun_formatter E reg fm vals w) as (w1 & fm1 & r1) eqn:Er. injection Hf as <- <- <-.
      destruct (Hg _ _ _ Hc) as (s & t & a & w0 & w2 & fm0 & Hs & Ha & Hb & Haf). destruct (run_makes _ _ _ _ _ _ _ _ _ _ _ _ Ha Hb Haf Er) as (Haf' & cs & H1 & H2 & H3). split.
      - apply (put_good _ _ _ _ _ Hg (put_formatter_put _ _ _ _)). cbn. exists s, t, a, w0, w2, fm0. auto.
      - exists s, t, a, cs. auto.
    Qed.
    Lemma format_plain s t : cached st tag key = Some (CLocalised s t) -> st' = st /\ r = Ok (s, t) /\ w' = w.
    Proof. intros Hc. unfold wactual_format in Hf. fold key in Hf. rewrite Hc in Hf. injection Hf as <- <- <-. auto. Qed.
    Lemma format_missing : cached st tag key = None -> (forall s t, ~ found E c i tag fb s t) -> st' = st /\ w' = w /\ forall x, r <> Ok x.
    Proof.
      intros Hc Hn. unfold wactual_format in Hf. fold key in Hf. rewrite Hc in Hf.
      destruct (find_string E c i tag fb) as [(s & t)|e| |] eqn:Es; [apply find_string_iff in Es; now destruct (Hn s t)|..]; injection Hf as <- <- <-; repeat split; discriminate.
    Qed.
    Lemma format_text s t : cached st tag key = None -> found E c i tag fb s t -> no_syntax s ->
      (st', r) = return_string st (mhas tag (ls_cache st)) ca key s t /\ w' = w.
    Proof.
      intros Hc Hs Hn. apply find_string_iff in Hs. unfold wactual_format in Hf. fold key in Hf. rewrite Hc, Hs in Hf. destruct s as [|x s]; [injection Hf as <- Hf; auto|].
      destruct (build t (x :: s) w) as (w1 & o) eqn:Eb. assert (Hne : x :: s <> []) by discriminate. destruct (wno_grammar _ _ _ _ _ _ _ _ _ Hd Hne Eb) as (H1 & H2).
      apply H1 in Hn as ->. rewrite (H2 eq_refl) in Hf. injection Hf as <- Hf. auto.
    Qed.
    Lemma format_broken s t : cached st tag key = None -> found E c i tag fb s t -> ~ no_syntax s -> (forall tr, tree_try_new (le_icu E) s localiser_grammar <> Ok tr) ->
      st' = st /\ w' = w /\ forall x, r <> Ok x.
    Proof.
      intros Hc Hs Hn Ha. apply find_string_iff in Hs. unfold wactual_format in Hf. fold key in Hf. rewrite Hc, Hs in Hf. destruct s as [|x s]; [now destruct Hn|].
      destruct (build t (x :: s) w) as (w1 & o) eqn:Eb. unfold wformatter_try_new in Eb.
      destruct (tree_try_new (le_icu E) (x :: s) localiser_grammar) as [tr|e| |] eqn:Et; [now destruct (Ha tr)|..]; cbn in Eb; injection Eb as <- <-;
        injection Hf as <- <- <-; repeat split; discriminate.
    Qed.
    Lemma format_new s t a : cached st tag key = None -> found E c i tag fb s t -> ~ no_syntax s -> content E s a -> good st' /\
      exists cs, both_first E t a vals cs /\ attempted reg cs w w' /\ (forall x, r = Ok x -> both_shown E t a vals cs /\ made reg cs w w').
    Proof.
      intros Hc Hs Hn Ha. pose proof Hs as Hs'. apply find_string_iff in Hs. unfold wactual_format in Hf. fold key in Hf. rewrite Hc, Hs in Hf. destruct s as [|x s]; [now destruct Hn|].
      destruct (build t (x :: s) w) as (w1 & o) eqn:Eb. assert (Hne : x :: s <> []) by discriminate. destruct (wno_grammar _ _ _ _ _ _ _ _ _ Hd Hne Eb) as (H1 & H2).
      destruct (build_makes _ _ _ _ _ _ _ _ _ _ _ Ha Eb) as (pre & post & Hpp & Hat & Hok).
      assert (Hstop : (st', w') = (st, w1) -> (forall x, r <> Ok x) -> good st' /\
        exists cs, both_first E t a vals cs /\ attempted reg cs w w' /\ (forall x, r = Ok x -> both_shown E t a vals cs /\ made reg cs w w')).
      { intros [= -> ->] Hr. split; [exact Hg|]. exists pre. split; [exact (bf_building _ _ _ _ _ _ Hpp)|]. split; [exact Hat|]. intros y Hy. now destruct (Hr y). }
      destruct o as [fm|e| |].
      - destruct (Hok fm eq_refl) as (-> & Hm). rewrite app_nil_r in Hpp. subst pre. destruct (wrun_formatter E reg fm vals w1) as (w2 & fm' & r') eqn:Er. injection Hf as <- <- <-.
        destruct (run_makes _ _ _ _ _ _ _ _ _ _ _ _ Ha Eb (wa_fresh _ _ _) Er) as (Haf & cs & G1 & G2 & G3). split.
        + destruct ca; [|exact Hg]. apply (put_good _ _ _ _ _ Hg (put_formatter_put _ _ _ _)). cbn. exists (x :: s), t, a, w, w1, fm. repeat split; auto. exists c, i, fb. auto.
        + exists (build_calls a ++ cs). split; [now apply bf_showing|]. split; [exact (attempted_app _ _ _ _ _ _ Hm G2)|].
          intros y Hy. destruct (G3 y Hy) as (G4 & G5). split; [now apply bs_both|exact (made_app _ _ _ _ _ _ Hm G5)].
      - assert (He : e <> FNoGrammar) by (intros ->; apply Hn, H1; reflexivity).
        destruct e; try (injection Hf as <- <- <-; apply Hstop; [reflexivity|discriminate]). now destruct He.
      - injection Hf as <- <- <-. apply Hstop; [reflexivity|discriminate].
      - injection Hf as <- <- <-. apply Hstop; [reflexivity|discriminate].
    Qed.
    Lemma plain_or s : no_syntax s \/ ~ no_syntax s.
    Proof.
      destruct s as [|x s]; [left; intros ? []|]. destruct (build tag (x :: s) w) as (w1 & o) eqn:Eb.
      assert (Hne : x :: s <> []) by discriminate. destruct (wno_grammar _ _ _ _ _ _ _ _ _ Hd Hne Eb) as (H1 & _).
      destruct o as [fm|e| |]; try (right; intros H; apply H1 in H; discriminate). destruct e; try (right; intros H; apply H1 in H; discriminate). left. now apply H1.
    Qed.
  End Format.

  (** ** Requests *)
  Definition told (new : bool) (rs : list request) (w w' : W) (r : lout (PE := PE) (ustr * ustr)) : Prop :=
    (forall x, r = Ok x -> exists cs, requests_calls E new rs cs /\ made reg cs w w') /\
    ((forall x, r <> Ok x) -> exists cs, some_requests_calls E new rs cs /\ attempted reg cs w w').
  Lemma told_one new q w w' r : (forall x, r = Ok x -> exists cs, request_calls E new q cs /\ made reg cs w w') ->
    ((forall x, r <> Ok x) -> exists cs, failed_calls E new q cs /\ attempted reg cs w w') -> told new [q] w w' r.
  Proof.
    intros H1 H2. split.
    - intros x Hx. destruct (H1 x Hx) as (cs & H3 & H4). exists (cs ++ []). split; [constructor; [exact H3|constructor]|now rewrite app_nil_r].
    - intros Hx. destruct (H2 Hx) as (cs & H3 & H4). exists cs. split; [now constructor|exact H4].
  Qed.
  Lemma told_app new rs rs' cs w w1 w2 r : requests_calls E new rs cs -> made reg cs w w1 -> told new rs' w1 w2 r -> told new (rs ++ rs') w w2 r.
  Proof.
    intros Hr Hm (H1 & H2). split.
    - intros x Hx. destruct (H1 x Hx) as (cs' & H3 & H4). exists (cs ++ cs'). split; [|exact (made_app _ _ _ _ _ _ Hm H4)]. clear Hm H4. induction Hr as [|q l c1 c2 Hq _ IH]; [exact H3|].
      cbn [app]. rewrite <- app_assoc. constructor; [exact Hq|exact IH].
    - intros Hx. destruct (H2 Hx) as (cs' & H3 & H4). exists (cs ++ cs'). split; [|exact (attempted_app _ _ _ _ _ _ Hm H4)]. clear Hm H4. induction Hr as [|q l c1 c2 Hq _ IH]; [exact H3|].
      cbn [app]. rewrite <- app_assoc. apply sr_cons; [exact Hq|exact IH].
  Qed.
  Lemma told_front new rs rs' w w' r : (forall x, r <> Ok x) -> told new rs w w' r -> told new (rs ++ rs') w w' r.
  Proof.
    intros Hr (_ & H2). split; [intros x Hx; now destruct (Hr x)|]. intros _. destruct (H2 Hr) as (cs & H3 & H4). exists cs. split; [|exact H4]. clear H4 H2.
    induction H3 as [q l c1 H|q l c1 c2 H _ IH]; cbn [app]; [exact (sr_fail _ _ _ _ _ H)|exact (sr_cons _ _ _ _ _ _ H IH)].
  Qed.

  Lemma told_quiet new q w : request_calls E new q [] -> forall r, told new [q] w w r.
  Proof.
    intros Hq r. apply told_one; intros; exists []; (split; [|constructor; constructor]).
    - exact Hq.
    - apply fc_none.
  Qed.
  Lemma told_quiet' new q w r : (forall x, r <> Ok x) -> told new [q] w w r.
  Proof. intros Hr. apply told_one; [intros x Hx; now destruct (Hr x)|]. intros _. exists []. split; [apply fc_none|apply attempted_nil]. Qed.
  Lemma format_told new st c i vals tag fb ca w w' st' r : good st -> (new = false -> cached st tag (combined c i) <> None) ->
    wactual_format E reg st c i vals tag fb ca w = (w', (st', r)) -> good st' /\ told new [mk_request c i tag fb false] w w' r.
  Proof.
    intros Hg Hnew Hf. destruct (cached st tag (combined c i)) as [[s t|fm]|] eqn:Hc.
    - destruct (format_plain _ _ _ _ _ _ _ _ _ _ _ Hf s t Hc) as (-> & -> & ->). split; [exact Hg|]. apply told_quiet.
      destruct (Hg _ _ _ Hc) as (-> & c0 & i0 & tag0 & fb0 & H1 & H2). exact (rc_kept E _ (mk_request c i tag fb false) c0 i0 tag0 fb0 s H1 H2).
    - destruct (format_again _ _ _ _ _ _ _ _ _ _ _ Hg Hf fm Hc) as (Hg' & s & t & a & cs & H1 & H2 & H3 & H4 & H5). split; [exact Hg'|]. apply told_one.
      + intros x Hx. destruct (H5 x Hx) as (H6 & H7). exists cs. split; [|exact H7]. exact (rc_again E _ (mk_request c i tag fb false) s t a vals cs eq_refl H1 H2 H6).
      + intros _. exists cs. split; [|exact H4]. exact (fc_again E _ (mk_request c i tag fb false) s t a vals cs eq_refl H1 H2 H3).
    - destruct new; [clear Hnew|now destruct Hnew]. destruct (find_string E c i tag fb) as [(s & t)|e| |] eqn:Ef.
      2-4: (destruct (format_missing _ _ _ _ _ _ _ _ _ _ _ Hf Hc) as (-> & -> & Hr);
        [intros s t Hs; apply find_string_iff in Hs; congruence|split; [exact Hg|now apply told_quiet']]).
      apply find_string_iff in Ef. destruct (plain_or tag w s) as [Hn|Hn].
      + destruct (format_text _ _ _ _ _ _ _ _ _ _ _ Hf s t Hc Ef Hn) as (Hr & ->). split.
        * pose proof (return_good st (mhas tag (ls_cache st)) ca c i tag fb s t Hg Ef) as G. rewrite <- Hr in G. exact G.
        * apply told_quiet. apply (rc_plain E _ (mk_request c i tag fb false) s t); [|exact Hn]. exists c, i, fb. auto.
      + destruct (tree_try_new (le_icu E) s localiser_grammar) as [tr|e| |] eqn:Et.
        2-4: (destruct (format_broken _ _ _ _ _ _ _ _ _ _ _ Hf s t Hc Ef Hn) as (-> & -> & Hr);
          [intros tr Htr; congruence|split; [exact Hg|now apply told_quiet']]).
        destruct (accepted_content _ _ _ _ Et) as (a & Ha & _).
        destruct (format_new _ _ _ _ _ _ _ _ _ _ _ Hg Hf s t a Hc Ef Hn Ha) as (Hg' & cs & H3 & H4 & H5). split; [exact Hg'|]. apply told_one.
        * intros x Hx. destruct (H5 x Hx) as (H6 & H7). exists cs. split; [|exact H7]. exact (rc_new E _ (mk_request c i tag fb false) s t a vals cs eq_refl eq_refl Ef Ha H6).
        * intros _. exists cs. split; [|exact H4]. exact (fc_new E _ (mk_request c i tag fb false) s t a vals cs eq_refl eq_refl Ef Ha H3).
  Qed.
  Lemma literal_told new st c i tag fb ca w : good st -> good (fst (actual_literal E st c i tag fb ca)) /\
    told new [mk_request c i tag fb true] w w (snd (actual_literal E st c i tag fb ca)).
  Proof. intros Hg. split; [now apply literal_good|]. apply told_quiet. now apply rc_literal. Qed.
  Lemma format_kept_cached st c i vals tag fb ca w : cached st tag (combined c i) <> None -> kept st (fst (snd (wactual_format E reg st c i vals tag fb ca w))).
  Proof.
    intros H. unfold wactual_format. destruct (cached st tag (combined c i)) as [[s t'|fm]|]; [apply kept_refl| |contradiction].
    destruct (wrun_formatter E reg fm vals w) as (w1 & fm1 & r1). apply put_formatter_kept.
  Qed.
  Lemma data_told new t fb ca : forall d st w w' st' r, good st -> (new = false -> covered st (data_requests t fb d)) ->
    wactual_format_data E reg d t fb ca st w = (w', (st', r)) -> good st' /\ told new (data_requests t fb d) w w' r /\ (new = false -> kept st st').
  Proof.
    fix IH 1. intros [c i [vs|]] st w w' st' r Hg Hnew Hf.
    - cbn [data_requests] in *. fold (go_requests t fb) in *. cbn [wactual_format_data] in Hf.
      revert st w Hg Hnew Hf. generalize (@nil (ustr * pvalue)). induction vs as [|[ph v] vs IHvs]; intros new0 st w Hg Hnew Hf.
      + cbn [go_requests app] in *. destruct (format_told new _ _ _ _ _ _ _ _ _ _ _ Hg (fun e => Hnew e _ (or_introl eq_refl)) Hf) as (H1 & H2). split; [exact H1|]. split; [exact H2|].
        intros e. pose proof (format_kept_cached st c i new0 t fb ca w (Hnew e _ (or_introl eq_refl))) as K. rewrite Hf in K. exact K.
      + destruct v; try exact (IHvs _ st w Hg Hnew Hf).
        cbn [go_requests] in *. rewrite <- app_assoc in *.
        destruct (wactual_format_data E reg d t fb ca st w) as (w1 & st1 & r1) eqn:E1.
        destruct (IH d st w w1 st1 r1 Hg (fun e q Hi => Hnew e q (in_or_app _ _ _ (or_introl Hi))) E1) as (Hg1 & Ht1 & Hk1).
        assert (Hstop : (forall x, r1 <> Ok x) -> (w1, (st1, r1)) = (w', (st', r)) ->
          good st' /\ told new (data_requests t fb d ++ go_requests t fb vs ++ [mk_request c i t fb false]) w w' r /\ (new = false -> kept st st')).
        { intros Hr [= <- <- <-]. split; [exact Hg1|]. split; [now apply told_front|exact Hk1]. }
        destruct r1 as [(s & t')|e| |]; try (apply Hstop; [discriminate|exact Hf]). clear Hstop.
        assert (Hnew1 : new = false -> covered st1 (go_requests t fb vs ++ [mk_request c i t fb false])).
        { intros e q Hi. apply (Hk1 e). apply (Hnew e). apply in_or_app. now right. }
        destruct (IHvs _ st1 w1 Hg1 Hnew1 Hf) as (H1 & H2 & H3). split; [exact H1|]. split.
        * destruct (proj1 Ht1 _ eq_refl) as (cs & H4 & H5). exact (told_app _ _ _ _ _ _ _ _ H4 H5 H2).
        * intros e. exact (kept_trans _ _ _ (Hk1 e) (H3 e)).
    - cbn in *. injection Hf as <- Hf. destruct (literal_told new st c i t fb ca w Hg) as (H1 & H2). rewrite Hf in H1, H2. split; [exact H1|]. split; [exact H2|].
      intros e. destruct (literal_memory E E st c i t fb ca (Hnew e _ (or_introl eq_refl))) as (_ & K). rewrite Hf in K. cbn in K. subst st'. apply kept_refl.
  Qed.
  Definition told_call (new : bool) (rs : list request) (w w' : W) (r : option (lout (PE := PE) (ustr * ustr))) : Prop :=
    match r with Some r => told new rs w w' r | None => w' = w end.
  Lemma step_told new st x w w' st' r : good st -> (new = false -> covered st (call_requests st x)) -> wlstep E reg st x w = (w', (st', r)) ->
    good st' /\ told_call new (call_requests st x) w w' r.
  Proof.
    intros Hg Hnew. destruct x; cbn [wlstep call_requests] in *.
    - destruct (wactual_format _ _ _ _ _ _ _ _ _ _) as (w1 & st1 & r1) eqn:E1. intros [= <- <- <-]. cbn [told_call]. exact (format_told new _ _ _ _ _ _ _ _ _ _ _ Hg (fun e => Hnew e _ (or_introl eq_refl)) E1).
    - destruct (wactual_format _ _ _ _ _ _ _ _ _ _) as (w1 & st1 & r1) eqn:E1. intros [= <- <- <-]. cbn [told_call]. exact (format_told new _ _ _ _ _ _ _ _ _ _ _ Hg (fun e => Hnew e _ (or_introl eq_refl)) E1).
    - intros [= <- <- <-]. cbn [told_call]. exact (literal_told new _ _ _ _ _ _ _ Hg).
    - intros [= <- <- <-]. cbn [told_call]. exact (literal_told new _ _ _ _ _ _ _ Hg).
    - destruct (wactual_format_data _ _ _ _ _ _ _ _) as (w1 & st1 & r1) eqn:E1. intros [= <- <- <-]. cbn [told_call].
      destruct (data_told new _ _ _ _ _ _ _ _ _ Hg Hnew E1) as (H1 & H2 & _). now split.
    - destruct (wactual_format_data _ _ _ _ _ _ _ _) as (w1 & st1 & r1) eqn:E1. intros [= <- <- <-]. cbn [told_call].
      destruct (data_told new _ _ _ _ _ _ _ _ _ Hg Hnew E1) as (H1 & H2 & _). now split.
    - intros [= <- <- <-]. split; [|reflexivity]. intros t key e H. exact (Hg t key e H).
  Qed.
  Lemma run_good h : forall st, good st -> good (wlrun E reg st h).
  Proof.
    induction h as [|(c, w) h IH]; intros st Hg; [exact Hg|]. cbn. apply IH. destruct (wlstep E reg st c w) as (w' & st' & r) eqn:E1.
    exact (proj1 (step_told true st c w w' st' r Hg ltac:(discriminate) E1)).
  Qed.
  Lemma service_good st : in_service E reg st -> good st.
  Proof. intros (fb & ca & tag & h & ->). apply run_good. intros t key e H. discriminate H. Qed.

  (** ** Nothing is lost *)
  Lemma format_kept_w st c i vals t fb ca w : settled E [mk_request c i t fb false] ->
    let x := snd (wactual_format E reg st c i vals t fb ca w) in
    kept st (fst x) /\ (forall r, ca = true -> snd x = Ok r -> cached (fst x) t (combined c i) <> None).
  Proof.
    intros Hs. unfold wactual_format. destruct (cached st t (combined c i)) as [[s t'|fm]|] eqn:Ec; cbn [fst snd].
    - split; [apply kept_refl|]. intros; congruence.
    - destruct (wrun_formatter E reg fm vals w) as (w1 & fm' & r). cbn [fst snd]. destruct (put_formatter_kept st t (combined c i) fm'); auto.
    - destruct (find_string E c i t fb) as [[s t']|e| |] eqn:Ef; cbn [fst snd]; try (split; [apply kept_refl|]; intros; discriminate).
      apply find_string_iff in Ef. pose proof (Hs _ s t' (or_introl eq_refl) Ef) as Ht. cbn in Ht.
      assert (Hp : no_syntax s -> let x := return_string (PE := PE) st (mhas t (ls_cache st)) ca (combined c i) s t' in
        kept st (fst x) /\ (forall r, ca = true -> snd x = Ok r -> cached (fst x) t (combined c i) <> None)).
      { intros Hn. destruct Ht as [->|(_ & Ht)]; [|contradiction]. destruct (return_kept (PE := PE) st ca (combined c i) s t) as (H1 & H2). auto. }
      destruct s as [|x s]; [apply Hp; intros ? []|].
      destruct (build t' (x :: s) w) as (w1 & [fm|e| |]) eqn:Eb; cbn [fst snd]; try (split; [apply kept_refl|]; intros; discriminate).
      + destruct (wrun_formatter E reg fm vals w1) as (w2 & fm' & r). cbn [fst snd]. destruct ca; [|split; [apply kept_refl|discriminate]].
        destruct (put_formatter_kept st t (combined c i) fm'); auto.
      + assert (Hne : x :: s <> []) by discriminate. destruct (wno_grammar _ _ _ _ _ _ _ _ _ Hd Hne Eb) as (H1 & _).
        destruct e; cbn [fst snd]; try (split; [apply kept_refl|]; intros; discriminate). apply Hp. now apply H1.
  Qed.
  Lemma data_kept_w t fb ca : forall d st w, settled E (data_requests t fb d) ->
    let x := snd (wactual_format_data E reg d t fb ca st w) in
    kept st (fst x) /\ (forall r, ca = true -> snd x = Ok r -> covered (fst x) (data_requests t fb d)).
  Proof.
    fix IH 1. intros [c i [vs|]] st w Hs.
    - cbn [data_requests] in *. fold (go_requests t fb) in *. cbn [wactual_format_data].
      revert Hs st w. generalize (@nil (ustr * pvalue)) at 1 2 3. induction vs as [|[ph v] vs IHvs]; intros new Hs st w.
      + destruct (format_kept_w st c i new t fb ca w Hs) as (H1 & H2). split; [exact H1|].
        intros r Hca Hr q [<-|[]]. exact (H2 r Hca Hr).
      + destruct v; try exact (IHvs _ Hs st w).
        cbn [go_requests] in *. rewrite <- app_assoc in *.
        pose proof (IH d st w (settled_part _ _ _ Hs (fun q Hi => in_or_app _ _ _ (or_introl Hi)))) as (K1 & K2).
        destruct (wactual_format_data E reg d t fb ca st w) as (w1 & st1 & [[s t']|e| |]); cbn [fst snd] in *; try (split; [exact K1|]; intros; discriminate).
        destruct (IHvs (minsert ph (VLocalised s t') new) (settled_part _ _ _ Hs (fun q Hi => in_or_app _ _ _ (or_intror Hi))) st1 w1) as (H1 & H2).
        split; [exact (kept_trans _ _ _ K1 H1)|]. intros r Hca Hr q Hq. apply in_app_or in Hq as [Hq|Hq].
        * exact (H1 _ _ (K2 _ Hca eq_refl q Hq)).
        * exact (H2 r Hca Hr q Hq).
    - cbn in *. destruct (literal_kept E st c i t fb ca Hs) as (H1 & H2). split; [exact H1|].
      intros r Hca Hr q [<-|[]]. exact (H2 r Hca Hr).
  Qed.
  Lemma step_kept_w st c w : settled E (call_requests st c) ->
    kept st (fst (snd (wlstep E reg st c w))) /\
    (forall r, caches st c = true -> snd (snd (wlstep E reg st c w)) = Some (Ok r) -> covered (fst (snd (wlstep E reg st c w))) (call_requests st c)).
  Proof.
    intros Hs. destruct c; cbn [wlstep fst snd call_requests caches] in *.
    - destruct (format_kept_w st component identifier vals tag _ (unwrap_or caching (ls_caching st)) w Hs) as (H1 & H2). split; [exact H1|].
      intros r Hc [= Hr] q [<-|[]]. exact (H2 r Hc Hr).
    - destruct (format_kept_w st component identifier vals (ls_tag st) _ (ls_caching st) w Hs) as (H1 & H2). split; [exact H1|].
      intros r Hc [= Hr] q [<-|[]]. exact (H2 r Hc Hr).
    - destruct (literal_kept E st component identifier tag _ (unwrap_or caching (ls_caching st)) Hs) as (H1 & H2). split; [exact H1|].
      intros r Hc [= Hr] q [<-|[]]. exact (H2 r Hc Hr).
    - destruct (literal_kept E st component identifier (ls_tag st) _ (ls_caching st) Hs) as (H1 & H2). split; [exact H1|].
      intros r Hc [= Hr] q [<-|[]]. exact (H2 r Hc Hr).
    - destruct (data_kept_w tag _ (unwrap_or caching (ls_caching st)) d st w Hs) as (H1 & H2). split; [exact H1|].
      intros r Hc [= Hr]. exact (H2 r Hc Hr).
    - destruct (data_kept_w (ls_tag st) _ (ls_caching st) d st w Hs) as (H1 & H2). split; [exact H1|].
      intros r Hc [= Hr]. exact (H2 r Hc Hr).
    - split; [intros t key H; exact H|discriminate].
  Qed.
  Lemma run_kept_w h : forall st, settled E (whistory_requests E reg st h) -> kept st (wlrun E reg st h).
  Proof.
    induction h as [|(c, w) h IH]; intros st Hs; [apply kept_refl|]. cbn in *.
    eapply kept_trans; [apply (step_kept_w st c w)|apply IH]; eapply settled_part; try exact Hs; intros q Hq; apply in_or_app; auto.
  Qed.
  Theorem once st x w0 h y w w' st2 r : good st -> caches st x = true ->
    (exists t, snd (snd (wlstep E reg st x w0)) = Some (Ok t)) -> settled E (whistory_requests E reg st ((x, w0) :: h)) ->
    let st' := wlrun E reg st ((x, w0) :: h) in asks_again (call_requests st' y) (call_requests st x) ->
    wlstep E reg st' y w = (w', (st2, r)) -> told_call false (call_requests st' y) w w' r.
  Proof.
    intros Hg Hc (t & Hr) Hs st' Ha Hy. apply (step_told false st' y w w' st2 r); [now apply run_good| |exact Hy]. intros _ q Hq.
    destruct (Ha q Hq) as (q' & Hq' & <- & <- & <-). cbn in Hs.
    assert (Hs1 : settled E (call_requests st x)) by (eapply settled_part; [exact Hs|]; intros; apply in_or_app; auto).
    assert (Hs2 : settled E (whistory_requests E reg (fst (snd (wlstep E reg st x w0))) h)) by (eapply settled_part; [exact Hs|]; intros; apply in_or_app; auto).
    destruct (step_kept_w st x w0 Hs1) as (_ & K). apply (run_kept_w h _ Hs2). exact (K t Hc Hr q' Hq').
  Qed.
End LocCalls.

(** ** Commands without effects *)
Section Stateless.
  Context {PE W : Type}.
  Variable E : lenv PE.
  Notation wreg := (without_effects (le_reg E) : wregistry W).
  Lemma run_without fm vals (w : W) : wrun_formatter E wreg fm vals w = (w, run_formatter E fm vals).
  Proof. unfold wrun_formatter, run_formatter. rewrite format_without. now destruct (format _ _ _ fm vals). Qed.
  Lemma actual_without st c i vals t fb ca (w : W) : wactual_format E wreg st c i vals t fb ca w = (w, actual_format E st c i vals t fb ca).
  Proof.
    unfold wactual_format, actual_format. destruct (cached st t (combined c i)) as [[s t'|fm]|]; [reflexivity| |].
    - rewrite run_without. now destruct (run_formatter E fm vals).
    - destruct (find_string E c i t fb) as [[s t']|e| |]; try reflexivity. destruct s as [|x s]; [reflexivity|]. rewrite build_without.
      destruct (formatter_try_new _ _ _ _ _ _ _) as [fm|e| |]; try reflexivity; [|now destruct e]. rewrite run_without. now destruct (run_formatter E fm vals).
  Qed.
  Lemma data_without t fb ca : forall d st (w : W), wactual_format_data E wreg d t fb ca st w = (w, actual_format_data E d t fb ca st).
  Proof.
    fix IH 1. intros [c i [vs|]] st w; [|reflexivity]. cbn [wactual_format_data actual_format_data]. revert st w. generalize (@nil (ustr * pvalue)).
    induction vs as [|[ph v] vs IHvs]; intros new st w; [apply actual_without|]. destruct v; try apply IHvs. rewrite IH.
    destruct (actual_format_data E d t fb ca st) as [st1 [[s t']|e| |]]; try reflexivity. apply IHvs.
  Qed.
  Theorem step_without st c (w : W) : wlstep E wreg st c w = (w, lstep E st c).
  Proof.
    destruct c; cbn [wlstep lstep]; unfold loc_format, loc_format_with_defaults, loc_literal, loc_literal_with_defaults, loc_format_data, loc_format_data_with_defaults;
      rewrite ?actual_without, ?data_without; reflexivity.
  Qed.
  Theorem run_all_without st (h : list (lcall * W)) : wlrun E wreg st h = lrun E st (map fst h).
  Proof. revert st. induction h as [|(c, w) h IH]; intros st; [reflexivity|]. cbn. rewrite step_without. apply IH. Qed.
End Stateless.
