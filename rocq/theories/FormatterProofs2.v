(** Evaluation of an accepted content gives exactly the text of the (implemented) specification. *)
From Verif Require Import Base BaseFacts LexerModel LexerSpec TreeModel TreeSpec ValueModel CommandModel IsoModel
  FormatterModel FormatterAbs FormatterActs FormatterSpec FormatterProofs.
Local Opaque us.

Scheme renders_mut := Minimality for renders Sort Prop
  with rend_mut := Minimality for rend Sort Prop.

Section Eval.
  Variables (fe : fmtenv) (reg : cregistry) (locale : ustr) (vals : amap pvalue) (strs : amap (list sitem)).
  Notation rens := (renders fe reg locale vals strs by_selector by_selector).
  Notation ren := (rend fe reg locale vals strs by_selector by_selector).
  Notation ev := (astring fe reg locale vals).
  Notation evs := (aitems fe reg locale vals).
  Notation act_of := (item_act fe reg locale vals strs).
  Notation run := (run_act).

  Definition checked (x : sitem) : Prop := exists known main, item_check fe reg locale known main x = Ok tt.
  Definition all_checked (l : list sitem) : Prop := forall x, In x l -> checked x.
  Hypothesis Hchk : forall m l, mget m strs = Some l -> all_checked l.

  Lemma act_iff x n t : checked x -> ren n x t <-> act_means fe reg locale vals strs (act_of x) n t.
  Proof. intros (known & main & H). exact (act_rend _ _ _ _ _ _ _ _ _ _ H). Qed.

  Lemma act_hash x : act_of x = AHash -> x = SHash.
  Proof.
    destruct x as [w| |ph [[kw sels]|]|ps]; cbn [item_act]; try discriminate; try reflexivity.
    assert (Hn : forall d r, num_act fe locale strs sels d r <> AHash).
    { intros d r. unfold num_act. destruct (fe_decimal fe locale None); [|discriminate]. cbv zeta.
      destruct (mget _ (pairs sels)); [|discriminate]. destruct (mget _ strs); discriminate. }
    unfold kw_act. destruct (ueqb kw _); [discriminate|]. destruct (ueqb kw _); [discriminate|].
    destruct (mget ph vals) as [v|]; [|discriminate].
    destruct (ueqb kw _).
    { destruct (fe_ordinal fe locale); [|discriminate]. destruct v; try discriminate. intros H. now apply Hn in H. }
    destruct (ueqb kw _).
    { destruct (fe_cardinal fe locale); [|discriminate]. destruct (number_of _ _ v); try discriminate.
      intros H. now apply Hn in H. }
    destruct (value_text v); [|discriminate]. destruct (mget _ (pairs sels)); discriminate.
  Qed.

  (** ** Calls of other strings *)
  Lemma select_act ph sels v key branch : mget ph vals = Some v -> value_text v = Some key ->
    by_selector sels key branch -> act_of (SPat ph (Some (us "select", sels))) = ACall branch None.
  Proof.
    intros Hv Ht (Hin & ->). cbn [item_act]. unfold kw_act.
    rewrite (proj2 (ueqb_neq (us "select") (us "decimal"))) by discriminate.
    rewrite (proj2 (ueqb_neq (us "select") (us "date_time"))) by discriminate.
    rewrite (proj2 (ueqb_neq (us "select") (us "ordinal"))) by discriminate.
    rewrite (proj2 (ueqb_neq (us "select") (us "plural"))) by discriminate.
    rewrite Hv, Ht, pairs_get. apply umem_In in Hin. now rewrite Hin.
  Qed.
  Lemma number_act sels d rules f branch body : fe_decimal fe locale None = Some f ->
    by_selector sels (plural_category (rules d)) branch -> mget branch strs = Some body ->
    num_act fe locale strs sels d rules = ACall branch (Some (f d)).
  Proof.
    intros Hf (Hin & ->) Hb. unfold num_act. rewrite Hf. cbv zeta. rewrite pairs_get.
    apply umem_In in Hin. now rewrite Hin, Hb.
  Qed.
  Lemma plural_act ph sels v dec rules f branch body : mget ph vals = Some v -> number_value fe v dec ->
    fe_cardinal fe locale = Some rules -> fe_decimal fe locale None = Some f ->
    by_selector sels (plural_category (rules dec)) branch -> mget branch strs = Some body ->
    act_of (SPat ph (Some (us "plural", sels))) = ACall branch (Some (f dec)).
  Proof.
    intros Hv Hn Hr Hf Hb Hs. cbn [item_act]. unfold kw_act.
    rewrite (proj2 (ueqb_neq (us "plural") (us "decimal"))) by discriminate.
    rewrite (proj2 (ueqb_neq (us "plural") (us "date_time"))) by discriminate.
    rewrite (proj2 (ueqb_neq (us "plural") (us "ordinal"))) by discriminate.
    rewrite ueqb_refl, Hv, Hr. apply (number_of_ok fe (us "PatternPlural")) in Hn. rewrite Hn.
    eapply number_act; eauto.
  Qed.
  Lemma ordinal_act ph sels k rules f branch body : mget ph vals = Some (VUnsigned k) ->
    fe_ordinal fe locale = Some rules -> fe_decimal fe locale None = Some f ->
    by_selector sels (plural_category (rules (fe_unsigned fe k))) branch -> mget branch strs = Some body ->
    act_of (SPat ph (Some (us "ordinal", sels))) = ACall branch (Some (f (fe_unsigned fe k))).
  Proof.
    intros Hv Hr Hf Hb Hs. cbn [item_act]. unfold kw_act.
    rewrite (proj2 (ueqb_neq (us "ordinal") (us "decimal"))) by discriminate.
    rewrite (proj2 (ueqb_neq (us "ordinal") (us "date_time"))) by discriminate.
    rewrite ueqb_refl, Hv, Hr. eapply number_act; eauto.
  Qed.

  (** ** The specification gives at most one text *)
  Lemma rens_det n l t : rens n l t -> all_checked l -> forall t', rens n l t' -> t = t'.
  Proof.
    apply (renders_mut fe reg locale vals strs by_selector by_selector
             (fun n l t => all_checked l -> forall t', rens n l t' -> t = t')
             (fun n x t => checked x -> forall t', ren n x t' -> t = t')); clear n l t; intros n.
    - intros _ t' H. inversion H; reflexivity.
    - intros x l s t Hx IHx Hl IHl Hc t' H. inversion H as [|x' l' s1 t1 H1 H2]; subst. f_equal.
      + apply IHx; [apply Hc; now left|exact H1].
      + apply IHl; [intros y Hy; apply Hc; now right|exact H2].
    - intros w _ t' H. inversion H; reflexivity.
    - intros s Hn _ t' H. inversion H; congruence.
    - intros ph v s H1 H2 Hc t' H. inversion H; subst. congruence.
    - intros ph v dec f H1 H2 H3 Hc t' H. apply (act_iff _ _ _ Hc) in H.
      assert (G : ren n (SPat ph (Some (us "decimal", []))) (f dec)) by (econstructor; eauto).
      apply (act_iff _ _ _ Hc) in G. cbn in G, H. congruence.
    - intros ph v m s H1 H2 H3 Hc t' H. apply (act_iff _ _ _ Hc) in H.
      assert (G : ren n (SPat ph (Some (us "date_time", []))) s) by (econstructor; eauto).
      apply (act_iff _ _ _ Hc) in G. cbn in G, H. congruence.
    - intros ph sels v key branch body t Hv Ht Hb Hs _ IH Hc t' H. apply (act_iff _ _ _ Hc) in H.
      rewrite (select_act _ _ _ _ _ Hv Ht Hb) in H. destruct H as (body' & Hs' & H).
      assert (body' = body) as -> by congruence. apply IH; [exact (Hchk _ _ Hs)|exact H].
    - intros ph sels v dec rules f branch body t Hv Hn Hr Hf Hb Hs _ IH Hc t' H. apply (act_iff _ _ _ Hc) in H.
      rewrite (plural_act _ _ _ _ _ _ _ _ Hv Hn Hr Hf Hb Hs) in H. destruct H as (body' & Hs' & H).
      assert (body' = body) as -> by congruence. apply IH; [exact (Hchk _ _ Hs)|exact H].
    - intros ph sels k rules f branch body t Hv Hr Hf Hb Hs _ IH Hc t' H. apply (act_iff _ _ _ Hc) in H.
      rewrite (ordinal_act _ _ _ _ _ _ _ Hv Hr Hf Hb Hs) in H. destruct H as (body' & Hs' & H).
      assert (body' = body) as -> by congruence. apply IH; [exact (Hchk _ _ Hs)|exact H].
    - intros name args f t H1 H2 Hc t' H. apply (act_iff _ _ _ Hc) in H.
      assert (G : ren n (SCmd (SId name :: map SId args)) t) by (econstructor; eauto).
      apply (act_iff _ _ _ Hc) in G. cbn [item_act act_means] in G, H. congruence.
    - intros name args f t H1 H2 Hc t' H. apply (act_iff _ _ _ Hc) in H.
      assert (G : ren n (SCmd (SId name :: SDelay :: map SId args)) t) by (econstructor; eauto).
      apply (act_iff _ _ _ Hc) in G. cbn [item_act act_means] in G, H. congruence.
  Qed.

  (** ** If the specification gives a text, evaluation succeeds *)
  Definition act_good (f : nat) (x : act) : Prop :=
    match x with APure r => is_ok r | AHash => True | ACall m _ => okf fe reg locale vals strs f m end.
  Lemma act_good_run f self x st : act_good f x -> is_ok (snd (run (ev f strs) self x st)).
  Proof.
    destruct x as [r| |m [v|]]; cbn [act_good run_act snd]; auto; [eexists; reflexivity|..]; intros H; now apply okf_any.
  Qed.
  Lemma okf_mono f f' m : f <= f' -> okf fe reg locale vals strs f m -> okf fe reg locale vals strs f' m.
  Proof.
    intros Hle (t & H). unfold okf. destruct (ev f strs m (fun _ => [])) as [st' r] eqn:E. cbn in H. subst r.
    rewrite (ev_mono fe reg locale vals strs f f' m _ st' (Ok t) Hle E); [eexists; reflexivity|discriminate].
  Qed.
  Lemma act_good_mono f f' x : f <= f' -> act_good f x -> act_good f' x.
  Proof. destruct x; cbn [act_good]; auto. apply okf_mono. Qed.

  Lemma evs_good f self l : (forall x, In x l -> act_good f (act_of x)) ->
    forall st, is_ok (snd (evs (ev f strs) strs self l st)).
  Proof.
    induction l as [|x l IH]; intros H st; [eexists; reflexivity|]. rewrite evs_cons.
    pose proof (act_good_run f self _ st (H x (or_introl eq_refl))) as Hx.
    destruct (run (ev f strs) self (act_of x) st) as [st1 r1]. destruct Hx as (s & Hx). cbn in Hx. subst r1.
    destruct (IH (fun y Hy => H y (or_intror Hy)) st1) as (s' & Hl).
    destruct (evs (ev f strs) strs self l st1) as [st2 r2]. cbn in Hl. subst r2. eexists; reflexivity.
  Qed.

  Lemma rens_good n l t : rens n l t -> all_checked l -> exists f, forall x, In x l -> act_good f (act_of x).
  Proof.
    apply (renders_mut fe reg locale vals strs by_selector by_selector
             (fun n l t => all_checked l -> exists f, forall x, In x l -> act_good f (act_of x))
             (fun n x t => checked x -> exists f, act_good f (act_of x))); clear n l t; intros n.
    - intros _. exists 0. intros x [].
    - intros x l s t _ IHx _ IHl Hc. destruct IHx as (f1 & H1); [apply Hc; now left|].
      destruct IHl as (f2 & H2); [intros y Hy; apply Hc; now right|].
      exists (f1 + f2). intros y [<-|Hy]; [apply (act_good_mono f1)|apply (act_good_mono f2)]; auto; lia.
    - intros w _. exists 0. eexists; reflexivity.
    - intros s Hn _. now exists 0.
    - intros ph v s H1 H2 Hc. exists 0. assert (G : ren n (SPat ph None) s) by (econstructor; eauto).
      apply (act_iff _ _ _ Hc) in G. cbn in G |- *. eexists; exact G.
    - intros ph v dec f H1 H2 H3 Hc. exists 0.
      assert (G : ren n (SPat ph (Some (us "decimal", []))) (f dec)) by (econstructor; eauto).
      apply (act_iff _ _ _ Hc) in G. cbn in G |- *. eexists; exact G.
    - intros ph v m s H1 H2 H3 Hc. exists 0.
      assert (G : ren n (SPat ph (Some (us "date_time", []))) s) by (econstructor; eauto).
      apply (act_iff _ _ _ Hc) in G. cbn in G |- *. eexists; exact G.
    - intros ph sels v key branch body t Hv Ht Hb Hs _ IH Hc. destruct (IH (Hchk _ _ Hs)) as (f & Hf). exists (S f).
      rewrite (select_act _ _ _ _ _ Hv Ht Hb). cbn [act_good]. unfold okf. cbn [astring]. rewrite Hs. now apply evs_good.
    - intros ph sels v dec rules f branch body t Hv Hn Hr Hf Hb Hs _ IH Hc. destruct (IH (Hchk _ _ Hs)) as (g & Hg).
      exists (S g). rewrite (plural_act _ _ _ _ _ _ _ _ Hv Hn Hr Hf Hb Hs). cbn [act_good]. unfold okf. cbn [astring].
      rewrite Hs. now apply evs_good.
    - intros ph sels k rules f branch body t Hv Hr Hf Hb Hs _ IH Hc. destruct (IH (Hchk _ _ Hs)) as (g & Hg).
      exists (S g). rewrite (ordinal_act _ _ _ _ _ _ _ Hv Hr Hf Hb Hs). cbn [act_good]. unfold okf. cbn [astring].
      rewrite Hs. now apply evs_good.
    - intros name args f t H1 H2 Hc. exists 0.
      assert (G : ren n (SCmd (SId name :: map SId args)) t) by (econstructor; eauto).
      apply (act_iff _ _ _ Hc) in G. cbn [item_act act_means act_good] in *. eexists; exact G.
    - intros name args f t H1 H2 Hc. exists 0.
      assert (G : ren n (SCmd (SId name :: SDelay :: map SId args)) t) by (econstructor; eauto).
      apply (act_iff _ _ _ Hc) in G. cbn [item_act act_means act_good] in *. eexists; exact G.
  Qed.

  (** ** The text evaluation gives *)
  (** No number sign in strings called without a number. *)
  Hypothesis Hsel : forall k l x m l', mget k strs = Some l -> In x l -> act_of x = ACall m None ->
    mget m strs = Some l' -> ~ In SHash l'.

  Lemma ev_sound f : forall m st st' t l n, ev f strs m st = (st', Ok t) -> mget m strs = Some l ->
    (In SHash l -> n = Some (st m)) -> rens n l t.
  Proof.
    induction f as [f IH] using lt_wf_ind. intros m st st' t l n H Hl Hn.
    assert (Hok : okf fe reg locale vals strs f m) by (apply okf_any with (st := st); rewrite H; eexists; reflexivity).
    apply okf_least in Hok as (f0 & Hle & Hok & Hmin).
    assert (H0 : ev f0 strs m st = (st', Ok t)).
    { apply (okf_any _ _ _ _ _ _ _ st) in Hok as (t0 & Ht0). destruct (ev f0 strs m st) as [st0 r0] eqn:E0. cbn in Ht0. subst r0.
      assert (E1 : ev f strs m st = (st0, Ok t0)) by (apply (ev_mono _ _ _ _ _ f0); auto; discriminate). rewrite E1 in H. exact H. }
    destruct f0 as [|g]; [discriminate|]. cbn [astring] in H0. rewrite Hl in H0.
    assert (Hg : ~ okf fe reg locale vals strs g m) by (apply Hmin; lia).
    assert (Hgen : forall k s s' u, (forall x, In x k -> In x l) -> s m = st m ->
              evs (ev g strs) strs m k s = (s', Ok u) -> rens n k u).
    { clear H0. intros k. induction k as [|x k IHk]; intros s s' u Hk Hs Hu.
      - cbn in Hu. injection Hu as _ <-. constructor.
      - apply evs_ok_inv in Hu as (s1 & u1 & u2 & Hx & Hr & ->).
        assert (Hinx : In x l) by (apply Hk; now left).
        assert (Hc : checked x) by (apply (Hchk _ _ Hl); exact Hinx).
        assert (Hboth : act_means fe reg locale vals strs (act_of x) n u1 /\ s1 m = st m).
        { destruct (act_of x) as [r| |m' [v|]] eqn:Ea; cbn [run_act act_means] in *.
          - injection Hx as <- ->. auto.
          - injection Hx as <- <-. split; [|exact Hs]. apply act_hash in Ea. subst x. rewrite Hs. auto.
          - assert (Hne : m <> m').
            { intros <-. apply Hg. apply (okf_any _ _ _ _ _ _ _ (upd s m v)). rewrite Hx. eexists; reflexivity. }
            split.
            + destruct (mget m' strs) as [l'|] eqn:El'.
              * exists l'. split; [reflexivity|]. apply (IH g) with (m := m') (st := upd s m' v) (st' := s1); auto; try lia.
                intros _. unfold upd. now rewrite ueqb_refl.
              * destruct g; [discriminate|]. cbn [astring] in Hx. rewrite El' in Hx. discriminate.
            + rewrite (keep fe reg locale vals strs g m) with (1 := fun f' H' => Hmin f' (Nat.lt_lt_succ_r _ _ H')) (2 := Hx).
              unfold upd. apply ueqb_neq in Hne. now rewrite Hne.
          - split.
            + destruct (mget m' strs) as [l'|] eqn:El'.
              * exists l'. split; [reflexivity|]. apply (IH g) with (m := m') (st := s) (st' := s1); auto; try lia.
                intros Hh. exfalso. exact (Hsel _ _ _ _ _ Hl Hinx Ea El' Hh).
              * destruct g; [discriminate|]. cbn [astring] in Hx. rewrite El' in Hx. discriminate.
            + rewrite (keep fe reg locale vals strs g m) with (1 := fun f' H' => Hmin f' (Nat.lt_lt_succ_r _ _ H')) (2 := Hx).
              exact Hs. }
        destruct Hboth as (Hm & Hs1). constructor; [now apply act_iff|].
        apply (IHk s1 s'); auto. intros y Hy. apply Hk. now right. }
    apply (Hgen l st st' t); auto.
  Qed.

  Theorem ev_iff m l n t st : mget m strs = Some l -> (In SHash l -> n = Some (st m)) ->
    (exists f, snd (ev f strs m st) = Ok t) <-> rens n l t.
  Proof.
    intros Hl Hn. split.
    - intros (f & H). destruct (ev f strs m st) as [st' r] eqn:E. cbn in H. subst r. exact (ev_sound _ _ _ _ _ _ _ E Hl Hn).
    - intros H. destruct (rens_good _ _ _ H (Hchk _ _ Hl)) as (f & Hf).
      pose proof (evs_good f m l Hf st) as (t' & Ht'). exists (S f). cbn [astring]. rewrite Hl.
      destruct (evs (ev f strs) strs m l st) as [st' r] eqn:E. cbn in Ht'. subst r. cbn.
      assert (E' : ev (S f) strs m st = (st', Ok t')) by (cbn [astring]; now rewrite Hl).
      pose proof (ev_sound _ _ _ _ _ _ _ E' Hl Hn) as H'. f_equal. symmetry.
      exact (rens_det _ _ _ H (Hchk _ _ Hl) _ H').
  Qed.

  (** The result does not depend on the numbers left by earlier evaluations. *)
  Theorem ev_history f m l st st2 : mget m strs = Some l -> ~ In SHash l ->
    snd (ev f strs m st) = snd (ev f strs m st2).
  Proof.
    intros Hl Hh. destruct (ev_shape fe reg locale vals strs f m st st2) as [((t & H1) & t2 & H2)|H]; [|exact H].
    destruct (ev f strs m st) as [s1 r1] eqn:E1, (ev f strs m st2) as [s2 r2] eqn:E2. cbn in *. subst r1 r2. f_equal.
    assert (R1 : rens None l t) by (apply (ev_sound _ _ _ _ _ _ _ E1 Hl); intros; contradiction).
    assert (R2 : rens None l t2) by (apply (ev_sound _ _ _ _ _ _ _ E2 Hl); intros; contradiction).
    exact (rens_det _ _ _ R1 (Hchk _ _ Hl) _ R2).
  Qed.
End Eval.
