(** Proofs for C109. *)
From Verif Require Import Base BaseFacts LexerModel LexerSpec TreeModel TreeSpec DocSpec ValueModel CommandModel IsoModel
  FormatterModel FormatterAbs FormatterRefine FormatterRefine2 FormatterSim FormatterActs FormatterSpec FormatterProofs FormatterProofs2 FormatterProofs3 FormatterProofs4 LoopSpec.
Local Opaque us.

Section Loop.
  Variables (fe : fmtenv) (reg : cregistry) (locale : ustr) (vals : amap pvalue) (a : sast).
  Hypothesis Hreg : forall name f args, mget name reg = Some f -> f args <> NoFuel.
  Hypothesis Hc : content_check fe reg locale a = Ok tt.
  Hypothesis Hh : hash_in_plurals_only a.
  Notation strs := (strings_of a).
  Notation ev f := (astring fe reg locale vals f (strings_of a)).
  Notation act_of := (item_act fe reg locale vals (strings_of a)).
  Notation rens := (renders fe reg locale vals (strings_of a) by_selector by_selector).
  Notation good := (act_good fe reg locale vals (strings_of a)).
  Notation stands := (stands_for fe locale vals).
  Notation back := (leads_back fe reg locale vals a).

  Let Hchk : forall m l, mget m strs = Some l -> all_checked fe reg locale l.
  Proof. intros m l. exact (strings_checked fe reg locale a m l Hc). Qed.
  Let Hsel : forall k l x m l', mget k strs = Some l -> In x l -> act_of x = ACall m None -> mget m strs = Some l' -> ~ In SHash l'.
  Proof. intros k l x m l'. exact (select_targets fe reg locale a Hc Hh vals k l x m l'). Qed.

  Lemma stands_act x m u body : stands x m u -> mget m strs = Some body -> act_of x = ACall m u.
  Proof.
    intros H Hb. destruct H as [ph sels v key H1 H2 H3|ph sels v dec rules f H1 H2 H3 H4 H5|ph sels k rules f H1 H2 H3 H4].
    - apply (select_act fe reg locale vals strs ph sels v key key H1 H2). now split.
    - apply (plural_act fe reg locale vals strs ph sels v dec rules f _ body H1 H2 H3 H4); [now split|exact Hb].
    - apply (ordinal_act fe reg locale vals strs ph sels k rules f _ body H1 H2 H3); [now split|exact Hb].
  Qed.
  Lemma act_stands x m u : checked fe reg locale x -> act_of x = ACall m u -> stands x m u.
  Proof.
    intros (known & main & Hx). destruct x as [w| |ph [[kw sels]|]|ps]; cbn [item_act]; try discriminate. cbn [item_check] in Hx.
    assert (Hn : forall d r, num_act fe locale strs sels d r = ACall m u -> exists f, fe_decimal fe locale None = Some f /\ In m (map fst sels) /\ m = plural_category (r d) /\ u = Some (f d)).
    { intros d r. unfold num_act. destruct (fe_decimal fe locale None) as [f|]; [|discriminate]. cbv zeta. rewrite pairs_get.
      destruct (umem _ (map fst sels)) eqn:Em; [|discriminate]. destruct (mget _ strs); [|discriminate]. intros [= <- <-]. exists f. apply umem_In in Em. auto. }
    unfold kw_act. unfold kw_check in Hx. destruct (ueqb kw (us "decimal")); [discriminate|]. destruct (ueqb kw (us "date_time")); [discriminate|].
    destruct (mget ph vals) as [v|] eqn:Ev; [|discriminate].
    destruct (ueqb_spec kw (us "ordinal")) as [->|N3].
    { destruct (fe_ordinal fe locale) as [rules|] eqn:Er; [|discriminate]. destruct v; try discriminate. intros H. apply Hn in H as (f & H1 & H2 & -> & ->).
      eapply sf_ordinal; eauto. }
    destruct (ueqb_spec kw (us "plural")) as [->|N4].
    { destruct (fe_cardinal fe locale) as [rules|] eqn:Er; [|discriminate]. destruct (number_of fe (us "PatternPlural") v) as [d| | |] eqn:En; try discriminate.
      intros H. apply Hn in H as (f & H1 & H2 & -> & ->). apply number_of_ok in En. eapply sf_plural; eauto. }
    cbn [orb] in Hx. destruct (ueqb_spec kw (us "select")) as [->|N5]; [|discriminate Hx].
    destruct (value_text v) as [s|] eqn:Et; [|discriminate]. rewrite pairs_get. destruct (umem s (map fst sels)) eqn:Em; [|discriminate].
    intros [= <- <-]. apply umem_In in Em. eapply sf_select; eauto.
  Qed.

  (** Items that give a text by themselves give one in the specification. *)
  Lemma good_renders f k body n : mget k strs = Some body -> (In SHash body -> n <> None) ->
    forall l, incl l body -> (forall x, In x l -> good f (act_of x)) -> exists t, rens n l t.
  Proof.
    intros Hk Hn. induction l as [|x l IH]; intros Hl Hg; [exists []; constructor|].
    destruct IH as (t & Ht); [intros y Hy; apply Hl; now right|intros y Hy; apply Hg; now right|].
    assert (Hx : In x body) by (apply Hl; now left). pose proof (Hchk _ _ Hk x Hx) as Hcx.
    assert (exists s, act_means fe reg locale vals strs (act_of x) n s) as (s & Hs).
    { pose proof (Hg x (or_introl eq_refl)) as G. destruct (act_of x) as [r| |m u] eqn:Ea; cbn [act_good act_means] in *.
      - destruct G as (s & ->). now exists s.
      - apply act_hash in Ea. subst x. specialize (Hn Hx). destruct n as [s|]; [now exists s|congruence].
      - assert (exists st : numst, forall v, u = Some v -> st m = v) as (st & Hst) by (exists (fun _ => match u with Some v => v | None => [] end); now intros v ->).
        destruct (proj1 (okf_any fe reg locale vals strs f m st) G) as (s & Es).
        destruct (ev f m st) as [st' r] eqn:E. cbn in Es. subst r. destruct (mget m strs) as [l'|] eqn:El.
        + exists s, l'. split; [reflexivity|]. apply (ev_sound fe reg locale vals strs Hchk Hsel f m st st' s l' u E El).
          intros Hi. destruct u as [v|]; [now rewrite (Hst v)|]. exfalso. exact (Hsel _ _ _ _ _ Hk Hx Ea El Hi).
        + destruct f as [|f]; [discriminate E|]. cbn [astring] in E. rewrite El in E. discriminate E. }
    exists (s ++ t). constructor; [now apply act_iff|exact Ht].
  Qed.

  (** Where evaluation runs out of fuel. *)
  Lemma stuck f self l : forall st, snd (aitems fe reg locale vals (ev f) strs self l st) = NoFuel ->
    exists l1 x l2 st1, l = l1 ++ x :: l2 /\ (forall y, In y l1 -> good f (act_of y)) /\ snd (run_act (ev f) self (act_of x) st1) = NoFuel.
  Proof.
    induction l as [|x l IH]; intros st; [discriminate|]. rewrite evs_cons.
    destruct (run_act (ev f) self (act_of x) st) as [st1 r1] eqn:E. destruct r1 as [s|e| |]; try discriminate.
    - destruct (aitems fe reg locale vals (ev f) strs self l st1) as [st2 r2] eqn:E2. intros H.
      destruct (IH st1) as (l1 & y & l2 & st3 & -> & H1 & H2); [rewrite E2; destruct r2; cbn in *; congruence|].
      exists (x :: l1), y, l2, st3. split; [reflexivity|]. split; [|exact H2]. intros z [<-|Hz]; [|now apply H1].
      destruct (act_of x) as [r| |m u] eqn:Ea; cbn [act_good].
      + cbn in E. injection E as _ ->. now exists s.
      + exact I.
      + assert (E' : exists st0, ev f m st0 = (st1, Ok s)) by (destruct u; cbn in E; eauto). destruct E' as (st0 & E').
        apply (okf_any _ _ _ _ _ _ _ st0). rewrite E'. now exists s.
    - intros _. exists [], x, l, st. split; [reflexivity|]. split; [intros y []|]. now rewrite E.
  Qed.
  Let Hreg' : forall name f args, mget name reg = Some f -> Forall (fun _ => True) args -> excl false (f (VString name :: args)).
  Proof. intros name f args H _. apply excl_fuel. eapply Hreg. exact H. Qed.
  Lemma stuck_call f self x st : snd (run_act (ev f) self (act_of x) st) = NoFuel -> exists m u st', act_of x = ACall m u /\ snd (ev f m st') = NoFuel.
  Proof.
    intros H. destruct (act_of x) as [r| |m u] eqn:Ea; cbn [run_act snd] in H; [|discriminate H|].
    - exfalso. assert (G : excl false r).
      { eapply (pure_excl false fe reg locale (fun _ => True) Hreg' vals (fun _ _ _ => I)); [|exact Ea]. destruct x; cbn; auto. }
      subst r. discriminate G.
    - destruct u as [v|]; eauto.
  Qed.
  Lemma string_back f k body n known main : mget k strs = Some body -> items_check fe reg locale known main body = Ok tt -> (In SHash body -> n <> None) ->
    (forall m, In m known -> mget m strs <> None) ->
    (forall m u st body', In m known -> m <> us "_" -> mget m strs = Some body' -> (In SHash body' -> u <> None) -> snd (ev f m st) = NoFuel -> back u body') ->
    forall st, snd (ev (S f) k st) = NoFuel -> back n body.
  Proof.
    intros Hk Hi Hn Hall Hrec st H. cbn [astring] in H. rewrite Hk in H. apply stuck in H as (l1 & x & l2 & st1 & E & Hg & Hx).
    assert (Hin : In x body) by (rewrite E; apply in_or_app; right; now left).
    destruct (good_renders f k body n Hk Hn l1) as (t & Ht); [rewrite E; intros y Hy; apply in_or_app; now left|exact Hg|].
    apply stuck_call in Hx as (m & u & st2 & Ea & Hx).
    pose proof (items_check_all _ _ _ _ _ _ Hi x Hin) as Hxc. destruct (item_call _ _ _ _ _ _ _ _ _ _ Hxc Ea) as (Hm & _ & _).
    pose proof (act_stands x m u (Hchk _ _ Hk x Hin) Ea) as Hs. rewrite E.
    destruct (ueqb_spec m (us "_")) as [->|Hne]; [exact (lb_main fe reg locale vals a n l1 x l2 t u Ht Hs)|].
    destruct (mget m strs) as [body'|] eqn:Eb.
    - apply (lb_in fe reg locale vals a n l1 x l2 t m u body' Ht Hs Eb). apply (Hrec m u st2 body' Hm Hne Eb); [|exact Hx].
      intros Hi'. destruct u; [discriminate|]. exfalso. exact (Hsel _ _ _ _ _ Hk Hin Ea Eb Hi').
    - exfalso. exact (Hall m Hm Eb).
  Qed.
  Lemma known_there m : In m (us "_" :: map fst (group_of a)) -> mget m strs <> None.
  Proof. intros H E. apply mget_None_keys in E. exact (E H). Qed.
  Lemma named_back : forall k pre id body post, List.length pre = k -> group_of a = pre ++ (id, body) :: post ->
    forall f n st, k < f -> (In SHash body -> n <> None) -> snd (ev f id st) = NoFuel -> back n body.
  Proof.
    induction k as [k IH] using lt_wf_ind. intros pre id body post Ek E f n st Hf Hn H. destruct f as [|f]; [lia|].
    destruct (content_check_all _ _ _ _ Hc) as (Hg & _). destruct (Hg _ _ _ _ E) as (Hid & Hit).
    assert (Hm : mget id strs = Some body).
    { apply (mget_nodup _ _ _ (group_nodup _ _ _ _ Hc)). right. rewrite E. apply in_or_app. right. now left. }
    apply (string_back f id body n _ _ Hm Hit Hn) with (st := st); [| |exact H].
    - intros m [<-|Hi]; apply known_there; [now left|right]. rewrite E, map_app. apply in_or_app. now left.
    - intros m u st' body' [<-|Hi] Hne Eb Hu Hx; [congruence|]. apply in_map_iff in Hi as ((m' & b) & <- & Hi). cbn [fst] in *.
      apply in_split in Hi as (p1 & p2 & ->).
      assert (E' : group_of a = p1 ++ (m', b) :: (p2 ++ (id, body) :: post)) by (rewrite E, <- app_assoc; reflexivity).
      assert (Hb : mget m' strs = Some b).
      { apply (mget_nodup _ _ _ (group_nodup _ _ _ _ Hc)). right. rewrite E'. apply in_or_app. right. now left. }
      rewrite Hb in Eb. injection Eb as <-. rewrite app_length in Ek. cbn in Ek.
      apply (IH (List.length p1) ltac:(lia) p1 m' b _ eq_refl E' f u st'); [lia|exact Hu|exact Hx].
  Qed.
  Lemma main_here : mget (us "_") strs = Some (fst a).
  Proof. cbn [strings_of mget]. now rewrite ueqb_refl. Qed.
  Lemma main_back f st : List.length (group_of a) < f -> snd (ev f (us "_") st) = NoFuel -> back None (fst a).
  Proof.
    intros Hf H. destruct f as [|f]; [lia|]. destruct (content_check_all _ _ _ _ Hc) as (_ & Hm).
    apply (string_back f (us "_") (fst a) None _ _ main_here Hm) with (st := st); [ | | |exact H].
    - intros Hi. now apply (main_no_hash _ _ _ _ Hc) in Hi.
    - apply known_there.
    - intros m u st' body' [<-|Hi] Hne Eb Hu Hx; [congruence|]. apply in_map_iff in Hi as ((m' & b) & <- & Hi). cbn [fst] in *.
      apply in_split in Hi as (p1 & p2 & E).
      assert (Hb : mget m' strs = Some b).
      { apply (mget_nodup _ _ _ (group_nodup _ _ _ _ Hc)). right. rewrite E. apply in_or_app. right. now left. }
      rewrite Hb in Eb. injection Eb as <-. pose proof E as El. apply (f_equal (@List.length _)) in El. rewrite app_length in El. cbn in El.
      apply (named_back (List.length p1) p1 m' b _ eq_refl E f u st'); [lia|exact Hu|exact Hx].
  Qed.

  (** A prefix that has a text is evaluated, or fuel runs out in it. *)
  Lemma prefix_run f self n l1 t r : rens n l1 t -> all_checked fe reg locale l1 -> forall st,
    snd (aitems fe reg locale vals (ev f) strs self (l1 ++ r) st) = NoFuel \/
    exists st1 s, aitems fe reg locale vals (ev f) strs self (l1 ++ r) st =
      match aitems fe reg locale vals (ev f) strs self r st1 with (st2, Ok s') => (st2, Ok (s ++ s')) | o => o end.
  Proof.
    intros H Hcl. destruct (rens_good fe reg locale vals strs Hchk n l1 t H Hcl) as (g & Hg). clear H Hcl t n. induction l1 as [|x l1 IH]; intros st.
    - right. exists st, []. cbn [app]. destruct (aitems fe reg locale vals (ev f) strs self r st) as [st2 [s| | |]]; reflexivity.
    - cbn [app]. rewrite evs_cons. pose proof (Hg x (or_introl eq_refl)) as Gx.
      assert (Hx : snd (run_act (ev f) self (act_of x) st) = NoFuel \/ exists s, snd (run_act (ev f) self (act_of x) st) = Ok s).
      { destruct (act_of x) as [q| |m u]; cbn [act_good run_act snd] in *.
        - now right.
        - right. now eexists.
        - assert (G : forall st0, snd (ev f m st0) = NoFuel \/ exists s, snd (ev f m st0) = Ok s).
          { intros st0. destruct (ev f m st0) as [st' q] eqn:E. cbn [snd]. destruct q as [s|e| |]; eauto.
            - exfalso. apply (ev_mono fe reg locale vals strs f (f + g)) in E; [|lia|discriminate]. apply (okf_mono fe reg locale vals strs g (f + g)) in Gx; [|lia].
              destruct (proj1 (okf_any fe reg locale vals strs (f + g) m st0) Gx) as (s & Es). rewrite E in Es. discriminate Es.
            - exfalso. apply (ev_mono fe reg locale vals strs f (f + g)) in E; [|lia|discriminate]. apply (okf_mono fe reg locale vals strs g (f + g)) in Gx; [|lia].
              destruct (proj1 (okf_any fe reg locale vals strs (f + g) m st0) Gx) as (s & Es). rewrite E in Es. discriminate Es. }
          destruct u; apply G. }
      destruct (run_act (ev f) self (act_of x) st) as [st1 q]. cbn [snd] in Hx. destruct Hx as [->|(s & ->)]; [now left|].
      destruct (IH (fun y Hy => Hg y (or_intror Hy)) st1) as [Hl|(st2 & s' & Hl)].
      + left. destruct (aitems fe reg locale vals (ev f) strs self (l1 ++ r) st1) as [st2 q]. cbn [snd] in Hl. now subst q.
      + right. exists st2, (s ++ s'). rewrite Hl. destruct (aitems fe reg locale vals (ev f) strs self r st2) as [st3 [w| | |]]; try reflexivity. now rewrite app_assoc.
  Qed.
  Lemma back_never : back None (fst a) -> forall f k body n st, mget k strs = Some body -> back n body -> snd (ev f k st) = NoFuel.
  Proof.
    intros H0. induction f as [|f IH]; intros k body n st Hk H; [reflexivity|]. cbn [astring]. rewrite Hk.
    assert (G : exists l1 x l2 t m u body' n', body = l1 ++ x :: l2 /\ rens n l1 t /\ stands x m u /\ mget m strs = Some body' /\ back n' body').
    { destruct H as [l1 x l2 t u H1 H2|l1 x l2 t m u body' H1 H2 H3 H4].
      - exists l1, x, l2, t, (us "_"), u, (fst a), None. repeat split; auto.
      - exists l1, x, l2, t, m, u, body', u. repeat split; auto. }
    destruct G as (l1 & x & l2 & t & m & u & body' & n' & E & H1 & H2 & H3 & H4). pose proof (Hchk _ _ Hk) as Hcb. subst body.
    destruct (prefix_run f k n l1 t (x :: l2) H1) with (st := st) as [G|(st1 & s & ->)]; [intros y Hy; apply Hcb; apply in_or_app; now left|exact G|].
    rewrite evs_cons, (stands_act x m u body' H2 H3). 
    assert (G : snd (run_act (ev f) k (ACall m u) st1) = NoFuel) by (destruct u; cbn [run_act]; exact (IH m body' n' _ H3 H4)).
    destruct (run_act (ev f) k (ACall m u) st1) as [st2 q]. cbn [snd] in G. now subst q.
  Qed.
End Loop.

Section Strings.
  Variables (d : icu) (grammar : ustr) (fe : fmtenv) (reg : cregistry) (tag locale : ustr).
  Lemma loop_iff s a fm fm' vals : content_of d grammar s a -> hash_in_plurals_only a -> (forall name f args, mget name reg = Some f -> f args <> NoFuel) ->
    formatter_try_new d grammar fe reg tag locale s = Ok fm -> after_formatting fe reg fm fm' ->
    (diverges fe reg fm' vals <-> leads_back fe reg locale vals a None (fst a)) /\
    (forall fuel, List.length (group_of a) < fuel -> snd (format fuel fe reg fm' vals) = NoFuel -> diverges fe reg fm' vals).
  Proof.
    intros Ha Hh Hreg Hf Haf. destruct (try_new_inv d grammar fe reg tag locale s a fm Ha Hf) as (Hc & Hrep & _).
    destruct (after_sim fe reg locale fm a fm' Hrep Haf) as (st & Hsim).
    assert (H1 : forall fuel, List.length (group_of a) < fuel -> snd (format fuel fe reg fm' vals) = NoFuel -> leads_back fe reg locale vals a None (fst a)).
    { intros fuel Hl H. apply (same_fuel _ _ (Hsim vals fuel)) in H. exact (main_back fe reg locale vals a Hreg Hc Hh fuel st Hl H). }
    assert (H2 : leads_back fe reg locale vals a None (fst a) -> diverges fe reg fm' vals).
    { intros H fuel. apply (same_fuel _ _ (Hsim vals fuel)). exact (back_never fe reg locale vals a Hc H fuel (us "_") (fst a) None st (main_here a) H). }
    split; [split; [|exact H2]|].
    - intros H. exact (H1 (S (List.length (group_of a))) ltac:(lia) (H _)).
    - intros fuel Hl H. exact (H2 (H1 fuel Hl H)).
  Qed.
End Strings.
