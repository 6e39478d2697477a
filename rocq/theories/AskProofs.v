(** Proofs for C98. *)
From Verif Require Import Base BaseFacts LexerModel LexerSpec TreeModel TreeSpec DocSpec ValueModel CommandModel IsoModel FormatterModel FormatterSpec FormatterProofs4
  RegistryModel LocaliserModel LocaliserSpec LocaliserProofs MemorySpec MemoryProofs CallsModel CallsSpec CallsProofs CallsProofs2 LocCallsModel LocCallsProofs2
  AskModel AskSpec.
Local Opaque us.

Section Ask.
  Context {PE W : Type}.
  Variables (E : lenv PE) (reg : wregistry W) (P : wprovider PE W).

  Lemma find_asks c i t fb w w' r : xfind_string P c i t fb w = (w', r) <-> asks P c i t fb w w' r.
  Proof.
    unfold xfind_string. split.
    - intros H. destruct (wp_string P c i t w) as (w1 & [[x|]|e| |]) eqn:E1.
      + injection H as <- <-. now apply as_string.
      + destruct fb; cbn [negb] in H; [|injection H as <- <-; now apply as_none].
        destruct (wp_default P c w1) as (w2 & [d|e| |]) eqn:E2.
        * destruct (wp_string P c i d w2) as (w3 & [[x|]|e| |]) eqn:E3; injection H as <- <-.
          -- now apply as_default with w1 w2 d.
          -- now apply as_default_none with w1 w2 d.
          -- now apply as_default_failed with w1 w2 d (Err e).
          -- now apply as_default_failed with w1 w2 d Panic.
          -- now apply as_default_failed with w1 w2 d NoFuel.
        * injection H as <- <-. now apply as_no_default with w1 (Err e).
        * injection H as <- <-. now apply as_no_default with w1 Panic.
        * injection H as <- <-. now apply as_no_default with w1 NoFuel.
      + injection H as <- <-. now apply as_failed with (Err e).
      + injection H as <- <-. now apply as_failed with Panic.
      + injection H as <- <-. now apply as_failed with NoFuel.
    - intros H. destruct H as [r H|x y H Hf|Hb H|w1 x y Hb H H1 Hf|w1 w2 d r Hb H H1 H2|w1 w2 d x y Hb H H1 H2 Hf|w1 w2 d Hb H H1 H2]; rewrite H.
      + reflexivity.
      + destruct x; cbn in Hf; [destruct Hf|subst; reflexivity..].
      + now rewrite Hb.
      + rewrite Hb, H1. cbn [negb]. destruct x; cbn in Hf; [destruct Hf|subst; reflexivity..].
      + now rewrite Hb, H1, H2.
      + rewrite Hb, H1, H2. cbn [negb]. destruct x; cbn in Hf; [destruct Hf|subst; reflexivity..].
      + now rewrite Hb, H1, H2.
  Qed.

  (** ** Calls for one string *)
  Lemma given_find r c i t fb : find_string (given E r) c i t fb = Ok r.
  Proof. reflexivity. Qed.
  Lemma run_given r fm vals w : wrun_formatter (given E r) reg fm vals w = wrun_formatter E reg fm vals w.
  Proof. reflexivity. Qed.
  Lemma format_asks st c i vals t fb ca w : cached st t (combined c i) = None -> exists w1 r, asks P c i t fb w w1 r /\
    xactual_format E reg P st c i vals t fb ca w = match r with
                                                   | Ok x => wactual_format (given E x) reg st c i vals t fb ca w1
                                                   | Err e => (w1, (st, Err e))
                                                   | Panic => (w1, (st, Panic))
                                                   | NoFuel => (w1, (st, NoFuel))
                                                   end.
  Proof.
    intros Hc. destruct (xfind_string P c i t fb w) as (w1 & r) eqn:Ef. exists w1, r. split; [now apply find_asks|].
    unfold xactual_format. rewrite Hc, Ef. destruct r as [(s & t')|e| |]; try reflexivity.
    unfold wactual_format. rewrite Hc, given_find. reflexivity.
  Qed.
  Lemma literal_asks st c i t fb ca w : cached st t (combined c i) = None -> exists w1 r, asks P c i t fb w w1 r /\
    xactual_literal P st c i t fb ca w = match r with
                                         | Ok x => (w1, actual_literal (given E x) st c i t fb ca)
                                         | Err e => (w1, (st, Err e))
                                         | Panic => (w1, (st, Panic))
                                         | NoFuel => (w1, (st, NoFuel))
                                         end.
  Proof.
    intros Hc. destruct (xfind_string P c i t fb w) as (w1 & r) eqn:Ef. exists w1, r. split; [now apply find_asks|].
    unfold xactual_literal. rewrite Hc, Ef. destruct r as [(s & t')|e| |]; try reflexivity.
    unfold actual_literal. rewrite Hc, given_find. reflexivity.
  Qed.
  Theorem one_asks st x q w : asks_one st x = Some q -> ~ remembered st q -> exists w1 r,
    asks P (rq_component q) (rq_identifier q) (rq_tag q) (rq_fallback q) w w1 r /\
    xlstep E reg P st x w = match r with
                            | Ok y => wlstep (given E y) reg st x w1
                            | Err e => (w1, (st, Some (Err e)))
                            | Panic => (w1, (st, Some Panic))
                            | NoFuel => (w1, (st, Some NoFuel))
                            end.
  Proof.
    intros Hx Hr. assert (Hc : cached st (rq_tag q) (combined (rq_component q) (rq_identifier q)) = None).
    { unfold remembered in Hr. destruct (cached _ _ _); [destruct Hr; discriminate | reflexivity]. }
    destruct x as [c i vals t f ca|c i vals|c i t f ca|c i|d t f ca|d|t f ca]; try discriminate Hx; injection Hx as <-; cbn [rq_component rq_identifier rq_tag rq_fallback] in *;
      cbn [xlstep wlstep].
    - destruct (format_asks st c i vals t (unwrap_or f (ls_fallback st)) (unwrap_or ca (ls_caching st)) w Hc) as (w1 & r & H1 & ->). exists w1, r. split; [exact H1|]. now destruct r.
    - destruct (format_asks st c i vals (ls_tag st) (ls_fallback st) (ls_caching st) w Hc) as (w1 & r & H1 & ->). exists w1, r. split; [exact H1|]. now destruct r.
    - destruct (literal_asks st c i t (unwrap_or f (ls_fallback st)) (unwrap_or ca (ls_caching st)) w Hc) as (w1 & r & H1 & ->). exists w1, r. split; [exact H1|]. now destruct r.
    - destruct (literal_asks st c i (ls_tag st) (ls_fallback st) (ls_caching st) w Hc) as (w1 & r & H1 & ->). exists w1, r. split; [exact H1|]. now destruct r.
  Qed.
  Lemma format_kept P' st c i vals t fb ca w : cached st t (combined c i) <> None -> xactual_format E reg P' st c i vals t fb ca w = xactual_format E reg P st c i vals t fb ca w.
  Proof. intros H. unfold xactual_format. destruct (cached st t (combined c i)) as [[s t'|fm]|]; [reflexivity|reflexivity|congruence]. Qed.
  Lemma literal_kept P' st c i t fb ca w : cached st t (combined c i) <> None -> xactual_literal P' st c i t fb ca w = xactual_literal P st c i t fb ca w.
  Proof. intros H. unfold xactual_literal. destruct (cached st t (combined c i)) as [[s t'|fm]|]; [reflexivity|reflexivity|congruence]. Qed.
  Theorem one_remembered P' st x q w : asks_one st x = Some q -> remembered st q -> xlstep E reg P' st x w = xlstep E reg P st x w.
  Proof.
    intros Hx Hr. unfold remembered in Hr.
    destruct x as [c i vals t f ca|c i vals|c i t f ca|c i|d t f ca|d|t f ca]; try discriminate Hx; injection Hx as <-; cbn [rq_component rq_identifier rq_tag rq_fallback] in *;
      cbn [xlstep]; rewrite ?(format_kept P') by exact Hr; rewrite ?(literal_kept P') by exact Hr; reflexivity.
  Qed.
  Theorem one_quiet st x q w : asks_one st x = Some q -> remembered st q -> rq_literal q = true -> fst (xlstep E reg P st x w) = w /\ fst (snd (xlstep E reg P st x w)) = st.
  Proof.
    intros Hx Hr Hl. unfold remembered in Hr.
    destruct x as [c i vals t f ca|c i vals|c i t f ca|c i|d t f ca|d|t f ca]; try discriminate Hx; injection Hx as <-; cbn [rq_component rq_identifier rq_tag rq_fallback rq_literal] in *;
      try discriminate Hl; cbn [xlstep]; unfold xactual_literal; destruct (cached st _ (combined c i)) as [[s t'|fm]|]; auto; congruence.
  Qed.

  (** ** Localisation data *)
  Lemma call_format c i vals t fb ca st w : xlstep E reg P st (call_for (mk_request c i t fb false) vals ca) w =
    let r := xactual_format E reg P st c i vals t fb ca w in (fst r, (fst (snd r), Some (snd (snd r)))).
  Proof. reflexivity. Qed.
  Lemma call_literal c i t fb ca st w : xlstep E reg P st (call_for (mk_request c i t fb true) [] ca) w =
    let r := xactual_literal P st c i t fb ca w in (fst r, (fst (snd r), Some (snd (snd r)))).
  Proof. reflexivity. Qed.
  Lemma turn_app ca l s s1 x : in_turn E reg P ca l s s1 (Ok x) -> forall l' s2 r, in_turn E reg P ca l' s1 s2 r -> in_turn E reg P ca (l ++ l') s s2 r.
  Proof.
    intros H. remember (Ok x) as o eqn:Eo. revert x Eo. induction H as [q vals w st w' st' r Hq|q vals w st w1 st1 x l s r Hq H IH|q vals w st w1 st1 l r Hq Hr]; intros y Eo l' s2 r2 H'.
    - subst r. cbn. eapply it_next; [exact Hq | exact H'].
    - cbn. eapply it_next; [exact Hq|]. exact (IH y Eo l' s2 r2 H').
    - subst r. destruct (Hr y eq_refl).
  Qed.
  Lemma turn_front ca l s s1 r : in_turn E reg P ca l s s1 r -> (forall x, r <> Ok x) -> forall l', in_turn E reg P ca (l ++ l') s s1 r.
  Proof.
    intros H. induction H as [q vals w st w' st' r Hq|q vals w st w1 st1 x l s r Hq H IH|q vals w st w1 st1 l r Hq Hr]; intros Hn l'.
    - cbn. eapply it_fails; [exact Hq | exact Hn].
    - cbn. eapply it_next; [exact Hq|]. now apply IH.
    - cbn. eapply it_fails; [exact Hq | exact Hn].
  Qed.
  Lemma data_turn t fb ca : forall d st w w' st' r, xactual_format_data E reg P d t fb ca st w = (w', (st', r)) -> in_turn E reg P ca (data_requests t fb d) (w, st) (w', st') r.
  Proof.
    fix IH 1. intros [c i [vs|]] st w w' st' r H.
    2:{ cbn [data_requests]. apply it_last with []. rewrite call_literal. cbv zeta. cbn [xactual_format_data] in H. now rewrite H. }
    cbn [data_requests]. fold (go_requests t fb). cbn [xactual_format_data] in H. revert st w H. generalize (@nil (ustr * pvalue)).
    induction vs as [|[ph v] vs IHvs]; intros new st w H.
    - cbn [go_requests app]. apply it_last with new. rewrite call_format. cbv zeta. now rewrite H.
    - destruct v; try exact (IHvs _ _ _ H). cbn [go_requests]. rewrite <- app_assoc.
      destruct (xactual_format_data E reg P d t fb ca st w) as (w1 & st1 & r1) eqn:Ed. apply IH in Ed.
      destruct r1 as [(s & t')|e| |]; try (injection H as <- <- <-; apply (turn_front _ _ _ _ _ Ed); discriminate).
      exact (turn_app _ _ _ _ _ Ed _ _ _ (IHvs _ _ _ H)).
  Qed.

  (** ** Where strings come from *)
  Section Records.
    Variable G : W -> said -> Prop.
    Hypothesis HG : records reg P G.
    Definition entry_said (w : W) (key : ustr) (e : cache_data) : Prop :=
      match e with
      | CLocalised s t => exists c i l, combined c i = key /\ G w (c, i, l, (s, t))
      | CFormatter fm => exists c i l s t w0 w1 fm0, combined c i = key /\ G w (c, i, l, (s, t)) /\
          wformatter_try_new (le_icu E) localiser_grammar (le_fmt E) reg t (le_locale E t) s w0 = (w1, Ok fm0) /\ wafter (le_fmt E) reg fm0 fm /\ fm_tag fm = t
      end.
    Definition honest (w : W) (st : lstate) : Prop := forall t key e, cached st t key = Some e -> entry_said w key e.
    Lemma entry_later w w' key e : never_forgets G w w' -> entry_said w key e -> entry_said w' key e.
    Proof.
      intros Hw. destruct e as [s t|fm]; cbn.
      - intros (c & i & l & H1 & H2). exists c, i, l. auto.
      - intros (c & i & l & s & t & w0 & w1 & fm0 & H1 & H2 & H3). exists c, i, l, s, t, w0, w1, fm0. auto.
    Qed.
    Lemma honest_later w w' st : never_forgets G w w' -> honest w st -> honest w' st.
    Proof. intros Hw Hs t key e H. apply (entry_later w); [exact Hw | exact (Hs _ _ _ H)]. Qed.
    Lemma honest_put w st t key e st' : honest w st -> put st t key e st' -> entry_said w key e -> honest w st'.
    Proof. intros Hc (_ & _ & _ & _ & Hp) He t' key' e' H. destruct (Hp _ _ _ H) as [(-> & -> & ->)|H']; [exact He|exact (Hc _ _ _ H')]. Qed.
    Lemma forgets_trans w1 w2 w3 : never_forgets G w1 w2 -> never_forgets G w2 w3 -> never_forgets G w1 w3.
    Proof. unfold never_forgets. auto. Qed.
    Lemma forgets_refl w : never_forgets G w w.
    Proof. unfold never_forgets. auto. Qed.
    Lemma forgets_made cs w w' : made reg cs w w' -> never_forgets G w w'.
    Proof.
      intros H. induction H as [w|name ps f t r w w1 w2 Hf Hc _ IH]; [apply forgets_refl|]. refine (forgets_trans _ w1 _ _ IH).
      pose proof (proj2 (proj2 HG) name f (VString name :: ps) w Hf) as H. now rewrite Hc in H.
    Qed.
    Lemma forgets_attempted cs w w' : attempted reg cs w w' -> never_forgets G w w'.
    Proof.
      intros H. destruct H as [r w w' H|r name ps f o w w1 w2 H Hf Hc]; [now apply forgets_made with r|].
      refine (forgets_trans _ w1 _ (forgets_made _ _ _ H) _). pose proof (proj2 (proj2 HG) name f (VString name :: ps) w1 Hf) as H'. now rewrite Hc in H'.
    Qed.
    Lemma forgets_build t s w w' r : wformatter_try_new (le_icu E) localiser_grammar (le_fmt E) reg t (le_locale E t) s w = (w', r) -> never_forgets G w w'.
    Proof.
      intros H. destruct (tree_try_new (le_icu E) s localiser_grammar) as [tr|e| |] eqn:Et.
      - destruct (accepted_content _ _ _ _ Et) as (a & Ha & _). destruct (build_makes _ _ _ _ _ _ _ _ _ _ _ Ha H) as (pre & post & _ & H1 & _). exact (forgets_attempted _ _ _ H1).
      - unfold wformatter_try_new in H. rewrite Et in H. injection H as <- _. apply forgets_refl.
      - unfold wformatter_try_new in H. rewrite Et in H. injection H as <- _. apply forgets_refl.
      - unfold wformatter_try_new in H. rewrite Et in H. injection H as <- _. apply forgets_refl.
    Qed.
    Lemma forgets_format t s w0 w1 fm0 fm vals w w' fm' r : wformatter_try_new (le_icu E) localiser_grammar (le_fmt E) reg t (le_locale E t) s w0 = (w1, Ok fm0) ->
      wafter (le_fmt E) reg fm0 fm -> wformat (le_fuel E) (le_fmt E) reg fm vals w = (w', (fm', r)) -> never_forgets G w w'.
    Proof.
      intros Hb Ha Hf. destruct (tree_try_new (le_icu E) s localiser_grammar) as [tr|e| |] eqn:Et.
      - destruct (accepted_content _ _ _ _ Et) as (a & Hca & _). destruct (format_makes _ _ _ _ _ _ _ _ _ _ _ _ _ _ _ _ _ _ Hca Hb Ha Hf) as (cs & _ & H2 & _). exact (forgets_attempted _ _ _ H2).
      - unfold wformatter_try_new in Hb. rewrite Et in Hb. discriminate.
      - unfold wformatter_try_new in Hb. rewrite Et in Hb. discriminate.
      - unfold wformatter_try_new in Hb. rewrite Et in Hb. discriminate.
    Qed.
    Lemma asks_said c i t fb w w' r : asks P c i t fb w w' r -> never_forgets G w w' /\ forall x, r = Ok x -> exists l, G w' (c, i, l, x).
    Proof.
      destruct HG as (H1 & H2 & _).
      assert (K : forall l w w' x, wp_string P c i l w = (w', x) -> never_forgets G w w' /\ forall r, x = Ok (Some r) -> G w' (c, i, l, r)).
      { intros l v v' x Hx. pose proof (H1 c i l v) as H. now rewrite Hx in H. }
      assert (K' : forall w w' x, wp_default P c w = (w', x) -> never_forgets G w w').
      { intros v v' x Hx. pose proof (H2 c v) as H. now rewrite Hx in H. }
      assert (F : forall A (x : outcome PE A) y (z : ustr * ustr), fails x y -> y <> Ok z) by (intros A x y z; destruct x; cbn; [tauto|congruence..]).
      intros H. destruct H as [r H|x y H Hf|Hb H|w1 x y Hb H H3 Hf|w1 w2 d r Hb H H3 H4|w1 w2 d x y Hb H H3 H4 Hf|w1 w2 d Hb H H3 H4].
      - split; [exact (proj1 (K _ _ _ _ H))|]. intros x [= <-]. exists t. now apply (proj2 (K _ _ _ _ H)).
      - split; [exact (proj1 (K _ _ _ _ H))|]. intros z ->. now destruct (F _ _ _ z Hf).
      - split; [exact (proj1 (K _ _ _ _ H))|]. discriminate.
      - split; [exact (forgets_trans _ _ _ (proj1 (K _ _ _ _ H)) (K' _ _ _ H3))|]. intros z ->. now destruct (F _ _ _ z Hf).
      - split; [exact (forgets_trans _ _ _ (proj1 (K _ _ _ _ H)) (forgets_trans _ _ _ (K' _ _ _ H3) (proj1 (K _ _ _ _ H4))))|].
        intros x [= <-]. exists d. now apply (proj2 (K _ _ _ _ H4)).
      - split; [exact (forgets_trans _ _ _ (proj1 (K _ _ _ _ H)) (forgets_trans _ _ _ (K' _ _ _ H3) (proj1 (K _ _ _ _ H4))))|]. intros z ->. now destruct (F _ _ _ z Hf).
      - split; [exact (forgets_trans _ _ _ (proj1 (K _ _ _ _ H)) (forgets_trans _ _ _ (K' _ _ _ H3) (proj1 (K _ _ _ _ H4))))|]. discriminate.
    Qed.

    (** What a call for the string of this key with these values may give. *)
    Definition from (w : W) (key : ustr) (vals : amap pvalue) (r : lout (PE := PE) (ustr * ustr)) : Prop := forall x t, r = Ok (x, t) ->
      exists c i l s, combined c i = key /\ G w (c, i, l, (s, t)) /\ text_from E reg s t vals x.
    Lemma run_said fm vals w w' fm' r key : entry_said w key (CFormatter fm) -> wrun_formatter E reg fm vals w = (w', (fm', r)) ->
      never_forgets G w w' /\ entry_said w' key (CFormatter fm') /\ from w' key vals r.
    Proof.
      intros (c & i & l & s & t & w0 & w1 & fm0 & H1 & H2 & H3 & H4 & H5) H. apply run_cases in H as (o & Ho & ->).
      pose proof (forgets_format _ _ _ _ _ _ _ _ _ _ _ H3 H4 Ho) as Hw. pose proof (wa_call (le_fmt E) reg fm0 fm vals (le_fuel E) w H4) as Ha. rewrite Ho in Ha. cbn [fst snd] in Ha.
      assert (Ht : fm_tag fm' = t). { unfold wformat in Ho. destruct (wformat_pattern _ _ _ _ _ _ _ _) as ((ns & w2) & r2). injection Ho as <- <- <-. exact H5. }
      split; [exact Hw|]. split.
      - exists c, i, l, s, t, w0, w1, fm0. auto 10.
      - intros x t' Hx. destruct o as [y|e| |]; try discriminate. cbn in Hx. injection Hx as <- <-. rewrite Ht. exists c, i, l, s. split; [exact H1|]. split; [now apply Hw|].
        eapply tf_format; [exact H3|exact H4|exact Ho].
    Qed.
    Lemma return_said w st b ca key s t : honest w st -> (exists c i l, combined c i = key /\ G w (c, i, l, (s, t))) -> forall vals,
      honest w (fst (return_string (PE := PE) st b ca key s t)) /\ from w key vals (snd (return_string (PE := PE) st b ca key s t)).
    Proof.
      intros Hs Hk vals. destruct (return_string st b ca key s t) as [st' r] eqn:Er. cbn [fst snd].
      destruct (return_string_cases _ _ _ _ _ _ _ _ Er) as [(Hr & Hp)|(Hr & -> & Hn)].
      - split; [destruct Hp as [->|Hp]; [exact Hs|apply (honest_put _ _ _ _ _ _ Hs Hp), Hk]|].
        intros x t' Hx. rewrite Hr in Hx. injection Hx as <- <-. destruct Hk as (c & i & l & H1 & H2). exists c, i, l, s. split; [exact H1|]. split; [exact H2|]. apply tf_plain.
      - split; [exact Hs|]. intros x t' Hx. congruence.
    Qed.
    Lemma built_tag t s w w' fm : wformatter_try_new (le_icu E) localiser_grammar (le_fmt E) reg t (le_locale E t) s w = (w', Ok fm) -> fm_tag fm = t.
    Proof.
      assert (K : forall A B (x : wout W A) (f : A -> W -> wout W B) v b, wbind x f = (v, Ok b) -> exists w1 a, f a w1 = (v, Ok b)).
      { intros A B (v & [a|e| |]) f v' b Hb; try discriminate. now exists v, a. }
      unfold wformatter_try_new. intros H. apply K in H as (w1 & tr & H). unfold wformatter_of_tree in H. destruct (negb _); [discriminate|].
      apply K in H as (w2 & ty & H). destruct (negb _); [discriminate|]. apply K in H as (w3 & root & H). cbv zeta in H.
      apply K in H as (w4 & x & H). apply K in H as (w5 & cs & H). apply K in H as (w6 & y & H). injection H as _ <-. reflexivity.
    Qed.
    Lemma format_said st c i vals t fb ca w w' st' r : honest w st -> xactual_format E reg P st c i vals t fb ca w = (w', (st', r)) ->
      never_forgets G w w' /\ honest w' st' /\ from w' (combined c i) vals r.
    Proof.
      intros Hs H. destruct (cached st t (combined c i)) as [[s t'|fm]|] eqn:Hc.
      - unfold xactual_format in H. rewrite Hc in H. injection H as <- <- <-. split; [apply forgets_refl|]. split; [exact Hs|].
        intros x t1 [= <- <-]. destruct (Hs _ _ _ Hc) as (c0 & i0 & l & H1 & H2). exists c0, i0, l, s. split; [exact H1|]. split; [exact H2|apply tf_plain].
      - unfold xactual_format in H. rewrite Hc in H. destruct (wrun_formatter E reg fm vals w) as (w1 & fm' & r1) eqn:Er. injection H as <- <- <-.
        destruct (run_said _ _ _ _ _ _ _ (Hs _ _ _ Hc) Er) as (H1 & H2 & H3). split; [exact H1|]. split; [|exact H3].
        exact (honest_put _ _ _ _ _ _ (honest_later _ _ _ H1 Hs) (put_formatter_put _ _ _ _) H2).
      - destruct (xfind_string P c i t fb w) as (w1 & o) eqn:Ef. pose proof (proj1 (find_asks _ _ _ _ _ _ _) Ef) as Ha. apply asks_said in Ha as (H1 & H2).
        unfold xactual_format in H. rewrite Hc, Ef in H.
        destruct o as [(s & t')|e| |]; try (injection H as <- <- <-; split; [exact H1|]; split; [exact (honest_later _ _ _ H1 Hs)|intros ? ? ?; discriminate]).
        destruct (H2 _ eq_refl) as (l & Hl). pose proof (honest_later _ _ _ H1 Hs) as Hs1.
        assert (Hplain : forall w2, never_forgets G w1 w2 -> (w2, return_string (PE := PE) st (mhas t (ls_cache st)) ca (combined c i) s t') = (w', (st', r)) ->
          never_forgets G w w' /\ honest w' st' /\ from w' (combined c i) vals r).
        { intros w2 Hw2 Hr. assert (Hk : exists c0 i0 l0, combined c0 i0 = combined c i /\ G w2 (c0, i0, l0, (s, t'))) by (exists c, i, l; auto).
          destruct (return_said w2 st (mhas t (ls_cache st)) ca (combined c i) s t' (honest_later _ _ _ Hw2 Hs1) Hk vals) as (K1 & K2).
          injection Hr as <- Hr. rewrite Hr in K1, K2. split; [exact (forgets_trans _ _ _ H1 Hw2)|]. auto. }
        destruct s as [|x s]; [exact (Hplain w1 (forgets_refl _) H)|].
        destruct (wformatter_try_new _ _ _ _ _ _ _ w1) as (w2 & o) eqn:Eb. pose proof (forgets_build _ _ _ _ _ Eb) as Hb.
        destruct o as [fm|e| |].
        + destruct (wrun_formatter E reg fm vals w2) as (w3 & fm' & r3) eqn:Er. injection H as <- <- <-.
          assert (He : entry_said w2 (combined c i) (CFormatter fm)).
          { exists c, i, l, (x :: s), t', w1, w2, fm. split; [reflexivity|]. split; [now apply Hb|]. split; [exact Eb|]. split; [apply wa_fresh|exact (built_tag _ _ _ _ _ Eb)]. }
          destruct (run_said _ _ _ _ _ _ _ He Er) as (K1 & K2 & K3). pose proof (forgets_trans _ _ _ Hb K1) as Hw. pose proof (honest_later _ _ _ Hw Hs1) as Hs3.
          split; [exact (forgets_trans _ _ _ H1 Hw)|]. split; [|exact K3]. destruct ca; [|exact Hs3]. exact (honest_put _ _ _ _ _ _ Hs3 (put_formatter_put _ _ _ _) K2).
        + assert (Hstop : (w2, (st, Err (LFormatter e))) = (w', (st', r)) -> never_forgets G w w' /\ honest w' st' /\ from w' (combined c i) vals r).
          { intros [= <- <- <-]. split; [exact (forgets_trans _ _ _ H1 Hb)|]. split; [exact (honest_later _ _ _ Hb Hs1)|]. intros ? ? ?; discriminate. }
          destruct e; try exact (Hstop H). exact (Hplain w2 Hb H).
        + injection H as <- <- <-. split; [exact (forgets_trans _ _ _ H1 Hb)|]. split; [exact (honest_later _ _ _ Hb Hs1)|]. intros ? ? ?; discriminate.
        + injection H as <- <- <-. split; [exact (forgets_trans _ _ _ H1 Hb)|]. split; [exact (honest_later _ _ _ Hb Hs1)|]. intros ? ? ?; discriminate.
    Qed.
    Lemma literal_said st c i t fb ca w w' st' r : honest w st -> xactual_literal P st c i t fb ca w = (w', (st', r)) ->
      never_forgets G w w' /\ honest w' st' /\
      (forall x t', r = Ok (x, t') -> exists c0 i0 l, combined c0 i0 = combined c i /\ G w' (c0, i0, l, (x, t'))).
    Proof.
      intros Hs H. unfold xactual_literal in H. destruct (cached st t (combined c i)) as [[s t'|fm]|] eqn:Hc.
      - injection H as <- <- <-. split; [apply forgets_refl|]. split; [exact Hs|]. intros x t1 [= <- <-]. exact (Hs _ _ _ Hc).
      - injection H as <- <- <-. split; [apply forgets_refl|]. split; [exact Hs|]. discriminate.
      - destruct (xfind_string P c i t fb w) as (w1 & o) eqn:Ef. pose proof (proj1 (find_asks _ _ _ _ _ _ _) Ef) as Ha. apply asks_said in Ha as (H1 & H2).
        destruct o as [(s & t')|e| |]; try (injection H as <- <- <-; split; [exact H1|]; split; [exact (honest_later _ _ _ H1 Hs)|discriminate]).
        destruct (H2 _ eq_refl) as (l & Hl). assert (Hk : exists c0 i0 l0, combined c0 i0 = combined c i /\ G w1 (c0, i0, l0, (s, t'))) by (exists c, i, l; auto).
        destruct (return_said w1 st (mhas t (ls_cache st)) ca (combined c i) s t' (honest_later _ _ _ H1 Hs) Hk []) as (K1 & _).
        injection H as <- H. rewrite H in K1. split; [exact H1|]. split; [exact K1|].
        destruct (return_string_cases _ _ _ _ _ _ _ _ H) as [(-> & _)|(-> & _)]; [|discriminate]. intros x t1 [= <- <-]. exact Hk.
    Qed.
    Lemma data_said t fb ca : forall d st w w' st' r, honest w st -> xactual_format_data E reg P d t fb ca st w = (w', (st', r)) -> never_forgets G w w' /\ honest w' st' /\
      exists vals, from w' (combined (ld_component d) (ld_identifier d)) vals r.
    Proof.
      fix IH 1. intros [c i [vs|]] st w w' st' r Hs H.
      2:{ cbn [xactual_format_data] in H. destruct (literal_said _ _ _ _ _ _ _ _ _ _ Hs H) as (H1 & H2 & H3). split; [exact H1|]. split; [exact H2|]. exists [].
          intros x t' Hx. destruct (H3 _ _ Hx) as (c0 & i0 & l & K1 & K2). exists c0, i0, l, x. split; [exact K1|]. split; [exact K2|apply tf_plain]. }
      cbn [xactual_format_data ld_component ld_identifier] in *. revert st w Hs H. generalize (@nil (ustr * pvalue)).
      induction vs as [|[ph v] vs IHvs]; intros new st w Hs H.
      - destruct (format_said _ _ _ _ _ _ _ _ _ _ _ Hs H) as (H1 & H2 & H3). split; [exact H1|]. split; [exact H2|]. now exists new.
      - destruct v; try exact (IHvs _ _ _ Hs H).
        destruct (xactual_format_data E reg P d t fb ca st w) as (w1 & st1 & r1) eqn:Ed. destruct (IH _ _ _ _ _ _ Hs Ed) as (H1 & H2 & _).
        destruct r1 as [(s & t')|e| |]; try (injection H as <- <- <-; split; [exact H1|]; split; [exact H2|]; exists []; intros ? ? ?; discriminate).
        destruct (IHvs _ _ _ H2 H) as (K1 & K2 & K3). split; [exact (forgets_trans _ _ _ H1 K1)|]. split; [exact K2|exact K3].
    Qed.
    Lemma step_said st x w w' st' r : honest w st -> xlstep E reg P st x w = (w', (st', r)) -> never_forgets G w w' /\ honest w' st'.
    Proof.
      intros Hs. destruct x as [c i vals t f ca|c i vals|c i t f ca|c i|d t f ca|d|t f ca]; cbn [xlstep].
      - destruct (xactual_format _ _ _ _ _ _ _ _ _ _ _) as (w1 & st1 & r1) eqn:E1. intros [= <- <- <-]. destruct (format_said _ _ _ _ _ _ _ _ _ _ _ Hs E1) as (H1 & H2 & _). auto.
      - destruct (xactual_format _ _ _ _ _ _ _ _ _ _ _) as (w1 & st1 & r1) eqn:E1. intros [= <- <- <-]. destruct (format_said _ _ _ _ _ _ _ _ _ _ _ Hs E1) as (H1 & H2 & _). auto.
      - destruct (xactual_literal _ _ _ _ _ _ _ _) as (w1 & st1 & r1) eqn:E1. intros [= <- <- <-]. destruct (literal_said _ _ _ _ _ _ _ _ _ _ Hs E1) as (H1 & H2 & _). auto.
      - destruct (xactual_literal _ _ _ _ _ _ _ _) as (w1 & st1 & r1) eqn:E1. intros [= <- <- <-]. destruct (literal_said _ _ _ _ _ _ _ _ _ _ Hs E1) as (H1 & H2 & _). auto.
      - destruct (xactual_format_data _ _ _ _ _ _ _ _ _) as (w1 & st1 & r1) eqn:E1. intros [= <- <- <-]. destruct (data_said _ _ _ _ _ _ _ _ _ Hs E1) as (H1 & H2 & _). auto.
      - destruct (xactual_format_data _ _ _ _ _ _ _ _ _) as (w1 & st1 & r1) eqn:E1. intros [= <- <- <-]. destruct (data_said _ _ _ _ _ _ _ _ _ Hs E1) as (H1 & H2 & _). auto.
      - intros [= <- <- <-]. split; [apply forgets_refl|]. intros t' key e H. exact (Hs t' key e H).
    Qed.
    Lemma run_said_all h : forall w st, honest w st -> (forall f x w0, In (f, x) h -> never_forgets G w0 (f w0)) -> honest (fst (xlrun E reg P (w, st) h)) (snd (xlrun E reg P (w, st) h)).
    Proof.
      induction h as [|(f & x) h IH]; intros w st Hs Hh; [exact Hs|]. unfold xlrun in *. cbn [fold_left fst snd].
      destruct (xlstep E reg P st x (f w)) as (w' & st' & r) eqn:Ex. cbn [fst snd].
      assert (Hs' : honest (f w) st) by (apply (honest_later w); [apply (Hh f x); now left|exact Hs]).
      destruct (step_said _ _ _ _ _ _ Hs' Ex) as (_ & K). apply IH; [exact K|]. intros g y w0 Hi. apply (Hh g y). now right.
    Qed.
    Lemma one_said st x q w w' st' r : honest w st -> asks_one st x = Some q -> xlstep E reg P st x w = (w', (st', Some r)) ->
      from w' (combined (rq_component q) (rq_identifier q)) (call_values x) r /\
      (rq_literal q = true -> forall y t', r = Ok (y, t') -> exists c i l, combined c i = combined (rq_component q) (rq_identifier q) /\ G w' (c, i, l, (y, t'))).
    Proof.
      intros Hs Hx. destruct x as [c i vals t f ca|c i vals|c i t f ca|c i|d t f ca|d|t f ca]; try discriminate Hx; injection Hx as <-; cbn [xlstep rq_component rq_identifier rq_literal call_values].
      - destruct (xactual_format _ _ _ _ _ _ _ _ _ _ _) as (w1 & st1 & r1) eqn:E1. intros [= <- <- <-]. destruct (format_said _ _ _ _ _ _ _ _ _ _ _ Hs E1) as (_ & _ & H3). split; [exact H3|discriminate].
      - destruct (xactual_format _ _ _ _ _ _ _ _ _ _ _) as (w1 & st1 & r1) eqn:E1. intros [= <- <- <-]. destruct (format_said _ _ _ _ _ _ _ _ _ _ _ Hs E1) as (_ & _ & H3). split; [exact H3|discriminate].
      - destruct (xactual_literal _ _ _ _ _ _ _ _) as (w1 & st1 & r1) eqn:E1. intros [= <- <- <-]. destruct (literal_said _ _ _ _ _ _ _ _ _ _ Hs E1) as (_ & _ & H3). split; [|intros _; exact H3].
        intros y t' Hy. destruct (H3 _ _ Hy) as (c0 & i0 & l & K1 & K2). exists c0, i0, l, y. split; [exact K1|]. split; [exact K2|apply tf_plain].
      - destruct (xactual_literal _ _ _ _ _ _ _ _) as (w1 & st1 & r1) eqn:E1. intros [= <- <- <-]. destruct (literal_said _ _ _ _ _ _ _ _ _ _ Hs E1) as (_ & _ & H3). split; [|intros _; exact H3].
        intros y t' Hy. destruct (H3 _ _ Hy) as (c0 & i0 & l & K1 & K2). exists c0, i0, l, y. split; [exact K1|]. split; [exact K2|apply tf_plain].
    Qed.
  End Records.
End Ask.
