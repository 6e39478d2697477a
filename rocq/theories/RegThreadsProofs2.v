(** Proofs for C104: lists, waiting, the number of steps, and when answers no longer change. *)
From Verif Require Import Base BaseFacts RegistryModel RegistrySpec RegistryProofs RegThreadsModel RegThreadsSpec RegThreadsProofs.

Section Threads.
  Variable L : locid.
  Hypothesis HL : locid_ok L.

  Lemma step_inv w i w' : world_step L w i = Some w' -> exists r hold t l,
    thread_step L (w_reg w) (free w) (w_threads w i) = Some (r, hold, (t, l)) /\ w' = next w i r hold t l.
  Proof.
    unfold world_step. fold (free w). destruct (thread_step L (w_reg w) (free w) (w_threads w i)) as [((r & hold) & (t & l))|]; [|discriminate].
    intros H. injection H as <-. exists r, hold, t, l. now split.
  Qed.
  Lemma run_app sch : forall w sch', world_run L w (sch ++ sch') = world_run L (world_run L w sch) sch'.
  Proof. induction sch as [|i sch IH]; intros w sch'; [reflexivity|]. cbn [app world_run]. apply IH. Qed.
  Lemma run_ind (P : world -> Prop) : (forall w i w', P w -> world_step L w i = Some w' -> P w') -> forall sch w, P w -> P (world_run L w sch).
  Proof. intros H sch. induction sch as [|i sch IH]; intros w Hw; [exact Hw|]. cbn [world_run]. apply IH. destruct (world_step L w i) eqn:E; [now apply (H w i)|exact Hw]. Qed.
  Lemma run_log sch w : exists l, w_log (world_run L w sch) = l ++ w_log w.
  Proof.
    apply (run_ind (fun w' => exists l, w_log w' = l ++ w_log w)); [|now exists []].
    intros w1 i w2 (l & Hl) H. apply step_inv in H as (r & hold & t & l' & _ & ->). cbn [next w_log]. rewrite Hl. eexists. now rewrite app_assoc.
  Qed.

  (** ** Lists *)
  Definition list_asked (h : list ustr) (log : list (nat * said)) (l : list tref) : Prop := Forall (fun x => asked L h log (r_tag x)) l.
  Definition log_only h (w : world) : Prop :=
    (forall i a, In (i, a) (w_log w) -> match a with SList l | SDeprecated l | SAll l => list_asked h (w_log w) l | _ => True end) /\
    (forall i, match w_threads w i with TAll l _ => list_asked h (w_log w) l | _ => True end).
  Lemma list_more h log l' l : list_asked h log l -> list_asked h (l' ++ log) l.
  Proof. intros H. eapply Forall_impl; [|exact H]. intros x. apply asked_more. Qed.
  Lemma tags_asked h w : world_ok L h w -> list_asked h (w_log w) (list_tags (w_reg w)).
  Proof.
    intros W. apply Forall_forall. intros x Hx. apply in_map_iff in Hx as ((k & y) & E & Hi). cbn in E. subst y. apply In_mget in Hi; [|exact (proj1 (wo_nodup L h w W))].
    apply (proj1 (wo_only L h w W)). unfold there. rewrite (proj1 (proj1 (wo_reg L h w W) _ _ Hi)). congruence.
  Qed.
  Lemma dep_asked h w : world_ok L h w -> list_asked h (w_log w) (list_deprecated (w_reg w)).
  Proof.
    intros W. apply Forall_forall. intros x Hx. apply in_map_iff in Hx as ((k & y) & E & Hi). cbn in E. subst y. apply In_mget in Hi; [|exact (proj2 (wo_nodup L h w W))].
    exact (proj2 (wo_only L h w W) _ _ Hi).
  Qed.
  Lemma in_tag_lists p k a : In a (snd (in_tag p k)) -> exists s o, a = STag s o /\ p = PDone s o.
  Proof. destruct p; cbn [in_tag snd]; try contradiction. intros [<-|[]]. eauto. Qed.
  Lemma in_tag_state p k : match fst (in_tag p k) with TRest _ | TTag _ _ => True | _ => False end.
  Proof. now destruct p. Qed.
  Lemma only_step h w i w' : world_ok L h w /\ log_only h w -> world_step L w i = Some w' -> world_ok L h w' /\ log_only h w'.
  Proof.
    intros (W & (H1 & H2)) H. split; [exact (step_world L HL h w i w' W H)|]. apply step_inv in H as (r & hold & t & l & E & ->).
    assert (G : (forall a, In a l -> match a with SList q | SDeprecated q | SAll q => list_asked h (w_log w) q | _ => True end) /\ match t with TAll q _ => list_asked h (w_log w) q | _ => True end).
    { pose proof (H2 i) as Hi. pose proof (tags_asked h w W) as Gt. pose proof (dep_asked h w W) as Gd.
      destruct (w_threads w i) as [[|s k|t0 k|k|k|k]|p k|t0 k|t0 x k|l0 k]; cbn [thread_step] in E.
      - discriminate E.
      - unfold tag_step in E. destruct (pc_step L (w_reg w) (free w) (PTags s)) as [((r1 & hold1) & p1)|]; [|discriminate E].
        pose proof (in_tag_lists p1 k) as Hl. pose proof (in_tag_state p1 k) as Hs. destruct (in_tag p1 k) as (t1 & l1). injection E as <- <- <- <-. cbn [fst snd] in *. split.
        + intros a Ha. apply in_app_or in Ha as [Ha|[<-|[]]]; [|exact Logic.I]. now destruct (Hl _ Ha) as (s1 & o & -> & _).
        + now destruct t1.
      - destruct (mget (r_tag t0) (lr_icu (w_reg w))); injection E as <- <- <- <-; (split; [|exact Logic.I]); [intros a [<-|[]]; exact Logic.I|contradiction].
      - destruct (free w); [|discriminate E]. injection E as <- <- <- <-. split; [|exact Logic.I]. now intros a [<-|[]].
      - injection E as <- <- <- <-. split; [|exact Logic.I]. now intros a [<-|[]].
      - destruct (free w); [|discriminate E]. injection E as <- <- <- <-. split; [contradiction|exact Gt].
      - unfold tag_step in E. destruct (pc_step L (w_reg w) (free w) p) as [((r1 & hold1) & p1)|]; [|discriminate E].
        pose proof (in_tag_lists p1 k) as Hl. pose proof (in_tag_state p1 k) as Hs. injection E as <- <- E. rewrite E in Hl, Hs. cbn [fst snd] in *. split.
        + intros a Ha. now destruct (Hl _ Ha) as (s1 & o & -> & _).
        + now destruct t.
      - destruct (parse_locale L (r_tag t0)); cbn [fresh] in E; injection E as <- <- <- <-; (split; [|exact Logic.I]); [contradiction|intros a [<-|[]]; exact Logic.I].
      - injection E as <- <- <- <-. split; [|exact Logic.I]. now intros a [<-|[]].
      - injection E as <- <- <- <-. split; [|exact Logic.I]. intros a [<-|[]]. apply Forall_app. now split. }
    destruct G as (G1 & G2). split; cbn [next w_log w_threads].
    - intros j a Ha. apply in_app_or in Ha as [Ha|Ha].
      + apply in_map_iff in Ha as (a' & E' & Ha). injection E' as <- ->. specialize (G1 _ Ha). destruct a; try exact Logic.I; now apply list_more.
      + specialize (H1 _ _ Ha). destruct a; try exact Logic.I; now apply list_more.
    - intros j. destruct (Nat.eqb j i); [destruct t; try exact Logic.I; now apply list_more|]. specialize (H2 j). destruct (w_threads w j); try exact Logic.I; now apply list_more.
  Qed.
  Lemma run_only h rs r ps sch i a : reachable L h rs r -> In (i, a) (w_log (world_run L (world_start r ps) sch)) ->
    match a with SList l | SDeprecated l | SAll l => list_asked h (w_log (world_run L (world_start r ps) sch)) l | _ => True end.
  Proof.
    intros H. assert (G : world_ok L h (world_run L (world_start r ps) sch) /\ log_only h (world_run L (world_start r ps) sch)); [|intros Ha; exact (proj1 (proj2 G) i a Ha)].
    apply (run_ind (fun w => world_ok L h w /\ log_only h w)); [apply only_step|]. split; [exact (start_world L HL h rs r ps H)|]. split; cbn; [contradiction|intros; exact Logic.I].
  Qed.

  (** A tag asked for as it is written is in the lists after the answer. *)
  Fixpoint lists_complete (log : list (nat * said)) : Prop :=
    match log with
    | [] => True
    | (_, a) :: log =>
        (match a with SList l => forall i x, In (i, STag (r_tag x) (Ok x)) log -> In (r_tag x) (map r_tag l) | _ => True end) /\ lists_complete log
    end.
  Lemma complete_no_list l log : (forall i q, ~ In (i, SList q) l) -> lists_complete log -> lists_complete (l ++ log).
  Proof.
    intros H Hl. induction l as [|(i & a) l IH]; [exact Hl|]. cbn [app lists_complete]. split.
    - destruct a; try exact Logic.I. destruct (H i l0). now left.
    - apply IH. intros j q G. apply (H j q). now right.
  Qed.
  Lemma there_listed r y : reg_ok L r -> there r y -> In y (map r_tag (list_tags r)).
  Proof.
    intros (R1 & _) H. unfold there in H. destruct (mget y (lr_tags r)) as [x|] eqn:E; [|congruence]. apply in_map_iff. exists x. split; [exact (proj1 (R1 _ _ E))|].
    unfold list_tags. apply in_map_iff. exists (y, x). split; [reflexivity|]. clear - E. revert E. induction (lr_tags r) as [|(k & v) m IH]; cbn; [discriminate|].
    destruct (ueqb_spec y k) as [Ek|]; [intros G; injection G as ->; left; now rewrite Ek|]. intros G. right. now apply IH.
  Qed.
  Lemma complete_step h w i w' : world_ok L h w /\ lists_complete (w_log w) -> world_step L w i = Some w' -> world_ok L h w' /\ lists_complete (w_log w').
  Proof.
    intros (W & Hc) H. split; [exact (step_world L HL h w i w' W H)|]. apply step_inv in H as (r & hold & t & l & E & ->). cbn [next w_log].
    destruct (w_threads w i) as [[|s k|t0 k|k|k|k]|p k|t0 k|t0 x k|l0 k]; cbn [thread_step] in E.
    - discriminate E.
    - unfold tag_step in E. destruct (pc_step L (w_reg w) (free w) (PTags s)) as [((r1 & hold1) & p1)|]; [|discriminate E].
      pose proof (in_tag_lists p1 k) as Hl. destruct (in_tag p1 k) as (t1 & l1). injection E as <- <- <- <-. apply complete_no_list; [|exact Hc].
      intros j q G. apply in_map_iff in G as (a & Ea & G). injection Ea as <- ->. apply in_app_or in G as [G|[G|[]]]; [destruct (Hl _ G) as (? & ? & G' & _); discriminate G'|discriminate G].
    - destruct (mget (r_tag t0) (lr_icu (w_reg w))); injection E as <- <- <- <-; (apply complete_no_list; [|exact Hc]); [|intros ? ? []]. intros j q [G|[]]. discriminate G.
    - destruct (free w); [|discriminate E]. injection E as <- <- <- <-. cbn [map app lists_complete]. split; [|exact Hc].
      intros j x Hx. apply there_listed; [exact (wo_reg L h w W)|]. exact (wo_own L h w W j x Hx).
    - injection E as <- <- <- <-. apply complete_no_list; [|exact Hc]. intros j q [G|[]]. discriminate G.
    - destruct (free w); [|discriminate E]. injection E as <- <- <- <-. exact Hc.
    - unfold tag_step in E. destruct (pc_step L (w_reg w) (free w) p) as [((r1 & hold1) & p1)|]; [|discriminate E].
      pose proof (in_tag_lists p1 k) as Hl. injection E as <- <- E. rewrite E in Hl. apply complete_no_list; [|exact Hc].
      intros j q G. apply in_map_iff in G as (a & Ea & G). injection Ea as <- ->. destruct (Hl _ G) as (? & ? & G' & _); discriminate G'.
    - destruct (parse_locale L (r_tag t0)); cbn [fresh] in E; injection E as <- <- <- <-; (apply complete_no_list; [|exact Hc]); [intros ? ? []|]. intros j q [G|[]]. discriminate G.
    - injection E as <- <- <- <-. apply complete_no_list; [|exact Hc]. intros j q [G|[]]. discriminate G.
    - injection E as <- <- <- <-. apply complete_no_list; [|exact Hc]. intros j q [G|[]]. discriminate G.
  Qed.
  Lemma run_complete h rs r ps sch l1 j l l2 i x : reachable L h rs r -> w_log (world_run L (world_start r ps) sch) = l1 ++ (j, SList l) :: l2 ->
    In (i, STag (r_tag x) (Ok x)) l2 -> In (r_tag x) (map r_tag l).
  Proof.
    intros H El. assert (G : world_ok L h (world_run L (world_start r ps) sch) /\ lists_complete (w_log (world_run L (world_start r ps) sch))).
    { apply (run_ind (fun w => world_ok L h w /\ lists_complete (w_log w))); [apply complete_step|]. split; [exact (start_world L HL h rs r ps H)|exact Logic.I]. }
    destruct G as (_ & G). rewrite El in G. clear El. induction l1 as [|(n & a) l1 IH]; cbn [app lists_complete] in G; [|now apply IH]. destruct G as (G & _). apply G.
  Qed.
  Lemma run_quiet h rs r ps sch y : reachable L h rs r -> (forall i, outside (w_threads (world_run L (world_start r ps) sch) i)) ->
    given L h (w_log (world_run L (world_start r ps) sch)) y -> In y (map r_tag (list_tags (w_reg (world_run L (world_start r ps) sch)))).
  Proof.
    intros H Ho Hg. pose proof (run_world L HL h sch _ (start_world L HL h rs r ps H)) as W. apply there_listed; [exact (wo_reg L h _ W)|].
    destruct (wo_given L h _ W y Hg) as [G|(i & s & x & k & G & _)]; [exact G|]. specialize (Ho i). rewrite G in Ho. contradiction.
  Qed.

  (** ** Waiting *)
  Lemma step_free w i : free w = true -> w_threads w i <> TRest REnd -> (forall s o k, w_threads w i <> TTag (PDone s o) k) -> exists w', world_step L w i = Some w'.
  Proof.
    intros Hf Hn Hd. unfold world_step. fold (free w). rewrite Hf.
    destruct (w_threads w i) as [[|s k|t0 k|k|k|k]|p k|t0 k|t0 x k|l0 k]; cbn [thread_step].
    - congruence.
    - unfold tag_step. cbn [pc_step]. destruct (in_tag _ k). eauto.
    - destruct (mget (r_tag t0) (lr_icu (w_reg w))); eauto.
    - eauto.
    - eauto.
    - eauto.
    - unfold tag_step. destruct p; cbn [pc_step fresh]; try (destruct (in_tag _ k); now eauto).
      + destruct (mget new (lr_tags (w_reg w))); destruct (in_tag _ k); eauto.
      + now destruct (Hd s o k).
    - destruct (parse_locale L (r_tag t0)); cbn [fresh]; eauto.
    - eauto.
    - eauto.
  Qed.
  Lemma not_done h w i s o k : world_ok L h w -> w_threads w i <> TTag (PDone s o) k.
  Proof. intros W E. pose proof (wo_threads L h w W i) as H. rewrite E in H. now destruct H. Qed.
  Lemma step_own w i s x k : w_threads w i = TTag (PHold s x) k -> exists w', world_step L w i = Some w' /\ w_lock w' = None.
  Proof. intros E. unfold world_step. rewrite E. cbn [thread_step tag_step pc_step in_tag releases]. eexists. split; reflexivity. Qed.
  Lemma holds h w j : world_ok L h w -> w_lock w = Some j -> exists s x k, w_threads w j = TTag (PHold s x) k.
  Proof.
    intros W E. pose proof (wo_lock L h w W) as H. rewrite E in H. pose proof (proj2 (H j) eq_refl) as G.
    destruct (w_threads w j) as [|[]| | |]; try discriminate G. eauto.
  Qed.
  Lemma waits h w i : world_ok L h w -> world_step L w i = None -> ~ ended (w_threads w i) ->
    exists j w', w_lock w = Some j /\ j <> i /\ world_step L w j = Some w' /\ w_lock w' = None.
  Proof.
    intros W H Hn. destruct (w_lock w) as [j|] eqn:E.
    - destruct (holds h w j W E) as (s & x & k & Hj). destruct (step_own w j s x k Hj) as (w' & G1 & G2). exists j, w'. split; [reflexivity|].
      split; [|now split]. intros ->. rewrite H in G1. discriminate G1.
    - destruct (step_free w i) as (w' & G); [unfold free; now rewrite E|exact Hn|intros s o k; exact (not_done h w i s o k W)|]. rewrite H in G. discriminate G.
  Qed.

  (** ** Steps *)
  Definition used (t : tstate) : nat :=
    match t with
    | TRest _ => 0
    | TTag p _ => match p with PTags _ => 0 | PDeprecated _ => 1 | PCanon _ => 2 | PAgain _ _ => 3 | PHold _ _ | PCreate _ _ => 4 | PInsert _ _ => 5 | PDone _ _ => 5 end
    | TIcu _ _ | TAll _ _ => 1
    | TIcuInsert _ _ _ => 2
    end.
  Lemma answers_app i l l' : answers_to i (l ++ l') = answers_to i l + answers_to i l'.
  Proof. unfold answers_to. now rewrite filter_app, app_length. Qed.
  Lemma step_used w i w' : world_step L w i = Some w' -> 1 + used (w_threads w i) + 6 * answers_to i (w_log w) <= used (w_threads w' i) + 6 * answers_to i (w_log w').
  Proof.
    intros H. apply step_inv in H as (r & hold & t & l & E & ->). cbn [next w_log w_threads]. rewrite Nat.eqb_refl, answers_app.
    enough (G : 1 + used (w_threads w i) <= used t + 6 * answers_to i (map (fun a => (i, a)) l)) by lia.
    destruct (w_threads w i) as [[|s k|t0 k|k|k|k]|p k|t0 k|t0 x k|l0 k]; cbn [thread_step] in E.
    - discriminate E.
    - unfold tag_step in E. cbn [pc_step] in E. destruct (free w); [|discriminate E]. destruct (mget s (lr_tags (w_reg w))); cbn [in_tag] in E; injection E as <- <- <- <-; unfold answers_to; cbn; rewrite ?Nat.eqb_refl; cbn; lia.
    - destruct (mget (r_tag t0) (lr_icu (w_reg w))); injection E as <- <- <- <-; unfold answers_to; cbn; rewrite ?Nat.eqb_refl; cbn; lia.
    - destruct (free w); [|discriminate E]. injection E as <- <- <- <-; unfold answers_to; cbn; rewrite ?Nat.eqb_refl; cbn; lia.
    - injection E as <- <- <- <-; unfold answers_to; cbn; rewrite ?Nat.eqb_refl; cbn; lia.
    - destruct (free w); [|discriminate E]. injection E as <- <- <- <-; unfold answers_to; cbn; rewrite ?Nat.eqb_refl; cbn; lia.
    - unfold tag_step in E. destruct p as [q|q|q|q new|q x|q new|q x|q o]; cbn [pc_step fresh] in E; try discriminate E.
      + destruct (free w); [|discriminate E]. destruct (mget q (lr_tags (w_reg w))); cbn [in_tag] in E; injection E as <- <- <- <-; unfold answers_to; cbn; rewrite ?Nat.eqb_refl; cbn; lia.
      + destruct (mget q (lr_deprecated (w_reg w))); cbn [in_tag] in E; injection E as <- <- <- <-; unfold answers_to; cbn; rewrite ?Nat.eqb_refl; cbn; lia.
      + destruct (canon L q); cbn [in_tag] in E; injection E as <- <- <- <-; unfold answers_to; cbn; rewrite ?Nat.eqb_refl; cbn; lia.
      + destruct (free w); [|discriminate E]. destruct (mget new (lr_tags (w_reg w))); cbn [in_tag] in E; injection E as <- <- <- <-; unfold answers_to; cbn; rewrite ?Nat.eqb_refl; cbn; lia.
      + injection E as <- <- <- <-; unfold answers_to; cbn; rewrite ?Nat.eqb_refl; cbn; lia.
      + injection E as <- <- <- <-; unfold answers_to; cbn; lia.
      + destruct (free w); [|discriminate E]. injection E as <- <- <- <-; unfold answers_to; cbn; rewrite ?Nat.eqb_refl; cbn; lia.
    - destruct (parse_locale L (r_tag t0)); cbn [fresh] in E; injection E as <- <- <- <-; unfold answers_to; cbn; rewrite ?Nat.eqb_refl; cbn; lia.
    - injection E as <- <- <- <-; unfold answers_to; cbn; rewrite ?Nat.eqb_refl; cbn; lia.
    - injection E as <- <- <- <-; unfold answers_to; cbn; rewrite ?Nat.eqb_refl; cbn; lia.
  Qed.
  Lemma step_other w i j w' : world_step L w i = Some w' -> j <> i -> w_threads w' j = w_threads w j /\ answers_to j (w_log w') = answers_to j (w_log w).
  Proof.
    intros H Hne. apply step_inv in H as (r & hold & t & l & E & ->). cbn [next w_log w_threads]. destruct (Nat.eqb_spec j i) as [G|_]; [now destruct Hne|]. split; [reflexivity|].
    rewrite answers_app. replace (answers_to j (map (fun a => (i, a)) l)) with 0; [reflexivity|]. symmetry. unfold answers_to. clear E. induction l as [|a l IH]; [reflexivity|].
    cbn [map filter fst]. destruct (Nat.eqb_spec i j) as [G|_]; [now destruct Hne|]. exact IH.
  Qed.
End Threads.
