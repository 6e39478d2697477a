(** Proofs for C104: the number of steps, the end of all threads, and when answers no longer change. *)
From Verif Require Import Base BaseFacts RegistryModel RegistrySpec RegistryProofs RegThreadsModel RegThreadsSpec RegThreadsProofs RegThreadsProofs2.

(** ** Finitely many components that go down *)
Section Product.
  Context {A : Type}.
  Variable R : A -> A -> Prop.
  Definition Rn (n : nat) (u v : nat -> A) : Prop := exists i, i < n /\ R (u i) (v i) /\ forall j, j < n -> j <> i -> u j = v j.
  Lemma Rn_ext n v v' : (forall j, j < n -> v j = v' j) -> Acc (Rn n) v -> Acc (Rn n) v'.
  Proof.
    intros E H. constructor. intros u (i & Hi & HR & He). apply (Acc_inv H). exists i. split; [exact Hi|]. split; [rewrite E; [exact HR|exact Hi]|].
    intros j Hj Hn. rewrite E; [now apply He|exact Hj].
  Qed.
  Lemma Rn_Acc n : forall v, (forall i, i < n -> Acc R (v i)) -> Acc (Rn n) v.
  Proof.
    induction n as [|n IHn]; intros v H; [constructor; intros u (i & Hi & _); lia|].
    assert (G : forall a, Acc R a -> forall v, Acc (Rn n) v -> v n = a -> Acc (Rn (S n)) v).
    { clear v H. intros a Ha. induction Ha as [a _ IHa]. intros v Hv. induction Hv as [v Hv IHv]. intros E. constructor. intros u (i & Hi & HR & He).
      destruct (Nat.eq_dec i n) as [->|Hne].
      - apply (IHa (u n)); [now rewrite <- E| |reflexivity]. apply (Rn_ext n v); [|now constructor]. intros j Hj. symmetry. apply He; lia.
      - apply IHv; [|rewrite He; [exact E|lia|congruence]]. exists i. split; [lia|]. split; [exact HR|]. intros j Hj Hn. apply He; [lia|exact Hn]. }
    apply (G (v n)); [apply H; lia| |reflexivity]. apply IHn. intros i Hi. apply H. lia.
  Qed.
End Product.

Section Threads.
  Variable L : locid.
  Hypothesis HL : locid_ok L.

  Lemma run_took sch i : forall w, took L w sch i + used (w_threads w i) + 6 * answers_to i (w_log w) <= used (w_threads (world_run L w sch) i) + 6 * answers_to i (w_log (world_run L w sch)).
  Proof.
    induction sch as [|j sch IH]; intros w; [cbn; lia|]. cbn [took world_run]. destruct (world_step L w j) as [w'|] eqn:E; [|apply IH].
    specialize (IH w'). destruct (Nat.eqb_spec j i) as [->|Hne].
    - apply step_used in E. lia.
    - apply (step_other L w j i) in E as (E1 & E2); [|congruence]. rewrite E1, E2 in IH. lia.
  Qed.
  Lemma used_5 t : used t <= 5.
  Proof. destruct t as [|[]| | |]; cbn; lia. Qed.
  Lemma took_answers r ps sch i : took L (world_start r ps) sch i <= 6 * answers_to i (w_log (world_run L (world_start r ps) sch)) + 5.
  Proof. pose proof (run_took sch i (world_start r ps)). pose proof (used_5 (w_threads (world_run L (world_start r ps) sch) i)). cbn in H |- *. lia. Qed.

  (** ** Alone *)
  Lemma step_mine h w i : world_ok L h w -> w_lock w = None \/ w_lock w = Some i -> w_threads w i <> TRest REnd -> exists w', world_step L w i = Some w'.
  Proof.
    intros W [E|E] Hn.
    - apply step_free; [unfold free; now rewrite E|exact Hn|]. intros s o k. exact (not_done L h w i s o k W).
    - destruct (holds L h w i W E) as (s & x & k & Hi). destruct (step_own L w i s x k Hi) as (w' & H & _). now exists w'.
  Qed.
  Lemma step_keeps w i w' : world_step L w i = Some w' -> w_lock w = None \/ w_lock w = Some i -> w_lock w' = None \/ w_lock w' = Some i.
  Proof. intros H Hl. apply step_inv in H as (r & hold & t & l & _ & ->). cbn [next w_lock]. destruct hold; [now right|]. destruct (releases _); [now left|exact Hl]. Qed.
  (** Whoever holds the lock gives it back, then the thread makes six steps. *)
  Lemma answered_soon h w i : world_ok L h w -> ~ ended (w_threads w i) -> exists sch, List.length sch <= 7 /\ (forall j, In j sch -> j = i \/ w_lock w = Some j) /\
    answers_to i (w_log w) < answers_to i (w_log (world_run L w sch)).
  Proof.
    intros W Hn.
    assert (G : exists sch0, List.length sch0 <= 1 /\ (forall j, In j sch0 -> w_lock w = Some j) /\ w_threads (world_run L w sch0) i = w_threads w i /\
      answers_to i (w_log (world_run L w sch0)) = answers_to i (w_log w) /\ (w_lock (world_run L w sch0) = None \/ w_lock (world_run L w sch0) = Some i)).
    { destruct (w_lock w) as [j|] eqn:E.
      - destruct (Nat.eq_dec j i) as [->|Hne]; [exists []; cbn; split; [lia|]; split; [intros ? []|]; split; [reflexivity|]; split; [reflexivity|]; now right|].
        destruct (holds L h w j W E) as (s & x & k & Hj). destruct (step_own L w j s x k Hj) as (w' & H1 & H2). exists [j]. cbn [List.length world_run]. rewrite H1.
        destruct (step_other L w j i w' H1) as (G1 & G2); [congruence|]. split; [lia|]. split; [intros ? [<-|[]]; reflexivity|]. split; [exact G1|]. split; [exact G2|]. now left.
      - exists []. cbn. split; [lia|]. split; [intros ? []|]. split; [reflexivity|]. split; [reflexivity|]. now left. }
    destruct G as (sch0 & G1 & G2 & G3 & G4 & G5). exists (sch0 ++ repeat i 6). rewrite app_length, repeat_length, run_app. split; [lia|].
    split; [intros j Hj; apply in_app_or in Hj as [Hj|Hj]; [right; now apply G2|left; now apply repeat_spec in Hj]|].
    rewrite <- G4. pose proof (run_world L HL h sch0 w W) as W0. rewrite <- G3 in Hn. set (w0 := world_run L w sch0) in *. clearbody w0. clear G1 G2 G3 G4 sch0.
    assert (K : forall n w1, world_ok L h w1 -> w_lock w1 = None \/ w_lock w1 = Some i -> 6 <= n + used (w_threads w1 i) -> ~ ended (w_threads w1 i) ->
      answers_to i (w_log w1) < answers_to i (w_log (world_run L w1 (repeat i n)))).
    { clear - HL. intros n. induction n as [|n IH]; intros w1 W Hl Hu He; [pose proof (used_5 (w_threads w1 i)); lia|].
      destruct (step_mine h w1 i W Hl He) as (w' & E).
      cbn [repeat world_run]. rewrite E. pose proof (step_used L w1 i w' E) as Hs.
      destruct (run_log L (repeat i n) w') as (l & Hl2).
      destruct (Nat.lt_ge_cases (answers_to i (w_log w1)) (answers_to i (w_log w'))) as [G|G]; [rewrite Hl2, answers_app; lia|].
      assert (G1 : answers_to i (w_log w') < answers_to i (w_log (world_run L w' (repeat i n)))).
      { apply IH; [exact (step_world L HL h w1 i w' W E)|exact (step_keeps w1 i w' E Hl)|lia|]. intros G1. rewrite G1 in Hs. cbn [used] in Hs. lia. }
      assert (Ea : answers_to i (w_log w1) <= answers_to i (w_log w')).
      { destruct (run_log L [i] w1) as (l' & Hl'). cbn [world_run] in Hl'. rewrite E in Hl'. rewrite Hl', answers_app. lia. }
      lia. }
    apply K; [exact W0|exact G5|lia|exact Hn].
  Qed.

  (** ** The end *)
  Definition steps_to (t' t : tstate) : Prop := exists r fr r' hold l, thread_step L r fr t = Some (r', hold, (t', l)).
  Lemma rest_step p : (forall t', steps_to t' (TRest p) -> Acc steps_to t') -> Acc steps_to (TRest p).
  Proof. intros H. constructor. exact H. Qed.
  Lemma tag_Acc k : (forall o, Acc steps_to (TRest (k o))) -> forall n p, remaining p <= n -> (forall s o, p <> PDone s o) -> Acc steps_to (TTag p k).
  Proof.
    intros Hk n. induction n as [|n IH]; intros p Hp Hd.
    - destruct p; cbn [remaining] in Hp; try lia. now destruct (Hd s o).
    - constructor. intros t' (r & fr & r' & hold & l & E). cbn [thread_step] in E. unfold tag_step in E.
      destruct (pc_step L r fr p) as [((r1 & hold1) & p1)|] eqn:Ep; [|discriminate E]. injection E as _ _ E. apply pc_step_less in Ep.
      assert (Hl : remaining p1 <= n) by lia. destruct p1 as [q|q|q|q new|q x|q new|q x|q o]; cbn [in_tag] in E; injection E as <- _; try (apply IH; [exact Hl|discriminate]). apply Hk.
  Qed.
  Lemma prog_Acc p : Acc steps_to (TRest p).
  Proof.
    induction p as [|s k IH|t k IH|k IH|k IH|k IH]; constructor; intros t' (r & fr & r' & hold & l & E); cbn [thread_step] in E.
    - discriminate E.
    - unfold tag_step in E. destruct (pc_step L r fr (PTags s)) as [((r1 & hold1) & p1)|]; [|discriminate E].
      destruct p1 as [q|q|q|q new|q x|q new|q x|q o]; cbn [in_tag] in E; injection E as <- <- <- <-; try (eapply tag_Acc; [exact IH|apply Nat.le_refl|discriminate]). apply IH.
    - assert (Hi : forall t x, Acc steps_to (TIcuInsert t x k)).
      { intros t0 x. constructor. intros t1 (r1 & fr1 & r1' & hold1 & l1 & E1). cbn [thread_step] in E1. injection E1 as <- <- <- <-. apply IH. }
      destruct (mget (r_tag t) (lr_icu r)); injection E as <- <- <- <-; [apply IH|].
      constructor. intros t1 (r1 & fr1 & r1' & hold1 & l1 & E1). cbn [thread_step] in E1. destruct (parse_locale L (r_tag t)); cbn [fresh] in E1; injection E1 as <- <- <- <-; [apply Hi|apply IH].
    - destruct fr; [|discriminate E]. injection E as <- <- <- <-. apply IH.
    - injection E as <- <- <- <-. apply IH.
    - destruct fr; [|discriminate E]. injection E as <- <- <- <-. constructor. intros t1 (r1 & fr1 & r1' & hold1 & l1 & E1). cbn [thread_step] in E1. injection E1 as <- <- <- <-. apply IH.
  Qed.
  Lemma step_Rn n w i w' : i < n -> world_step L w i = Some w' -> Rn steps_to n (w_threads w') (w_threads w).
  Proof.
    intros Hi H. exists i. split; [exact Hi|]. apply step_inv in H as (r & hold & t & l & E & ->). cbn [next w_threads]. rewrite Nat.eqb_refl. split.
    - now exists (w_reg w), (free w), r, hold, l.
    - intros j _ Hne. destruct (Nat.eqb_spec j i) as [G|_]; [now destruct Hne|reflexivity].
  Qed.
  Lemma ended_step w i : ended (w_threads w i) -> world_step L w i = None.
  Proof. intros H. unfold world_step. now rewrite H. Qed.
  Lemma ended_dec t : {ended t} + {~ ended t}.
  Proof. unfold ended. destruct t as [[]| | | |]; try (right; discriminate). now left. Qed.
  Lemma all_ended n ts : {forall i, i < n -> ended (ts i)} + {exists i, i < n /\ ~ ended (ts i)}.
  Proof.
    induction n as [|n [IH|IH]].
    - left. intros i Hi. lia.
    - destruct (ended_dec (ts n)) as [G|G]; [left|right; exists n; split; [lia|exact G]]. intros i Hi. destruct (Nat.eq_dec i n) as [->|]; [exact G|apply IH; lia].
    - right. destruct IH as (i & Hi & G). exists i. split; [lia|exact G].
  Qed.
  Lemma turns_S f k m : turns f k (S m) = f k :: turns f (S k) m.
  Proof. reflexivity. Qed.
  Lemma turns_add f m : forall k m', turns f k (m + m') = turns f k m ++ turns f (k + m) m'.
  Proof. intros k m'. unfold turns. now rewrite seq_app, map_app. Qed.
  (** The first turn that is a step. *)
  Lemma first_step f w d : forall k, (exists w', world_step L w (f (k + d)) = Some w') -> exists m w', world_run L w (turns f k m) = w /\ world_step L w (f (k + m)) = Some w'.
  Proof.
    induction d as [|d IH]; intros k (w' & H).
    - exists 0, w'. split; [reflexivity|exact H].
    - destruct (world_step L w (f k)) as [w1|] eqn:E; [exists 0, w1; split; [reflexivity|now rewrite Nat.add_0_r]|].
      destruct (IH (S k)) as (m & w2 & G1 & G2); [exists w'; now rewrite Nat.add_succ_comm|]. exists (S m), w2. rewrite turns_S. cbn [world_run]. rewrite E. split; [exact G1|now rewrite <- Nat.add_succ_comm].
  Qed.
  Lemma finishes h n f : fair n f -> forall ts, Acc (Rn steps_to n) ts -> forall w k, w_threads w = ts -> world_ok L h w -> (forall i, n <= i -> ended (w_threads w i)) ->
    exists m, forall i, ended (w_threads (world_run L w (turns f k m)) i).
  Proof.
    intros Hf ts Ha. induction Ha as [ts _ IH]. intros w k Ets W Hout.
    destruct (all_ended n (w_threads w)) as [G|(i & Hi & G)].
    - exists 0. intros i. cbn. destruct (Nat.lt_ge_cases i n); [now apply G|now apply Hout].
    - assert (Hs : exists j w', j < n /\ world_step L w j = Some w').
      { destruct (world_step L w i) as [w'|] eqn:E; [now exists i, w'|]. destruct (waits L h w i W E G) as (j & w' & _ & _ & Hj & _). exists j, w'. split; [|exact Hj].
        destruct (Nat.lt_ge_cases j n) as [K|K]; [exact K|]. rewrite (ended_step w j (Hout j K)) in Hj. discriminate Hj. }
      destruct Hs as (j & w' & Hj & Hw). destruct (Hf j k Hj) as (m & Hm & Ef). destruct (first_step f w (m - k) k) as (m1 & w1 & G1 & G2); [exists w'; replace (k + (m - k)) with m by lia; now rewrite Ef|].
      set (c := f (k + m1)) in *. assert (Hc : c < n). { destruct (Nat.lt_ge_cases c n) as [K|K]; [exact K|]. rewrite (ended_step w c (Hout c K)) in G2. discriminate G2. }
      destruct (IH (w_threads w1)) with (w := w1) (k := k + m1 + 1) as (m2 & K); [rewrite <- Ets; exact (step_Rn n w c w1 Hc G2)|reflexivity|exact (step_world L HL h w c w1 W G2)| |].
      + intros q Hq. destruct (step_other L w c q w1 G2) as (E1 & _); [lia|]. rewrite E1. now apply Hout.
      + exists (m1 + (1 + m2)). rewrite !turns_add, !run_app, G1. cbn [turns seq map world_run]. fold c. rewrite G2. exact K.
  Qed.
  Lemma start_finishes h rs r ps n f : reachable L h rs r -> (forall i, n <= i -> ps i = REnd) -> fair n f -> exists m, forall i, ended (w_threads (world_run L (world_start r ps) (turns f 0 m)) i).
  Proof.
    intros H Hp Hf. apply (finishes h n f Hf (w_threads (world_start r ps))); [|reflexivity|exact (start_world L HL h rs r ps H)|].
    - apply Rn_Acc. intros i _. apply prog_Acc.
    - intros i Hi. unfold ended. cbn. now rewrite Hp.
  Qed.
End Threads.
