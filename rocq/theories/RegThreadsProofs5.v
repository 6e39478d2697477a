(** Proofs for C104: a thread goes on with the answers that it gets. *)
From Verif Require Import Base BaseFacts RegistryModel RegistrySpec RegistryProofs RegThreadsModel RegThreadsSpec RegThreadsProofs RegThreadsProofs2.

Section Threads.
  Variable L : locid.
  (** The call in which a thread is. *)
  Definition pc_str (p : pc) : ustr :=
    match p with PTags s | PDeprecated s | PCanon s | PAgain s _ | PHold s _ | PCreate s _ | PInsert s _ | PDone s _ => s end.
  Definition doing (t : tstate) : rprog * bool :=
    match t with
    | TRest p => (p, false)
    | TTag p k => (RTag (pc_str p) k, true)
    | TIcu t k | TIcuInsert t _ k => (RIcu t k, false)
    | TAll _ k => (RAll k, false)
    end.
  Definition comes (p : rprog) (l : list said) (t : tstate) : Prop := course p l (fst (doing t)) (snd (doing t)).

  Lemma course_app p l q b : course p l q b -> b = false -> forall l' q' b', course q l' q' b' -> course p (l ++ l') q' b'.
  Proof. induction 1; intros E l' q' b' H'; cbn [app]; try discriminate E; try (constructor; auto). exact H'. Qed.
  Lemma course_answer p l q b : course p l q b -> b = true -> forall s k, q = RTag s k -> forall o, course p (l ++ [STag s o]) (k o) false.
  Proof.
    induction 1; intros E s' k' Eq o'; cbn [app]; try discriminate E; try (constructor; now auto).
    injection Eq as -> ->. apply co_tag. constructor.
  Qed.
  Lemma pc_step_str r fr p r' hold p' : pc_step L r fr p = Some (r', hold, p') -> pc_str p' = pc_str p.
  Proof.
    destruct p as [s|s|s|s new|s x|s new|s x|s o]; cbn [pc_step].
    - destruct fr; [|discriminate]. intros [= <- <- <-]. now destruct (mget s (lr_tags r)).
    - intros [= <- <- <-]. now destruct (mget s (lr_deprecated r)).
    - intros [= <- <- <-]. now destruct (canon L s).
    - destruct fr; [|discriminate]. destruct (mget new (lr_tags r)); intros H; now injection H as <- <- <-.
    - intros H. now injection H as <- <- <-.
    - unfold fresh. intros H. now injection H as <- <- <-.
    - destruct fr; [|discriminate]. intros H. now injection H as <- <- <-.
    - discriminate.
  Qed.
  Lemma in_tag_comes p0 l p k : course p0 l (RTag (pc_str p) k) true -> comes p0 (l ++ rev (snd (in_tag p k))) (fst (in_tag p k)).
  Proof.
    intros H. unfold comes. destruct p as [s|s|s|s new|s x|s new|s x|s o]; cbn [in_tag fst snd doing pc_str rev app] in *; try (rewrite app_nil_r; exact H).
    exact (course_answer _ _ _ _ H eq_refl _ _ eq_refl o).
  Qed.
  Lemma step_comes p0 l0 r fr t r' hold t' l : comes p0 l0 t -> thread_step L r fr t = Some (r', hold, (t', l)) -> comes p0 (l0 ++ rev l) t'.
  Proof.
    intros H E. destruct t as [[|s k|t0 k|k|k|k]|p k|t0 k|t0 x k|a k]; cbn [thread_step] in E; unfold comes in H; cbn [doing fst snd] in H.
    - discriminate E.
    - unfold tag_step in E. destruct (pc_step L r fr (PTags s)) as [((r1 & hold1) & p1)|] eqn:E1; [|discriminate E]. apply pc_step_str in E1. cbn [pc_str] in E1.
      assert (G : course p0 (l0 ++ [SAsk s]) (RTag (pc_str p1) k) true) by (rewrite E1; apply (course_app _ _ _ _ H eq_refl); constructor).
      pose proof (in_tag_comes _ _ p1 k G) as G2. destruct (in_tag p1 k) as (t1 & l1). injection E as <- <- <- <-. cbn [fst snd] in G2. rewrite rev_app_distr. cbn [rev app].
      rewrite <- app_assoc in G2. exact G2.
    - destruct (mget (r_tag t0) (lr_icu r)); injection E as <- <- <- <-; cbn [rev app].
      + apply (course_app _ _ _ _ H eq_refl). constructor. constructor.
      + now rewrite app_nil_r.
    - destruct fr; [|discriminate E]. injection E as <- <- <- <-. apply (course_app _ _ _ _ H eq_refl). constructor. constructor.
    - injection E as <- <- <- <-. apply (course_app _ _ _ _ H eq_refl). constructor. constructor.
    - destruct fr; [|discriminate E]. injection E as <- <- <- <-. cbn [rev]. now rewrite app_nil_r.
    - unfold tag_step in E. destruct (pc_step L r fr p) as [((r1 & hold1) & p1)|] eqn:E1; [|discriminate E]. apply pc_step_str in E1. rewrite <- E1 in H.
      pose proof (in_tag_comes _ _ p1 k H) as G2. injection E as <- <- E. rewrite E in G2. exact G2.
    - destruct (parse_locale L (r_tag t0)); cbn [fresh] in E; injection E as <- <- <- <-; cbn [rev app].
      + now rewrite app_nil_r.
      + apply (course_app _ _ _ _ H eq_refl). constructor. constructor.
    - injection E as <- <- <- <-. apply (course_app _ _ _ _ H eq_refl). constructor. constructor.
    - injection E as <- <- <- <-. apply (course_app _ _ _ _ H eq_refl). constructor. constructor.
  Qed.
  Lemma said_to_app i l log : said_to i (l ++ log) = said_to i log ++ said_to i l.
  Proof. unfold said_to. now rewrite filter_app, map_app, rev_app_distr. Qed.
  Lemma said_to_own i l : said_to i (map (fun a => (i, a)) l) = rev l.
  Proof. unfold said_to. f_equal. induction l as [|a l IH]; [reflexivity|]. cbn [map filter fst]. rewrite Nat.eqb_refl. cbn [map snd]. now rewrite IH. Qed.
  Lemma said_to_other i j l : i <> j -> said_to i (map (fun a => (j, a)) l) = [].
  Proof. intros H. unfold said_to. induction l as [|a l IH]; [reflexivity|]. cbn [map filter fst]. destruct (Nat.eqb_spec j i); [congruence|exact IH]. Qed.
  Lemma run_comes r ps sch i : let w := world_run L (world_start r ps) sch in comes (ps i) (said_to i (w_log w)) (w_threads w i).
  Proof.
    cbv zeta. apply (run_ind L (fun w => comes (ps i) (said_to i (w_log w)) (w_threads w i))); [|constructor].
    intros w j w' Hw H. apply step_inv in H as (r1 & hold & t & l & E & ->). cbn [next w_log w_threads]. rewrite said_to_app.
    destruct (Nat.eqb_spec i j) as [->|Hne].
    - rewrite said_to_own. exact (step_comes _ _ _ _ _ _ _ _ _ Hw E).
    - now rewrite said_to_other, app_nil_r.
  Qed.
  Lemma follows r ps sch i : let w := world_run L (world_start r ps) sch in
    exists q b, course (ps i) (said_to i (w_log w)) q b /\ (ended (w_threads w i) <-> q = REnd).
  Proof.
    cbv zeta. set (w := world_run L (world_start r ps) sch). exists (fst (doing (w_threads w i))), (snd (doing (w_threads w i))). split; [exact (run_comes r ps sch i)|].
    unfold ended. destruct (w_threads w i) as [p|p k|t k|t x k|l k]; cbn [doing fst]; split; intros H; try discriminate H; congruence.
  Qed.
End Threads.
