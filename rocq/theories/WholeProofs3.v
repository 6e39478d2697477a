(** The localiser over the sqlite3 provider with threads: every run in which the provider answers at once is one of these, and every run can be brought to an end. *)
From Verif Require Import Base BaseFacts LexerModel TreeModel ValueModel CommandModel IsoModel FormatterModel RegistryModel ProviderModel ProviderSpec ProviderProofs LocaliserModel
  SystemModel ProviderSyncModel ProviderSyncProofs SyncModel SyncSpec SyncProofs3 WholeModel WholeSpec WholeProofs WholeProofs2.
Local Opaque us.

Lemma lset_same {A} (l : list A) i a : nth_error l i = Some a -> lset l i a = l.
Proof. revert i. induction l as [|b l IH]; intros [|i] H; try discriminate; cbn in *; [congruence|]. f_equal. now apply IH. Qed.
Lemma lset_twice {A} (l : list A) i a b : lset (lset l i a) i b = lset l i b.
Proof. revert i. induction l as [|c l IH]; intros [|i]; cbn; try reflexivity. f_equal. apply IH. Qed.

Section Whole.
  Variables (E : penv) (p : sprovider) (ic : icu) (fe : fmtenv) (reg : cregistry) (locale : ustr -> ustr) (script : ustr -> option ustr) (fuel : nat).
  Hypothesis Hp : provider_ok p.
  Local Notation text := (outcome (localiser_error perror) (ustr * ustr)).
  Local Notation prog := (SyncModel.prog (PE := perror)).
  Local Notation sthread := (sthread (PE := perror)).
  Local Notation sys := (sys (PE := perror)).
  Local Notation L := (L E p ic fe reg locale script fuel).
  Local Notation sim := (sim E p).
  Local Notation answer_of := (answer_of E p).
  Variable F : Prop.
  Local Notation tsim := (tsim E p F).

  Definition rel (x : whole) (y : sys) : Prop :=
    (exists pevs, wh_provider x = pevents E p pevs /\ forall i, In (EStep i false) pevs -> F) /\
    sys_state y = wh_state x /\ Forall2 (fun ft th => tsim (wh_provider x) ft th /\ (F \/ th_done th = ft_done ft)) (wh_threads x) (sys_threads y).
  Definition kill (y : sys) (j : nat) (th : sthread) : sys := mk_sys (sys_state y) (lset (sys_threads y) j (idle (th_todo th))).

  Lemma rel_start st calls : rel (whole_start st calls) (sys_start st calls).
  Proof.
    split; [exists []; split; [reflexivity|intros i []]|]. split; [reflexivity|]. cbn. induction calls as [|l calls IH]; cbn; constructor; [|exact IH].
    split; [now apply ts_idle|right; reflexivity].
  Qed.
  Lemma tsim_events pc pc' evs ft th : pc' = fold_left (pevent_step E p) evs pc -> tsim pc ft th -> tsim pc' ft th.
  Proof. intros ->. revert pc. induction evs as [|e evs IH]; intros pc H; cbn; [exact H|]. apply IH. now apply tsim_event. Qed.

  (** *** Forward *)
  Lemma all_left_kill y ns j th : all_left L y ns -> nth_error (sys_threads y) j = Some th -> in_script th = false -> th_now th <> None ->
    exists ns', all_left L (kill y j th) ns' /\ total ns' < total ns.
  Proof.
    intros (Hl & Hr) Hj Hs Hn. destruct (Forall2_pick _ _ _ _ _ Hl Hj) as (n & En & Hth). exists (lset ns j (left (th_todo th))).
    pose proof (total_lset ns j n (left (th_todo th)) En) as Ht. pose proof (scripts_lset _ _ _ (idle (th_todo th)) Hj) as Hsc. rewrite Hs in Hsc. split.
    - split; cbn [kill sys_state sys_threads].
      + apply (Forall2_put _ _ _ _ _ _ _ Hl); [reflexivity|auto].
      + cbn in Hsc. lia.
    - unfold thread_left in Hth. destruct (th_now th) as [[c q]|]; [|congruence]. destruct Hth as (m & _ & ->). lia.
  Qed.
  Lemma rel_step x y ns e : rel x y -> all_left L y ns -> (forall i, e = WThread i false \/ e = WOther (EStep i false) -> F) ->
    exists y' ns', rel (whole_step E p L x e) y' /\ all_left L y' ns'.
  Proof.
    intros ((pevs & Hpv & HF) & Hst & Hth) Hl He. destruct e as [i ok|e]; cbn [whole_step].
    2: { exists y, ns. split; [|exact Hl]. split; [exists (pevs ++ [e]); split; [cbn; now rewrite events_snoc, Hpv|]|].
         - intros i [H|[->|[]]]%in_app_or; [exact (HF i H)|]. apply (He i). auto.
         - split; [exact Hst|]. cbn. induction Hth as [|a b l l' (Ha & Hd) H IH]; constructor; [|exact IH]. split; [now apply tsim_event|exact Hd]. }
    destruct (nth_error (wh_threads x) i) as [ft|] eqn:Ei.
    2: { exists y, ns. split; [|exact Hl]. split; [eauto|]. auto. }
    destruct (Forall2_pick _ _ _ _ _ Hth Ei) as (th & Ej & Ht & Hd). rewrite Hpv in Ht.
    pose proof (thread_goes E p ic fe reg locale script fuel Hp F pevs (wh_state x) ok ft th HF Ht) as K. rewrite Hpv.
    destruct (fthread_step E p L (wh_state x) (pevents E p pevs) ok ft) as [[[g pc] ft']|].
    2: { exists y, ns. split; [|exact Hl]. split; [eauto|]. auto. }
    destruct K as (Hpc & th' & Ht' & Hg & _).
    assert (Hpv' : exists pevs', pc = pevents E p pevs' /\ (forall i, In (EStep i false) pevs' -> F) /\ forall ft0 th0, tsim (wh_provider x) ft0 th0 -> tsim pc ft0 th0).
    { rewrite Hpv. destruct Hpc as [->|(e & -> & Hok)]; [exists pevs; auto|]. exists (pevs ++ [e]). split; [reflexivity|]. split.
      - intros i0 [H|[->|[]]]%in_app_or; [exact (HF i0 H)|]. apply (He i). left. now rewrite (Hok i0 eq_refl).
      - intros ft0 th0 H. rewrite events_snoc. now apply tsim_event. }
    destruct Hpv' as (pevs' & Hpv' & HF' & Hkeep).
    assert (Hput : forall th1, tsim pc ft' th1 -> (F \/ th_done th1 = ft_done ft') ->
      Forall2 (fun ft th => tsim pc ft th /\ (F \/ th_done th = ft_done ft)) (lset (wh_threads x) i ft') (lset (sys_threads y) i th1)).
    { intros th1 H1 H2. apply (Forall2_put _ _ _ _ _ _ _ Hth); [auto|]. intros a b k _ _ (Ha & Hb). auto. }
    destruct Hg as [th1 Hs -> Hdone _| -> -> Hdone|c HFF -> -> Hdone|HFF -> -> Hsc Hdone].
    - assert (Hss : sys_step L y i = Some (mk_sys g (lset (sys_threads y) i th1))) by (unfold sys_step; rewrite Ej, Hst, Hs; reflexivity).
      destruct (sys_step_left L y ns i _ Hl Hss) as (ns' & Hl' & _). exists (mk_sys g (lset (sys_threads y) i th1)), ns'. split; [|exact Hl'].
      split; [exists pevs'; auto|]. split; [reflexivity|]. apply Hput; [exact Ht'|]. destruct Hd as [Hd|Hd]; auto.
    - exists y, ns. split; [|exact Hl]. split; [exists pevs'; auto|]. split; [exact Hst|]. cbn [wh_provider wh_threads]. rewrite <- (lset_same (sys_threads y) i th Ej).
      apply Hput; [exact Ht'|]. rewrite Hdone. exact Hd.
    - exists y, ns. split; [|exact Hl]. split; [exists pevs'; auto|]. split; [exact Hst|]. cbn [wh_provider wh_threads]. rewrite <- (lset_same (sys_threads y) i th Ej).
      apply Hput; auto.
    - destruct (th_now th) as [z|] eqn:En.
      + destruct (all_left_kill y ns i th Hl Ej Hsc ltac:(congruence)) as (ns' & Hl' & _). exists (kill y i th), ns'. split; [|exact Hl'].
        split; [exists pevs'; auto|]. split; [exact Hst|]. apply Hput; auto.
      + exists y, ns. split; [|exact Hl]. split; [exists pevs'; auto|]. split; [exact Hst|]. cbn [wh_provider wh_threads]. rewrite <- (lset_same (sys_threads y) i th Ej).
        apply Hput; [|auto]. destruct Ht' as [H1 H2 H3|c f q H1 H2 H3 H4|c i0 k q pcl m H1 H2 H3 H4 H5 H6 H7|c H0 H1 H2 H3]; try discriminate H2; [now apply ts_idle|now apply (ts_broken _ _ _ _ _ _ c)].
  Qed.
  Lemma rel_run evs : forall x y ns, rel x y -> all_left L y ns -> (forall i, In (WThread i false) evs \/ In (WOther (EStep i false)) evs -> F) ->
    exists y' ns', rel (whole_run E p L x evs) y' /\ all_left L y' ns'.
  Proof.
    induction evs as [|e evs IH]; intros x y ns Hx Hl He; [exists y, ns; auto|]. cbn [whole_run fold_left].
    destruct (rel_step x y ns e Hx Hl) as (y' & ns' & H1 & H2); [intros i Hi; apply (He i); cbn; tauto|].
    apply (IH (whole_step E p L x e) y' ns' H1 H2). intros i Hi. apply (He i). cbn. tauto.
  Qed.

  (** *** A thread goes on until the provider has answered *)
  Definition only (j : nat) (evs : list wevent) : Prop := forall e, In e evs -> e = WThread j true.
  Lemma run_snoc x a b : whole_run E p L x (a ++ b) = whole_run E p L (whole_run E p L x a) b.
  Proof. apply fold_left_app. Qed.
  Lemma only_app j a b : only j a -> only j b -> only j (a ++ b).
  Proof. intros Ha Hb e [H|H]%in_app_or; auto. Qed.
  Lemma only_one j : only j [WThread j true].
  Proof. intros e [<-|[]]. reflexivity. Qed.
  Lemma steps_of_repeat i n : steps_of i (repeat (EStep i true) n) = n.
  Proof. induction n as [|n IH]; cbn; [reflexivity|]. now rewrite Nat.eqb_refl, IH. Qed.
  Lemma wait_steps j ft c i k : ft_now ft = Some (c, FWait i k) -> forall n g pevs ths, nth_error ths j = Some ft ->
    exists evs more, only j evs /\ whole_run E p L (mk_whole g (pevents E p pevs) ths) evs = mk_whole g (pevents E p (pevs ++ repeat (EStep i true) more)) ths /\
      (more = n \/ exists pcl r, nth_error (pf_calls (pevents E p (pevs ++ repeat (EStep i true) more))) i = Some (pcl, DRet r)).
  Proof.
    intros Hn n. induction n as [|n IH]; intros g pevs ths Hj.
    - exists [], 0. cbn [repeat]. rewrite app_nil_r. split; [intros e []|]. auto.
    - assert (Hd : (exists pcl r, nth_error (pf_calls (pevents E p pevs)) i = Some (pcl, DRet r)) \/
        whole_step E p L (mk_whole g (pevents E p pevs) ths) (WThread j true) = mk_whole g (pevents E p (pevs ++ [EStep i true])) ths).
      { assert (Heta : mk_fthread (ft_done ft) (Some (c, FWait i k)) (ft_todo ft) = ft) by (rewrite <- Hn; destruct ft; reflexivity).
        assert (Hset : lset ths j (mk_fthread (ft_done ft) (Some (c, FWait i k)) (ft_todo ft)) = ths) by (rewrite Heta; now apply lset_same).
        cbn [whole_step wh_threads wh_state wh_provider]. rewrite Hj, (fthread_now _ _ _ _ _ _ _ _ _ _ _ _ c _ Hn) by discriminate. cbn [fprog_step]. rewrite events_snoc.
        destruct (nth_error (pf_calls (pevents E p pevs)) i) as [[pcl [r| | | | | | |]]|]; try (left; eauto; fail); right; f_equal; exact Hset. }
      destruct Hd as [(pcl & r & Hd)|Hd].
      + exists [], 0. cbn [repeat]. rewrite app_nil_r. split; [intros e []|]. split; [reflexivity|eauto].
      + destruct (IH g (pevs ++ [EStep i true]) ths Hj) as (evs & more & Ho & Hr & Hend). rewrite <- app_assoc in Hr, Hend.
        exists (WThread j true :: evs), (S more). split; [intros e [<-|H]; [reflexivity|exact (Ho e H)]|]. split; [|destruct Hend as [->|Hend]; auto].
        change (whole_run E p L (whole_step E p L (mk_whole g (pevents E p pevs) ths) (WThread j true)) evs = mk_whole g (pevents E p (pevs ++ repeat (EStep i true) (S more))) ths).
        rewrite Hd. exact Hr.
  Qed.
  Lemma wait_done j ft c i k pcl m g pevs ths : ft_now ft = Some (c, FWait i k) -> nth_error ths j = Some ft -> nth_error (pf_calls (pevents E p pevs)) i = Some (pcl, m) ->
    exists evs more r, only j evs /\ whole_run E p L (mk_whole g (pevents E p pevs) ths) evs = mk_whole g (pevents E p (pevs ++ repeat (EStep i true) more)) ths /\
      nth_error (pf_calls (pevents E p (pevs ++ repeat (EStep i true) more))) i = Some (pcl, DRet r).
  Proof.
    intros Hn Hj Hi. destruct (call_ends E p Hp pcl) as (n & He). destruct (wait_steps j ft c i k Hn n g pevs ths Hj) as (evs & more & Ho & Hr & Hend).
    assert (Hk : exists m', nth_error (pf_calls (pevents E p (pevs ++ repeat (EStep i true) more))) i = Some (pcl, m')).
    { clear - Hi. induction more as [|more IH]; [cbn; rewrite app_nil_r; eauto|]. destruct IH as (m' & IH).
      replace (repeat (EStep i true) (S more)) with (repeat (EStep i true) more ++ [EStep i true]) by (symmetry; apply (repeat_cons more)). rewrite app_assoc, events_snoc. exact (call_kept E p _ _ _ _ _ IH). }
    destruct Hk as (m' & Hk).
    assert (exists r, nth_error (pf_calls (pevents E p (pevs ++ repeat (EStep i true) more))) i = Some (pcl, DRet r)) as (r & Hr').
    { destruct Hend as [->|(pcl' & r & Hd)]; [|exists r; congruence]. apply (He pevs _ i m Hi). now rewrite steps_of_repeat. }
    exists evs, more, r. auto.
  Qed.
  Definition pcs_ok (pevs : list pevent) : Prop := forall i, In (EStep i false) pevs -> F.
  Lemma pcs_more pevs i n : pcs_ok pevs -> pcs_ok (pevs ++ repeat (EStep i true) n).
  Proof. intros H k [Hk|Hk]%in_app_or; [exact (H k Hk)|]. apply repeat_spec in Hk. discriminate Hk. Qed.
  Lemma pcs_start pevs c : pcs_ok pevs -> pcs_ok (pevs ++ [EStart c]).
  Proof. intros H k [Hk|[Hk|[]]]%in_app_or; [exact (H k Hk)|discriminate Hk]. Qed.

  (** Where a thread is when the provider has answered: at a section of its own, or it has got the error of SQLite. *)
  Definition arrived (g : systate) (pevs : list pevent) (ths : list fthread) (j : nat) (ft : fthread) (c : lcall) (q : prog) : Prop :=
    exists evs more f, only j evs /\ pcs_ok (pevs ++ more) /\
      whole_run E p L (mk_whole g (pevents E p pevs) ths) evs =
        mk_whole g (pevents E p (pevs ++ more)) (lset ths j (mk_fthread (ft_done ft) (Some (c, f)) (ft_todo ft))) /\
      ((asking f = false /\ sim f q) \/ (F /\ f = FRet broken /\ is_script q = false)).
  Lemma arrive_wait c q j : forall i k pcl, is_script q = false -> k (Err PSqlite) = FRet broken ->
    (forall g pevs ths ft, pcs_ok pevs -> nth_error ths j = Some ft -> ft_now ft = Some (c, k (answer_of pcl)) -> arrived g pevs ths j ft c q) ->
    forall g pevs ths ft m, pcs_ok pevs -> nth_error ths j = Some ft -> ft_now ft = Some (c, FWait i k) -> nth_error (pf_calls (pevents E p pevs)) i = Some (pcl, m) ->
    arrived g pevs ths j ft c q.
  Proof.
    intros i k pcl Hq Hk IH g pevs ths ft m HF Hj Hn Hi.
    destruct (wait_done j ft c i k pcl m g pevs ths Hn Hj Hi) as (evs & more & r & Ho & Hr & Hd). set (pevs1 := pevs ++ repeat (EStep i true) more) in *.
    assert (HF1 : pcs_ok pevs1) by (now apply pcs_more).
    assert (Hstep : whole_step E p L (mk_whole g (pevents E p pevs1) ths) (WThread j true) =
      mk_whole g (pevents E p pevs1) (lset ths j (mk_fthread (ft_done ft) (Some (c, k r)) (ft_todo ft)))).
    { cbn [whole_step wh_threads wh_state wh_provider]. rewrite Hj, (fthread_now _ _ _ _ _ _ _ _ _ _ _ _ c _ Hn) by discriminate. cbn [fprog_step]. now rewrite Hd. }
    assert (Hjl : j < List.length ths) by (apply nth_error_Some; congruence).
    destruct (answer_once E p Hp pevs1 i pcl r Hd) as [->|(-> & Hin)].
    - destruct (IH g pevs1 (lset ths j (mk_fthread (ft_done ft) (Some (c, k (answer_of pcl))) (ft_todo ft))) (mk_fthread (ft_done ft) (Some (c, k (answer_of pcl))) (ft_todo ft)) HF1)
        as (evs2 & more2 & f & Ho2 & HF2 & Hr2 & Hend); [now apply lset_nth_eq|reflexivity|].
      exists (evs ++ [WThread j true] ++ evs2), (repeat (EStep i true) more ++ more2), f. unfold pevs1 in *. rewrite <- app_assoc in HF2, Hr2. split; [|split; [exact HF2|split; [|exact Hend]]].
      + apply only_app; [exact Ho|]. apply only_app; [apply only_one|exact Ho2].
      + rewrite run_snoc, Hr, run_snoc. unfold whole_run at 2. cbn [fold_left]. rewrite Hstep. rewrite lset_twice in Hr2. exact Hr2.
    - exists (evs ++ [WThread j true]), (repeat (EStep i true) more), (FRet broken). split; [|split; [exact HF1|split]].
      + apply only_app; [exact Ho|apply only_one].
      + rewrite run_snoc, Hr. unfold whole_run. cbn [fold_left]. rewrite Hstep, Hk. reflexivity.
      + right. split; [exact (HF1 i Hin)|]. auto.
  Qed.
  Lemma arrive c j f q : sim f q -> forall g pevs ths ft, pcs_ok pevs -> nth_error ths j = Some ft -> ft_now ft = Some (c, f) -> arrived g pevs ths j ft c q.
  Proof.
    intros H. assert (Hnow : asking f = false -> forall g pevs ths ft, pcs_ok pevs -> nth_error ths j = Some ft -> ft_now ft = Some (c, f) -> arrived g pevs ths j ft c q).
    { intros Ha g pevs ths ft HF Hj Hn. exists [], [], f. rewrite app_nil_r. split; [intros e []|]. split; [exact HF|]. split; [|auto]. cbn. f_equal. symmetry.
      apply lset_same. rewrite Hj, <- Hn. destruct ft; reflexivity. }
    induction H as [| | | | | | | | | | | | | |pcl k q Hq Hk H IH]; try (apply Hnow; reflexivity).
    intros g pevs ths ft HF Hj Hn. clear Hnow.
    assert (Hjl : j < List.length ths) by (apply nth_error_Some; congruence).
    set (i := List.length (pf_calls (pevents E p pevs))). set (ft1 := mk_fthread (ft_done ft) (Some (c, FWait i k)) (ft_todo ft)).
    assert (Hstep : whole_step E p L (mk_whole g (pevents E p pevs) ths) (WThread j true) = mk_whole g (pevents E p (pevs ++ [EStart pcl])) (lset ths j ft1)).
    { cbn [whole_step wh_threads wh_state wh_provider]. rewrite Hj, (fthread_now _ _ _ _ _ _ _ _ _ _ _ _ c _ Hn) by discriminate. cbn [fprog_step]. now rewrite events_snoc. }
    destruct (arrive_wait c q j i k pcl Hq Hk) with (g := g) (pevs := pevs ++ [EStart pcl]) (ths := lset ths j ft1) (ft := ft1) (m := sync_pcall E p pcl)
      as (evs & more & f & Ho & HF2 & Hr & Hend).
    - intros g0 pevs0 ths0 ft0 H0 H1 H2. apply IH; auto. intros Ha g1 pevs1 ths1 ft2 HF1 Hj1 Hn1. exists [], [], (k (answer_of pcl)). rewrite app_nil_r. split; [intros e []|].
      split; [exact HF1|]. split; [|auto]. cbn. f_equal. symmetry. apply lset_same. rewrite Hj1, <- Hn1. destruct ft2; reflexivity.
    - now apply pcs_start.
    - now apply lset_nth_eq.
    - reflexivity.
    - rewrite events_snoc. cbn [pevent_step pf_calls]. rewrite nth_error_app2 by (unfold i; lia). unfold i. rewrite Nat.sub_diag. reflexivity.
    - exists ([WThread j true] ++ evs), ([EStart pcl] ++ more), f. rewrite <- app_assoc in HF2, Hr. split; [apply only_app; [apply only_one|exact Ho]|]. split; [exact HF2|]. split; [|exact Hend].
      rewrite run_snoc. unfold whole_run at 2. cbn [fold_left]. rewrite Hstep, Hr, lset_twice. reflexivity.
  Qed.

  (** *** One step of the thread whose provider answers at once *)
  Lemma both_step g pc ft th c f q g' th' : ft_now ft = Some (c, f) -> th_now th = Some (c, q) -> sim f q -> asking f = false -> ft_todo ft = th_todo th ->
    thread_step L g th = Some (g', th') -> exists ft', fthread_step E p L g pc true ft = Some (g', pc, ft') /\ tsim pc ft' th' /\ (th_done th = ft_done ft -> th_done th' = ft_done ft').
  Proof.
    intros H1 H2 H3 Ha H4 Hs. assert (Hd : (exists r, f = FRet r) \/ forall r, f <> FRet r) by (destruct f; try (right; discriminate); left; eauto).
    destruct Hd as [(r & ->)|Hd].
    - apply ret_sim in H3. subst q. unfold thread_step in Hs. rewrite H2 in Hs. injection Hs as <- <-. unfold fthread_step. rewrite H1. eexists. split; [reflexivity|]. split.
      + apply ts_idle; try reflexivity. cbn. now rewrite H4.
      + cbn. intros ->. reflexivity.
    - assert (Hq : forall r, q <> PRet r) by (intros r ->; exact (Hd r (sim_ret E p f r H3 Ha))).
      rewrite (thread_now _ _ _ _ _ _ _ _ g th c q H2 Hq) in Hs. rewrite (fthread_now _ _ _ _ _ _ _ _ _ _ _ _ c f H1 Hd).
      pose proof (sim_step E p ic fe reg locale script fuel f q g pc true H3 Ha) as K. destruct (fprog_step E p L f g pc true) as [[[g1 pc1] f1]|]; [|rewrite K in Hs; discriminate Hs].
      destruct K as (-> & q' & Eq & Hs'). rewrite Eq in Hs. injection Hs as <- <-. eexists. split; [reflexivity|]. split; [now apply (ts_now _ _ _ _ _ _ c f1 q')|auto].
  Qed.
  Definition quiet (evs : list wevent) : Prop := forall e, In e evs -> exists j, e = WThread j true.
  Lemma only_quiet j evs : only j evs -> quiet evs.
  Proof. intros H e He. exists j. exact (H e He). Qed.
  Lemma quiet_app a b : quiet a -> quiet b -> quiet (a ++ b).
  Proof. intros Ha Hb e [H|H]%in_app_or; auto. Qed.
  Lemma rel_lift x y j y' : rel x y -> sys_step L y j = Some y' -> exists evs, quiet evs /\
    (rel (whole_run E p L x evs) y' \/
     exists th, F /\ nth_error (sys_threads y) j = Some th /\ th_now th <> None /\ in_script th = false /\ rel (whole_run E p L x evs) (kill y j th)).
  Proof.
    intros ((pevs & Hpv & HF) & Hst & Hth) Hs. destruct x as [g pc ths]. cbn [wh_provider wh_state wh_threads] in *. subst pc.
    unfold sys_step in Hs. destruct (nth_error (sys_threads y) j) as [th|] eqn:Ej; [|discriminate]. destruct (thread_step L (sys_state y) th) as [[g' th']|] eqn:Et; [|discriminate].
    injection Hs as <-. assert (Hjl : j < List.length (sys_threads y)) by (apply nth_error_Some; congruence).
    assert (Hlen : List.length ths = List.length (sys_threads y)) by (clear - Hth; induction Hth; cbn; congruence).
    destruct (nth_error ths j) as [ft|] eqn:Ei; [|apply nth_error_None in Ei; lia]. destruct (Forall2_pick _ _ _ _ _ Hth Ei) as (th0 & E0 & Ht & Hd). assert (th0 = th) by congruence. subst th0. clear E0.
    rewrite Hst in Et.
    (* the provider goes on *)
    assert (Hput : forall pevs' ft1 th1, (exists more, pevs' = pevs ++ more) -> tsim (pevents E p pevs') ft1 th1 -> (F \/ th_done th1 = ft_done ft1) ->
      Forall2 (fun ft th => tsim (pevents E p pevs') ft th /\ (F \/ th_done th = ft_done ft)) (lset ths j ft1) (lset (sys_threads y) j th1)).
    { intros pevs' ft1 th1 (more & ->) H1 H2. apply (Forall2_put _ _ _ _ _ _ _ Hth); [auto|]. intros a b k _ _ (Ha & Hb). split; [|exact Hb].
      apply (tsim_events (pevents E p pevs) _ more); [|exact Ha]. unfold pevents. now rewrite fold_left_app. }
    assert (Hgo : forall c q, th_now th = Some (c, q) -> arrived g pevs ths j ft c q -> ft_todo ft = th_todo th -> exists evs, quiet evs /\
      (rel (whole_run E p L (mk_whole g (pevents E p pevs) ths) evs) (mk_sys g' (lset (sys_threads y) j th')) \/
       exists th, F /\ Some th = Some th /\ th_now th <> None /\ in_script th = false /\ nth_error (sys_threads y) j = Some th /\
         rel (whole_run E p L (mk_whole g (pevents E p pevs) ths) evs) (kill y j th))).
    { intros c q Hq (evs & more & f & Ho & HF' & Hr & Hend) Htodo. destruct Hend as [(Ha & Hsim)|(HFF & -> & Hsc)].
      - set (ft1 := mk_fthread (ft_done ft) (Some (c, f)) (ft_todo ft)) in *.
        destruct (both_step g (pevents E p (pevs ++ more)) ft1 th c f q g' th' eq_refl Hq Hsim Ha Htodo Et) as (ft' & Hft & Hts & Hdn).
        exists (evs ++ [WThread j true]). split; [apply (only_quiet j); apply only_app; [exact Ho|apply only_one]|]. left. rewrite run_snoc, Hr. unfold whole_run. cbn [fold_left whole_step wh_threads wh_state wh_provider].
        rewrite lset_nth_eq by lia. rewrite Hft, lset_twice. split; [exists (pevs ++ more); auto|]. split; [reflexivity|]. cbn [wh_provider wh_threads sys_threads].
        apply Hput; [eauto|exact Hts|]. destruct Hd as [Hd|Hd]; auto.
      - exists evs. split; [exact (only_quiet j _ Ho)|]. right. exists th. split; [exact HFF|]. split; [reflexivity|]. split; [congruence|]. split; [unfold in_script; now rewrite Hq|]. split; [exact Ej|].
        rewrite Hr. split; [exists (pevs ++ more); auto|]. split; [exact Hst|]. cbn [wh_provider wh_threads sys_threads kill]. apply Hput; [eauto| |auto].
        apply (ts_broken _ _ _ _ _ _ c); auto. }
    assert (Hfin : forall c q, th_now th = Some (c, q) -> arrived g pevs ths j ft c q -> ft_todo ft = th_todo th -> exists evs, quiet evs /\
      (rel (whole_run E p L (mk_whole g (pevents E p pevs) ths) evs) (mk_sys g' (lset (sys_threads y) j th')) \/
       exists th0, F /\ Some th = Some th0 /\ th_now th0 <> None /\ in_script th0 = false /\ rel (whole_run E p L (mk_whole g (pevents E p pevs) ths) evs) (kill y j th0))).
    { intros c q Hq Har Htodo. destruct (Hgo c q Hq Har Htodo) as (evs & Hev & [H|(th0 & H1 & _ & H3 & H4 & H5 & H6)]); exists evs; split; [exact Hev|auto|exact Hev|].
      right. exists th0. split; [exact H1|]. split; [congruence|]. auto. }
    destruct Ht as [H1 H2 H3|c f q H1 H2 H3 H4|c i k q pcl m H1 H2 H3 H4 H5 H6 H7|c H0 H1 H2 H3].
    - exists [WThread j true]. split; [apply (only_quiet j), only_one|]. left. unfold whole_run. cbn [fold_left whole_step wh_threads wh_state wh_provider]. rewrite Ei.
      unfold thread_step in Et. rewrite H2, <- H3 in Et. unfold fthread_step. rewrite H1. destruct (ft_todo ft) as [|c r]; [discriminate Et|]. injection Et as <- <-.
      split; [exists pevs; auto|]. split; [reflexivity|]. cbn [wh_provider wh_threads sys_threads]. apply Hput; [exists []; now rewrite app_nil_r| |exact Hd].
      apply (ts_now _ _ _ _ _ _ c (whole_call E L c) (sync_call L c)); try reflexivity. apply sim_call.
    - apply (Hfin c q H2); [|exact H4]. exact (arrive c j f q H3 g pevs ths ft HF Ei H1).
    - apply (Hfin c q H2); [|exact H7]. apply (arrive_wait c q j i k pcl H4 H5) with (m := m); auto. intros g0 pevs0 ths0 ft0 K1 K2 K3. exact (arrive c j _ q H6 g0 pevs0 ths0 ft0 K1 K2 K3).
    - exists ([WThread j true] ++ [WThread j true]). split; [apply (only_quiet j), only_app; apply only_one|]. left. rewrite run_snoc.
      assert (Hstep : whole_step E p L (mk_whole g (pevents E p pevs) ths) (WThread j true) =
        mk_whole g (pevents E p pevs) (lset ths j (mk_fthread (ft_done ft ++ [(c, broken)]) None (ft_todo ft)))).
      { cbn [whole_step wh_threads wh_state wh_provider]. rewrite Ei. unfold fthread_step. rewrite H1. reflexivity. }
      unfold whole_run. cbn [fold_left]. rewrite Hstep. cbn [whole_step wh_threads wh_state wh_provider]. rewrite lset_nth_eq by lia.
      unfold thread_step in Et. rewrite H2, <- H3 in Et. unfold fthread_step. cbn [ft_now ft_todo ft_done]. destruct (ft_todo ft) as [|c0 r]; [discriminate Et|]. injection Et as <- <-. rewrite lset_twice.
      split; [exists pevs; auto|]. split; [reflexivity|]. cbn [wh_provider wh_threads sys_threads]. apply Hput; [exists []; now rewrite app_nil_r| |auto].
      apply (ts_now _ _ _ _ _ _ c0 (whole_call E L c0) (sync_call L c0)); try reflexivity. apply sim_call.
  Qed.

  (** *** The end *)
  Definition nearly (ft : fthread) : Prop := ft_todo ft = [] /\ (ft_now ft = None \/ exists c, ft_now ft = Some (c, FRet broken)).
  Lemma flush_step g pc ths i : i < List.length ths -> Forall nearly ths -> exists ft', ft_now ft' = None /\ nearly ft' /\
    whole_step E p L (mk_whole g pc ths) (WThread i true) = mk_whole g pc (lset ths i ft').
  Proof.
    intros Hi Hn. cbn [whole_step wh_threads wh_state wh_provider]. destruct (nth_error ths i) as [ft|] eqn:Ei; [|apply nth_error_None in Ei; lia].
    rewrite Forall_forall in Hn. destruct (Hn ft (nth_error_In _ _ Ei)) as (Ht & [Hf|(c & Hf)]).
    - exists ft. split; [exact Hf|]. split; [split; auto|]. unfold fthread_step. rewrite Hf, Ht. now rewrite (lset_same ths i ft Ei).
    - exists (mk_fthread (ft_done ft ++ [(c, broken)]) None (ft_todo ft)). split; [reflexivity|]. split; [split; auto|]. unfold fthread_step. now rewrite Hf.
  Qed.
  Lemma flush n : forall g pc ths, n <= List.length ths -> Forall nearly ths -> exists ths',
    whole_run E p L (mk_whole g pc ths) (map (fun i => WThread i true) (seq 0 n)) = mk_whole g pc ths' /\ List.length ths' = List.length ths /\ Forall nearly ths' /\
    forall i ft, i < n -> nth_error ths' i = Some ft -> ft_now ft = None.
  Proof.
    induction n as [|n IH]; intros g pc ths Hn Hf.
    - exists ths. split; [reflexivity|]. split; [reflexivity|]. split; [exact Hf|]. intros i ft Hi. lia.
    - destruct (IH g pc ths ltac:(lia) Hf) as (ths1 & H1 & H2 & H3 & H4). destruct (flush_step g pc ths1 n ltac:(lia) H3) as (ft' & K1 & K2 & K3).
      exists (lset ths1 n ft'). rewrite seq_S, map_app, run_snoc, H1. split; [exact K3|]. split; [now rewrite lset_length|]. split.
      + apply Forall_forall. intros ft Hin. apply In_nth_error in Hin as (k & Hk). destruct (Nat.eq_dec n k) as [<-|Hne].
        * rewrite lset_nth_eq in Hk by lia. congruence.
        * rewrite lset_nth_ne in Hk by exact Hne. rewrite Forall_forall in H3. exact (H3 ft (nth_error_In _ _ Hk)).
      + intros i ft Hi Hk. destruct (Nat.eq_dec n i) as [<-|Hne].
        * rewrite lset_nth_eq in Hk by lia. congruence.
        * rewrite lset_nth_ne in Hk by exact Hne. apply (H4 i ft); [lia|exact Hk].
  Qed.
  Theorem can_finish n : forall x y ns, rel x y -> all_left L y ns -> total ns <= n -> exists evs, quiet evs /\ all_back (whole_run E p L x evs).
  Proof.
    induction n as [|n IH]; intros x y ns Hx Hl Hn; (destruct (progress L y ns Hl) as [Hf|(j & y' & Hs)];
      [|destruct (rel_lift x y j y' Hx Hs) as (evs & Hq & [Hr|(th & _ & Hj & Hnow & Hsc & Hr)]);
        [destruct (sys_step_left L y ns j y' Hl Hs) as (ns' & Hl' & Hlt)|destruct (all_left_kill y ns j th Hl Hj Hsc Hnow) as (ns' & Hl' & Hlt)];
        [first [lia|destruct (IH _ _ ns' Hr Hl' ltac:(lia)) as (evs' & Hq' & Hb); exists (evs ++ evs'); split; [now apply quiet_app|now rewrite run_snoc]]..]]).
    all: destruct x as [g pc ths]; destruct Hx as (_ & _ & Hth); cbn [wh_provider wh_threads] in Hth.
    all: assert (Hnear : Forall nearly ths) by
      (apply Forall_forall; intros ft Hin; apply In_nth_error in Hin as (k & Hk); destruct (Forall2_pick _ _ _ _ _ Hth Hk) as (th & Hk' & Ht & _);
       destruct (Hf th (nth_error_In _ _ Hk')) as (F1 & F2);
       destruct Ht as [H1 H2 H3|c f q H1 H2 H3 H4|c i0 k0 q pcl m H1 H2 H3 H4 H5 H6 H7|c H0 H1 H2 H3]; try congruence; (split; [congruence|eauto])).
    all: destruct (flush (List.length ths) g pc ths (le_n _) Hnear) as (ths' & H1 & H2 & H3 & H4); exists (map (fun i => WThread i true) (seq 0 (List.length ths)));
      (split; [intros e He; apply in_map_iff in He as (k & <- & _); eauto|]); rewrite H1; intros ft Hin; cbn [wh_threads] in Hin;
      rewrite Forall_forall in H3; (split; [|exact (proj1 (H3 ft Hin))]); apply In_nth_error in Hin as (k & Hk); apply (H4 k ft); [rewrite <- H2; apply nth_error_Some; congruence|exact Hk].
  Qed.
End Whole.

(** *** The converse: every run in which the provider answers at once. *)
Section Converse.
  Variables (E : penv) (p : sprovider) (ic : icu) (fe : fmtenv) (reg : cregistry) (locale : ustr -> ustr) (script : ustr -> option ustr) (fuel : nat).
  Hypothesis Hp : provider_ok p.
  Local Notation L := (L E p ic fe reg locale script fuel).
  Lemma every_run sch : forall x (y : sys (PE := perror)), rel E p False x y -> exists evs, quiet evs /\ rel E p False (whole_run E p L x evs) (sys_run L y sch).
  Proof.
    induction sch as [|j sch IH]; intros x y Hx; cbn [sys_run]; [exists []; split; [intros e []|exact Hx]|].
    destruct (sys_step L y j) as [y'|] eqn:Es; [|now apply IH].
    destruct (rel_lift E p ic fe reg locale script fuel Hp False x y j y' Hx Es) as (evs & Hq & [Hr|(th & [] & _)]).
    destruct (IH _ _ Hr) as (evs' & Hq' & Hr'). exists (evs ++ evs'). split; [now apply quiet_app|]. rewrite run_snoc. exact Hr'.
  Qed.
  Lemma rel_dones x (y : sys (PE := perror)) : rel E p False x y -> map ft_done (wh_threads x) = map th_done (sys_threads y).
  Proof. intros (_ & _ & H). induction H as [|ft th l l' (_ & [[]|Hd]) H IH]; cbn; [reflexivity|]. now rewrite Hd, IH. Qed.
End Converse.
