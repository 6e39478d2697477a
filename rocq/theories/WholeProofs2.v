(** The localiser over the sqlite3 provider with threads: every run is one in which the provider answers at once, and the other way round. *)
From Verif Require Import Base BaseFacts LexerModel TreeModel ValueModel CommandModel IsoModel FormatterModel RegistryModel ProviderModel ProviderSpec ProviderProofs LocaliserModel
  SystemModel ProviderSyncModel ProviderSyncProofs SyncModel SyncSpec SyncProofs3 WholeModel WholeSpec WholeProofs.
Local Opaque us.

Section Whole.
  Variables (E : penv) (p : sprovider) (ic : icu) (fe : fmtenv) (reg : cregistry) (locale : ustr -> ustr) (script : ustr -> option ustr) (fuel : nat).
  Hypothesis Hp : provider_ok p.
  Local Notation text := (outcome (localiser_error perror) (ustr * ustr)).
  Local Notation prog := (SyncModel.prog (PE := perror)).
  Local Notation sthread := (sthread (PE := perror)).
  Local Notation sys := (sys (PE := perror)).
  Local Notation L := (L E p ic fe reg locale script fuel).
  Local Notation sim := (sim E p).
  Local Notation answer_of := (answer_of E p).

  (** ** The provider *)
  Lemma call_kept pc e i c m : nth_error (pf_calls pc) i = Some (c, m) -> exists m', nth_error (pf_calls (pevent_step E p pc e)) i = Some (c, m').
  Proof.
    intros H. destruct e as [c'|j ok]; cbn [pevent_step].
    - exists m. cbn [pf_calls]. rewrite nth_error_app1; [exact H|]. apply nth_error_Some. rewrite H. discriminate.
    - destruct (nth_error (pf_calls pc) j) as [[c' m']|] eqn:Ej; [|eauto]. destruct (ProviderSyncModel.prog_step (pf_shared pc) ok m') as [[s m'']|]; [|eauto].
      cbn [pf_calls]. rewrite (nth_update _ _ _ _ _ Ej). destruct (Nat.eqb_spec i j) as [->|Hn]; [|eauto]. exists m''. congruence.
  Qed.
  Lemma events_snoc evs e : pevents E p (evs ++ [e]) = pevent_step E p (pevents E p evs) e.
  Proof. unfold pevents. now rewrite fold_left_app. Qed.

  (** ** Threads *)
  Lemma fthread_now g pc ok th c f : ft_now th = Some (c, f) -> (forall r, f <> FRet r) -> fthread_step E p L g pc ok th =
    match fprog_step E p L f g pc ok with None => None | Some (g', pc', f') => Some (g', pc', mk_fthread (ft_done th) (Some (c, f')) (ft_todo th)) end.
  Proof. intros H Hf. unfold fthread_step. rewrite H. destruct f; try reflexivity. now destruct (Hf r). Qed.
  Lemma thread_now g (th : sthread) c q : th_now th = Some (c, q) -> (forall r, q <> PRet r) -> thread_step L g th =
    match prog_step L q g with None => None | Some (g', q') => Some (g', mk_sthread (th_done th) (Some (c, q')) (th_todo th)) end.
  Proof. intros H Hf. unfold thread_step. rewrite H. destruct q; try reflexivity. now destruct (Hf r). Qed.
  Lemma sim_ret f r : sim f (PRet r) -> asking f = false -> f = FRet r.
  Proof. inversion 1; subst; cbn; [reflexivity|discriminate]. Qed.
  Lemma ret_sim r q : sim (FRet r) q -> q = PRet r.
  Proof. inversion 1; reflexivity. Qed.

  Section Failing.
    Variable F : Prop.   (* SQLite failed *)
    Inductive tsim (pc : pconf) (ft : fthread) (th : sthread) : Prop :=
    | ts_idle : ft_now ft = None -> th_now th = None -> ft_todo ft = th_todo th -> tsim pc ft th
    | ts_now c f q : ft_now ft = Some (c, f) -> th_now th = Some (c, q) -> sim f q -> ft_todo ft = th_todo th -> tsim pc ft th
    | ts_wait c i k q pcl m : ft_now ft = Some (c, FWait i k) -> th_now th = Some (c, q) -> nth_error (pf_calls pc) i = Some (pcl, m) ->
        is_script q = false -> k (Err PSqlite) = FRet broken -> sim (k (answer_of pcl)) q -> ft_todo ft = th_todo th -> tsim pc ft th
    | ts_broken c : F -> ft_now ft = Some (c, FRet broken) -> th_now th = None -> ft_todo ft = th_todo th -> tsim pc ft th.
    Lemma tsim_event pc e ft th : tsim pc ft th -> tsim (pevent_step E p pc e) ft th.
    Proof.
      intros [H1 H2 H3|c f q H1 H2 H3 H4|c i k q pcl m H1 H2 H3 H4 H5 H6 H7|c H0 H1 H2 H3]; [now apply ts_idle|now apply (ts_now _ _ _ c f q)| |now apply (ts_broken _ _ _ c)].
      destruct (call_kept pc e i pcl m H3) as (m' & Hm). now apply (ts_wait _ _ _ c i k q pcl m').
    Qed.
    Definition idle (l : list lcall) : sthread := mk_sthread [] None l.

    (** What a step of a thread is: a step of the other thread, or nothing, or the end of a call because SQLite failed. *)
    Inductive goes (g : systate) (th : sthread) (ft ft' : fthread) (g' : systate) (th' : sthread) : Prop :=
    | go_step th1 : thread_step L g th = Some (g', th1) -> th' = th1 -> (th_done th = ft_done ft -> th_done th' = ft_done ft') ->
        (forall c r, In (c, r) (ft_done ft') -> In (c, r) (ft_done ft) \/ In (c, r) (th_done th')) -> goes g th ft ft' g' th'
    | go_same : g' = g -> th' = th -> ft_done ft' = ft_done ft -> goes g th ft ft' g' th'
    | go_done c : F -> g' = g -> th' = th -> ft_done ft' = ft_done ft ++ [(c, broken)] -> goes g th ft ft' g' th'
    | go_broken : F -> g' = g -> th' = idle (th_todo th) -> in_script th = false -> ft_done ft' = ft_done ft -> goes g th ft ft' g' th'.
    Lemma thread_goes pevs g ok ft th : (forall i, In (EStep i false) pevs -> F) -> tsim (pevents E p pevs) ft th ->
      match fthread_step E p L g (pevents E p pevs) ok ft with
      | None => thread_step L g th = None
      | Some (g', pc', ft') => (pc' = pevents E p pevs \/ exists e, pc' = pevents E p (pevs ++ [e]) /\ (forall i, e = EStep i false -> ok = false)) /\
          exists th', tsim pc' ft' th' /\ goes g th ft ft' g' th' /\ (ft_todo ft' = ft_todo ft \/ ft_todo ft' = [] \/ exists c, ft_todo ft = c :: ft_todo ft')
      end.
    Proof.
      intros HF [H1 H2 H3|c f q H1 H2 H3 H4|c i k q pcl m H1 H2 H3 H4 H5 H6 H7|c H0 H1 H2 H3].
      - unfold fthread_step, thread_step. rewrite H1, H2, <- H3. destruct (ft_todo ft) as [|c r] eqn:Et; [reflexivity|]. split; [left; reflexivity|].
        exists (mk_sthread (th_done th) (Some (c, sync_call L c)) r). split; [|split].
        + apply (ts_now _ _ _ c (whole_call E L c) (sync_call L c)); try reflexivity. apply sim_call.
        + eapply go_step; [unfold thread_step; rewrite H2, <- H3; reflexivity|reflexivity| |]; cbn; auto.
        + right; right. exists c. reflexivity.
      - assert (Hd : (exists r, f = FRet r) \/ forall r, f <> FRet r) by (destruct f; try (right; discriminate); left; eauto).
        destruct Hd as [(r & ->)|Hd].
        + apply ret_sim in H3. subst q. unfold fthread_step. rewrite H1. split; [left; reflexivity|].
          exists (mk_sthread (th_done th ++ [(c, r)]) None (match r with Some Panic => [] | _ => th_todo th end)). split; [|split].
          * apply ts_idle; try reflexivity. cbn. now rewrite H4.
          * eapply go_step; [unfold thread_step; rewrite H2; reflexivity|reflexivity| |]; cbn; [intros ->; reflexivity|].
            intros c' r' [H|H]%in_app_or; [auto|]. right. apply in_or_app. right. exact H.
          * cbn. destruct r as [[| | |]|]; auto.
        + rewrite (fthread_now _ _ _ _ c f H1 Hd). destruct (asking f) eqn:Ea.
          * destruct f as [| | | | | | | | | | | | | |pcl k|i k]; try discriminate Ea; [|now inversion H3]. cbn [fprog_step]. inversion H3 as [| | | | | | | | | | | | | |c0 k0 q0 Hq Hk Hs]; subst.
            split; [right; exists (EStart pcl); split; [now rewrite events_snoc|discriminate]|]. exists th. split; [|split; [now apply go_same|auto]].
            apply (ts_wait _ _ _ c (List.length (pf_calls (pevents E p pevs))) k q pcl (sync_pcall E p pcl)); try reflexivity; auto.
            cbn [pevent_step pf_calls]. rewrite nth_error_app2, Nat.sub_diag by lia. reflexivity.
          * pose proof (sim_step E p ic fe reg locale script fuel f q g (pevents E p pevs) ok H3 Ea) as K.
            assert (Hq : forall r, q <> PRet r) by (intros r ->; exact (Hd r (sim_ret f r H3 Ea))).
            rewrite (thread_now g th c q H2 Hq). destruct (fprog_step E p L f g (pevents E p pevs) ok) as [[[g' pc'] f']|]; [|now rewrite K].
            destruct K as (-> & q' & Es & Hs). split; [left; reflexivity|]. exists (mk_sthread (th_done th) (Some (c, q')) (th_todo th)). split; [|split].
            -- now apply (ts_now _ _ _ c f' q').
            -- eapply go_step; [rewrite (thread_now g th c q H2 Hq), Es; reflexivity|reflexivity| |]; cbn; auto.
            -- cbn. auto.
      - rewrite (fthread_now _ _ _ _ c _ H1) by discriminate. cbn [fprog_step]. rewrite H3.
        assert (Hgo : (pevent_step E p (pevents E p pevs) (EStep i ok) = pevents E p pevs \/
            exists e, pevent_step E p (pevents E p pevs) (EStep i ok) = pevents E p (pevs ++ [e]) /\ (forall i, e = EStep i false -> ok = false)) /\
          exists th', tsim (pevent_step E p (pevents E p pevs) (EStep i ok)) (mk_fthread (ft_done ft) (Some (c, FWait i k)) (ft_todo ft)) th' /\
            goes g th ft (mk_fthread (ft_done ft) (Some (c, FWait i k)) (ft_todo ft)) g th' /\ (ft_todo ft = ft_todo ft \/ ft_todo ft = [] \/ exists c, ft_todo ft = c :: ft_todo ft)).
        { split; [right; exists (EStep i ok); split; [now rewrite events_snoc|intros ? [= _ ->]; reflexivity]|]. exists th. split; [|split; [now apply go_same|auto]].
          destruct (call_kept (pevents E p pevs) (EStep i ok) i pcl m H3) as (m' & Hm). now apply (ts_wait _ _ _ c i k q pcl m'). }
        destruct m as [r| | | | | | |]; try exact Hgo. clear Hgo. split; [left; reflexivity|].
        destruct (answer_once E p Hp pevs i pcl r H3) as [->|(-> & Hi)].
        + exists th. split; [|split; [now apply go_same|auto]]. now apply (ts_now _ _ _ c (k (value (pcall_run E p pcl))) q).
        + exists (idle (th_todo th)). split; [|split; [apply go_broken; auto; [exact (HF i Hi)|]; unfold in_script; now rewrite H2|auto]].
          rewrite H5. apply (ts_broken _ _ _ c); auto. exact (HF i Hi).
      - unfold fthread_step. rewrite H1. split; [left; reflexivity|]. exists th. split; [|split; [now apply (go_done _ _ _ _ _ _ c)|auto]]. now apply ts_idle.
    Qed.

    (** ** Runs *)
    Lemma sys_run_length sch : forall y : sys, List.length (sys_threads (sys_run L y sch)) = List.length (sys_threads y).
    Proof.
      induction sch as [|j sch IH]; intros y; cbn [sys_run]; [reflexivity|]. rewrite IH. unfold sys_step. destruct (nth_error (sys_threads y) j) as [th|]; [|reflexivity].
      destruct (thread_step L (sys_state y) th) as [[g th']|]; [|reflexivity]. cbn. apply lset_length.
    Qed.
    (** A thread that makes no step changes nothing. *)
    Lemma sys_run_more th0 sch : forall y : sys, Forall (fun j => j < List.length (sys_threads y)) sch ->
      sys_run L (mk_sys (sys_state y) (sys_threads y ++ [th0])) sch = mk_sys (sys_state (sys_run L y sch)) (sys_threads (sys_run L y sch) ++ [th0]).
    Proof.
      induction sch as [|j sch IH]; intros y H; cbn [sys_run]; [reflexivity|]. inversion H as [|j0 sch0 Hj Hs]; subst. unfold sys_step. cbn [sys_threads sys_state].
      rewrite nth_error_app1 by exact Hj. destruct (nth_error (sys_threads y) j) as [th|] eqn:Ej; [|now apply IH].
      destruct (thread_step L (sys_state y) th) as [[g th']|]; [|now apply IH]. rewrite lset_app_l by exact Hj.
      apply (IH (mk_sys g (lset (sys_threads y) j th'))). cbn. rewrite lset_length. exact Hs.
    Qed.
    Lemma sys_run_snoc (y : sys) sch j th g th' : nth_error (sys_threads (sys_run L y sch)) j = Some th -> thread_step L (sys_state (sys_run L y sch)) th = Some (g, th') ->
      sys_run L y (sch ++ [j]) = mk_sys g (lset (sys_threads (sys_run L y sch)) j th').
    Proof. intros H1 H2. rewrite run_app. cbn [sys_run]. unfold sys_step. now rewrite H1, H2. Qed.
    Lemma start_more st calls l : sys_start st (calls ++ [l]) = mk_sys (sys_state (sys_start (PE := perror) st calls)) (sys_threads (sys_start (PE := perror) st calls) ++ [idle l]).
    Proof. unfold sys_start. cbn. rewrite map_app. reflexivity. Qed.
    Lemma later_less calls l l' : later_calls calls l -> l' = l \/ l' = [] \/ (exists c, l = c :: l') -> later_calls calls l'.
    Proof.
      intros (b & H) [->|[->|(c & ->)]]; [exists b; exact H|exists (b ++ l); now rewrite app_nil_r|]. exists (b ++ [c]). now rewrite <- app_assoc.
    Qed.

    Variables (st : lstate) (calls : list (list lcall)).
    Definition linked (x : whole) (y : sys) (pi : list nat) : Prop :=
      List.length pi = List.length (wh_threads x) /\ NoDup pi /\
      (forall i ft j, nth_error (wh_threads x) i = Some ft -> nth_error pi i = Some j ->
         exists th, nth_error (sys_threads y) j = Some th /\ tsim (wh_provider x) ft th /\ (F \/ th_done th = ft_done ft)).
    Record inv_of (x : whole) (calls' : list (list lcall)) (sch pi : list nat) (pevs : list pevent) : Prop := {
      in_provider : wh_provider x = pevents E p pevs;
      in_failed : forall i, In (EStep i false) pevs -> F;
      in_schedule : Forall (fun j => j < List.length calls') sch;
      in_state : sys_state (sys_run L (sys_start st calls') sch) = wh_state x;
      in_linked : linked x (sys_run L (sys_start st calls') sch) pi;
      in_back : forall c r, came_back x c r -> returned (sys_run L (sys_start st calls') sch) c r \/ (r = broken /\ F);
      in_calls : Forall (later_calls calls) calls';
      in_todo : forall i ft, nth_error (wh_threads x) i = Some ft -> later_calls calls (ft_todo ft);
      in_same : F \/ calls' = calls /\ pi = seq 0 (List.length calls)
    }.
    Definition inv (x : whole) : Prop := exists calls' sch pi pevs, inv_of x calls' sch pi pevs.

    Lemma inv_start : inv (whole_start st calls).
    Proof.
      exists calls, [], (seq 0 (List.length calls)), []. split; cbn [sys_run].
      - reflexivity.
      - intros i [].
      - constructor.
      - reflexivity.
      - split; [|split].
        + cbn. now rewrite seq_length, map_length.
        + apply seq_NoDup.
        + intros i ft j Hi Hj. cbn in Hi. rewrite nth_error_map in Hi. destruct (nth_error calls i) as [l|] eqn:El; [|discriminate]. cbn in Hi. injection Hi as <-.
          assert (Hl : i < List.length calls) by (apply nth_error_Some; congruence).
          assert (Ej : j = i). { rewrite (nth_error_nth' _ 0) in Hj by (now rewrite seq_length). rewrite seq_nth in Hj by exact Hl. injection Hj as <-. reflexivity. }
          subst j. exists (idle l). split; [cbn; rewrite nth_error_map, El; reflexivity|]. split; [now apply ts_idle|right; reflexivity].
      - intros c r (th & Hin & Hd). cbn in Hin. apply in_map_iff in Hin as (l & <- & _). destruct Hd.
      - apply Forall_forall. intros l Hl. exists []. exact Hl.
      - intros i ft Hi. cbn in Hi. rewrite nth_error_map in Hi. destruct (nth_error calls i) as [l|] eqn:El; [|discriminate]. injection Hi as <-. exists []. exact (nth_error_In _ _ El).
      - right. auto.
    Qed.

    Lemma back_lset x i ft ft' g pc c r : nth_error (wh_threads x) i = Some ft -> came_back (mk_whole g pc (lset (wh_threads x) i ft')) c r ->
      came_back x c r \/ In (c, r) (ft_done ft').
    Proof.
      intros Hi (th & Hin & Hd). apply In_nth_error in Hin as (k & Hk). cbn [wh_threads] in Hk. destruct (Nat.eq_dec i k) as [->|Hn].
      - rewrite lset_nth_eq in Hk by (apply nth_error_Some; congruence). injection Hk as <-. auto.
      - rewrite lset_nth_ne in Hk by exact Hn. left. exists th. split; [exact (nth_error_In _ _ Hk)|exact Hd].
    Qed.
    Lemma inv_step x e : inv x -> (forall i, e = WThread i false \/ e = WOther (EStep i false) -> F) -> inv (whole_step E p L x e).
    Proof.
      intros (calls' & sch & pi & pevs & [I1 I2 I3 I4 I5 I6 I7 I8 I9]) He. destruct I5 as (P1 & P2 & P3). set (y := sys_run L (sys_start st calls') sch) in *.
      assert (Hlen : List.length (sys_threads y) = List.length calls') by (unfold y; rewrite sys_run_length; cbn; apply map_length).
      destruct e as [i ok|e]; cbn [whole_step].
      2: { exists calls', sch, pi, (pevs ++ [e]). split; cbn [wh_provider wh_state wh_threads]; auto.
           - now rewrite events_snoc, I1.
           - intros i [H|[->|[]]]%in_app_or; [exact (I2 i H)|]. apply (He i). auto.
           - split; [exact P1|]. split; [exact P2|]. intros i ft j Hi Hj. destruct (P3 i ft j Hi Hj) as (th & H1 & H2 & H3). exists th. split; [exact H1|].
             split; [now apply tsim_event|exact H3]. }
      destruct (nth_error (wh_threads x) i) as [ft|] eqn:Ei.
      2: { exists calls', sch, pi, pevs. split; auto. repeat split; auto. }
      assert (Hil : i < List.length (wh_threads x)) by (apply nth_error_Some; congruence).
      destruct (nth_error pi i) as [j|] eqn:Ej; [|apply nth_error_None in Ej; lia].
      destruct (P3 i ft j Ei Ej) as (th & Hj & Ht & Hd). rewrite I1 in Ht.
      pose proof (thread_goes pevs (wh_state x) ok ft th I2 Ht) as K. rewrite I1.
      destruct (fthread_step E p L (wh_state x) (pevents E p pevs) ok ft) as [[[g pc] ft']|].
      2: { exists calls', sch, pi, pevs. split; auto. repeat split; auto. }
      destruct K as (Hpc & th' & Ht' & Hg & Htodo).
      assert (Hpv : exists pevs', pc = pevents E p pevs' /\ (forall i, In (EStep i false) pevs' -> F) /\ forall ft0 th0, tsim (wh_provider x) ft0 th0 -> tsim pc ft0 th0).
      { rewrite I1. destruct Hpc as [->|(e & -> & Hok)]; [exists pevs; auto|]. exists (pevs ++ [e]). split; [reflexivity|]. split.
        - intros i0 [H|[->|[]]]%in_app_or; [exact (I2 i0 H)|]. apply (He i). left. now rewrite (Hok i0 eq_refl).
        - intros ft0 th0 H. rewrite events_snoc. now apply tsim_event. }
      destruct Hpv as (pevs' & Hpv & HF' & Hkeep).
      assert (Hjl : j < List.length calls') by (rewrite <- Hlen; apply nth_error_Some; congruence).
      assert (Hother : forall k j', nth_error pi k = Some j' -> k <> i -> j' <> j).
      { intros k j' Hk Hn ->. apply Hn. apply (proj1 (NoDup_nth_error pi) P2); [apply nth_error_Some; congruence|congruence]. }
      assert (Hto : forall k ft0, nth_error (lset (wh_threads x) i ft') k = Some ft0 -> later_calls calls (ft_todo ft0)).
      { intros k ft0 Hk. destruct (Nat.eq_dec i k) as [<-|Hn].
        - rewrite lset_nth_eq in Hk by exact Hil. injection Hk as <-. apply (later_less calls (ft_todo ft)); [exact (I8 i ft Ei)|]. destruct Htodo as [->|[->|H]]; auto.
        - rewrite lset_nth_ne in Hk by exact Hn. exact (I8 k ft0 Hk). }
      destruct Hg as [th1 Hs -> Hdone Hdone'| -> -> Hdone|c HF -> -> Hdone|HF -> -> Hsc Hdone].
      - (* a step of both *)
        rewrite <- I4 in Hs. assert (Hrun : sys_run L (sys_start st calls') (sch ++ [j]) = mk_sys g (lset (sys_threads y) j th1)) by (exact (sys_run_snoc _ _ _ _ _ _ Hj Hs)).
        assert (Hnj : nth_error (lset (sys_threads y) j th1) j = Some th1) by (apply lset_nth_eq; lia).
        exists calls', (sch ++ [j]), pi, pevs'. split; rewrite ?Hrun; cbn [wh_provider wh_state wh_threads sys_state]; auto.
        + apply Forall_app. split; [exact I3|]. constructor; [exact Hjl|constructor].
        + split; [cbn [wh_threads]; now rewrite lset_length|]. split; [exact P2|]. cbn [wh_threads wh_provider sys_threads].
          intros k ft0 j' Hk Hj'. destruct (Nat.eq_dec i k) as [<-|Hn].
          * rewrite lset_nth_eq in Hk by exact Hil. injection Hk as <-. assert (j' = j) by congruence. subst j'. exists th1. split; [exact Hnj|]. split; [exact Ht'|].
            destruct Hd as [Hd|Hd]; auto.
          * rewrite lset_nth_ne in Hk by exact Hn. destruct (P3 k ft0 j' Hk Hj') as (th0 & H1 & H2 & H3). exists th0. split; [|auto].
            rewrite lset_nth_ne by (intros ->; exact (Hother k j' Hj' (not_eq_sym Hn) eq_refl)). exact H1.
        + assert (Hold : forall c r, returned y c r -> returned (mk_sys g (lset (sys_threads y) j th1)) c r).
          { intros c r (th0 & Hin & Hc). apply In_nth_error in Hin as (k & Hk). destruct (Nat.eq_dec j k) as [<-|Hn].
            - assert (th0 = th) by congruence. subst th0. exists th1. split; [exact (nth_error_In _ _ Hnj)|].
              assert (Hincl : forall x, In x (th_done th) -> In x (th_done th1)).
              { intros z Hz. revert Hs Hz. clear. unfold thread_step. destruct (th_now th) as [[c0 q0]|].
                - destruct q0; try (intros [= _ <-]; cbn; auto using in_or_app; fail); try (destruct (prog_step L _ _) as [[g0 q0']|]; [|discriminate]; intros [= _ <-]; auto).
                - destruct (th_todo th); [discriminate|]. intros [= _ <-]. auto. }
              exact (Hincl _ Hc).
            - exists th0. split; [|exact Hc]. apply (nth_error_In _ k). cbn [sys_threads]. rewrite lset_nth_ne by exact Hn. exact Hk. }
          intros c r Hb. destruct (back_lset x i ft ft' g pc c r Ei Hb) as [H|H].
          * destruct (I6 c r H) as [H0|H0]; auto.
          * destruct (Hdone' c r H) as [H0|H0].
            -- destruct (I6 c r) as [H1|H1]; auto. exists ft. split; [exact (nth_error_In _ _ Ei)|exact H0].
            -- left. exists th1. split; [exact (nth_error_In _ _ Hnj)|exact H0].
      - (* only the provider *)
        exists calls', sch, pi, pevs'. split; cbn [wh_provider wh_state wh_threads]; auto.
        + split; [cbn [wh_threads]; now rewrite lset_length|]. split; [exact P2|]. cbn [wh_threads wh_provider].
          intros k ft0 j' Hk Hj'. destruct (Nat.eq_dec i k) as [<-|Hn].
          * rewrite lset_nth_eq in Hk by exact Hil. injection Hk as <-. assert (j' = j) by congruence. subst j'. exists th. rewrite Hdone. auto.
          * rewrite lset_nth_ne in Hk by exact Hn. destruct (P3 k ft0 j' Hk Hj') as (th0 & H1 & H2 & H3). exists th0. auto.
        + intros c r Hb. destruct (back_lset x i ft ft' (wh_state x) pc c r Ei Hb) as [H|H]; [exact (I6 c r H)|]. rewrite Hdone in H.
          apply I6. exists ft. split; [exact (nth_error_In _ _ Ei)|exact H].
      - (* the call that failed returns *)
        exists calls', sch, pi, pevs'. split; cbn [wh_provider wh_state wh_threads]; auto.
        + split; [cbn [wh_threads]; now rewrite lset_length|]. split; [exact P2|]. cbn [wh_threads wh_provider].
          intros k ft0 j' Hk Hj'. destruct (Nat.eq_dec i k) as [<-|Hn].
          * rewrite lset_nth_eq in Hk by exact Hil. injection Hk as <-. assert (j' = j) by congruence. subst j'. exists th. auto.
          * rewrite lset_nth_ne in Hk by exact Hn. destruct (P3 k ft0 j' Hk Hj') as (th0 & H1 & H2 & H3). exists th0. auto.
        + intros c0 r Hb. destruct (back_lset x i ft ft' (wh_state x) pc c0 r Ei Hb) as [H|H]; [exact (I6 c0 r H)|]. rewrite Hdone in H.
          apply in_app_or in H as [H|[[= <- <-]|[]]]; [|auto]. apply I6. exists ft. split; [exact (nth_error_In _ _ Ei)|exact H].
      - (* SQLite failed *)
        assert (Hrun : sys_run L (sys_start st (calls' ++ [th_todo th])) sch = mk_sys (sys_state y) (sys_threads y ++ [idle (th_todo th)])).
        { rewrite start_more. apply sys_run_more. cbn. rewrite map_length. exact I3. }
        assert (Hlast : nth_error (sys_threads y ++ [idle (th_todo th)]) (List.length calls') = Some (idle (th_todo th))).
        { rewrite nth_error_app2, Hlen, Nat.sub_diag by lia. reflexivity. }
        assert (Hsmall : forall k j', nth_error pi k = Some j' -> j' < List.length calls').
        { intros k j' Hk. destruct (nth_error (wh_threads x) k) as [ft0|] eqn:E0.
          - destruct (P3 k ft0 j' E0 Hk) as (th0 & H1 & _). rewrite <- Hlen. apply nth_error_Some. congruence.
          - apply nth_error_None in E0. assert (k < List.length pi) by (apply nth_error_Some; congruence). lia. }
        exists (calls' ++ [th_todo th]), sch, (lset pi i (List.length calls')), pevs'. split; rewrite ?Hrun; cbn [wh_provider wh_state wh_threads sys_state]; auto.
        + apply Forall_forall. intros k Hk. rewrite app_length. rewrite Forall_forall in I3. specialize (I3 k Hk). cbn. lia.
        + split; [cbn [wh_threads]; now rewrite !lset_length|]. cbn [wh_threads wh_provider sys_threads]. split.
          * apply NoDup_nth_error. intros a b Ha Hab. rewrite lset_length in Ha.
            destruct (Nat.eq_dec i a) as [<-|Hna]; destruct (Nat.eq_dec i b) as [<-|Hnb]; [reflexivity| | |].
            -- rewrite lset_nth_eq, lset_nth_ne in Hab by (auto; lia). specialize (Hsmall b _ (eq_sym Hab)). lia.
            -- rewrite lset_nth_eq, lset_nth_ne in Hab by (auto; lia). specialize (Hsmall a _ Hab). lia.
            -- rewrite !lset_nth_ne in Hab by auto. exact (proj1 (NoDup_nth_error pi) P2 a b Ha Hab).
          * intros k ft0 j' Hk Hj'. destruct (Nat.eq_dec i k) as [<-|Hn].
            -- rewrite lset_nth_eq in Hk by exact Hil. injection Hk as <-. rewrite lset_nth_eq in Hj' by lia. injection Hj' as <-.
               exists (idle (th_todo th)). auto.
            -- rewrite lset_nth_ne in Hk by exact Hn. rewrite lset_nth_ne in Hj' by exact Hn. destruct (P3 k ft0 j' Hk Hj') as (th0 & H1 & H2 & H3). exists th0. split; [|auto].
               rewrite nth_error_app1; [exact H1|]. apply nth_error_Some. congruence.
        + intros c r Hb. destruct (back_lset x i ft ft' (wh_state x) pc c r Ei Hb) as [H|H]; [|rewrite Hdone in H; assert (came_back x c r) by (exists ft; split; [exact (nth_error_In _ _ Ei)|exact H]); clear H; rename H0 into H];
            (destruct (I6 c r H) as [(th0 & Hin & Hc)|H0]; [left; exists th0; split; [cbn; apply in_or_app; auto|exact Hc]|auto]).
        + apply Forall_app. split; [exact I7|]. constructor; [|constructor].
          assert (Heq : th_todo th = ft_todo ft) by (destruct Ht as [H1 H2 H3|c f q H1 H2 H3 H4|c i0 k q pcl m H1 H2 H3 H4 H5 H6 H7|c H0 H1 H2 H3]; auto).
          rewrite Heq. exact (I8 i ft Ei).
    Qed.
    Lemma inv_run evs : forall x, inv x -> (forall i, In (WThread i false) evs \/ In (WOther (EStep i false)) evs -> F) -> inv (whole_run E p L x evs).
    Proof.
      induction evs as [|e evs IH]; intros x Hx He; [exact Hx|]. cbn [whole_run fold_left]. apply (IH (whole_step E p L x e)).
      - apply inv_step; [exact Hx|]. intros i Hi. apply (He i). cbn. tauto.
      - intros i Hi. apply (He i). cbn. tauto.
    Qed.
  End Failing.
End Whole.
