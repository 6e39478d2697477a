(** Property C111: threads that use one localiser over the sqlite3 provider (feature [sync] of both). *)
From Verif Require Import Base BaseFacts LexerModel LexerSpec IcuExample TreeModel TreeSpec DocSpec ValueModel CommandModel FormatterModel FormatterSpec FmtExample
  RegistryModel ProviderModel ProviderSpec ProviderProofs ProviderProofs8 LocaliserModel LocaliserSpec LocaliserProofs SystemModel SystemSpec SystemProofs PropertiesProvider PropertiesLocaliser
  PropertiesSystem ProviderSyncModel ProviderSyncProofs SyncModel SyncSpec SyncProofs SyncProofs2 SyncProofs3 PropertiesSync WholeModel WholeSpec WholeProofs WholeProofs2 WholeProofs3.

Section Theorems.
  Variables (E : penv) (es : list entry) (p : sprovider) (ic : icu) (fe : fmtenv) (reg : cregistry) (locale : ustr -> ustr) (script : ustr -> option ustr) (fuel : nat).
  Local Notation L := (system E p ic fe reg locale script fuel).
  Local Notation run st calls evs := (whole_run E p L (whole_start st calls) evs).

  (** ** C111: however the steps of the calls of the provider mingle with everything else, the threads end up where they could be if the provider
      answered at once. If SQLite does not fail, this is so for the same calls: the same settings and cache, the same results in every thread. *)
  Theorem whole_exactly st calls evs : made es p -> ~ sqlite_fails evs ->
    exists sch, let y := sys_run L (SyncModel.sys_start st calls) sch in
      sys_state y = wh_state (run st calls evs) /\ map th_done (sys_threads y) = map ft_done (wh_threads (run st calls evs)).
  Proof.
    intros Hm Hn. pose proof (made_ok _ _ Hm) as Hp.
    destruct (inv_run E p ic fe reg locale script fuel Hp False st calls evs _ (inv_start E p ic fe reg locale script fuel False st calls)) as (calls' & sch & pi & pevs & [I1 I2 I3 I4 I5 I6 I7 I8 I9]).
    { intros i Hi. apply Hn. exists i. exact Hi. }
    destruct I9 as [[]|(-> & ->)]. exists sch. split; [exact I4|]. destruct I5 as (P1 & _ & P3).
    change (WholeProofs.L E p ic fe reg locale script fuel) with L in *.
    set (y := sys_run L (SyncModel.sys_start st calls) sch) in *. set (x := whole_run _ _ _ _ _) in *.
    assert (Hl : List.length (sys_threads y) = List.length (wh_threads x)).
    { rewrite <- P1, seq_length. unfold y. rewrite (sys_run_length E p ic fe reg locale script fuel). cbn. apply map_length. }
    rewrite seq_length in P1. assert (Hall : forall i ft, nth_error (wh_threads x) i = Some ft -> exists th, nth_error (sys_threads y) i = Some th /\ th_done th = ft_done ft).
    { intros i ft Hi. assert (Hil : i < List.length calls) by (rewrite P1; apply nth_error_Some; congruence).
      destruct (P3 i ft i Hi) as (th & H1 & _ & [[]|H2]); [|eauto]. rewrite (nth_error_nth' _ 0) by (now rewrite seq_length). now rewrite seq_nth. }
    clearbody y x. clear - Hl Hall. revert Hl Hall. generalize (sys_threads y) (wh_threads x). intros l l'. revert l. induction l' as [|ft l' IH]; intros [|th l] Hl Hall; cbn in Hl; try discriminate; [reflexivity|].
    cbn. destruct (Hall 0 ft eq_refl) as (th0 & [= ->] & ->). f_equal. apply IH; [congruence|]. intros i ft0 Hi. exact (Hall (S i) ft0 Hi).
  Qed.
  (** Every such run of the threads comes about. *)
  Theorem whole_every st calls sch : made es p ->
    exists evs, ~ sqlite_fails evs /\ let y := sys_run L (SyncModel.sys_start st calls) sch in
      sys_state y = wh_state (run st calls evs) /\ map th_done (sys_threads y) = map ft_done (wh_threads (run st calls evs)).
  Proof.
    intros Hm. pose proof (made_ok _ _ Hm) as Hp.
    destruct (every_run E p ic fe reg locale script fuel Hp sch _ _ (rel_start E p False st calls)) as (evs & Hq & Hr). exists evs. split.
    - intros (i & [H|H]); apply Hq in H as (j & H); discriminate H.
    - split; [exact (proj1 (proj2 Hr))|]. symmetry. exact (rel_dones E p _ _ Hr).
  Qed.
  (** If SQLite fails, a call may return its error. Beside that, all is as in a run of threads that make calls of the list, where the provider
      answers at once: a call that failed is one that is not finished, and what its thread does afterwards is done by another one. *)
  Theorem whole_failing st calls evs : made es p ->
    exists calls' sch, Forall (later_calls calls) calls' /\ let y := sys_run L (SyncModel.sys_start st calls') sch in
      sys_state y = wh_state (run st calls evs) /\
      forall c r, came_back (run st calls evs) c r -> returned y c r \/ (r = Some (Err (LProvider PSqlite)) /\ sqlite_fails evs).
  Proof.
    intros Hm. pose proof (made_ok _ _ Hm) as Hp.
    destruct (inv_run E p ic fe reg locale script fuel Hp (sqlite_fails evs) st calls evs _ (inv_start E p ic fe reg locale script fuel (sqlite_fails evs) st calls))
      as (calls' & sch & pi & pevs & [I1 I2 I3 I4 I5 I6 I7 I8 I9]).
    { intros i Hi. exists i. exact Hi. }
    exists calls', sch. split; [exact I7|]. split; [exact I4|exact I6].
  Qed.
  (** Whatever has happened, and if SQLite failed: the threads can go on until all calls have returned. So there is no deadlock. *)
  Theorem whole_ends st calls evs : made es p ->
    exists more, (forall e, In e more -> exists j, e = WThread j true) /\ all_back (whole_run E p L (run st calls evs) more).
  Proof.
    intros Hm. pose proof (made_ok _ _ Hm) as Hp.
    destruct (rel_run E p ic fe reg locale script fuel Hp True evs _ _ _ (rel_start E p True st calls) (start_left _ st calls)) as (y & ns & Hr & Hl); [auto|].
    exact (can_finish E p ic fe reg locale script fuel Hp True _ _ _ _ Hr Hl (le_n _)).
  Qed.
  Theorem whole_no_deadlock st calls evs : made es p -> let x := run st calls evs in
    all_back x \/ exists j th y, nth_error (wh_threads x) j = Some th /\ fthread_step E p L (wh_state x) (wh_provider x) true th = Some y.
  Proof.
    intros Hm x. destruct (whole_ends st calls evs Hm) as (more & Hq & Hb). fold x in Hb. clearbody x.
    induction more as [|e more IH]; [left; exact Hb|]. destruct (Hq e (or_introl eq_refl)) as (j & ->). cbn [whole_run fold_left whole_step] in Hb.
    destruct (nth_error (wh_threads x) j) as [th|] eqn:Ej; [|apply IH; [intros e' He; apply Hq; right; exact He|exact Hb]].
    destruct (fthread_step E p L (wh_state x) (wh_provider x) true th) as [y|] eqn:Ey; [right; eauto 6|]. apply IH; [intros e' He; apply Hq; right; exact He|exact Hb].
  Qed.
End Theorems.

Lemma later_incl calls calls' c : Forall (later_calls calls) calls' -> In c (List.concat calls') -> In c (List.concat calls).
Proof.
  intros H Hc. apply in_concat in Hc as (l & Hl & Hc). rewrite Forall_forall in H. destruct (H l Hl) as (b & Hb). apply in_concat. exists (b ++ l). split; [exact Hb|]. apply in_or_app. auto.
Qed.
Lemma later_tags st calls calls' : Forall (later_calls calls) calls' -> incl (tags_seen st calls') (tags_seen st calls).
Proof. intros H t [<-|Ht]; [left; reflexivity|]. right. apply in_flat_map in Ht as (c & Hc & Ht). apply in_flat_map. exists c. split; [exact (later_incl _ _ _ H Hc)|exact Ht]. Qed.
Lemma later_fallbacks st calls calls' : Forall (later_calls calls) calls' -> incl (fallbacks_seen st calls') (fallbacks_seen st calls).
Proof. intros H t [<-|Ht]; [left; reflexivity|]. right. apply in_flat_map in Ht as (c & Hc & Ht). apply in_flat_map. exists c. split; [exact (later_incl _ _ _ H Hc)|exact Ht]. Qed.
Lemma later_requests st calls calls' : Forall (later_calls calls) calls' -> incl (sync_requests st calls') (sync_requests st calls).
Proof.
  intros H q Hq. unfold sync_requests in *. apply in_flat_map in Hq as (t & Ht & Hq). apply in_flat_map in Hq as (fb & Hfb & Hq). apply in_flat_map in Hq as (c & Hc & Hq).
  apply in_flat_map. exists t. split; [exact (later_tags _ _ _ H t Ht)|]. apply in_flat_map. exists fb. split; [exact (later_fallbacks _ _ _ H fb Hfb)|].
  apply in_flat_map. exists c. split; [exact (later_incl _ _ _ H Hc)|exact Hq].
Qed.
Lemma later_alone {PE} (L : lenv PE) st calls calls' c r : Forall (later_calls calls) calls' -> result_alone L st calls' c r -> result_alone L st calls c r.
Proof. intros H (t & fb & Ht & Hfb & ->). exists t, fb. split; [exact (later_tags _ _ _ H t Ht)|]. split; [exact (later_fallbacks _ _ _ H fb Hfb)|reflexivity]. Qed.
Lemma harmless_less {PE} (L : lenv PE) rs rs' : incl rs' rs -> harmless L rs -> harmless L rs'.
Proof.
  intros Hi (H1 & H2 & H3). split; [intros r Hr; exact (H1 r (Hi r Hr))|]. split.
  - intros r r' s t' Hr Hr'. exact (H2 r r' s t' (Hi r Hr) (Hi r' Hr')).
  - intros r r' Hr Hr'. exact (H3 r r' (Hi r Hr) (Hi r' Hr')).
Qed.

Theorem C111_exactly : forall E es p ic fe reg locale script fuel st calls evs, let L := system E p ic fe reg locale script fuel in
  let x := whole_run E p L (whole_start st calls) evs in
  made es p -> ~ sqlite_fails evs ->
  exists sch, let y := sys_run L (SyncModel.sys_start st calls) sch in sys_state y = wh_state x /\ map th_done (sys_threads y) = map ft_done (wh_threads x).
Proof. exact whole_exactly. Qed.
Print Assumptions C111_exactly.
Theorem C111_every : forall E es p ic fe reg locale script fuel st calls sch, let L := system E p ic fe reg locale script fuel in
  let y := sys_run L (SyncModel.sys_start st calls) sch in
  made es p ->
  exists evs, ~ sqlite_fails evs /\ let x := whole_run E p L (whole_start st calls) evs in sys_state y = wh_state x /\ map th_done (sys_threads y) = map ft_done (wh_threads x).
Proof. exact whole_every. Qed.
Print Assumptions C111_every.
Theorem C111_failing : forall E es p ic fe reg locale script fuel st calls evs, let L := system E p ic fe reg locale script fuel in
  let x := whole_run E p L (whole_start st calls) evs in
  made es p ->
  exists calls' sch, Forall (later_calls calls) calls' /\ let y := sys_run L (SyncModel.sys_start st calls') sch in
    sys_state y = wh_state x /\ forall c r, came_back x c r -> returned y c r \/ (r = Some (Err (LProvider PSqlite)) /\ sqlite_fails evs).
Proof. exact whole_failing. Qed.
Print Assumptions C111_failing.
Theorem C111_ends : forall E es p ic fe reg locale script fuel st calls evs, let L := system E p ic fe reg locale script fuel in
  let x := whole_run E p L (whole_start st calls) evs in
  made es p ->
  (exists more, (forall e, In e more -> exists j, e = WThread j true) /\ all_back (whole_run E p L x more)) /\
  (all_back x \/ exists j th y, nth_error (wh_threads x) j = Some th /\ fthread_step E p L (wh_state x) (wh_provider x) true th = Some y).
Proof.
  intros E es p ic fe reg locale script fuel st calls evs L x Hm. split; [exact (whole_ends E es p ic fe reg locale script fuel st calls evs Hm)|].
  exact (whole_no_deadlock E es p ic fe reg locale script fuel st calls evs Hm).
Qed.
Print Assumptions C111_ends.

(** What calls return, with C63: what they return alone, if nobody asks for caching; or a panic, under the conditions of C63, if somebody does. *)
Theorem C111_no_caching : forall E es p ic fe reg locale script fuel fallback tag calls evs c r, let L := system E p ic fe reg locale script fuel in
  made es p -> (forall l x, In l calls -> In x l -> ~ asks_caching x) ->
  let st := localiser_new L fallback false tag in
  came_back (whole_run E p L (whole_start st calls) evs) c r -> result_alone L st calls c r \/ (r = Some (Err (LProvider PSqlite)) /\ sqlite_fails evs).
Proof.
  intros E es p ic fe reg locale script fuel fb tag calls evs c r L Hm Hc st Hb. destruct (C111_failing E es p ic fe reg locale script fuel st calls evs Hm) as (calls' & sch & Hl & _ & H).
  destruct (H c r Hb) as [Hr|Hr]; [|auto]. left. apply (later_alone L st calls calls' c r Hl). apply (C63_no_caching perror L fb tag calls' sch c r); [|exact Hr].
  intros l x Hi Hx. rewrite Forall_forall in Hl. destruct (Hl l Hi) as (b & Hb'). apply (Hc (b ++ l) x Hb'). apply in_or_app. auto.
Qed.
Print Assumptions C111_no_caching.
Theorem C111_results : forall E es p ic fe reg locale script fuel fallback caching tag h calls evs c r, let L := system E p ic fe reg locale script fuel in
  database_fine E es p -> icu_ok ic -> stored_hash_ok ic p ->
  let st := lrun L (localiser_new L fallback caching tag) h in
  harmless L (history_requests L (localiser_new L fallback caching tag) h ++ sync_requests st calls) ->
  came_back (whole_run E p L (whole_start st calls) evs) c r ->
  result_alone L st calls c r \/ r = Some Panic \/ (r = Some (Err (LProvider PSqlite)) /\ sqlite_fails evs).
Proof.
  intros E es p ic fe reg locale script fuel fb ca tag h calls evs c r L Hdb Hic Hh st Hhm Hb.
  destruct (C111_failing E es p ic fe reg locale script fuel st calls evs (df_made _ _ _ Hdb)) as (calls' & sch & Hl & _ & H).
  destruct (H c r Hb) as [Hr|Hr]; [|auto].
  destruct (C63_results_partial perror L fb ca tag h calls' sch c r) as [K|K]; auto.
  - exact (sqlite_again E es p Hdb ic fe reg locale script fuel).
  - exact (sqlite_hash E es p Hdb ic fe reg locale script fuel Hh).
  - apply (harmless_less L _ _) with (2 := Hhm). intros q [Hq|Hq]%in_app_or; apply in_or_app; [auto|]. right. exact (later_requests _ _ _ Hl q Hq).
  - left. exact (later_alone L st calls calls' c r Hl K).
Qed.
Print Assumptions C111_results.

(** *** Examples *)
Definition whole_ex (calls : list (list lcall)) (evs : list wevent) :=
  map ft_done (wh_threads (whole_run env_sys prov_sys sys_ex (whole_start PropertiesSystem.sys_start calls) evs)).
Definition steps (i n : nat) : list wevent := repeat (WThread i true) n.
Definition greets : lcall := CallFormatDefaults (us "app") (us "greet") bob.
Definition byes : lcall := CallLiteralDefaults (us "app") (us "bye").
(** Two threads step in turns, and somebody else asks the provider for the details. In the first case the race of C63 shows up: two maps for a language new
    to the cache, and the thread that made the first one does not find its formatter. In the second case the map is there before. *)
Definition turns (n : nat) : list wevent := flat_map (fun _ => [WThread 0 true; WOther (EStep 0 true); WThread 1 true]) (seq 0 n).
Definition to_za : lcall := CallDefaults (Some (us "en-ZA")) None None.
Example C111_example :
  whole_ex [[greets]; [byes; to_za; greets]] (WOther (EStart CallRepository) :: turns 32) =
    [[(greets, Some Panic)]; [(byes, Some (Ok (us "Bye", us "en"))); (to_za, None); (greets, Some (Ok (us "Howzit Bob", us "en-ZA")))]] /\
  whole_ex [[byes; greets]; [byes; to_za; greets]] (WOther (EStart CallRepository) :: steps 0 20 ++ turns 32) =
    [[(byes, Some (Ok (us "Bye", us "en"))); (greets, Some (Ok (us "Hello Bob!", us "en")))];
     [(byes, Some (Ok (us "Bye", us "en"))); (to_za, None); (greets, Some (Ok (us "Howzit Bob", us "en-ZA")))]] /\
  ~ sqlite_fails (WOther (EStart CallRepository) :: steps 0 20 ++ turns 32).
Proof.
  split; [vm_compute; reflexivity|]. split; [vm_compute; reflexivity|]. intros (i & [H|H]); cbn in H; repeat (destruct H as [H|H]; [discriminate H|]); exact H.
Qed.
(** SQLite fails once, in the first thread: its call returns the error, the next one succeeds. *)
Example C111_failing_example :
  whole_ex [[greets; greets]; [byes]] (steps 0 6 ++ steps 1 6 ++ [WThread 0 false] ++ steps 0 20 ++ steps 1 20) =
    [[(greets, Some (Err (LProvider PSqlite))); (greets, Some (Ok (us "Hello Bob!", us "en")))]; [(byes, Some (Ok (us "Bye", us "en")))]] /\
  sqlite_fails (steps 0 6 ++ steps 1 6 ++ [WThread 0 false] ++ steps 0 20 ++ steps 1 20) /\ made dir_sys prov_sys.
Proof.
  split; [vm_compute; reflexivity|]. split; [exists 0; left; cbn; tauto|]. exact (df_made _ _ _ sys_fine).
Qed.
