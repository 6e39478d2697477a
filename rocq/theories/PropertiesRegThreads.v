(** C104-C107: threads that use one language tag registry for anything. *)
From Verif Require Import Base RegistryModel RegistrySpec RegistryProofs PropertiesRegistry RegThreadsModel RegThreadsSpec RegThreadsProofs RegThreadsProofs2 RegThreadsProofs3 RegThreadsProofs4 RegThreadsProofs5.

(** For examples: thread [i] runs the [i]th program. *)
Definition run_ex (ps : list rprog) (sch : list nat) : world := world_run locid_ex (world_start lreg_new (fun i => nth i ps REnd)) sch.
Definition ask (s : ustr) (p : rprog) : rprog := RTag s (fun _ => p).
Definition ask_all (p : rprog) : rprog := RAll (fun _ => p).
Definition ask_list (p : rprog) : rprog := RList (fun _ => p).
Definition ask_locale (s : ustr) (p : rprog) : rprog := RTag s (fun o => match o with Ok x => RIcu x (fun _ => p) | _ => p end).

(** ** C104: answers *)
Theorem C104_right : forall L, locid_ok L -> forall h rs r ps sch i a, reachable L h rs r ->
  In (i, a) (w_log (world_run L (world_start r ps) sch)) -> right_answer L a.
Proof. intros L HL h rs r ps sch i a H. exact (wo_log L h _ (run_world L HL h sch _ (start_world L HL h rs r ps H)) i a). Qed.
Print Assumptions C104_right.
Theorem C104_only : forall L, locid_ok L -> forall h rs r ps sch i l, reachable L h rs r ->
  let log := w_log (world_run L (world_start r ps) sch) in
  In (i, SList l) log \/ In (i, SDeprecated l) log \/ In (i, SAll l) log -> forall x, In x l -> asked L h log (r_tag x).
Proof.
  intros L HL h rs r ps sch i l H log Hi x Hx. assert (G : list_asked L h log l); [|exact (proj1 (Forall_forall _ _) G x Hx)].
  destruct Hi as [Hi|[Hi|Hi]]; exact (run_only L HL h rs r ps sch i _ H Hi).
Qed.
Print Assumptions C104_only.
(** Each thread makes the calls of its program, goes on with the answers written down, and has ended when the program has. *)
Theorem C104_follows : forall L r ps sch i, let w := world_run L (world_start r ps) sch in
  exists q b, course (ps i) (said_to i (w_log w)) q b /\ (ended (w_threads w i) <-> q = REnd).
Proof. exact follows. Qed.
Print Assumptions C104_follows.
Example C104_example :
  w_log (run_ex [ask_locale (us "DE") (ask_all REnd); ask (us "bad") (ask (us "de") REnd)] [0; 1; 0; 1; 0; 1; 0; 0; 0; 1; 0; 0; 0; 0; 0]) =
    [(0, SAll [mk_tref 0 (us "de"); mk_tref 0 (us "de")]); (0, SIcu (mk_tref 0 (us "de")) (Ok (mk_tref 1 (us "de"))));
     (1, STag (us "de") (Ok (mk_tref 0 (us "de")))); (1, SAsk (us "de")); (0, STag (us "DE") (Ok (mk_tref 0 (us "de"))));
     (1, STag (us "bad") (Err IcuLocid)); (1, SAsk (us "bad")); (0, SAsk (us "DE"))].
Proof. vm_compute. reflexivity. Qed.

(** ** C105: lists *)
(** Full statement: a tag given to a thread is in each list made later. The thread itself may find that it is not. *)
Theorem C105_listed_refuted : exists L, locid_ok L /\ exists ps sch l1 j l l2 s x,
  w_log (world_run L (world_start lreg_new ps) sch) = l1 ++ (j, SList l) :: l2 /\ In (j, STag s (Ok x)) l2 /\ ~ In (r_tag x) (map r_tag l).
Proof.
  exists locid_ex. split; [exact locid_ex_ok|]. exists (fun i => nth i [ask (us "EN-US") REnd; ask (us "EN-US") (ask_list REnd)] REnd), [0; 0; 0; 0; 0; 1; 1; 1].
  exists [], 1, [], [(1, STag (us "EN-US") (Ok (mk_tref 0 (us "en-US")))); (1, SAsk (us "EN-US")); (0, SAsk (us "EN-US"))], (us "EN-US"), (mk_tref 0 (us "en-US")).
  split; [vm_compute; reflexivity|]. split; [now left|]. intros [].
Qed.
Print Assumptions C105_listed_refuted.
(** What holds: if the tag was asked for as it is written; or if at the moment no thread is in a call of [tag]. *)
Theorem C105_listed_partial : forall L, locid_ok L -> forall h rs r ps sch, reachable L h rs r ->
  let w := world_run L (world_start r ps) sch in
  (forall l1 j l l2 i x, w_log w = l1 ++ (j, SList l) :: l2 -> In (i, STag (r_tag x) (Ok x)) l2 -> In (r_tag x) (map r_tag l)) /\
  ((forall i, outside (w_threads w i)) -> forall y, given L h (w_log w) y -> In y (map r_tag (list_tags (w_reg w)))).
Proof.
  intros L HL h rs r ps sch H w. split.
  - intros l1 j l l2 i x. exact (run_complete L HL h rs r ps sch l1 j l l2 i x H).
  - intros Ho y. exact (run_quiet L HL h rs r ps sch y H Ho).
Qed.
Print Assumptions C105_listed_partial.
Example C105_example :
  let w := run_ex [ask (us "EN-US") REnd; ask (us "EN-US") (ask_list (ask_list REnd))] [0; 0; 0; 0; 0; 1; 1; 1; 0; 1] in
  filter (fun e => Nat.eqb (fst e) 1) (w_log w) = [(1, SList [mk_tref 0 (us "en-US")]); (1, SList []); (1, STag (us "EN-US") (Ok (mk_tref 0 (us "en-US")))); (1, SAsk (us "EN-US"))].
Proof. vm_compute. reflexivity. Qed.

(** ** C106: waiting *)
(** A thread that cannot go on waits for another, which can, and which gives the lock back with its next step. *)
Theorem C106_waits : forall L, locid_ok L -> forall h rs r ps sch i, reachable L h rs r ->
  let w := world_run L (world_start r ps) sch in world_step L w i = None -> ~ ended (w_threads w i) ->
  exists j w', w_lock w = Some j /\ j <> i /\ world_step L w j = Some w' /\ w_lock w' = None.
Proof. intros L HL h rs r ps sch i H w. exact (waits L h w i (run_world L HL h sch _ (start_world L HL h rs r ps H))). Qed.
Print Assumptions C106_waits.
(** A call takes at most six steps. *)
Theorem C106_short : forall L r ps sch i, took L (world_start r ps) sch i <= 6 * answers_to i (w_log (world_run L (world_start r ps) sch)) + 5.
Proof. exact took_answers. Qed.
Print Assumptions C106_short.
(** At any moment, a thread can get its next answer in seven steps, six of its own and one of the thread it waits for. *)
Theorem C106_soon : forall L, locid_ok L -> forall h rs r ps sch i, reachable L h rs r ->
  let w := world_run L (world_start r ps) sch in ~ ended (w_threads w i) ->
  exists sch', List.length sch' <= 7 /\ (forall j, In j sch' -> j = i \/ w_lock w = Some j) /\ answers_to i (w_log w) < answers_to i (w_log (world_run L w sch')).
Proof. intros L HL h rs r ps sch i H w. exact (answered_soon L HL h w i (run_world L HL h sch _ (start_world L HL h rs r ps H))). Qed.
Print Assumptions C106_soon.
(** Finitely many threads come to an end under every schedule that forgets none. *)
Theorem C106_ends : forall L, locid_ok L -> forall h rs r ps n f, reachable L h rs r -> (forall i, n <= i -> ps i = REnd) -> fair n f ->
  exists m, forall i, ended (w_threads (world_run L (world_start r ps) (turns f 0 m)) i).
Proof. exact start_finishes. Qed.
Print Assumptions C106_ends.
Example C106_example :
  let ps := [ask (us "de") (ask (us "DE") REnd); ask (us "de") (ask_list REnd)] in
  let w := run_ex ps [0; 0; 0; 0; 0; 0; 0; 0; 0; 0; 1] in
  world_step locid_ex w 1 = None /\ w_lock w = Some 0 /\ took locid_ex (world_start lreg_new (fun i => nth i ps REnd)) [0; 0; 0; 0; 0; 0; 0; 0; 0; 0; 1; 1] 0 = 10 /\
  took locid_ex (world_start lreg_new (fun i => nth i ps REnd)) [0; 0; 0; 0; 0; 0; 0; 0; 0; 0; 1; 1] 1 = 0 /\
  (forall i, i < 2 -> ended (w_threads (run_ex ps (turns (fun k => Nat.modulo k 2) 0 24)) i)).
Proof.
  split; [vm_compute; reflexivity|]. split; [vm_compute; reflexivity|]. split; [vm_compute; reflexivity|]. split; [vm_compute; reflexivity|].
  intros [|[|i]] Hi; [vm_compute; reflexivity|vm_compute; reflexivity|lia].
Qed.

(** ** C107: references *)
(** Full statement: a string gets one reference, however often and by whichever thread it is asked for, and spellings of one tag share it.
    A thread may get another reference when it asks again. *)
Theorem C107_one_refuted : exists L, locid_ok L /\ exists ps sch i s x x',
  In (i, STag s (Ok x)) (w_log (world_run L (world_start lreg_new ps) sch)) /\ In (i, STag s (Ok x')) (w_log (world_run L (world_start lreg_new ps) sch)) /\ x <> x'.
Proof.
  exists locid_ex. split; [exact locid_ex_ok|]. exists (fun i => nth i [ask (us "de") REnd; ask (us "de") (ask (us "de") REnd)] REnd), [0; 0; 0; 0; 0; 1; 1; 1; 1; 1; 1; 0; 1].
  exists 1, (us "de"), (mk_tref 0 (us "de")), (mk_tref 1 (us "de")). split; [vm_compute; now left|]. split; [vm_compute; do 3 right; now left|discriminate].
Qed.
Print Assumptions C107_one_refuted.
(** Two spellings of one tag may have different references after all threads have ended. *)
Theorem C107_spellings_refuted : exists L, locid_ok L /\ exists ps sch s s' x x', let w := world_run L (world_start lreg_new ps) sch in
  (forall i, ended (w_threads w i)) /\ canon L s = canon L s' /\ tag L (w_reg w) s = (w_reg w, Ok x) /\ tag L (w_reg w) s' = (w_reg w, Ok x') /\ x <> x'.
Proof.
  exists locid_ex. split; [exact locid_ex_ok|]. exists (fun i => nth i [ask (us "EN-US") REnd; ask (us "EN-US") REnd] REnd), [0; 0; 0; 0; 1; 1; 1; 1; 0; 1; 1; 0].
  exists (us "EN-US"), (us "en-US"), (mk_tref 1 (us "en-US")), (mk_tref 0 (us "en-US")). split; [|split; [vm_compute; reflexivity|split; [vm_compute; reflexivity|split; [vm_compute; reflexivity|discriminate]]]].
  intros [|[|[|i]]]; vm_compute; reflexivity.
Qed.
Print Assumptions C107_spellings_refuted.
(** What holds: from a moment at which no thread is in a call of [tag], each string that was answered before has one reference for ever. *)
Theorem C107_settles_partial : forall L, locid_ok L -> forall h rs r ps sch s x0 i0, reachable L h rs r ->
  let w := world_run L (world_start r ps) sch in
  (forall i, outside (w_threads w i)) -> In (i0, STag s (Ok x0)) (w_log w) ->
  exists x, tag L (w_reg w) s = (w_reg w, Ok x) /\
    forall sch', exists l, w_log (world_run L w sch') = l ++ w_log w /\ forall i o, In (i, STag s o) l -> o = Ok x.
Proof. exact settles. Qed.
Print Assumptions C107_settles_partial.
(** What was asked for before the threads began keeps its reference. *)
Theorem C107_known_partial : forall L, locid_ok L -> forall h rs r s ps, reachable L h rs r -> In s h -> canon L s <> None ->
  exists x, tag L r s = (r, Ok x) /\ forall sch i o, In (i, STag s o) (w_log (world_run L (world_start r ps) sch)) -> o = Ok x.
Proof. exact known. Qed.
Print Assumptions C107_known_partial.
(** The same for locales. *)
Theorem C107_locales_partial : forall L r ps sch t x0 i0, let w := world_run L (world_start r ps) sch in
  (forall i, match w_threads w i with TIcu _ _ | TIcuInsert _ _ _ => False | _ => True end) -> In (i0, SIcu t (Ok x0)) (w_log w) ->
  exists x, forall sch', exists l, w_log (world_run L w sch') = l ++ w_log w /\ forall i t' o, In (i, SIcu t' o) l -> r_tag t' = r_tag t -> o = Ok x.
Proof. exact settles_icu. Qed.
Print Assumptions C107_locales_partial.
Example C107_example :
  let ps := [ask (us "de") (ask (us "de") REnd); ask (us "de") (ask (us "DE") (ask (us "de") REnd))] in
  filter (fun e => match snd e with SAsk _ => false | _ => true end) (w_log (run_ex ps [0; 0; 0; 0; 0; 1; 1; 1; 1; 1; 1; 0; 0; 1; 1; 1; 1; 1; 1])) =
    [(1, STag (us "de") (Ok (mk_tref 0 (us "de")))); (1, STag (us "DE") (Ok (mk_tref 0 (us "de")))); (0, STag (us "de") (Ok (mk_tref 0 (us "de"))));
     (0, STag (us "de") (Ok (mk_tref 0 (us "de")))); (1, STag (us "de") (Ok (mk_tref 1 (us "de"))))].
Proof. vm_compute. reflexivity. Qed.
