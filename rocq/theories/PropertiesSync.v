(** Properties C63 to C66: threads that use one localiser (feature [sync]). *)
From Verif Require Import Base BaseFacts LexerModel LexerSpec IcuExample TreeModel TreeSpec DocSpec ValueModel CommandModel FormatterModel FormatterSpec FmtExample
  RegistryModel LocaliserModel LocaliserSpec LocaliserProofs PropertiesLocaliser SyncModel SyncSpec SyncProofs SyncProofs2 SyncProofs3 SyncProofs4 SyncProofs5.

(** What the calls of every thread have returned. *)
Definition done_ex (E : lenv unit) (st : lstate) (calls : list (list lcall)) (sch : list nat) := map th_done (sys_threads (sys_run E (sys_start st calls) sch)).
Definition greet_ex : lcall := CallFormatDefaults (us "app") (us "greet") bob.
Definition esc_ex : lcall := CallFormatDefaults (us "app") (us "esc") [].
Definition pattern_ex : lcall := CallLiteralDefaults (us "app") (us "greet").
Definition bye_ex : lcall := CallLiteralDefaults (us "app") (us "bye").

(** ** C63: threads do not disturb each other: every call returns what it returns alone. False. *)
Theorem C63_results_refuted :
  (* Two threads format two strings of a language new to the cache: the second map for the language replaces the first one
     before the first thread uses its formatter, and line 1110 panics. *)
  done_ex loc_ex start_ex [[greet_ex]; [esc_ex]] (repeat 1 5 ++ repeat 0 6 ++ [1; 0; 0; 1; 1])
    = [[(greet_ex, Some Panic)]; [(esc_ex, Some (Ok (us "{name}", us "en")))]] /\
  (* Format and literal of one string at once: the error of line 1115 that should never be reached. *)
  done_ex loc_ex start_ex [[greet_ex]; [pattern_ex]] (repeat 1 5 ++ repeat 0 6 ++ [1; 0; 0; 1])
    = [[(greet_ex, Some (Err LNeverReached))]; [(pattern_ex, Some (Ok (us "Hello {name}!", us "en")))]] /\
  (* The panic of C32 in one thread poisons the cache: calls of other threads panic as well. *)
  done_ex loc_ex start_ex [[CallLiteral (us "app") (us "bye") (us "fr") None None; CallLiteral (us "app") (us "note") (us "fr") None None]; [bye_ex]]
      (repeat 0 12 ++ repeat 1 6)
    = [[(CallLiteral (us "app") (us "bye") (us "fr") None None, Some (Ok (us "Au revoir", us "fr"))); (CallLiteral (us "app") (us "note") (us "fr") None None, Some Panic)];
       [(bye_ex, Some Panic)]] /\
  (* Alone, none of this happens. *)
  uncached_result loc_ex start_ex greet_ex = Some (Ok (us "Hello Bob!", us "en")) /\
  snd (lstep loc_ex (lrun loc_ex start_ex [esc_ex]) greet_ex) = Some (Ok (us "Hello Bob!", us "en")) /\
  snd (lstep loc_ex (lrun loc_ex start_ex [greet_ex]) esc_ex) = Some (Ok (us "{name}", us "en")) /\
  uncached_result loc_ex start_ex bye_ex = Some (Ok (us "Bye", us "en")).
Proof. vm_compute. repeat split. Qed.
Print Assumptions C63_results_refuted.

(** What holds, after any history and under every schedule: for requests as in C28 a call returns what it returns without a
    cache, for settings made by some thread, or it panics. *)
Theorem C63_results_partial : forall PE (E : lenv PE) fallback caching tag h calls sch c r,
  icu_ok (le_icu E) -> answers_again E -> provider_hash_ok E ->
  let st := lrun E (localiser_new E fallback caching tag) h in
  harmless E (history_requests E (localiser_new E fallback caching tag) h ++ sync_requests st calls) ->
  returned (sys_run E (sys_start st calls) sch) c r -> result_alone E st calls c r \/ r = Some Panic.
Proof.
  intros PE E fb ca tag h calls sch c r H1 H2 H3 st H4 H5. destruct (sync_results E fb ca tag h calls sch c r H1 H2 H3 H4 H5) as [H|(H & _)]; auto.
Qed.
Print Assumptions C63_results_partial.

(** It does not panic if moreover every string is found in the language asked for, nothing else panics, and the cache already
    has an entry for every language asked for. (The first witness above only lacks the entry.) *)
Theorem C63_prepared_partial : forall PE (E : lenv PE) fallback caching tag h calls sch c r,
  icu_ok (le_icu E) -> answers_again E -> provider_hash_ok E -> calm E ->
  let st := lrun E (localiser_new E fallback caching tag) h in
  harmless E (history_requests E (localiser_new E fallback caching tag) h ++ sync_requests st calls) ->
  same_language E (sync_requests st calls) -> prepared (sync_requests st calls) st ->
  returned (sys_run E (sys_start st calls) sch) c r -> result_alone E st calls c r.
Proof.
  intros PE E fb ca tag h calls sch c r H1 H2 H3 H0 st H4 H5 H6 H7.
  destruct (sync_results E fb ca tag h calls sch c r H1 H2 H3 H4 H7) as [H|(_ & H)]; [exact H|]. destruct H. auto.
Qed.
Print Assumptions C63_prepared_partial.

(** If nobody asks for caching, no condition is needed. *)
Theorem C63_no_caching : forall PE (E : lenv PE) fallback tag calls sch c r, (forall l x, In l calls -> In x l -> ~ asks_caching x) ->
  let st := localiser_new E fallback false tag in
  returned (sys_run E (sys_start st calls) sch) c r -> result_alone E st calls c r.
Proof. exact @sync_no_caching. Qed.
Print Assumptions C63_no_caching.

(** Once the cache is poisoned, every call of every thread panics, except those that only change the settings. *)
Theorem C63_poisoned : forall PE (E : lenv PE) st n bad calls sch c r,
  returned (sys_run E (mk_sys (mk_systate st n true bad) (sys_threads (sys_start (PE := PE) st calls))) sch) c r ->
  (forall t f ca, c <> CallDefaults t f ca) -> r = Some Panic.
Proof.
  intros PE E st n bad calls sch c r H Hn. pose proof (poisoned_results E st n bad calls sch c r H) as K. destruct c; try exact K. now destruct (Hn tag fallback caching).
Qed.
Print Assumptions C63_poisoned.

(** One thread alone: the calls return what they return without feature [sync], up to the first panic, and leave the same
    cache and settings. *)
Theorem C63_alone : forall PE (E : lenv PE) st cs n, fold_right (fun c m => 2 + sections c + m) 0 cs <= n ->
  exists g, sys_run E (sys_start st [cs]) (repeat 0 n) = mk_sys g [mk_sthread (results E st cs) None []] /\
  ((forall c, ~ In (c, Some Panic) (results E st cs)) -> sy_ls g = lrun E st cs).
Proof. exact @alone_results. Qed.
Print Assumptions C63_alone.

(** A formatter of the cache that panicked is poisoned: formatting with it panics, whatever the values, and changes nothing. One that is
    not gives what it gives, and is poisoned just if it panics. *)
Theorem C63_entry : forall PE (E : lenv PE) st n bad c i vals t f ca fm, cached st t (combined c i) = Some (CFormatter fm) ->
  let x := CallFormat c i vals t f ca in
  exists g r, sys_run E (mk_sys (mk_systate st n false bad) [mk_sthread [] None [x]]) (repeat 0 5) = mk_sys g [mk_sthread [(x, Some r)] None []] /\
    (In (t, combined c i) bad -> r = Panic /\ g = mk_systate st n false bad) /\
    (~ In (t, combined c i) bad -> r = snd (run_formatter E fm vals) /\ (forall y, In y (sy_bad g) <-> In y bad \/ (y = (t, combined c i) /\ r = Panic))).
Proof. intros PE E st n bad c i vals t f ca fm Hc x. exact (format_alone E st n bad c i vals t f ca fm Hc). Qed.
Print Assumptions C63_entry.
(** It stays poisoned until an entry is put in its place, or a new map in that of the language. *)
Theorem C63_repaired : forall PE (E : lenv PE) p g g' p', prog_step E p g = Some (g', p') -> sy_poisoned g' = false ->
  (forall x, In x (sy_bad g) -> ~ In x (sy_bad g') ->
     (exists b key s t k, p = PAdd b key s t k /\ fst x = t /\ (b = false \/ snd x = key)) \/
     (exists b t key fm k, p = PPut b t key fm k /\ fst x = t /\ (b = false \/ snd x = key))) /\
  (forall b t key fm k, p = PPut b t key fm k -> cached (sy_ls g') t key = Some (CFormatter fm) /\ ~ In (t, key) (sy_bad g')).
Proof. intros PE E p g g' p' H Hp. split; [exact (step_bad E p g g' p' H Hp)|]. intros b t key fm k ->. exact (put_bad E b t key fm k g g' p' H Hp). Qed.
Print Assumptions C63_repaired.
(** The command english_a_or_an panics for an empty parameter (C20); afterwards the string cannot be formatted at all. *)
Example C63_entry_example : let E : lenv unit := mk_lenv icu_ex env_ex reg_ex (fun t => t)
    (mk_provider (fun _ _ t => Ok (Some (us "{#english_a_or_an # v} {v}", t))) (fun _ => Ok (us "en"))) (fun _ => None) 8 in
  let say v := CallFormat (us "app") (us "item") [(us "v", VString (us v))] (us "en") None None in
  let st := localiser_new E true true (us "en") in
  map th_done (sys_threads (sys_run E (sys_start st [[say "apple"%string; say ""%string]; [say "apple"%string]]) (repeat 0 20 ++ repeat 1 10))) =
    [[(say "apple"%string, Some (Ok (us "an apple", us "en"))); (say ""%string, Some Panic)]; [(say "apple"%string, Some Panic)]] /\
  snd (lstep E (lrun E st [say "apple"%string; say ""%string]) (say "apple"%string)) = Some (Ok (us "an apple", us "en")).
Proof. vm_compute. split; reflexivity. Qed.

(** The conditions hold of an example: a string of the language is in the cache, and two threads format and ask for strings. *)
Definition filled_ex : lstate := lrun quiet_ex (localiser_new quiet_ex true true (us "en")) [bye_ex].
Definition calls_ex : list (list lcall) := [[greet_ex; bye_ex]; [esc_ex; greet_ex]].
Lemma requests_ex : history_requests quiet_ex (localiser_new quiet_ex true true (us "en")) [bye_ex] ++ sync_requests filled_ex calls_ex =
  [mk_request (us "app") (us "bye") (us "en") true true; mk_request (us "app") (us "greet") (us "en") true false; mk_request (us "app") (us "bye") (us "en") true true;
   mk_request (us "app") (us "esc") (us "en") true false; mk_request (us "app") (us "greet") (us "en") true false].
Proof. vm_compute. reflexivity. Qed.
Example C63_example :
  (calm quiet_ex /\ answers_again quiet_ex /\ provider_hash_ok quiet_ex /\
   harmless quiet_ex (history_requests quiet_ex (localiser_new quiet_ex true true (us "en")) [bye_ex] ++ sync_requests filled_ex calls_ex) /\
   same_language quiet_ex (sync_requests filled_ex calls_ex) /\ prepared (sync_requests filled_ex calls_ex) filled_ex) /\
  done_ex quiet_ex filled_ex calls_ex (repeat 1 5 ++ repeat 0 6 ++ [1] ++ repeat 0 10 ++ repeat 1 10)
    = [[(greet_ex, Some (Ok (us "Hello Bob!", us "en"))); (bye_ex, Some (Ok (us "Bye", us "en")))];
       [(esc_ex, Some (Ok (us "{name}", us "en"))); (greet_ex, Some (Ok (us "Hello Bob!", us "en")))]].
Proof.
  split; [|vm_compute; reflexivity]. split; [exact C32_calm|]. split; [exact loc_ex_again|]. split; [exact loc_ex_hash|]. split; [|split].
  - rewrite requests_ex. split; [|split].
    + intros q [<-|[<-|[<-|[<-|[<-|[]]]]]] H; vm_compute in H; intuition discriminate.
    + intros q q' s t' Hq Hq' H1 H2 H3 H4 _. exfalso.
      destruct Hq as [<-|[<-|[<-|[<-|[<-|[]]]]]], Hq' as [<-|[<-|[<-|[<-|[<-|[]]]]]]; discriminate.
    + intros q q' Hq Hq' _ _ _ H. destruct Hq as [<-|[<-|[<-|[<-|[<-|[]]]]]]; vm_compute in H; discriminate.
  - intros q s t' H1 H2. assert (Hin : In q (history_requests quiet_ex (localiser_new quiet_ex true true (us "en")) [bye_ex] ++ sync_requests filled_ex calls_ex))
      by (apply in_or_app; now right). rewrite requests_ex in Hin. clear H1.
    destruct Hin as [<-|[<-|[<-|[<-|[<-|[]]]]]]; (destruct H2 as [H2|d H2 _ _ _]; [vm_compute in H2; injection H2 as _ H2; symmetry; exact H2|vm_compute in H2; discriminate]).
  - intros q H1. assert (Hin : In q (history_requests quiet_ex (localiser_new quiet_ex true true (us "en")) [bye_ex] ++ sync_requests filled_ex calls_ex))
      by (apply in_or_app; now right). rewrite requests_ex in Hin. clear H1.
    destruct Hin as [<-|[<-|[<-|[<-|[<-|[]]]]]]; vm_compute; discriminate.
Qed.

(** ** C64: the script data of the localiser are those of its language. *)

(** Under every schedule, whenever no thread is in a call that sets the language. *)
Theorem C64_script : forall PE (E : lenv PE) fallback caching tag h calls sch,
  let x := sys_run E (sys_start (lrun E (localiser_new E fallback caching tag) h) calls) sch in
  (forall th c p, In th (sys_threads x) -> th_now th = Some (c, p) -> set_tag c = None) ->
  ls_script (sy_ls (sys_state x)) = le_script E (ls_tag (sy_ls (sys_state x))).
Proof.
  intros PE E fb ca tag h calls sch x Hn. set (st := lrun E (localiser_new E fb ca tag) h) in *.
  assert (Hc : consistent E x).
  { apply (run_consistent E sch _ _ (start_left E st calls)). left. cbn.
    destruct (settings_history E h (localiser_new E fb ca tag)) as (_ & _ & _ & H). apply H. reflexivity. }
  destruct (run_left E sch _ _ (start_left E st calls)) as (ns & (Hl & _) & _).
  destruct Hc as [Hc|(i & th & Hi & Hs)]; [exact Hc|]. exfalso. destruct (Forall2_pick _ _ _ _ _ Hl Hi) as (n & _ & Ht).
  unfold thread_left, in_script, in_hold in *. destruct (th_now th) as [[c p]|] eqn:Et; [|destruct Hs; discriminate].
  destruct Ht as (m & Hd & _). pose proof (Hn th c p (nth_error_In _ _ Hi) Et) as Hset. unfold sets_tag in Hd. rewrite Hset in Hd.
  inversion Hd as [n0 p0 Hsh|n0 k f Hf|n0 p0 Hf]; subst; try discriminate. destruct (shape_out E _ _ _ Hsh) as (K1 & K2). destruct Hs; congruence.
Qed.
Print Assumptions C64_script.
Theorem C64_end : forall PE (E : lenv PE) fallback caching tag h calls sch,
  let x := sys_run E (sys_start (lrun E (localiser_new E fallback caching tag) h) calls) sch in
  finished x -> ls_script (sy_ls (sys_state x)) = le_script E (ls_tag (sy_ls (sys_state x))).
Proof. intros PE E fb ca tag h calls sch x Hf. apply C64_script. intros th c p Hin Hn. destruct (Hf th Hin) as (H & _). congruence. Qed.
Print Assumptions C64_end.

(** Two threads set the language at once; in the middle, the data are not those of the language; one thread waits. *)
Definition set_ex (t : ustr) : lcall := CallDefaults (Some t) None None.
Definition view_ex (sch : list nat) := let x := sys_run loc_ex (sys_start start_ex [[set_ex (us "ar")]; [set_ex (us "fr")]]) sch in
  (ls_tag (sy_ls (sys_state x)), ls_script (sy_ls (sys_state x)), sy_readers (sys_state x)).
Example C64_example :
  view_ex [0; 0] = (us "ar", None, 0) /\ view_ex [0; 0; 0] = (us "ar", None, 1) /\ view_ex [0; 0; 0; 1; 1] = (us "ar", None, 1) /\
  view_ex [0; 0; 0; 1; 1; 0] = (us "ar", Some (us "Arab"), 0) /\ view_ex [0; 0; 1; 1; 1; 0; 1; 0] = (us "fr", None, 0) /\
  view_ex [0; 0; 0; 0; 0; 1; 1; 1; 1; 1] = (us "fr", None, 0) /\ view_ex [1; 1; 0; 0; 1; 0; 1; 0; 1; 0] = (us "ar", Some (us "Arab"), 0).
Proof. vm_compute. repeat split. Qed.

(** ** C65: the locks do not deadlock: in every state that can be reached a thread can go on, or all are finished; and all are
    finished after a number of steps that depends on the calls only. *)
Theorem C65_no_deadlock : forall PE (E : lenv PE) st calls sch, let x := sys_run E (sys_start st calls) sch in
  finished x \/ exists i x', sys_step E x i = Some x'.
Proof.
  intros PE E st calls sch x. destruct (run_left E sch _ _ (start_left E st calls)) as (ns & H & _). exact (progress E x ns H).
Qed.
Print Assumptions C65_no_deadlock.
Theorem C65_bound : forall PE (E : lenv PE) st calls sch,
  steps_made E (sys_start st calls) sch <= fold_right (fun cs m => fold_right (fun c k => 2 + sections c + k) 0 cs + m) 0 calls.
Proof.
  intros PE E st calls sch. destruct (run_left E sch _ _ (start_left E st calls)) as (ns & _ & H).
  assert (Ht : total (map left calls) = fold_right (fun cs m => fold_right (fun c k => 2 + sections c + k) 0 cs + m) 0 calls).
  { clear. unfold total. induction calls as [|cs calls IH]; [reflexivity|]. cbn [map fold_right]. now rewrite IH. }
  lia.
Qed.
Print Assumptions C65_bound.
Theorem C65_all_finish : forall PE (E : lenv PE) st calls sch, exists more, finished (sys_run E (sys_start st calls) (sch ++ more)).
Proof.
  intros PE E st calls sch. destruct (run_left E sch _ _ (start_left E st calls)) as (ns & H & _).
  destruct (all_finish E (total ns) _ ns H (le_n _)) as (more & _ & Hf). exists more. now rewrite run_app.
Qed.
Print Assumptions C65_all_finish.

Example C65_example : let x := sys_start start_ex [[set_ex (us "ar")]; [set_ex (us "fr")]] in
  (* the second thread waits for the first one *)
  sys_step loc_ex (sys_run loc_ex x [0; 0; 0; 1]) 1 = None /\ sys_step loc_ex (sys_run loc_ex x [0; 0; 0; 1; 0]) 1 <> None /\
  steps_made loc_ex x [0; 0; 0; 1; 1; 1; 0; 0; 1; 1; 1; 1; 1] = 10.
Proof. vm_compute. repeat split. discriminate. Qed.

(** ** C66: a call sees the settings of one moment. False: [defaults] sets them one after the other. *)
Theorem C66_settings_refuted :
  let st := localiser_new loc_ex false false (us "en") in
  let c := CallLiteralDefaults (us "app") (us "note") in let d := CallDefaults (Some (us "fr")) (Some true) None in
  done_ex loc_ex st [[d]; [c]] (repeat 0 4 ++ repeat 1 6 ++ repeat 0 2)
    = [[(d, None)]; [(c, Some (Err (LStringNotFound (us "app") (us "note") (us "fr") false)))]] /\
  uncached_result loc_ex st c = Some (Ok (us "Note", us "en")) /\ uncached_result loc_ex (fst (lstep loc_ex st d)) c = Some (Ok (us "Note", us "en")).
Proof. vm_compute. repeat split. Qed.
Print Assumptions C66_settings_refuted.
(** What holds: if only one of the language and the fallback is ever changed, the settings seen are those of one moment. *)
Theorem C66_settings_partial : forall PE (E : lenv PE) fallback tag calls sch c r, (forall l x, In l calls -> In x l -> ~ asks_caching x) ->
  let st := localiser_new E fallback false tag in returned (sys_run E (sys_start st calls) sch) c r ->
  ((forall l x, In l calls -> In x l -> set_fallback x = None) -> exists t, (t = tag \/ exists l x, In l calls /\ In x l /\ set_tag x = Some t) /\ r = uncached_result E (localiser_new E fallback false t) c) /\
  ((forall l x, In l calls -> In x l -> set_tag x = None) -> exists fb, (fb = fallback \/ exists l x, In l calls /\ In x l /\ set_fallback x = Some fb) /\ r = uncached_result E (localiser_new E fb false tag) c).
Proof.
  intros PE E fb0 tag calls sch c r Hn st Hr. destruct (sync_no_caching E fb0 tag calls sch c r Hn Hr) as (t & fb & Ht & Hf & ->).
  assert (Hsame : uncached_result E (seen t fb) c = uncached_result E (localiser_new E fb false t) c) by (rewrite !uncached_pure; reflexivity).
  assert (Ht' : t = tag \/ exists l x, In l calls /\ In x l /\ set_tag x = Some t).
  { destruct Ht as [<-|Ht]; [left; reflexivity|]. right. apply in_flat_map in Ht as (x & Hx & Ht). apply in_concat in Hx as (l & Hl & Hx).
    exists l, x. split; [exact Hl|]. split; [exact Hx|]. destruct (set_tag x) as [t1|]; [destruct Ht as [->|[]]; reflexivity|destruct Ht]. }
  assert (Hf' : fb = fb0 \/ exists l x, In l calls /\ In x l /\ set_fallback x = Some fb).
  { destruct Hf as [<-|Hf]; [left; reflexivity|]. right. apply in_flat_map in Hf as (x & Hx & Hf). apply in_concat in Hx as (l & Hl & Hx).
    exists l, x. split; [exact Hl|]. split; [exact Hx|]. destruct (set_fallback x) as [t1|]; [destruct Hf as [->|[]]; reflexivity|destruct Hf]. }
  split; intros Hnone.
  - exists t. split; [exact Ht'|]. destruct Hf' as [->|(l & x & Hl & Hx & K)]; [exact Hsame|]. rewrite (Hnone l x Hl Hx) in K. discriminate.
  - exists fb. split; [exact Hf'|]. destruct Ht' as [->|(l & x & Hl & Hx & K)]; [exact Hsame|]. rewrite (Hnone l x Hl Hx) in K. discriminate.
Qed.
Print Assumptions C66_settings_partial.
Example C66_example : let st := localiser_new loc_ex false false (us "en") in let d := CallDefaults (Some (us "fr")) None None in
  done_ex loc_ex st [[d]; [bye_ex]] (repeat 0 4 ++ repeat 1 6 ++ repeat 0 2) = [[(d, None)]; [(bye_ex, Some (Ok (us "Au revoir", us "fr")))]] /\
  done_ex loc_ex st [[d]; [bye_ex]] ([0; 1; 1] ++ repeat 0 5 ++ repeat 1 6) = [[(d, None)]; [(bye_ex, Some (Ok (us "Bye", us "en")))]].
Proof. vm_compute. repeat split. Qed.
