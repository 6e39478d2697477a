(** C101: commands that use the localiser, with the feature [sync] (crates/localiser/src/localiser.rs, formatter.rs, command.rs). *)
From Verif Require Import Base BaseFacts LexerModel LexerSpec IcuExample TreeModel TreeSpec DocSpec DocCheck ValueModel CommandModel IsoModel FormatterModel FormatterSpec FormatterProofs4
  FmtExample ErrorModel ErrorSpec ErrorProofs RegistryModel LocaliserModel LocaliserSpec LocaliserProofs MemorySpec MemoryProofs SyncModel CallsModel CallsSpec CallsProofs2 LocCallsModel LocCallsSpec
  ReenterModel ReenterSpec ReenterProofs ReenterProofs2 ReenterProofs3 PropertiesReenter ReenterSyncModel ReenterSyncSpec ReenterSyncProofs ReenterSyncProofs2 ReenterSyncProofs3.

(** The feature changes nothing but what happens in trouble: as long as no lock is poisoned, the thread waits for ever in a call
    only if a borrow fails in the same call without the feature; otherwise no borrow fails, and the answer, the localiser and the
    world are the same. *)
Theorem C101_same : forall PE W (E : lenv PE) (cmds : commands PE W) n c s s' a, unharmed s -> sstep E cmds n c s = (s', a) -> ss_spoilt s' = ss_spoilt s ->
  let (r', a') := rstep E cmds n c (in_cells s) in
  if ss_waits s' then 0 < rs_failed r' else unharmed s' /\ r' = in_cells s' /\ a' = a.
Proof.
  intros PE W E cmds n c s s' a Hu Hs Hk. pose proof (step_agree E cmds (ss_spoilt s) n c s (in_cells s) (conj Hu (conj eq_refl eq_refl))) as H.
  rewrite Hs in H. destruct (rstep E cmds n c (in_cells s)) as (r' & a'). unfold agree_call in H. cbn [fst snd] in H. destruct H as [H|[(H1 & _ & H2)|((H1 & _ & H2) & H3)]].
  - unfold spoilt_more in H. lia.
  - unfold stopped in H1. rewrite H1. exact H2.
  - pose proof H1 as (_ & _ & Hw). rewrite Hw. split; [exact H1|split; [exact H2|now symmetry]].
Qed.
Print Assumptions C101_same.

(** With commands that do not use the localiser a call is what [SyncModel] says of a thread that is alone; locks may be poisoned. *)
Theorem C101_alone : forall PE (E : lenv PE) n c s, alone s ->
  let x := sstep E (none_asking (without_effects (le_reg E))) (S n) c s in
  alone (fst x) /\ gets_to E (sync_call E c) (shared s) (PRet (snd x)) (shared (fst x)).
Proof. intros PE E n c s H. exact (call_alone' E (sstep E _ n) c s H). Qed.
Print Assumptions C101_alone.

(** When a call ends, be it in a panic, the locks it took are given back and no others. *)
Theorem C101_ends : forall PE W (E : lenv PE) (cmds : commands PE W) n c s, ss_waits (fst (sstep E cmds n c s)) = false ->
  ss_readers (fst (sstep E cmds n c s)) = ss_readers s /\ ss_locked (fst (sstep E cmds n c s)) = ss_locked s.
Proof. intros PE W E cmds n c s H. destruct (step_orderly E cmds n c s) as (_ & [H1|H1]); [congruence|exact H1]. Qed.
Print Assumptions C101_ends.

(** In a delayed command of a formatter of the cache, no call with caching is answered with a text that needs a string not remembered. *)
Theorem C101_busy : forall PE W (E : lenv PE) (cmds : commands PE W) n c s s' a, unharmed s -> sstep E cmds n c s = (s', a) -> ss_spoilt s' = ss_spoilt s ->
  0 < ss_readers s -> caches (ss_loc s) c = true -> ~ covered (ss_loc s) (call_requests (ss_loc s) c) -> ss_waits s' = true \/ forall x, a <> Some (Ok x).
Proof.
  intros PE W E cmds n c s s' a Hu Hs Hk Hr Hc Hn. pose proof (C101_same PE W E cmds n c s s' a Hu Hs Hk) as H.
  pose proof (C100_busy PE W E cmds n c (in_cells s) Hr Hc Hn) as H'. destruct (rstep E cmds n c (in_cells s)) as (r' & a'). cbn [snd] in H'.
  destruct (ss_waits s'); [now left|]. right. destruct H as (_ & _ & <-). exact H'.
Qed.
Print Assumptions C101_busy.

(** For literal strings: the thread waits exactly if the string is found, is not remembered and is to be remembered. Any other such
    call is answered as ever and changes nothing. *)
Theorem C101_busy_literal : forall PE W (E : lenv PE) (cmds : commands PE W) n c i t f ca s s' a, 0 < ss_readers s -> ss_poisoned s = false -> ss_waits s = false ->
  sstep E cmds (S n) (CallLiteral c i t f ca) s = (s', a) ->
  let fb := unwrap_or f (ls_fallback (ss_loc s)) in
  let trouble := cached (ss_loc s) t (combined c i) = None /\ (exists str t', found E c i t fb str t') /\ unwrap_or ca (ls_caching (ss_loc s)) = true in
  (ss_waits s' = true <-> trouble) /\ (~ trouble -> s' = s /\ a = snd (lstep E (ss_loc s) (CallLiteral c i t f ca))).
Proof.
  intros PE W E cmds n c i t f ca s s' a H Hp Hw Hs fb trouble. cbn [sstep scall] in Hs. fold fb in Hs. unfold sactual_literal in Hs. rewrite Hp in Hs.
  cbn [lstep]. unfold loc_literal. fold fb. unfold trouble. destruct (cached (ss_loc s) t (combined c i)) as [e|] eqn:Ec.
  { assert (Hs' : s' = s /\ a = Some (match e with CLocalised str t' => Ok (str, t') | CFormatter _ => Err (LCacheEntry c i) end)) by (destruct e; cbn [fst snd] in Hs; injection Hs as <- <-; now split).
    destruct Hs' as (-> & ->). split; [split; [congruence|intros (Hno & _); discriminate Hno]|]. intros _. split; [reflexivity|].
    cbn [snd]. unfold actual_literal. rewrite Ec. now destruct e. }
  destruct (find_string E c i t fb) as [(str & t')|e| |] eqn:Ef.
  2-4: (cbn [fst snd] in Hs; injection Hs as <- <-; assert (Hno : ~ exists str t', found E c i t fb str t') by (intros (str & t' & Hf); apply find_string_iff in Hf; congruence);
        split; [split; [congruence|intros (_ & Hf & _); contradiction]|]; intros _; split; [reflexivity|]; unfold actual_literal; now rewrite Ec, Ef).
  assert (Hf : found E c i t fb str t') by now apply find_string_iff. unfold sreturn_string in Hs. destruct (unwrap_or ca (ls_caching (ss_loc s))) eqn:Eca.
  - rewrite (proj2 (Nat.ltb_lt _ _) H) in Hs. cbn [wait fst snd] in Hs. injection Hs as <- <-. cbn [ss_waits]. split; [split; [intros _; eauto|easy]|]. intros Hn. destruct Hn. eauto.
  - cbn [fst snd] in Hs. injection Hs as <- <-. split; [split; [congruence|intros (_ & _ & Hno); discriminate Hno]|]. intros _. split; [reflexivity|].
    cbn [snd]. unfold actual_literal. now rewrite Ec, Ef.
Qed.
Print Assumptions C101_busy_literal.

(** A delayed command that asks for the string it is shown in waits for ever, if a formatter of the cache shows it. *)
Theorem C101_itself : forall PE W (E : lenv PE) (cmds : commands PE W) n c i vals t f ca s fm, ss_poisoned s = false ->
  cached (ss_loc s) t (combined c i) = Some (CFormatter fm) -> In (t, combined c i) (ss_locked s) ->
  ss_waits (fst (sstep E cmds (S n) (CallFormat c i vals t f ca) s)) = true.
Proof.
  intros PE W E cmds n c i vals t f ca s fm Hp Hc Hl. cbn [sstep scall fst]. unfold sactual_format. rewrite Hp, Hc. unfold sformat_cached.
  assert (G : existsb (same_entry (t, combined c i)) (ss_locked s) = true) by (apply existsb_exists; exists (t, combined c i); split; [exact Hl|now apply same_entry_iff]).
  now rewrite G.
Qed.
Print Assumptions C101_itself.

(** If a formatter of the cache panics, it is poisoned; then it panics at once in every call, without calling a command, whatever
    the commands would do. *)
Theorem C101_poisons : forall PE W (E : lenv PE) (cmds : commands PE W) n c i vals t f ca s fm s', ss_poisoned s = false ->
  cached (ss_loc s) t (combined c i) = Some (CFormatter fm) -> sstep E cmds (S n) (CallFormat c i vals t f ca) s = (s', Some Panic) -> ss_waits s' = false ->
  In (t, combined c i) (ss_bad s').
Proof.
  intros PE W E cmds n c i vals t f ca s fm s' Hp Hc Hs Hw. cbn [sstep scall] in Hs. unfold sactual_format in Hs. rewrite Hp, Hc in Hs. unfold sformat_cached in Hs.
  destruct (existsb _ (ss_locked s)); [cbn in Hs; injection Hs as <-; discriminate Hw|]. destruct (existsb _ (ss_bad s)) eqn:Eb.
  { cbn in Hs. injection Hs as <-. apply existsb_exists in Eb. destruct Eb as (x & Hx & He). apply same_entry_iff in He. now subst x. }
  destruct (wrun_formatter _ _ _ _ _) as (s1 & fm' & r). destruct (ss_waits s1) eqn:E1; cbn [fst snd] in Hs.
  - injection Hs as <-. congruence.
  - injection Hs as <- ->. now left.
Qed.
Print Assumptions C101_poisons.
Theorem C101_poisoned : forall PE W (E : lenv PE) (cmds : commands PE W) n c i vals t f ca s fm, ss_poisoned s = false ->
  cached (ss_loc s) t (combined c i) = Some (CFormatter fm) -> ~ In (t, combined c i) (ss_locked s) -> In (t, combined c i) (ss_bad s) ->
  sstep E cmds (S n) (CallFormat c i vals t f ca) s = (s, Some Panic).
Proof.
  intros PE W E cmds n c i vals t f ca s fm Hp Hc Hl Hb. cbn [sstep scall]. unfold sactual_format. rewrite Hp, Hc. unfold sformat_cached.
  replace (existsb (same_entry (t, combined c i)) (ss_locked s)) with false.
  - replace (existsb (same_entry (t, combined c i)) (ss_bad s)) with true; [reflexivity|]. symmetry. apply existsb_exists. exists (t, combined c i). split; [exact Hb|now apply same_entry_iff].
  - symmetry. apply not_true_iff_false. intros H. apply existsb_exists in H. destruct H as (x & Hx & He). apply same_entry_iff in He. now subst x.
Qed.
Print Assumptions C101_poisoned.

(** Commands can use the localiser as any other code does: the thread never waits for ever. This does not hold, see
    [C101_waits_refuted]. It holds if the delayed commands do not use it, and also if nothing is ever cached: then all other
    commands may ask for whatever they like. Commands may panic, and locks may be poisoned. *)
Definition waits_full {PE W} (E : lenv PE) (cmds : commands PE W) : Prop :=
  forall n fallback caching tag w h, ss_waits (srun E cmds n (sstart E fallback caching tag w) h) = false.
Theorem C101_waits_partial : forall PE W (E : lenv PE) (cmds : commands PE W),
  (delayed_quiet E cmds -> waits_full E cmds) /\
  ((forall name, command_asks_only forgets cmds name) ->
   forall n fallback tag w h, Forall forgets h -> ss_waits (srun E cmds n (sstart E fallback false tag w) h) = false).
Proof.
  intros PE W E cmds. split.
  - intros Hq n fb ca tag w h. refine (proj2 (proj2 (proj2 (run_ease E cmds Hq n h (sstart E fb ca tag w) _)))). split; [|now split]. intros t key fm Hc. discriminate Hc.
  - intros Hc n fb tag w h Hh. assert (G : soff (srun E cmds n (sstart E fb false tag w) h)).
    { apply run_soff; [exact Hc|exact Hh|]. split; [|now split]. intros t key fm H. discriminate H. }
    apply G.
Qed.
Print Assumptions C101_waits_partial.
Theorem C101_waits_refuted : ~ (forall (E : lenv unit) (cmds : commands unit unit), waits_full E cmds).
Proof.
  intros H. specialize (H mail_env mail_commands 2 true true (us "en") tt [mail_asks (us "late")]).
  assert (G : ss_waits (srun mail_env mail_commands 2 (sstart mail_env true true (us "en") tt) [mail_asks (us "late")]) = true) by (vm_compute; reflexivity).
  rewrite G in H. discriminate H.
Qed.
Print Assumptions C101_waits_refuted.

(** ** Examples *)
Definition mail_sync : sst unit := sstart mail_env true true (us "en") tt.
Definition sync_answer (n : nat) (s : sst unit) (c : lcall) := let x := sstep mail_env mail_commands n c s in (ss_waits (fst x), snd x).

(** The delayed command waits if nothing is remembered and works if the string is. In a command without delay marker it works. *)
Example C101_example :
  fst (sync_answer 2 mail_sync (mail_asks (us "late"))) = true /\
  sync_answer 2 (srun mail_env mail_commands 2 mail_sync [mail_asks (us "name")]) (mail_asks (us "late")) = (false, Some (Ok (us "Dear Bob", us "en"))) /\
  sync_answer 2 mail_sync (mail_asks (us "now")) = (false, Some (Ok (us "Dear Bob", us "en"))) /\
  sync_answer 2 mail_sync (CallFormat (us "app") (us "late") [] (us "en") None (Some false)) = (false, Some (Ok (us "Dear Bob", us "en"))) /\
  ss_spoilt (fst (sstep mail_env mail_commands 2 (mail_asks (us "late")) mail_sync)) = 0 /\
  ss_spoilt (fst (sstep mail_env mail_commands 2 (mail_asks (us "now")) mail_sync)) = 0.
Proof. vm_compute. repeat split. Qed.

(** In a delayed command of a formatter of the cache: the string itself, another one that is not remembered, one that is. *)
Definition sync_busy : sst unit :=
  lock (srun mail_env mail_commands 2 mail_sync [mail_asks (us "name"); mail_asks (us "late")]) (us "en", combined (us "app") (us "late")).
Example C101_busy_example :
  ss_readers sync_busy = 1 /\ ss_poisoned sync_busy = false /\ ss_waits sync_busy = false /\ ss_bad sync_busy = [] /\
  fst (sync_answer 3 sync_busy (CallFormat (us "app") (us "late") [] (us "en") None None)) = true /\
  fst (sync_answer 3 sync_busy (mail_asks (us "now"))) = true /\
  fst (sync_answer 3 sync_busy (CallLiteral (us "app") (us "name") (us "fr") None None)) = true /\
  sync_answer 3 sync_busy (CallLiteral (us "app") (us "name") (us "fr") None (Some false)) = (false, Some (Ok (us "Bob", us "fr"))) /\
  sync_answer 3 sync_busy (CallLiteral (us "app") (us "name") (us "en") None None) = (false, Some (Ok (us "Bob", us "en"))) /\
  sync_answer 3 sync_busy (CallFormat (us "app") (us "now") [] (us "en") None (Some false)) = (false, Some (Ok (us "Dear Bob", us "en"))).
Proof. vm_compute. repeat split. Qed.

(** A delayed command that panics the first time only: with cells the string can be shown again, with locks never more. *)
Definition moody : commands unit bool :=
  [(us "title", fun _ => PRead (fun w : bool => if w then PDone (Ok (us "M.")) else PWrite true (PDone Panic)))].
Definition moody_sync : sst bool := sstart mail_env true true (us "en") false.
Example C101_poison_example :
  let s := srun mail_env moody 2 moody_sync [mail_asks (us "late")] in let r := rrun mail_env moody 2 (start mail_env true true (us "en") false) [mail_asks (us "late")] in
  ss_bad s = [(us "en", combined (us "app") (us "late"))] /\ ss_spoilt s = 1 /\ ss_waits s = false /\ ss_world s = true /\
  snd (sstep mail_env moody 2 (mail_asks (us "late")) moody_sync) = Some Panic /\
  snd (sstep mail_env moody 2 (mail_asks (us "late")) s) = Some Panic /\
  snd (sstep mail_env moody 2 (CallLiteralDefaults (us "app") (us "name")) s) = Some (Ok (us "Bob", us "en")) /\
  rs_failed r = 0 /\ snd (rstep mail_env moody 2 (mail_asks (us "late")) r) = Some (Ok (us "Dear M.", us "en")).
Proof. vm_compute. repeat split. Qed.
Example C101_waits_example : waits_full quiet_env mail_commands /\
  snd (sstep quiet_env mail_commands 2 (mail_asks (us "now")) (sstart quiet_env true true (us "en") tt)) = Some (Ok (us "Dear Bob", us "en")).
Proof. split; [exact (proj1 (C101_waits_partial _ _ quiet_env mail_commands) quiet_env_ok)|vm_compute; reflexivity]. Qed.
(** A localiser without commands: the call of one thread, in [SyncModel] and here. *)
Example C101_alone_example :
  let x := sstep mail_env (none_asking (without_effects (le_reg mail_env))) 1 (mail_asks (us "name")) mail_sync in
  snd x = Some (Ok (us "Bob", us "en")) /\ cached (sy_ls (shared (fst x))) (us "en") (combined (us "app") (us "name")) <> None.
Proof. vm_compute. split; [reflexivity|discriminate]. Qed.
