(** C100: commands that use the localiser (crates/localiser/src/localiser.rs, formatter.rs, command.rs). *)
From Verif Require Import Base BaseFacts LexerModel LexerSpec IcuExample TreeModel TreeSpec DocSpec DocCheck ValueModel CommandModel IsoModel FormatterModel FormatterSpec FormatterProofs4
  FmtExample ErrorModel ErrorSpec ErrorProofs RegistryModel LocaliserModel LocaliserSpec LocaliserProofs MemorySpec MemoryProofs CallsModel CallsSpec CallsProofs2 LocCallsModel LocCallsSpec
  ReenterModel ReenterSpec ReenterProofs ReenterProofs2 ReenterProofs3 ReenterProofs4 ReenterProofs5.

(** With commands that do not use the localiser no borrow of a cell fails, and a call is what the model without borrows says:
    the same answer, the same localiser and the same world afterwards. *)
Theorem C100_alone : forall PE W (E : lenv PE) (r : wregistry W) n st c w f,
  rstep E (none_asking r) (S n) c (mk_rst st 0 [] f w) =
  let '(w', (st', a)) := wlstep E r st c w in (mk_rst st' 0 [] f w', a).
Proof.
  intros PE W E r n st c w f. cbn [rstep]. change (mk_rst st 0 [] f w) with (with_world 0 [] f st w). rewrite call_alone. now destruct (wlstep E r st c w) as (w' & st' & a).
Qed.
Print Assumptions C100_alone.

(** Whatever commands do, when a call ends, be it in a panic, the borrows it made have ended and no others. *)
Theorem C100_ends : forall PE W (E : lenv PE) (cmds : commands PE W) n c s,
  rs_readers (fst (rstep E cmds n c s)) = rs_readers s /\ rs_locked (fst (rstep E cmds n c s)) = rs_locked s.
Proof. intros PE W E cmds n c s. destruct (step_balanced E cmds n c s) as (H1 & H2 & _). now split. Qed.
Print Assumptions C100_ends.

(** While a formatter of the cache formats, nothing is added to the cache and nothing leaves it. *)
Theorem C100_busy_memory : forall PE W (E : lenv PE) (cmds : commands PE W) n c s, 0 < rs_readers s ->
  forall t key, cached (rs_loc (fst (rstep E cmds n c s))) t key = None <-> cached (rs_loc s) t key = None.
Proof. intros PE W E cmds n c s H. exact (proj2 (step_frozen E cmds n c s H)). Qed.
Print Assumptions C100_busy_memory.

(** While a formatter of the cache formats, that is in a delayed command, no call with caching succeeds that needs a string not
    remembered already. *)
Theorem C100_busy : forall PE W (E : lenv PE) (cmds : commands PE W) n c s, 0 < rs_readers s -> caches (rs_loc s) c = true ->
  ~ covered (rs_loc s) (call_requests (rs_loc s) c) -> forall x, snd (rstep E cmds n c s) <> Some (Ok x).
Proof. intros PE W E cmds n c s H Hc Hn x. exact (step_fails E cmds n c s x H Hc Hn). Qed.
Print Assumptions C100_busy.

(** For literal strings: the call panics because of a borrow exactly if the string is found, is not remembered and is to be
    remembered. Any other such call is answered as ever and changes nothing. *)
Theorem C100_busy_literal : forall PE W (E : lenv PE) (cmds : commands PE W) n c i t f ca s s' a, 0 < rs_readers s ->
  rstep E cmds (S n) (CallLiteral c i t f ca) s = (s', a) ->
  let fb := unwrap_or f (ls_fallback (rs_loc s)) in
  let trouble := cached (rs_loc s) t (combined c i) = None /\ (exists str t', found E c i t fb str t') /\ unwrap_or ca (ls_caching (rs_loc s)) = true in
  (rs_failed s' <> rs_failed s <-> trouble) /\ (trouble -> a = Some Panic) /\ (~ trouble -> s' = s /\ a = snd (lstep E (rs_loc s) (CallLiteral c i t f ca))).
Proof.
  intros PE W E cmds n c i t f ca s s' a H Hs fb trouble. cbn [rstep rcall] in Hs. rewrite (literal_busy E s _ _ _ _ _ H) in Hs. fold fb in Hs.
  cbn [lstep]. unfold loc_literal. fold fb. unfold trouble. destruct (cached (rs_loc s) t (combined c i)) as [e|] eqn:Ec.
  { cbn [fst snd] in Hs. injection Hs as <- <-. split; [split; [congruence|intros (Hno & _); discriminate]|]. split; [intros (Hno & _); discriminate|]. intros _. split; [reflexivity|].
    cbn [snd]. unfold actual_literal. rewrite Ec. now destruct e. }
  destruct (find_string E c i t fb) as [(str & t')|e| |] eqn:Ef.
  2-4: (cbn [fst snd] in Hs; injection Hs as <- <-; assert (Hno : ~ exists str t', found E c i t fb str t') by (intros (str & t' & Hf); apply find_string_iff in Hf; congruence);
        split; [split; [congruence|intros (_ & Hf & _); contradiction]|]; split; [intros (_ & Hf & _); contradiction|]; intros _; split; [reflexivity|];
        unfold actual_literal; now rewrite Ec, Ef).
  assert (Hf : found E c i t fb str t') by now apply find_string_iff. destruct (unwrap_or ca (ls_caching (rs_loc s))) eqn:Eca.
  - cbn [fst snd fail] in Hs. injection Hs as <- <-. split; [split; [intros _; eauto|intros _; cbn; apply Nat.neq_succ_diag_l]|]. split; [reflexivity|]. intros Hn. destruct Hn. eauto.
  - cbn [fst snd] in Hs. injection Hs as <- <-. split; [split; [congruence|intros (_ & _ & Hno); discriminate]|]. split; [intros (_ & _ & Hno); discriminate|]. intros _. split; [reflexivity|].
    reflexivity.
Qed.
Print Assumptions C100_busy_literal.

(** A delayed command that asks for the string it is shown in panics, if a formatter of the cache shows it. *)
Theorem C100_same : forall PE W (E : lenv PE) (cmds : commands PE W) n c i vals t f ca s fm, cached (rs_loc s) t (combined c i) = Some (CFormatter fm) ->
  In (t, combined c i) (rs_locked s) -> snd (rstep E cmds (S n) (CallFormat c i vals t f ca) s) = Some Panic.
Proof.
  intros PE W E cmds n c i vals t f ca s fm Hc Hl. cbn [rstep rcall snd]. unfold ractual_format. rewrite Hc. now rewrite (locked_fails E cmds _ s t (combined c i) fm vals Hl).
Qed.
Print Assumptions C100_same.

(** Commands can use the localiser as any other code does: no borrow ever fails. This does not hold, see
    [C100_reenter_refuted]. It holds if the delayed commands do not use it, and also if nothing is ever cached: then all other
    commands may ask for whatever they like. *)
Definition reenter_full {PE W} (E : lenv PE) (cmds : commands PE W) : Prop :=
  forall n fallback caching tag w h, rs_failed (rrun E cmds n (start E fallback caching tag w) h) = 0.
Theorem C100_reenter_partial : forall PE W (E : lenv PE) (cmds : commands PE W),
  (delayed_quiet E cmds -> reenter_full E cmds) /\
  ((forall name, command_asks_only forgets cmds name) ->
   forall n fallback tag w h, Forall forgets h -> rs_failed (rrun E cmds n (start E fallback false tag w) h) = 0).
Proof.
  intros PE W E cmds. split.
  - intros Hq n fb ca tag w h. refine (proj2 (proj2 (proj2 (run_all_calm E cmds Hq n 0 h (start E fb ca tag w) _)))). split; [|now split]. intros t key fm Hc. discriminate Hc.
  - intros Hc n fb tag w h Hh. refine (proj2 (proj2 (proj2 (proj2 (run_all_off E cmds Hc n 0 h (start E fb false tag w) Hh _))))). split; [|now split]. intros t key fm H. discriminate H.
Qed.
Print Assumptions C100_reenter_partial.

(** ** Examples *)
Definition mail_strings : list (ustr * ustr) :=
  [(us "name", us "Bob"); (us "now", us "Dear {#title x}"); (us "late", us "Dear {#title# x}"); (us "self", us "{#again x}"); (us "echo", us "{#again# x}")].
Definition mail_env : lenv unit :=
  mk_lenv icu_ex env_ex [] (fun t => t) (mk_provider (fun c i t => Ok (option_map (fun s => (s, t)) (mget i mail_strings))) (fun _ => Ok (us "en"))) (fun _ => None) 8.
Definition then_text (a : option (lout (PE := unit) (ustr * ustr))) : cprog unit unit :=
  match a with
  | Some (Ok (s, _)) => PDone (Ok s)
  | Some Panic => PDone Panic
  | _ => PDone (Err (NotFound []))
  end.
Definition mail_commands : commands unit unit :=
  [(us "title", fun _ => PAsk (CallLiteralDefaults (us "app") (us "name")) then_text);
   (us "again", fun _ => PAsk (CallFormatDefaults (us "app") (us "self") []) then_text)].
Definition mail_start : rst unit := start mail_env true true (us "en") tt.
Definition mail_asks (i : ustr) : lcall := CallFormatDefaults (us "app") i [].
Definition mail_answer (n : nat) (s : rst unit) (c : lcall) := snd (rstep mail_env mail_commands n c s).
Definition is_remembered (s : rst unit) (i : ustr) : bool := match cached (rs_loc s) (us "en") (combined (us "app") i) with Some _ => true | None => false end.

(** A delayed command asks for a string that is not remembered. *)
Theorem C100_reenter_refuted : ~ (forall (E : lenv unit) (cmds : commands unit unit), reenter_full E cmds).
Proof.
  intros H. specialize (H mail_env mail_commands 2 true true (us "en") tt [mail_asks (us "late")]).
  assert (G : rs_failed (rrun mail_env mail_commands 2 (start mail_env true true (us "en") tt) [mail_asks (us "late")]) = 1) by (vm_compute; reflexivity).
  rewrite G in H. discriminate H.
Qed.
Print Assumptions C100_reenter_refuted.

(** The command panics if nothing is remembered and works if the string is. In a command without delay marker it works. *)
Example C100_example :
  mail_answer 2 mail_start (mail_asks (us "late")) = Some Panic /\
  mail_answer 2 (rrun mail_env mail_commands 2 mail_start [mail_asks (us "name")]) (mail_asks (us "late")) = Some (Ok (us "Dear Bob", us "en")) /\
  mail_answer 2 mail_start (mail_asks (us "now")) = Some (Ok (us "Dear Bob", us "en")) /\
  mail_answer 2 mail_start (CallFormat (us "app") (us "late") [] (us "en") None (Some false)) = Some (Ok (us "Dear Bob", us "en")).
Proof. vm_compute. repeat split. Qed.

(** If something is remembered in every language that is asked for, nothing that is remembered is forgotten in a call, whatever the
    commands ask for in it. *)
Theorem C100_kept : forall PE W (E : lenv PE) (cmds : commands PE W) (T : ustr -> Prop), (forall name, command_asks_only (within T) cmds name) ->
  forall n c s, within T c -> T (ls_tag (rs_loc s)) -> (forall t, T t -> mhas t (ls_cache (rs_loc s)) = true) ->
  kept (rs_loc s) (rs_loc (fst (rstep E cmds n c s))).
Proof.
  intros PE W E cmds T Hc n c s Hw Ht Hh. refine (proj1 (step_remembering E cmds T Hc (rs_loc s) n c s Hw _)). split; [apply kept_refl|]. now split.
Qed.
Print Assumptions C100_kept.

(** With caching, a string that a command asked for in a call is remembered after the call. [witness] is a command that says
    whether it got the string. This does not hold if nothing was remembered in the language before: adding the formatter
    throws away what was added meanwhile (localiser.rs 953, 1074-1084). It holds if there was something. *)
Definition meanwhile_full (E : lenv unit) (name c0 i0 tag : ustr) (ready : lstate -> Prop) : Prop :=
  (forall fb s t', found E c0 i0 tag fb s t' -> t' = tag) ->
  forall n c s s' y, within (eq tag) c -> idle s -> ls_tag (rs_loc s) = tag -> ls_caching (rs_loc s) = true -> ready (rs_loc s) -> rs_world s = false ->
  rstep E [(name, witness c0 i0)] n c s = (s', Some (Ok y)) -> rs_world s' = true -> cached (rs_loc s') tag (combined c0 i0) <> None.
Theorem C100_meanwhile_partial : forall E name c0 i0 tag, meanwhile_full E name c0 i0 tag (fun st => mhas tag (ls_cache st) = true).
Proof.
  intros E name c0 i0 tag Hf n c s s' y Hc _ Ht Hca Hh Hw Hs Hw'. exact (meanwhile E name c0 i0 tag Hf n c s s' y Hc Ht Hca Hh Hw Hs Hw').
Qed.
Print Assumptions C100_meanwhile_partial.
Theorem C100_meanwhile_refuted : ~ (forall E name c0 i0 tag, meanwhile_full E name c0 i0 tag (fun _ => True)).
Proof.
  intros H. specialize (H mail_env (us "title") (us "app") (us "name") (us "en")).
  assert (Hf : forall fb s t', found mail_env (us "app") (us "name") (us "en") fb s t' -> t' = us "en").
  { intros fb s t' [Hf|d Hf _ _ _]; [|discriminate Hf]. injection Hf. now intros <-. }
  specialize (H Hf 2 (mail_asks (us "now")) (start mail_env true true (us "en") false)).
  destruct (rstep mail_env [(us "title", witness (us "app") (us "name"))] 2 (mail_asks (us "now")) (start mail_env true true (us "en") false)) as (s' & a) eqn:Es.
  assert (G : a = Some (Ok (us "Dear Bob", us "en")) /\ rs_world s' = true /\ cached (rs_loc s') (us "en") (combined (us "app") (us "name")) = None).
  { replace s' with (fst (s', a)) by reflexivity. replace a with (snd (s', a)) at 1 by reflexivity. rewrite <- Es. vm_compute. repeat split. }
  destruct G as (-> & G1 & G2). exact (H s' _ Logic.I (conj eq_refl eq_refl) eq_refl eq_refl Logic.I eq_refl eq_refl G1 G2).
Qed.
Print Assumptions C100_meanwhile_refuted.
(** Asked for by itself, or in the second call, the string is remembered. *)
Example C100_meanwhile_example :
  is_remembered (rrun mail_env mail_commands 2 mail_start [mail_asks (us "name")]) (us "name") = true /\
  is_remembered (rrun mail_env mail_commands 2 mail_start [mail_asks (us "now")]) (us "name") = false /\
  is_remembered (rrun mail_env mail_commands 2 mail_start [mail_asks (us "echo"); mail_asks (us "now")]) (us "name") = true.
Proof. vm_compute. repeat split. Qed.

(** A command without delay marker that asks for the string it stands in never comes to an end: no depth is enough. *)
Theorem C100_loop : forall n, mail_answer n mail_start (mail_asks (us "self")) = Some NoFuel.
Proof.
  unfold mail_answer. assert (H : forall n, rstep mail_env mail_commands n (mail_asks (us "self")) mail_start = (mail_start, Some NoFuel)).
  { induction n as [|n IH]; [reflexivity|]. cbn [rstep]. revert IH. generalize (rstep mail_env mail_commands n). intros ask IH.
    vm_compute in IH. vm_compute. now rewrite IH. }
  intros n. now rewrite H.
Qed.
Print Assumptions C100_loop.

(** A delayed command in a formatter of the cache: the string itself, another one that is not remembered, one that is. *)
Definition mail_busy : rst unit := hold (rrun mail_env mail_commands 2 mail_start [mail_asks (us "late"); mail_asks (us "name")]) (us "en", combined (us "app") (us "late")).
Example C100_busy_example :
  rs_readers mail_busy = 1 /\ is_remembered mail_busy (us "late") = true /\ is_remembered mail_busy (us "now") = false /\
  mail_answer 3 mail_busy (CallFormat (us "app") (us "late") [] (us "en") None None) = Some Panic /\
  mail_answer 3 mail_busy (mail_asks (us "now")) = Some Panic /\
  mail_answer 3 mail_busy (CallFormat (us "app") (us "now") [] (us "en") None (Some false)) = Some (Ok (us "Dear Bob", us "en")) /\
  mail_answer 3 mail_busy (CallLiteral (us "app") (us "name") (us "en") None None) = Some (Ok (us "Bob", us "en")) /\
  mail_answer 3 mail_busy (CallLiteral (us "app") (us "name") (us "fr") None None) = Some Panic /\
  rs_failed (fst (rstep mail_env mail_commands 3 (CallLiteral (us "app") (us "name") (us "fr") None None) mail_busy)) = S (rs_failed mail_busy) /\
  rs_locked (fst (rstep mail_env mail_commands 3 (mail_asks (us "now")) mail_busy)) = [(us "en", combined (us "app") (us "late"))].
Proof. vm_compute. repeat split. Qed.

(** A localiser without the delayed command, with the same commands. *)
Definition quiet_env : lenv unit :=
  mk_lenv icu_ex env_ex [] (fun t => t) (mk_provider (fun c i t => Ok (option_map (fun s => (s, t)) (mget i [(us "name", us "Bob"); (us "now", us "Dear {#title x}")]))) (fun _ => Ok (us "en")))
    (fun _ => None) 8.
Lemma quiet_env_ok : delayed_quiet quiet_env mail_commands.
Proof.
  intros c i t fb s t' a name Hf Ha (n & body & r & Hn & Hb).
  assert (Hs : s = us "Bob" \/ s = us "Dear {#title x}").
  { assert (G : forall i' t1, pv_string (le_provider quiet_env) c i' t1 = Ok (Some (s, t')) -> s = us "Bob" \/ s = us "Dear {#title x}").
    { intros i' t1 H. cbn [pv_string le_provider quiet_env] in H. cbn [mget] in H. destruct (ueqb i' (us "name")); [left; cbn in H; now injection H|].
      destruct (ueqb i' (us "now")); [right; cbn in H; now injection H|discriminate H]. }
    destruct Hf as [H|d _ _ _ H]; exact (G _ _ H). }
  assert (Hr : forall s1, s1 <> [] -> s = s1 -> ref_content s1 = Some a).
  { intros s1 Hne ->. apply (ref_content_iff icu_ex); [intros x _; split; reflexivity|exact Hne|exact Ha]. }
  destruct Hs as [Hs|Hs].
  - specialize (Hr (us "Bob") ltac:(discriminate) Hs). vm_compute in Hr. injection Hr as <-. vm_compute in Hn. destruct Hn as [[= <- <-]|[]]. destruct Hb as [Hb|[]]. discriminate Hb.
  - specialize (Hr (us "Dear {#title x}") ltac:(discriminate) Hs). vm_compute in Hr. injection Hr as <-. vm_compute in Hn. destruct Hn as [[= <- <-]|[]].
    repeat (destruct Hb as [Hb|Hb]; [discriminate Hb|]). destruct Hb.
Qed.
Example C100_reenter_example : reenter_full quiet_env mail_commands /\
  snd (rstep quiet_env mail_commands 2 (mail_asks (us "now")) (start quiet_env true true (us "en") tt)) = Some (Ok (us "Dear Bob", us "en")).
Proof. split; [exact (proj1 (C100_reenter_partial _ _ quiet_env mail_commands) quiet_env_ok)|vm_compute; reflexivity]. Qed.

(** What commands do to the settings of the localiser lasts, and nothing else changes them: whatever all commands keep about the
    settings and the rest of the world, a call keeps, unless it sets the defaults itself. *)
Definition of_settings {W} (K : bool -> bool -> ustr -> option ustr -> W -> Prop) (s : rst W) : Prop :=
  K (ls_fallback (rs_loc s)) (ls_caching (rs_loc s)) (ls_tag (rs_loc s)) (ls_script (rs_loc s)) (rs_world s).
Theorem C100_settings : forall PE W (E : lenv PE) (cmds : commands PE W) K n c s,
  (forall m name f ps s', m < n -> mget name cmds = Some f -> of_settings K s' -> of_settings K (fst (interp (rstep E cmds m) (f ps) s'))) ->
  (forall t f ca, c <> CallDefaults t f ca) -> of_settings K s -> of_settings K (fst (rstep E cmds n c s)).
Proof.
  intros PE W E cmds K [|n] c s Hc Hd Hs; [exact Hs|]. cbn [rstep].
  refine (call_settings E cmds (fun st w => K (ls_fallback st) (ls_caching st) (ls_tag st) (ls_script st) w) _ (rstep E cmds n) _ c s Hd Hs).
  - intros st st' w (-> & -> & -> & ->). easy.
  - intros name f ps s' Hf Hs'. unfold reg in Hf. rewrite get_running in Hf. destruct (mget name cmds) as [p|] eqn:Ep; [|discriminate Hf]. injection Hf as <-.
    exact (Hc n name p ps s' (Nat.lt_succ_diag_r n) Ep Hs').
Qed.
Print Assumptions C100_settings.

(** While one formatter of the cache formats, another one of the cache, whose commands do not use the localiser, is as good as
    ever: the same answer, the same localiser and the same world as if nothing was borrowed, and no borrow fails. *)
Theorem C100_other : forall PE W (E : lenv PE) (cmds : commands PE W) n c i vals t f ca s fm, cached (rs_loc s) t (combined c i) = Some (CFormatter fm) ->
  ~ In (t, combined c i) (rs_locked s) -> (forall name, uses fm name -> quiet cmds name) ->
  let x := rstep E cmds (S n) (CallFormat c i vals t f ca) s in
  let y := rstep E cmds (S n) (CallFormat c i vals t f ca) (mk_rst (rs_loc s) 0 [] (rs_failed s) (rs_world s)) in
  rs_failed (fst x) = rs_failed s /\ snd x = snd y /\ rs_loc (fst x) = rs_loc (fst y) /\ rs_world (fst x) = rs_world (fst y).
Proof.
  intros PE W E cmds n c i vals t f ca s fm Hc Hl Hu. cbn [rstep rcall fst snd rs_loc]. unfold ractual_format. cbn [rs_loc]. rewrite Hc.
  destruct (cached_other E cmds (rstep E cmds n) s t (combined c i) fm vals Hl Hu) as (H1 & H2 & H3 & H4). unfold rest_of in H2, H3, H4. rewrite H2. now repeat split.
Qed.
Print Assumptions C100_other.

(** A delayed command that sets the language to French, and notes that it did. *)
Definition french : commands unit bool :=
  [(us "title", fun _ => PAsk (CallDefaults (Some (us "fr")) None None) (fun _ => PWrite true (PDone (Ok (us "M."))))); (us "again", fun _ => PDone (Ok (us "x")))].
Definition in_french (_ _ : bool) (tag : ustr) (_ : option ustr) (w : bool) : Prop := w = true -> tag = us "fr".
Theorem C100_french : forall n c s, (forall t f ca, c <> CallDefaults t f ca) -> rs_world s = false ->
  rs_world (fst (rstep mail_env french n c s)) = true -> ls_tag (rs_loc (fst (rstep mail_env french n c s))) = us "fr".
Proof.
  intros n c s Hc Hw. refine (C100_settings unit bool mail_env french in_french n c s _ Hc (fun H => ltac:(congruence))).
  intros m name f ps s' _ Hf Hs'. cbn [french mget] in Hf. destruct (ueqb name (us "title")).
  - injection Hf as <-. cbn [interp]. destruct m; cbn [rstep rcall interp fst]; [exact Hs'|]. intros _. reflexivity.
  - destruct (ueqb name (us "again")); [injection Hf as <-; exact Hs'|discriminate Hf].
Qed.
Print Assumptions C100_french.
Example C100_french_example :
  let s := start mail_env true true (us "en") false in let x := rstep mail_env french 2 (mail_asks (us "late")) s in
  snd x = Some (Ok (us "Dear M.", us "en")) /\ rs_world (fst x) = true /\ ls_tag (rs_loc (fst x)) = us "fr" /\ rs_failed (fst x) = 0.
Proof. vm_compute. repeat split. Qed.
Example C100_other_example :
  let s := hold (rrun mail_env french 2 (start mail_env true true (us "en") false) [CallFormat (us "app") (us "echo") [] (us "en") None None]) (us "en", combined (us "app") (us "late")) in
  let x := rstep mail_env french 2 (CallFormat (us "app") (us "echo") [] (us "en") None None) s in
  (match cached (rs_loc s) (us "en") (combined (us "app") (us "echo")) with Some (CFormatter _) => true | _ => false end) = true /\
  rs_readers s = 1 /\ snd x = Some (Ok (us "x", us "en")) /\ rs_failed (fst x) = 0.
Proof. vm_compute. repeat split. Qed.
