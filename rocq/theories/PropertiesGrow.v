(** C102: commands registered at any time (crates/localiser/src/command.rs, localiser.rs, formatter.rs). *)
From Verif Require Import Base BaseFacts LexerModel LexerSpec IcuExample TreeModel TreeSpec DocSpec DocCheck ValueModel CommandModel IsoModel FormatterModel FormatterSpec FmtExample
  ErrorModel ErrorSpec ErrorProofs RegistryModel LocaliserModel LocaliserSpec LocaliserProofs PropertiesLocaliser GrowModel GrowSpec GrowProofs GrowProofs2 GrowProofs3.

(** Registering never takes a command away or changes it. *)
Theorem C102_registered : forall PE (E : lenv PE) x h, extends (snd x) (snd (fst (grun E x h))).
Proof. intros PE E x h. apply run_extends. Qed.
Print Assumptions C102_registered.

(** A command is registered exactly if there is none of its name, which is what the reply says. *)
Theorem C102_reply : forall PE (E : lenv PE) x name f, exists r a, gstep E x (Insert name f) = ((fst x, r), Inserted a) /\
  (mget name (snd x) = None -> a = Ok tt /\ mget name r = Some f) /\
  (mget name (snd x) <> None -> a = Err (AlreadyExists name) /\ r = snd x) /\
  forall other, other <> name -> mget other r = mget other (snd x).
Proof.
  intros PE E x name f. cbn [gstep]. unfold creg_insert, mhas. destruct (mget name (snd x)) as [g|] eqn:Eg; do 2 eexists; (split; [reflexivity|]).
  - split; [discriminate|]. split; [auto|auto].
  - split; [intros _; split; [reflexivity|apply mget_minsert_eq]|]. split; [congruence|]. intros other Hn. now apply mget_minsert_ne.
Qed.
Print Assumptions C102_reply.

(** More commands change nothing but that missing ones are found: with them a string is built and formatted in the same way, or it
    failed because a command was missing. *)
Theorem C102_formatter : forall r r', extends r r' ->
  (forall d g fe tag locale s, formatter_try_new d g fe r tag locale s = formatter_try_new d g fe r' tag locale s \/
     exists name, mget name r = None /\ formatter_try_new d g fe r tag locale s = Err (FCommand (NotFound name))) /\
  (forall fe fm vals fuel, format fuel fe r fm vals = format fuel fe r' fm vals \/
     exists name, mget name r = None /\ snd (format fuel fe r fm vals) = Err (FCommand (NotFound name))).
Proof.
  intros r r' H. split.
  - intros d g fe tag locale s. destruct (less_build r r' H d g fe tag locale s) as [G|(e & (name & Hn & ->) & G)]; [now left|]. right. exists name. now split.
  - intros fe fm vals fuel. destruct (less_format r r' H fe fm vals fuel) as [G|(e & (name & Hn & ->) & G)]; [now left|]. right. exists name. now split.
Qed.
Print Assumptions C102_formatter.

(** The same of a call of a localiser, whatever is in its cache. *)
Theorem C102_more : forall PE (E : lenv PE) r r' st c, extends r r' ->
  lstep (with_reg E r) st c = lstep (with_reg E r') st c \/
  exists name, mget name r = None /\ snd (lstep (with_reg E r) st c) = Some (Err (LFormatter (FCommand (NotFound name)))).
Proof.
  intros PE E r r' st c H. destruct (less_step r r' H E st c) as [G|(e & (name & Hn & ->) & G)]; [now left|]. right. exists name. now split.
Qed.
Print Assumptions C102_more.

(** When a command is registered does not matter: if no call fails for want of one, all answers, and the localiser with its cache,
    are those of a localiser that has all commands from the beginning. *)
Theorem C102_when : forall PE (E : lenv PE) st r h, well_supplied E (st, r) h ->
  let y := grun E (st, r) h in let E' := with_reg E (snd (fst y)) in
  fst (fst y) = lrun E' st (calls h) /\ answers (snd y) = call_answers E' st (calls h).
Proof. intros PE E st r h H. exact (all_along E _ h (st, r) H (extends_refl _)). Qed.
Print Assumptions C102_when.

(** If calls fail for want of a command, they leave no trace: afterwards a call has the answer of a localiser that has just been made
    with the commands of now, and has no cache. This does not hold (C28 already says when it does not; see [C102_trace_refuted]
    for a call that fails). It holds in the circumstances of C28: a call has this answer, or it panics; and it does not panic if
    all strings are found in the language asked for. *)
Definition trace_full {PE} (E : lenv PE) (good : list request -> Prop) : Prop := forall fallback caching tag r h c,
  let x := (localiser_new E fallback caching tag, r) in let rs := script_requests E x (h ++ [Use c]) in good rs ->
  let y := fst (grun E x h) in
  snd (lstep (with_reg E (snd y)) (fst y) c) = uncached_result (with_reg E (snd y)) (fst y) c \/
  (snd (lstep (with_reg E (snd y)) (fst y) c) = Some Panic /\ ~ same_language E rs).
Theorem C102_trace_partial : forall PE (E : lenv PE), icu_ok (le_icu E) -> answers_again E -> provider_hash_ok E -> trace_full E (harmless E).
Proof. intros PE E Hi Ha Hh fb ca tag r h c x rs Hr. exact (grown_transparent E fb ca tag r h c Hi Ha Hh Hr). Qed.
Print Assumptions C102_trace_partial.

(** ** Examples *)
Definition shop_strings : list (ustr * ustr) :=
  [(us "now", us "Dear {#title x}"); (us "late", us "Dear {#title# x}"); (us "plain", us "Bye")].
Definition shop_env : lenv unit :=
  mk_lenv icu_ex env_ex [] (fun t => t) (mk_provider (fun c i t => Ok (option_map (fun s => (s, t)) (mget i shop_strings))) (fun _ => Ok (us "en"))) (fun _ => None) 8.
Definition shop_start : lstate * cregistry := (localiser_new shop_env true true (us "en"), []).
Definition ask_for (i : ustr) : event := Use (CallFormatDefaults (us "app") i []).
Definition title : event := Insert (us "title") (fun _ => Ok (us "Ann")).
Definition lacks_title : option (lout (PE := unit) (ustr * ustr)) := Some (Err (LFormatter (FCommand (NotFound (us "title"))))).

(** Strings with a command that is registered only later; the second one is already in the cache by then. *)
Example C102_example :
  answers (snd (grun shop_env shop_start [ask_for (us "now"); ask_for (us "late"); title; ask_for (us "now"); ask_for (us "late"); title; ask_for (us "plain")])) =
    [lacks_title; lacks_title; Some (Ok (us "Dear Ann", us "en")); Some (Ok (us "Dear Ann", us "en")); Some (Ok (us "Bye", us "en"))] /\
  cached (fst (fst (grun shop_env shop_start [ask_for (us "late")]))) (us "en") (combined (us "app") (us "late")) <> None /\
  cached (fst (fst (grun shop_env shop_start [ask_for (us "now")]))) (us "en") (combined (us "app") (us "now")) = None.
Proof. vm_compute. repeat split. discriminate. Qed.
Example C102_when_example :
  let h := [ask_for (us "plain"); title; ask_for (us "late"); Insert (us "other") (fun _ => Panic); ask_for (us "now"); ask_for (us "late")] in
  well_supplied shop_env shop_start h /\
  answers (snd (grun shop_env shop_start h)) = [Some (Ok (us "Bye", us "en")); Some (Ok (us "Dear Ann", us "en")); Some (Ok (us "Dear Ann", us "en")); Some (Ok (us "Dear Ann", us "en"))] /\
  mkeys (snd (fst (grun shop_env shop_start h))) = [us "title"; us "other"].
Proof.
  split; [|vm_compute; repeat split]. vm_compute. split; [|split; [exact Logic.I|split; [|split; [exact Logic.I|split; [|split; [|exact Logic.I]]]]]]; intros (e & _ & H); discriminate H.
Qed.
(** The call that fails leaves a formatter in the cache, which is in the way of a call for the literal string. *)
Theorem C102_trace_refuted : ~ (forall E : lenv unit, icu_ok (le_icu E) -> answers_again E -> provider_hash_ok E -> trace_full E (same_language E)).
Proof.
  intros H.
  assert (Hs : forall c i t s t', pv_string (le_provider shop_env) c i t = Ok (Some (s, t')) -> t' = t /\ In s (map snd shop_strings)).
  { intros c i t s t' G. cbn [pv_string le_provider shop_env] in G. unfold shop_strings in *. cbn [mget] in G. cbn [map snd].
    destruct (ueqb i (us "now")); [injection G as <- <-; split; [reflexivity|now left]|].
    destruct (ueqb i (us "late")); [injection G as <- <-; split; [reflexivity|right; now left]|].
    destruct (ueqb i (us "plain")); [injection G as <- <-; split; [reflexivity|right; right; now left]|discriminate G]. }
  assert (H1 : answers_again shop_env) by (intros c i t s t' G; pose proof (Hs c i t s t' G) as (-> & _); exact G).
  assert (H2 : provider_hash_ok shop_env).
  { intros c i t s t' a G Ha. apply Hs in G as (_ & G).
    assert (Hr : ref_content s = Some a).
    { apply (ref_content_iff icu_ex); [intros x _; split; reflexivity| |exact Ha]. intros ->. vm_compute in G. repeat (destruct G as [G|G]; [discriminate G|]). exact G. }
    clear Ha. destruct G as [<-|[<-|[<-|[]]]]; vm_compute in Hr; injection Hr as <-; intros name body x ph sels sel branch Hb Hx He _ target _;
      cbn in Hb; repeat (destruct Hb as [Hb|Hb]; [injection Hb as <- <-|]); try contradiction;
      cbn in Hx; repeat (destruct Hx as [Hx|Hx]; [exfalso; rewrite <- Hx in He; discriminate He|]); contradiction. }
  pose (c := CallLiteralDefaults (us "app") (us "late")).
  assert (H3 : same_language shop_env (script_requests shop_env shop_start ([ask_for (us "late"); title] ++ [Use c]))).
  { intros q s t' _ [G|d G _ Hd Hf]; [exact (proj1 (Hs _ _ _ _ _ G))|]. cbn [pv_string le_provider shop_env] in G, Hf. destruct (mget (rq_identifier q) shop_strings); [discriminate G|discriminate Hf]. }
  pose proof (H shop_env icu_ex_ok H1 H2 true true (us "en") [] [ask_for (us "late"); title] c H3) as [G|(G & _)]; vm_compute in G; discriminate G.
Qed.
Print Assumptions C102_trace_refuted.
