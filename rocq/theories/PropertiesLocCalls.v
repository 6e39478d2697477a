(** C96: when and how often a localiser calls commands (crates/localiser/src/localiser.rs). *)
From Verif Require Import Base BaseFacts LexerModel LexerSpec IcuExample TreeModel TreeSpec DocSpec DocCheck ValueModel CommandModel IsoModel FormatterModel FormatterSpec FormatterProofs4
  FmtExample ErrorProofs RegistryModel LocaliserModel LocaliserSpec LocaliserProofs PropertiesLocaliser MemorySpec CallsModel CallsSpec CallsProofs2 PropertiesCalls
  LocCallsModel LocCallsSpec LocCallsProofs LocCallsProofs2.

(** A string asked for to be formatted that is not remembered: the commands without delay marker are called, then the delayed
    ones that are shown, each once and in their order. If the call fails, the first of them were called. *)
Theorem C96_new : forall PE W (E : lenv PE) (reg : wregistry W), icu_ok (le_icu E) -> forall st c i vals tag fb ca w w' st' r s t a, in_service E reg st ->
  wactual_format E reg st c i vals tag fb ca w = (w', (st', r)) -> cached st tag (combined c i) = None -> found E c i tag fb s t -> ~ no_syntax s -> content E s a ->
  exists cs, both_first E t a vals cs /\ attempted reg cs w w' /\ (forall x, r = Ok x -> both_shown E t a vals cs /\ made reg cs w w').
Proof.
  intros PE W E reg Hd st c i vals tag fb ca w w' st' r s t a Hs Hf Hc Hfd Hn Ha.
  exact (proj2 (format_new E reg Hd st c i vals tag fb ca w w' st' r (service_good E reg Hd st Hs) Hf s t a Hc Hfd Hn Ha)).
Qed.
Print Assumptions C96_new.

(** A string for which a formatter is remembered: only delayed commands are called. *)
Theorem C96_again : forall PE W (E : lenv PE) (reg : wregistry W), icu_ok (le_icu E) -> forall st c i vals tag fb ca w w' st' r fm, in_service E reg st ->
  wactual_format E reg st c i vals tag fb ca w = (w', (st', r)) -> cached st tag (combined c i) = Some (CFormatter fm) ->
  exists s t a cs, source E tag (combined c i) s t /\ content E s a /\ delayed_first E t a vals cs /\ attempted reg cs w w' /\
    (forall x, r = Ok x -> delayed_shown E t a vals cs /\ made reg cs w w').
Proof.
  intros PE W E reg Hd st c i vals tag fb ca w w' st' r fm Hs Hf Hc.
  exact (proj2 (format_again E reg st c i vals tag fb ca w w' st' r (service_good E reg Hd st Hs) Hf fm Hc)).
Qed.
Print Assumptions C96_again.

(** No command is called for a string remembered as it is, for one that is not found, for one without grammar characters and
    for one that is not a pattern string. *)
Theorem C96_none : forall PE W (E : lenv PE) (reg : wregistry W), icu_ok (le_icu E) -> forall st c i vals tag fb ca w,
  ((exists s t, cached st tag (combined c i) = Some (CLocalised s t)) \/
   (cached st tag (combined c i) = None /\ forall s t, found E c i tag fb s t -> no_syntax s \/ forall a, ~ content E s a)) ->
  fst (wactual_format E reg st c i vals tag fb ca w) = w.
Proof.
  intros PE W E reg Hd st c i vals tag fb ca w H. destruct (wactual_format E reg st c i vals tag fb ca w) as (w' & st' & r) eqn:Hf. cbn [fst].
  destruct H as [(s & t & Hc)|(Hc & Hn)]; [exact (proj2 (proj2 (format_plain E reg st c i vals tag fb ca w w' st' r Hf s t Hc)))|].
  destruct (find_string E c i tag fb) as [(s & t)|e| |] eqn:Ef.
  2-4: (refine (proj1 (proj2 (format_missing E reg st c i vals tag fb ca w w' st' r Hf Hc _))); intros s t Hs; apply find_string_iff in Hs; congruence).
  apply find_string_iff in Ef. destruct (plain_or E reg Hd tag w s) as [Hp|Hp]; [exact (proj2 (format_text E reg Hd st c i vals tag fb ca w w' st' r Hf s t Hc Ef Hp))|].
  destruct (Hn s t Ef) as [Hp'|Ha]; [contradiction|].
  refine (proj1 (proj2 (format_broken E reg st c i vals tag fb ca w w' st' r Hf s t Hc Ef Hp _))). intros tr Ht. destruct (accepted_content _ _ _ _ Ht) as (a & Hca & _). exact (Ha a Hca).
Qed.
Print Assumptions C96_none.

(** Any call of a localiser, also for localisation data with other data in it: the commands called are those of the strings
    asked for, one string after the other. If the call fails, they are those up to some point. *)
Theorem C96_call : forall PE W (E : lenv PE) (reg : wregistry W), icu_ok (le_icu E) -> forall st x w w' st' r, in_service E reg st ->
  wlstep E reg st x w = (w', (st', r)) ->
  match r with
  | None => w' = w
  | Some (Ok _) => exists cs, requests_calls E true (call_requests st x) cs /\ made reg cs w w'
  | Some _ => exists cs, some_requests_calls E true (call_requests st x) cs /\ attempted reg cs w w'
  end.
Proof.
  intros PE W E reg Hd st x w w' st' r Hs Hx. destruct (step_told E reg Hd true st x w w' st' r (service_good E reg Hd st Hs) ltac:(discriminate) Hx) as (_ & Ht).
  destruct r as [r|]; [|exact Ht]. destruct Ht as (H1 & H2). destruct r as [y|e| |]; [exact (H1 y eq_refl)|apply H2; discriminate..].
Qed.
Print Assumptions C96_call.

(** The commands without delay marker of a string for which a formatter is remembered do not matter any more. *)
Theorem C96_constant : forall PE W (E : lenv PE) (reg reg' : wregistry W), icu_ok (le_icu E) -> forall st c i vals tag fb ca w fm, in_service E reg st ->
  cached st tag (combined c i) = Some (CFormatter fm) ->
  (forall s t a name, source E tag (combined c i) s t -> content E s a -> delays a name -> mget name reg' = mget name reg) ->
  wactual_format E reg' st c i vals tag fb ca w = wactual_format E reg st c i vals tag fb ca w.
Proof.
  intros PE W E reg reg' Hd st c i vals tag fb ca w fm Hs Hc Hr. destruct (service_good E reg Hd st Hs _ _ _ Hc) as (s & t & a & w0 & w1 & fm0 & H1 & H2 & H3 & H4).
  unfold wactual_format. rewrite Hc. unfold wrun_formatter.
  rewrite (constant_text _ _ _ reg reg' _ _ _ _ _ _ _ _ vals (le_fuel E) w H2 H3 H4); [reflexivity|]. intros name. exact (Hr s t a name H1 H2).
Qed.
Print Assumptions C96_constant.

(** With commands that have no effects this is the localiser of [LocaliserModel]. *)
Theorem C96_stateless : forall PE W (E : lenv PE) st c (w : W), wlstep E (without_effects (le_reg E)) st c w = (w, lstep E st c).
Proof. intros PE W E st c w. apply step_without. Qed.
Print Assumptions C96_stateless.

(** A provider with a string that counts: [{#note m}] is called when the formatter is made, [{#note# v}] each time. *)
Definition strings_notes : list (ustr * ustr * ustr * ustr) :=
  [(us "app", us "count", us "en", us "{#note m}.{#note# v}"); (us "app", us "list", us "en", us "{x}+{y}"); (us "app", us "plain", us "en", us "Note");
   (us "app", us "broken", us "en", us "{#note m}{")].
Definition lookup_notes (c i t : ustr) : option (ustr * ustr) :=
  match find (fun x => let '(c', i', t', _) := x in ueqb c c' && ueqb i i' && ueqb t t') strings_notes with
  | Some (_, _, t', s) => Some (s, t')
  | None => None
  end.
Definition loc_notes : lenv unit := mk_lenv icu_ex env_ex [] (fun t => t) (mk_provider (fun c i t => Ok (lookup_notes c i t)) (fun _ => Ok (us "en"))) (fun _ => None) 8.
Definition start_notes : lstate := localiser_new loc_notes true true (us "en").
(** Calls one after the other in one world: all results and the final world. *)
Fixpoint run_notes (st : lstate) (h : list lcall) (w : list (list pvalue)) : list (option (lout (PE := unit) (ustr * ustr))) * list (list pvalue) :=
  match h with
  | [] => ([], w)
  | c :: h => let '(w', (st', r)) := wlstep loc_notes notes_ex st c w in let '(rs, w2) := run_notes st' h w' in (r :: rs, w2)
  end.
Definition count_en (v : string) : lcall := CallFormatDefaults (us "app") (us "count") [(us "v", VString (us v))].
Definition text_en (s : string) : option (lout (PE := unit) (ustr * ustr)) := Some (Ok (us s, us "en")).
Definition count_ex : sast := ([SCmd [SId (us "note"); SId (us "m")]; SText (us "."); SCmd [SId (us "note"); SDelay; SId (us "v")]], None).

Lemma count_content : content loc_notes (us "{#note m}.{#note# v}") count_ex.
Proof. apply (ref_content_iff icu_ex); [intros c _; split; reflexivity|discriminate|vm_compute; reflexivity]. Qed.
(** Two calls of the string: three calls of the command, of which the first is not repeated. Localisation data shows two
    strings with one formatter. A broken string calls nothing; an uncached one calls it every time. *)
Example C96_example :
  run_notes start_notes [count_en "a"; count_en "b"] [] = ([text_en "0.1"; text_en "0.2"], [call_ex [VString (us "m")]; call_ex [VString (us "a")]; call_ex [VString (us "b")]]) /\
  (let inner v := VData (LData (us "app") (us "count") (Some [(us "v", VString (us v))])) in
   let d := LData (us "app") (us "list") (Some [(us "x", inner "a"%string); (us "y", inner "b"%string)]) in
   run_notes start_notes [CallDataDefaults d] [] = ([text_en "0.1+0.2"], [call_ex [VString (us "m")]; call_ex [VString (us "a")]; call_ex [VString (us "b")]])) /\
  (exists e, run_notes start_notes [CallFormatDefaults (us "app") (us "broken") []; CallLiteralDefaults (us "app") (us "count"); count_en "a"] [] =
    ([Some (Err e); text_en "{#note m}.{#note# v}"; text_en "{#note m}.{#note# v}"], [])) /\
  run_notes (localiser_new loc_notes true false (us "en")) [count_en "a"; count_en "b"] [] =
    ([text_en "0.1"; text_en "2.3"], [call_ex [VString (us "m")]; call_ex [VString (us "a")]; call_ex [VString (us "m")]; call_ex [VString (us "b")]]) /\
  both_shown loc_notes (us "en") count_ex [(us "v", VString (us "a"))] [(us "note", [VString (us "m")]); (us "note", [VString (us "a")])].
Proof.
  split; [vm_compute; reflexivity|]. split; [vm_compute; reflexivity|]. split; [eexists; vm_compute; reflexivity|]. split; [vm_compute; reflexivity|].
  change [(us "note", [VString (us "m")]); (us "note", [VString (us "a")])] with (build_calls count_ex ++ [(us "note", map (parameter [(us "v", VString (us "a"))]) [us "v"])]).
  apply bs_both. apply sh_simple; [intros (n & r & H); discriminate H|]. apply sh_simple; [exact Logic.I|]. apply (sh_delayed _ _ _ _ _ [us "v"] _ _ (sh_nil _ _ _ _)).
Qed.

(** The property is that with caching on, the commands without delay marker of a string are called once, and keep their text.
    It is false: a string stored for another language may remove the formatter (see C90). *)
Theorem C96_once_refuted :
  let h := [count_en "a"; CallLiteral (us "app") (us "plain") (us "fr") None None; count_en "a"] in
  fst (run_notes start_notes h []) = [text_en "0.1"; text_en "Note"; text_en "2.3"] /\
  snd (run_notes start_notes h []) = [call_ex [VString (us "m")]; call_ex [VString (us "a")]; call_ex [VString (us "m")]; call_ex [VString (us "a")]].
Proof. vm_compute. split; reflexivity. Qed.
Print Assumptions C96_once_refuted.

(** What holds: if every string is found in the language asked for, or is one to be formatted, then after a successful call
    with caching on, and any calls after it, a call for the same strings, with any values, calls delayed commands only. *)
Theorem C96_once_partial : forall PE W (E : lenv PE) (reg : wregistry W), icu_ok (le_icu E) -> forall st x w0 h y w w' st2 r t, in_service E reg st -> caches st x = true ->
  snd (snd (wlstep E reg st x w0)) = Some (Ok t) -> settled E (whistory_requests E reg st ((x, w0) :: h)) ->
  let st' := wlrun E reg st ((x, w0) :: h) in asks_again (call_requests st' y) (call_requests st x) -> wlstep E reg st' y w = (w', (st2, r)) ->
  match r with
  | None => w' = w
  | Some (Ok _) => exists cs, requests_calls E false (call_requests st' y) cs /\ made reg cs w w'
  | Some _ => exists cs, some_requests_calls E false (call_requests st' y) cs /\ attempted reg cs w w'
  end.
Proof.
  intros PE W E reg Hd st x w0 h y w w' st2 r t Hs Hc Hr Hset st' Ha Hy.
  pose proof (once E reg Hd st x w0 h y w w' st2 r (service_good E reg Hd st Hs) Hc (ex_intro _ t Hr) Hset Ha Hy) as Ht. unfold told_call in Ht.
  destruct r as [r|]; [|exact Ht]. destruct Ht as (H1 & H2). destruct r as [z|e| |]; [exact (H1 z eq_refl)|apply H2; discriminate..].
Qed.
Print Assumptions C96_once_partial.
Example C96_once_example :
  let h := [(count_en "a", []); (CallLiteralDefaults (us "app") (us "plain"), [])] in let st' := wlrun loc_notes notes_ex start_notes h in
  in_service loc_notes notes_ex start_notes /\ caches start_notes (count_en "a") = true /\ snd (snd (wlstep loc_notes notes_ex start_notes (count_en "a") [])) = text_en "0.1" /\
  settled loc_notes (whistory_requests loc_notes notes_ex start_notes h) /\ asks_again (call_requests st' (count_en "b")) (call_requests start_notes (count_en "a")) /\
  fst (wlstep loc_notes notes_ex st' (count_en "b") []) = [call_ex [VString (us "b")]] /\
  requests_calls loc_notes false (call_requests st' (count_en "b")) [(us "note", [VString (us "b")])].
Proof.
  cbn zeta. split; [exists true, true, (us "en"), []; reflexivity|]. split; [reflexivity|]. split; [vm_compute; reflexivity|]. split; [|split; [|split; [vm_compute; reflexivity|]]].
  - assert (Hq : whistory_requests loc_notes notes_ex start_notes [(count_en "a", []); (CallLiteralDefaults (us "app") (us "plain"), [])] =
      [mk_request (us "app") (us "count") (us "en") true false; mk_request (us "app") (us "plain") (us "en") true true]) by (vm_compute; reflexivity).
    rewrite Hq. intros q s t' Hin Hf. left.
    assert (Hf' : lookup_notes (rq_component q) (rq_identifier q) (us "en") = Some (s, t')).
    { destruct Hf as [Hf|d _ _ Hdf Hf]; cbn [le_provider loc_notes pv_string pv_default] in *.
      - destruct Hin as [<-|[<-|[]]]; exact (f_equal (fun x => match x with Ok y => y | _ => None end) Hf).
      - injection Hdf as <-. exact (f_equal (fun x => match x with Ok y => y | _ => None end) Hf). }
    destruct Hin as [<-|[<-|[]]]; vm_compute in Hf'; injection Hf' as <- <-; reflexivity.
  - intros q Hq. vm_compute in Hq. destruct Hq as [<-|[]]. eexists. split; [left; reflexivity|]. vm_compute. repeat split.
  - change (call_requests _ _) with [mk_request (us "app") (us "count") (us "en") true false]. change [(us "note", [VString (us "b")])] with ([(us "note", [VString (us "b")])] ++ []).
    apply rs_cons; [|apply rs_nil]. apply (rc_again _ _ _ (us "{#note m}.{#note# v}") (us "en") count_ex [(us "v", VString (us "b"))]); [reflexivity| |exact count_content|].
    + exists (us "app"), (us "count"), true. split; [reflexivity|]. apply fd_asked. vm_compute. reflexivity.
    + change [(us "note", [VString (us "b")])] with [(us "note", map (parameter [(us "v", VString (us "b"))]) [us "v"])].
      apply sh_simple; [intros (n & r & H); discriminate H|]. apply sh_simple; [exact Logic.I|]. apply (sh_delayed _ _ _ _ _ [us "v"] _ _ (sh_nil _ _ _ _)).
Qed.
