(** C98: when a localiser asks its provider, and what it makes of answers that change (crates/localiser/src/localiser.rs). *)
From Verif Require Import Base BaseFacts LexerModel LexerSpec IcuExample TreeModel TreeSpec DocSpec ValueModel CommandModel IsoModel FormatterModel FmtExample
  RegistryModel ProviderModel ProviderSpec LocaliserModel LocaliserSpec LocaliserProofs SystemModel PropertiesProvider PropertiesLocaliser PropertiesSystem MemorySpec
  CallsModel CallsSpec LocCallsModel QueryModel QuerySpec PropertiesQuery AskModel AskSpec AskProofs AskProofs2.

(** A string that is not remembered is asked for: in the language wanted, then, if there is none and fallback is on, in the default
    language. With the string the call goes on as if the provider had no other; without it nothing more happens. *)
Theorem C98_asks : forall PE W (E : lenv PE) (reg : wregistry W) P st x q w, asks_one st x = Some q -> ~ remembered st q -> exists w1 r,
  asks P (rq_component q) (rq_identifier q) (rq_tag q) (rq_fallback q) w w1 r /\
  xlstep E reg P st x w = match r with
                          | Ok y => wlstep (given E y) reg st x w1
                          | Err e => (w1, (st, Some (Err e)))
                          | Panic => (w1, (st, Some Panic))
                          | NoFuel => (w1, (st, Some NoFuel))
                          end.
Proof. intros. now apply one_asks. Qed.
Print Assumptions C98_asks.

(** For a string that is remembered it does not matter what the provider is, and a literal string does nothing at all. *)
Theorem C98_remembered : forall PE W (E : lenv PE) (reg : wregistry W) P P' st x q w, asks_one st x = Some q -> remembered st q ->
  xlstep E reg P' st x w = xlstep E reg P st x w /\
  (rq_literal q = true -> fst (xlstep E reg P st x w) = w /\ fst (snd (xlstep E reg P st x w)) = st).
Proof. intros PE W E reg P P' st x q w Hx Hr. split; [now apply one_remembered with q|]. intros Hl. now apply one_quiet with q. Qed.
Print Assumptions C98_remembered.

(** Localisation data: its strings are asked for one after the other, the inner ones first, until one of them fails. *)
Theorem C98_data : forall PE W (E : lenv PE) (reg : wregistry W) P st d t f ca w w' st' r, xlstep E reg P st (CallData d t f ca) w = (w', (st', Some r)) ->
  in_turn E reg P (unwrap_or ca (ls_caching st)) (data_requests t (unwrap_or f (ls_fallback st)) d) (w, st) (w', st') r.
Proof.
  intros PE W E reg P st d t f ca w w' st' r. cbn [xlstep]. destruct (xactual_format_data _ _ _ _ _ _ _ _ _) as (w1 & st1 & r1) eqn:E1. intros [= <- <- <-]. exact (data_turn E reg P _ _ _ _ _ _ _ _ _ E1).
Qed.
Print Assumptions C98_data.

(** Full claim: a call gives what the provider would say now. False with caching: what was changed is not seen. *)
Definition holding : wprovider unit ustr := mk_wprovider (fun _ _ t w => (w, Ok (Some (w, t)))) (fun _ w => (w, Ok (us "en"))).
Theorem C98_now_refuted : exists h x q, let s := xlrun loc_ex [] holding (us "old", start_ex) h in asks_one (snd s) x = Some q /\
  (exists w1 y, asks holding (rq_component q) (rq_identifier q) (rq_tag q) (rq_fallback q) (us "new") w1 (Ok y) /\ fst y = us "new") /\
  snd (snd (xlstep loc_ex [] holding (snd s) x (us "new"))) = Some (Ok (us "old", us "en")).
Proof.
  exists [(fun w => w, CallLiteral (us "app") (us "bye") (us "en") None None)], (CallLiteral (us "app") (us "bye") (us "en") None (Some false)),
    (mk_request (us "app") (us "bye") (us "en") true true).
  split; [vm_compute; reflexivity|]. split; [|vm_compute; reflexivity]. exists (us "new"), (us "new", us "en"). split; [|reflexivity]. apply as_string. reflexivity.
Qed.
Print Assumptions C98_now_refuted.
(** True of a localiser that was made with caching off, and for which it was never switched on: nothing is ever remembered, so that
    every call asks (C98_asks). *)
Theorem C98_now_partial : forall PE W (E : lenv PE) (reg : wregistry W) P fallback tag w h, (forall f x, In (f, x) h -> no_caching x) ->
  let st := snd (xlrun E reg P (w, localiser_new E fallback false tag) h) in forall q, ~ remembered st q.
Proof.
  intros PE W E reg P fallback tag w h Hh st q Hq. apply Hq. apply forgetful_cached. apply run_forgetful; [|exact Hh]. split; reflexivity.
Qed.
Print Assumptions C98_now_partial.

(** What a call gives was said by the provider at some time, for this component and identifier, if they are told apart by the key of
    the cache (C29): as it is, or as the text for the values of this call of a formatter made from it. *)
Theorem C98_origin : forall PE W (E : lenv PE) (reg : wregistry W) P G fallback caching tag w h f x q w' st' y t, records reg P G ->
  (forall g z w0, In (g, z) (h ++ [(f, x)]) -> never_forgets G w0 (g w0)) ->
  let s := xlrun E reg P (w, localiser_new E fallback caching tag) h in
  asks_one (snd s) x = Some q -> xlstep E reg P (snd s) x (f (fst s)) = (w', (st', Some (Ok (y, t)))) ->
  exists c i l z, combined c i = combined (rq_component q) (rq_identifier q) /\ G w' (c, i, l, (z, t)) /\
    (if rq_literal q then y = z else text_from E reg z t (call_values x) y).
Proof.
  intros PE W E reg P G fallback caching tag w h f x q w' st' y t HG Hh s Hx Hs.
  assert (Hst : honest E reg G (fst s) (snd s)).
  { apply (run_said_all E reg P G HG); [intros t' key e H; discriminate H|]. intros g z w0 Hi. apply (Hh g z). apply in_or_app. now left. }
  assert (Hst' : honest E reg G (f (fst s)) (snd s)).
  { refine (honest_later E reg G (fst s) _ _ _ Hst). apply (Hh f x). apply in_or_app. right. now left. }
  destruct (one_said E reg P G HG (snd s) x q (f (fst s)) w' st' _ Hst' Hx Hs) as (H1 & H2). destruct (rq_literal q) eqn:El.
  - destruct (H2 eq_refl y t eq_refl) as (c & i & l & K1 & K2). exists c, i, l, y. auto.
  - exact (H1 y t eq_refl).
Qed.
Print Assumptions C98_origin.

(** A provider without effects: [LocCallsModel], and so [LocaliserModel] if commands have none either (C96). *)
Theorem C98_static : forall PE W (E : lenv PE) (reg : wregistry W) st x w, xlstep E reg (effectless (le_provider E)) st x w = wlstep E reg st x w.
Proof. intros. apply step_steady. Qed.
Print Assumptions C98_static.

(** A provider with effects of its own, say a memory, but the answers of one without: calls are as in [LocaliserModel]. *)
Theorem C98_answers : forall PE W (E : lenv PE) (P : wprovider PE W) I, answers_as P I (le_provider E) -> forall w fallback caching tag h x, I w ->
  (forall f y w0, In (f, y) h -> I w0 -> I (f w0)) ->
  let s := xlrun E (without_effects (le_reg E)) P (w, localiser_new E fallback caching tag) h in
  let st := lrun E (localiser_new E fallback caching tag) (map snd h) in
  snd s = st /\ snd (xlstep E (without_effects (le_reg E)) P (snd s) x (fst s)) = lstep E st x.
Proof.
  intros PE W E P I HP w fallback caching tag h x Hw Hh s st. destruct (run_fixed E P I HP h w (localiser_new E fallback caching tag) Hw Hh) as (w1 & Hs & H1).
  fold s in Hs. rewrite Hs. cbn [fst snd]. split; [reflexivity|]. destruct (step_fixed E P I HP st x w1 H1) as (w2 & Hx & _). fold st. now rewrite Hx.
Qed.
Print Assumptions C98_answers.
(** So with the sqlite3 provider, which remembers queries and details, on files that do not change. *)
Theorem C98_system : forall E D p ic fe reg locale script fuel fallback caching tag h x, provider_ok p -> reads_files E p D ->
  let L := system E p ic fe reg locale script fuel in let P := query_provider E D p in
  let s := xlrun L (without_effects reg) P (qstate_new, localiser_new L fallback caching tag) (map (fun y => (fun s => s, y)) h) in
  let st := lrun L (localiser_new L fallback caching tag) h in
  snd s = st /\ snd (xlstep L (without_effects reg) P (snd s) x (fst s)) = lstep L st x.
Proof.
  intros E D p ic fe reg locale script fuel fallback caching tag h x Hp HD L P s st.
  destruct (C98_answers _ _ L P (reached E p) (sqlite_fixed E D p Hp HD) qstate_new fallback caching tag (map (fun y => (fun s => s, y)) h) x (reached_new E p)) as (H1 & H2).
  { intros f y w0 Hi. apply in_map_iff in Hi as (z & [= <- _] & _). auto. }
  rewrite map_map, map_id in H1, H2. split; [exact H1|exact H2].
Qed.
Print Assumptions C98_system.
(** The calls of this provider for a string that is not remembered, hence the queries (C97); and none for one that is. *)
Theorem C98_queries : forall E D p (L : lenv perror) st x q s, asks_one st x = Some q ->
  let s' := fst (xlstep L (without_effects (le_reg L)) (query_provider E D p) st x s) in
  (remembered st q -> s' = s) /\
  (~ remembered st q -> pe_canon E (rq_tag q) = Some (rq_tag q) ->
     exists cs, provider_calls E D p (rq_component q) (rq_identifier q) (rq_tag q) (rq_fallback q) s cs /\ s' = q_prun E D p s cs).
Proof. intros E D p L st x q s Hx s'. split; [intros Hr; now apply one_silent with q|]. intros Hr Ht. now apply one_calls. Qed.
Print Assumptions C98_queries.

(** ** Examples *)
(** A provider that writes down what it is asked for. *)
Definition noting : wprovider unit (list (ustr * ustr * ustr)) :=
  mk_wprovider (fun c i t w => (w ++ [(c, i, t)], Ok (lookup_ex c i t))) (fun c w => (w ++ [(c, us "default", [])], Ok (us "en"))).
Definition after_noting (h : list lcall) := xlrun loc_ex (without_effects reg_ex) noting ([], start_ex) (map (fun c => (fun w => w, c)) h).
(** A string that there is not in German takes two questions, and one for the default language; then in English none. *)
Example C98_asks_example :
  after_noting [CallLiteral (us "app") (us "bye") (us "de") None None] =
    ([(us "app", us "bye", us "de"); (us "app", us "default", []); (us "app", us "bye", us "en")], lrun loc_ex start_ex [CallLiteral (us "app") (us "bye") (us "de") None None]) /\
  fst (after_noting [CallLiteral (us "app") (us "bye") (us "de") None None; CallLiteral (us "app") (us "bye") (us "en") None None;
    CallFormat (us "app") (us "greet") bob (us "en") None None; CallFormat (us "app") (us "greet") [] (us "en") None None]) =
    [(us "app", us "bye", us "de"); (us "app", us "default", []); (us "app", us "bye", us "en"); (us "app", us "greet", us "en")].
Proof. vm_compute. split; reflexivity. Qed.
(** Without fallback the default language is not asked for. *)
Example C98_fallback_example : fst (after_noting [CallLiteral (us "app") (us "bye") (us "de") (Some false) None]) = [(us "app", us "bye", us "de")] /\
  exists w r, asks noting (us "app") (us "bye") (us "de") false [] w r /\ r = Err (LStringNotFound (us "app") (us "bye") (us "de") false).
Proof. split; [vm_compute; reflexivity|]. exists [(us "app", us "bye", us "de")]. eexists. split; [|reflexivity]. apply as_none; reflexivity. Qed.
(** Data with data in it: the inner string is asked for first. *)
Example C98_data_example : fst (after_noting [CallData (LData (us "app") (us "greet") (Some [(us "name", VData (LData (us "app") (us "bye") None))])) (us "en") None None]) =
  [(us "app", us "bye", us "en"); (us "app", us "greet", us "en")].
Proof. vm_compute. reflexivity. Qed.
(** Nothing is written down twice about a string that is remembered, and the records of the notes are kept. *)
Example C98_origin_example : records (without_effects reg_ex) noting (fun w x => In (fst x) w /\ lookup_ex (fst (fst (fst x))) (snd (fst (fst x))) (snd (fst x)) = Some (snd x)).
Proof.
  split; [|split].
  - intros c i l w. split; [intros x (H1 & H2); split; [apply in_or_app; now left|exact H2]|]. cbn. intros r [= Hr]. split; [apply in_or_app; right; now left|exact Hr].
  - intros c w x (H1 & H2). split; [apply in_or_app; now left|exact H2].
  - intros name f ps w Hf x Hx. unfold without_effects in Hf. apply mget_In in Hf. apply in_map_iff in Hf as (y & [= _ <-] & _). exact Hx.
Qed.
(** With caching off a change is seen at once. *)
Example C98_now_example : let st := localiser_new loc_ex true false (us "en") in
  let h := [(fun w : ustr => w, CallLiteral (us "app") (us "bye") (us "en") None None)] in
  let s := xlrun loc_ex [] holding (us "old", st) h in
  (forall f x, In (f, x) h -> no_caching x) /\ snd (snd (xlstep loc_ex [] holding (snd s) (CallLiteral (us "app") (us "bye") (us "en") None None) (us "new"))) = Some (Ok (us "new", us "en")).
Proof. split; [|vm_compute; reflexivity]. intros f x [[= _ <-]|[]]. discriminate. Qed.
(** The sqlite3 provider: one query for a string that is found at once, three more calls of the provider for one that is not, none for
    strings that are remembered. *)
Definition sys_queries (h : list lcall) : nat := List.length (fst (fst (xlrun sys_ex (without_effects (le_reg sys_ex)) (query_provider env_sys (reader env_sys prov_sys) prov_sys)
  (qstate_new, sys_start) (map (fun y => (fun s => s, y)) h)))).
Example C98_system_example : let greet t := CallFormat (us "app") (us "greet") [(us "name", VString (us "Bob"))] t None None in
  map sys_queries [[greet (us "en")]; [greet (us "en"); greet (us "en")]; [greet (us "fr")]; [greet (us "fr"); greet (us "fr")]] = [1; 1; 8; 8] /\
  snd (lstep sys_ex sys_start (greet (us "fr"))) = Some (Ok (us "Hello Bob!", us "en")).
Proof. vm_compute. split; reflexivity. Qed.
