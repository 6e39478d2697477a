(** C90: what is remembered is not fetched again. C91: memory grows only with distinct requests. *)
From Verif Require Import Base LexerModel DocSpec DocCheck IcuExample ValueModel CommandModel FormatterModel RegistryModel RegistrySpec LocaliserModel LocaliserSpec
  ProviderModel ProviderSpec PropertiesLocaliser PropertiesRegistry PropertiesProvider MemorySpec MemoryProofs MemoryProofs2 MemoryProofs3.

(** The localiser of the examples with a provider that has nothing. *)
Definition gone_ex : lenv unit := mk_lenv icu_ex (le_fmt loc_ex) (le_reg loc_ex) (fun t => t) (mk_provider (fun c i t => Ok None) (fun _ => Ok (us "de")))
  (le_script loc_ex) (le_fuel loc_ex).
Lemma gone_elsewhere : elsewhere loc_ex gone_ex.
Proof. repeat split. Qed.

(** ** C90 *)
(** The property is that a call that was successful with caching on needs neither the provider nor the parser when it is
    made again, whatever happened in between. It is false. A plain string found in the default language is stored under that
    language, while it is sought under the language asked for; and when it is the first string stored for the language asked
    for, it replaces all that was stored for the default language. *)
Theorem C90_memory_refuted :
  (let x := CallLiteral (us "app") (us "note") (us "fr") (Some true) (Some true) in
   snd (lstep loc_ex start_ex x) = Some (Ok (us "Note", us "en")) /\ ~ from_memory loc_ex (lrun loc_ex start_ex [x]) x) /\
  (let x := CallLiteralDefaults (us "app") (us "bye") in
   snd (lstep loc_ex start_ex x) = Some (Ok (us "Bye", us "en")) /\ from_memory loc_ex (lrun loc_ex start_ex [x]) x /\
   ~ from_memory loc_ex (lrun loc_ex start_ex [x; CallLiteral (us "app") (us "note") (us "fr") (Some true) (Some true)]) x).
Proof.
  split; [|split; [|split]].
  - split; [vm_compute; reflexivity|]. intros H. specialize (H _ gone_elsewhere). apply (f_equal snd) in H. vm_compute in H. discriminate H.
  - vm_compute; reflexivity.
  - apply covered_memory. intros q Hq. vm_compute in Hq. destruct Hq as [<-|[]]. vm_compute. discriminate.
  - intros H. specialize (H _ gone_elsewhere). apply (f_equal snd) in H. vm_compute in H. discriminate H.
Qed.
Print Assumptions C90_memory_refuted.

(** What holds: if every string is found in the language asked for, or is one to be formatted, then after a successful call
    with caching on, and any calls after it, a call for the same strings, with any values, needs neither. *)
Theorem C90_memory_partial : forall PE (E : lenv PE) st x r h y, icu_ok (le_icu E) -> caches st x = true -> snd (lstep E st x) = Some (Ok r) ->
  settled E (history_requests E st (x :: h)) ->
  let st' := lrun E st (x :: h) in asks_again (call_requests st' y) (call_requests st x) -> from_memory E st' y.
Proof. intros PE. exact memory. Qed.
Print Assumptions C90_memory_partial.

Definition provider_string (E : lenv unit) (q : request) : option (ustr * ustr) :=
  match pv_string (le_provider E) (rq_component q) (rq_identifier q) (rq_tag q) with Ok x => x | _ => None end.
Example C90_example :
  let x := CallFormat (us "app") (us "greet") bob (us "fr") (Some true) (Some true) in
  let h := [CallLiteralDefaults (us "app") (us "bye"); CallFormat (us "app") (us "bye") [] (us "fr") None (Some false)] in
  let y := CallFormat (us "app") (us "greet") [(us "name", VString (us "Eve"))] (us "fr") (Some true) (Some false) in
  caches start_ex x = true /\ snd (lstep loc_ex start_ex x) = Some (Ok (us "Hello Bob!", us "en")) /\
  settled loc_ex (history_requests loc_ex start_ex (x :: h)) /\
  asks_again (call_requests (lrun loc_ex start_ex (x :: h)) y) (call_requests start_ex x) /\
  snd (lstep gone_ex (lrun loc_ex start_ex (x :: h)) y) = Some (Ok (us "Hello Eve!", us "en")).
Proof.
  split; [reflexivity|]. split; [vm_compute; reflexivity|]. split; [|split; [|vm_compute; reflexivity]].
  - assert (Hq : history_requests loc_ex start_ex
      (CallFormat (us "app") (us "greet") bob (us "fr") (Some true) (Some true) ::
       [CallLiteralDefaults (us "app") (us "bye"); CallFormat (us "app") (us "bye") [] (us "fr") None (Some false)]) =
      [mk_request (us "app") (us "greet") (us "fr") true false; mk_request (us "app") (us "bye") (us "en") true true;
       mk_request (us "app") (us "bye") (us "fr") true false]) by (vm_compute; reflexivity).
    rewrite Hq. intros q s t' Hin Hf.
    assert (Hf' : provider_string loc_ex q = Some (s, t') \/ (provider_string loc_ex q = None /\ lookup_ex (rq_component q) (rq_identifier q) (us "en") = Some (s, t'))).
    { unfold provider_string. destruct Hf as [Hf|d Hn _ Hd Hf]; cbn [le_provider loc_ex pv_string pv_default] in *.
      - left. now injection Hf.
      - right. injection Hd as <-. injection Hn as Hn. injection Hf as Hf. now split. }
    clear Hf. destruct Hin as [<-|[<-|[<-|[]]]]; vm_compute in Hf'; destruct Hf' as [Hf|(Hn & Hf)]; try discriminate Hf; try discriminate Hn; injection Hf as <- <-.
    + right. split; [reflexivity|]. intros Hs. apply (Hs (ch "{")); vm_compute; tauto.
    + left. reflexivity.
    + left. reflexivity.
  - intros q Hq. vm_compute in Hq. destruct Hq as [<-|[]]. eexists. split; [left; reflexivity|]. vm_compute. repeat split.
Qed.

(** Exactly when a call for one string needs neither: when something is stored for the language asked for. *)
Theorem C90_exact : forall PE (E : lenv PE) st x q, asks_one st x = Some q ->
  (from_memory E st x <-> cached st (rq_tag q) (combined (rq_component q) (rq_identifier q)) <> None).
Proof. intros PE. exact memory_iff. Qed.
Print Assumptions C90_exact.
(** Exactly what a successful call with caching on stores for the language asked for. *)
Theorem C90_stores : forall PE (E : lenv PE) st c i t fb, icu_ok (le_icu E) ->
  (forall vals r, snd (actual_format E st c i vals t fb true) = Ok r ->
     (cached (fst (actual_format E st c i vals t fb true)) t (combined c i) <> None <->
      cached st t (combined c i) <> None \/ exists s t', found E c i t fb s t' /\ (t' = t \/ ~ no_syntax s))) /\
  (forall r, snd (actual_literal E st c i t fb true) = Ok r ->
     (cached (fst (actual_literal E st c i t fb true)) t (combined c i) <> None <->
      cached st t (combined c i) <> None \/ exists s, found E c i t fb s t)).
Proof.
  intros PE E st c i t fb HI. split.
  - intros vals r H. exact (format_stored E st c i t fb true HI vals r eq_refl H).
  - intros r H. exact (literal_stored E st c i t fb true r eq_refl H).
Qed.
Print Assumptions C90_stores.
(** Exactly what a call loses: with caching on, when nothing is stored yet for the language asked for, all that is stored for the
    language in which a plain string is found, but what is stored under its own key. *)
Theorem C90_loses : forall PE (E : lenv PE) st c i t fb ca t0 key0, icu_ok (le_icu E) -> cached st t0 key0 <> None ->
  (forall vals, cached (fst (actual_format E st c i vals t fb ca)) t0 key0 = None <->
     ca = true /\ mget t (ls_cache st) = None /\ key0 <> combined c i /\ exists s, found E c i t fb s t0 /\ no_syntax s) /\
  (cached (fst (actual_literal E st c i t fb ca)) t0 key0 = None <->
     ca = true /\ mget t (ls_cache st) = None /\ key0 <> combined c i /\ exists s, found E c i t fb s t0).
Proof.
  intros PE E st c i t fb ca t0 key0 HI Hc. split.
  - intros vals. exact (format_lost E st c i t fb ca HI vals t0 key0 Hc).
  - exact (literal_lost E st c i t fb ca t0 key0 Hc).
Qed.
Print Assumptions C90_loses.
Example C90_loses_example :
  let st := lrun loc_ex start_ex [CallLiteralDefaults (us "app") (us "bye")] in
  let lost st' := cached st' (us "en") (us "app/bye") in
  let st1 := fst (actual_literal loc_ex st (us "app") (us "note") (us "fr") true true) in
  let st2 := fst (actual_format loc_ex st (us "app") (us "greet") bob (us "fr") true true) in
  lost st <> None /\ lost st1 = None /\ cached st1 (us "fr") (us "app/note") = None /\ found loc_ex (us "app") (us "note") (us "fr") true (us "Note") (us "en") /\
  lost st2 = lost st /\ cached st2 (us "fr") (us "app/greet") <> None /\
  lost (fst (actual_literal loc_ex st2 (us "app") (us "note") (us "fr") true true)) = lost st.
Proof.
  cbv zeta. split; [vm_compute; discriminate|]. split; [vm_compute; reflexivity|]. split; [vm_compute; reflexivity|].
  split; [|split; [vm_compute; reflexivity|split; [vm_compute; discriminate|vm_compute; reflexivity]]].
  apply fd_default with (us "en"); vm_compute; reflexivity.
Qed.

(** A registry asked for a language tag has it from then on, also under its canonical form, and needs no parsing of it. *)
Theorem C90_tags : forall L, locid_ok L -> forall h rs r s y, reachable L h rs r -> In s h -> canon L s = Some y ->
  exists x, r_tag x = y /\ forall L', tag L' r s = (r, Ok x) /\ tag L' r y = (r, Ok x).
Proof. exact tag_memory. Qed.
Print Assumptions C90_tags.
(** The same of locales. *)
Theorem C90_locales : forall L r t r1 x r2, icu_language L r t = (r1, Ok x) -> later L r1 r2 -> forall L', icu_language L' r2 t = (r2, Ok x).
Proof. exact icu_memory. Qed.
Print Assumptions C90_locales.
Definition no_locid : locid := mk_locid (fun _ => None) (fun _ => None).
Example C90_registry_example : let r := after_tags locid_ex [us "EN-US"; us "de"; us "bad"] in
  snd (tag no_locid r (us "EN-US")) = Ok (mk_tref 0 (us "en-US")) /\ snd (tag no_locid r (us "en-US")) = Ok (mk_tref 0 (us "en-US")) /\
  snd (tag no_locid r (us "en_us")) = Err IcuLocid /\
  let x := mk_tref 0 (us "en-US") in let r1 := fst (icu_language locid_ex r x) in
  exists l, snd (icu_language no_locid (fst (tag locid_ex r1 (us "DE"))) x) = Ok l /\ snd (icu_language no_locid r x) = Panic.
Proof. vm_compute. repeat split. eexists. split; reflexivity. Qed.

(** A provider that gave details once gives those of components and of the repository without looking at a file again. *)
Theorem C90_details : forall E p h c a h' c', asks_details c -> snd (pcall_run E p c (prun E p pstate_new h)) = Ok a -> asks_overview c' ->
  let st := prun E p pstate_new (h ++ c :: h') in forall E' p', pcall_run E' p' c' st = pcall_run E p c' st.
Proof. exact details_memory. Qed.
Print Assumptions C90_details.
Example C90_details_example : let st := prun env_stored (prov dir_ex) pstate_new [CallExact (us "app") (us "greet") (us "fr"); CallIdentifier (us "app") (us "greet")] in
  exists rd, snd (pcall_run env_stored (prov []) CallRepository st) = Ok (AnRepository rd) /\ rd_total rd = 8%N.
Proof. vm_compute. eexists. split; reflexivity. Qed.

(** ** C91 *)
(** The strings in the cache of a localiser are no more than the distinct requests made. *)
Theorem C91_cache : forall PE (E : lenv PE) fallback caching tag h rs l,
  (forall q, In q (history_requests E (localiser_new E fallback caching tag) h) -> In q rs) ->
  in_use (lrun E (localiser_new E fallback caching tag) h) l -> List.length l <= List.length rs.
Proof. intros PE. exact size_bound. Qed.
Print Assumptions C91_cache.
Example C91_cache_example : let x := CallFormat (us "app") (us "greet") bob (us "en") (Some true) (Some true) in
  let y := CallLiteral (us "app") (us "bye") (us "fr") (Some true) (Some true) in let h := [x; y; x; x; y] in
  let rs := [mk_request (us "app") (us "greet") (us "en") true false; mk_request (us "app") (us "bye") (us "fr") true true] in
  incl (history_requests loc_ex start_ex h) rs /\ in_use (lrun loc_ex start_ex h) [(us "en", us "app/greet"); (us "fr", us "app/bye")].
Proof.
  cbn zeta. split; [|split].
  - intros q Hq. vm_compute in Hq. vm_compute. tauto.
  - repeat constructor; cbn; intuition discriminate.
  - intros q [<-|[<-|[]]]; vm_compute; discriminate.
Qed.

(** A registry has no more tags, other spellings and locales than distinct strings it was asked for. *)
Theorem C91_registry : forall L, locid_ok L -> forall h rs r D, reachable L h rs r -> incl h D ->
  List.length (list_tags r) <= List.length D /\ List.length (list_deprecated r) <= List.length D /\ List.length (lr_icu r) <= List.length D.
Proof.
  intros L HL h rs r D Hr Hi. destruct (tags_size L HL h rs r D Hr Hi) as (H1 & H2). split; [exact H1|]. split; [exact H2|].
  exact (icu_size L h rs r D HL Hr Hi).
Qed.
Print Assumptions C91_registry.
Example C91_registry_example : let r := after_tags locid_ex [us "EN-US"; us "de"; us "en_us"; us "EN-US"; us "en_us"; us "en_us"; us "bad"] in
  incl (rev [us "EN-US"; us "de"; us "en_us"; us "EN-US"; us "en_us"; us "en_us"; us "bad"]) [us "EN-US"; us "de"; us "en_us"; us "bad"] /\
  List.length (list_tags r) = 2 /\ List.length (list_deprecated r) = 2.
Proof. split; [|vm_compute; split; reflexivity]. intros s Hs. vm_compute in Hs. vm_compute. tauto. Qed.

(** A provider keeps at most eighteen queries, whatever it is asked for. *)
Theorem C91_queries : forall E p h, List.length (ps_queries (prun E p pstate_new h)) <= 18.
Proof. exact queries_size. Qed.
Print Assumptions C91_queries.
Example C91_queries_example :
  let h := [CallString (us "app") (us "greet") (us "en"); CallStrings (us "lib") (us "err") (us "en"); CallRepository; CallExact (us "app") (us "greet") (us "fr")] in
  List.length (ps_queries (prun env_stored (prov dir_ex) pstate_new h)) = List.length (ps_queries (prun env_stored (prov dir_ex) pstate_new (h ++ h))) /\
  (7 <= List.length (ps_queries (prun env_stored (prov dir_ex) pstate_new h))).
Proof. vm_compute. split; [reflexivity|]. repeat constructor. Qed.
