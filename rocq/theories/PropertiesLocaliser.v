(** Properties C28 to C33 of the localiser, and C08 and C09 for its methods. *)
From Verif Require Import Base LexerModel LexerSpec IcuExample TreeModel TreeSpec DocSpec ValueModel CommandModel FormatterModel FormatterSpec FmtExample
  RegistryModel LocaliserModel LocaliserSpec LocaliserProofs.

(** A provider for examples: a list of strings, with default language "en" for every component. Languages are matched
    exactly. *)
Definition strings_ex : list (ustr * ustr * ustr * ustr) :=
  [(us "app", us "greet", us "en", us "Hello {name}!"); (us "app", us "bye", us "en", us "Bye"); (us "app", us "bye", us "fr", us "Au revoir");
   (us "app", us "note", us "en", us "Note"); (us "app", us "empty", us "en", []); (us "app", us "esc", us "en", us "`{name`}");
   (us "a/b", us "c", us "en", us "one"); (us "a", us "b/c", us "en", us "two")].
Definition lookup_ex (c i t : ustr) : option (ustr * ustr) :=
  match find (fun x => let '(c', i', t', _) := x in ueqb c c' && ueqb i i' && ueqb t t') strings_ex with
  | Some (_, _, t', s) => Some (s, t')
  | None => None
  end.
Definition loc_ex : lenv unit := mk_lenv icu_ex env_ex reg_ex (fun t => t) (mk_provider (fun c i t => Ok (lookup_ex c i t)) (fun _ => Ok (us "en")))
  (fun t => if ueqb t (us "ar") then Some (us "Arab") else None) 8.
Definition start_ex : lstate := localiser_new loc_ex true true (us "en").
Definition bob : amap pvalue := [(us "name", VString (us "Bob"))].
Definition outcome_after (h : list lcall) (c : lcall) := snd (lstep loc_ex (lrun loc_ex start_ex h) c).
Definition outcome_uncached (h : list lcall) (c : lcall) := uncached_result loc_ex (lrun loc_ex start_ex h) c.

Lemma loc_ex_strings c i t s t' : lookup_ex c i t = Some (s, t') -> In s (map snd strings_ex) /\ t' = t.
Proof.
  unfold lookup_ex. destruct (find _ strings_ex) as [[[[c1 i1] t1] s1]|] eqn:Ef; [|discriminate]. intros [= <- <-].
  destruct (find_some _ _ Ef) as (H1 & H2). split; [exact (in_map snd _ _ H1)|]. cbn in H2.
  apply Bool.andb_true_iff in H2 as (_ & H2). symmetry. now apply BaseFacts.ueqb_eq.
Qed.
Lemma loc_ex_again : answers_again loc_ex.
Proof. intros c i t s t' H. cbn in *. injection H as H. pose proof (proj2 (loc_ex_strings _ _ _ _ _ H)) as ->. now rewrite H. Qed.
Lemma loc_ex_hash : provider_hash_ok loc_ex.
Proof.
  intros c i t s t' a H Ha. cbn in H. injection H as H. apply (no_hash_in_plurals _ _ _ _) with (2 := Ha). apply loc_ex_strings in H as (H & _).
  intros Hh. vm_compute in H, Hh. repeat (destruct H as [<-|H]; [vm_compute in Hh; intuition discriminate|]). exact H.
Qed.

(** ** C28: caching is transparent. False: the entries of [literal] and [format] are mixed up, also for calls with caching
    off; entries found by fallback are used when fallback is off; and the cache may panic (C32). *)
Theorem C28_transparent_refuted :
  (* literal, then format: the pattern is returned *)
  (let h := [CallLiteralDefaults (us "app") (us "greet")] in let c := CallFormat (us "app") (us "greet") bob (us "en") None (Some false) in
   outcome_after h c = Some (Ok (us "Hello {name}!", us "en")) /\ outcome_uncached h c = Some (Ok (us "Hello Bob!", us "en"))) /\
  (* format, then literal: an error *)
  (let h := [CallFormatDefaults (us "app") (us "greet") bob] in let c := CallLiteralDefaults (us "app") (us "greet") in
   outcome_after h c = Some (Err (LCacheEntry (us "app") (us "greet"))) /\ outcome_uncached h c = Some (Ok (us "Hello {name}!", us "en"))) /\
  (* found by fallback, then asked for without fallback *)
  (let h := [CallFormat (us "app") (us "greet") bob (us "fr") (Some true) None] in let c := CallFormat (us "app") (us "greet") bob (us "fr") (Some false) None in
   outcome_after h c = Some (Ok (us "Hello Bob!", us "en")) /\
   outcome_uncached h c = Some (Err (LStringNotFound (us "app") (us "greet") (us "fr") false))) /\
  (* two strings with the same key *)
  (let h := [CallLiteralDefaults (us "a/b") (us "c")] in let c := CallLiteralDefaults (us "a") (us "b/c") in
   outcome_after h c = Some (Ok (us "one", us "en")) /\ outcome_uncached h c = Some (Ok (us "two", us "en"))).
Proof. vm_compute. repeat split. Qed.
Print Assumptions C28_transparent_refuted.

(** What holds: for requests without these four circumstances (see [harmless]), strings in which the number signs stand in
    plurals only (C19), and a provider that gives the same answer when asked in the language of its answer, a call after any
    history returns what it returns without a cache, or panics; and it does not panic if all strings are found in the
    language asked for. Without a request for caching nothing is cached. *)
Theorem C28_transparent_partial : forall PE (E : lenv PE) fallback caching tag h c, icu_ok (le_icu E) -> answers_again E -> provider_hash_ok E ->
  harmless E (history_requests E (localiser_new E fallback caching tag) (h ++ [c])) ->
  let st := lrun E (localiser_new E fallback caching tag) h in
  snd (lstep E st c) = uncached_result E st c \/
  (snd (lstep E st c) = Some Panic /\ ~ same_language E (history_requests E (localiser_new E fallback caching tag) (h ++ [c]))).
Proof. intros PE E fb ca tag h c Hd. exact (transparent E Hd fb ca tag h c). Qed.
Print Assumptions C28_transparent_partial.

Theorem C28_no_caching : forall PE (E : lenv PE) fallback tag h c, (forall x, In x (h ++ [c]) -> ~ asks_caching x) ->
  let st := lrun E (localiser_new E fallback false tag) h in snd (lstep E st c) = uncached_result E st c.
Proof. exact @no_caching_transparent. Qed.
Print Assumptions C28_no_caching.

(** The conditions hold of an example with strings used twice. *)
Example C28_example : let h := [CallFormatDefaults (us "app") (us "greet") [(us "name", VString (us "Ann"))]; CallLiteralDefaults (us "app") (us "bye")] in
  let c := CallFormatDefaults (us "app") (us "greet") bob in
  answers_again loc_ex /\ provider_hash_ok loc_ex /\ harmless loc_ex (history_requests loc_ex start_ex (h ++ [c])) /\
  outcome_after h c = Some (Ok (us "Hello Bob!", us "en")) /\
  cached (lrun loc_ex start_ex h) (us "en") (us "app/bye") = Some (CLocalised (us "Bye") (us "en")) /\
  cached (lrun loc_ex start_ex h) (us "en") (us "app/greet") <> None.
Proof.
  intros h c. split; [exact loc_ex_again|]. split; [exact loc_ex_hash|]. split; [|vm_compute; repeat split; discriminate].
  remember (history_requests loc_ex start_ex (h ++ [c])) as rs eqn:Er. vm_compute in Er. subst rs. split; [|split].
  - intros q [<-|[<-|[<-|[]]]] H; vm_compute in H; intuition discriminate.
  - intros q q' s t' Hq Hq' H1 H2 H3 H4 _. exfalso. destruct Hq as [<-|[<-|[<-|[]]]], Hq' as [<-|[<-|[<-|[]]]]; discriminate.
  - intros q q' Hq Hq' _ _ _ H. destruct Hq as [<-|[<-|[<-|[]]]]; vm_compute in H; discriminate.
Qed.

(** ** C29: distinct strings do not share a cache entry. False for names with slashes. *)
Theorem C29_keys_refuted : combined (us "a/b") (us "c") = combined (us "a") (us "b/c").
Proof. reflexivity. Qed.
Print Assumptions C29_keys_refuted.
Theorem C29_keys_partial : forall c i c' i', ~ In (ch "/") c -> ~ In (ch "/") c' -> combined c i = combined c' i' -> c = c' /\ i = i'.
Proof. exact combined_inj. Qed.
Print Assumptions C29_keys_partial.
Example C29_example : combined (us "a") (us "b/c") = us "a/b/c" /\ combined (us "a") (us "bc") <> combined (us "a") (us "cb").
Proof. split; [reflexivity|]. vm_compute. discriminate. Qed.

(** ** C30: fallback order. For a string that is not in the cache; strings in the cache are C28. With caching, the call may
    panic instead (C32). *)
Theorem C30_literal : forall PE (E : lenv PE) st c i t fb ca, cached st t (combined c i) = None ->
  let r := snd (actual_literal E st c i t fb ca) in
  (forall s t', r = Ok (s, t') -> found E c i t fb s t') /\
  (forall s t', found E c i t fb s t' -> r = Ok (s, t') \/ r = Panic /\ cache_gap st t t') /\
  (forall c' i' t' fb', r = Err (LStringNotFound c' i' t' fb') <-> missing E c i t fb /\ c' = c /\ i' = i /\ t' = t /\ fb' = fb).
Proof.
  intros PE E st c i t fb ca Hc r. destruct (literal_fresh E st c i t fb ca Hc) as [H|(H & s & t' & Hf & Hg)]; unfold r; rewrite H.
  - split; [|split].
    + intros s t'. apply find_string_iff.
    + intros s t' Hf. left. now apply find_string_iff.
    + intros c' i' t' fb'. apply literal_missing.
  - split; [discriminate|]. split.
    + intros s1 t1 Hf1. right. split; [reflexivity|]. apply find_string_iff in Hf, Hf1. rewrite Hf in Hf1. injection Hf1 as <- <-. exact Hg.
    + intros c' i' t1 fb'. split; [discriminate|]. intros (Hm & _). apply find_string_missing in Hm. apply find_string_iff in Hf. congruence.
Qed.
Print Assumptions C30_literal.

Theorem C30_format : forall PE (E : lenv PE) st c i vals t fb ca, icu_ok (le_icu E) -> cached st t (combined c i) = None ->
  let r := snd (actual_format E st c i vals t fb ca) in
  (forall w t', r = Ok (w, t') -> exists s, found E c i t fb s t' /\ string_gives E vals s t' w) /\
  (forall s t' w, found E c i t fb s t' -> string_gives E vals s t' w -> r = Ok (w, t') \/ r = Panic /\ cache_gap st t t') /\
  (forall c' i' t' fb', r = Err (LStringNotFound c' i' t' fb') <-> missing E c i t fb /\ c' = c /\ i' = i /\ t' = t /\ fb' = fb).
Proof.
  intros PE E st c i vals t fb ca Hd Hc r. destruct (format_fresh E st c i vals t fb ca Hc) as [H|(H & s & t' & Hf & Hg)]; unfold r; rewrite H.
  - split; [|split].
    + intros w t'. apply pure_format_iff. exact Hd.
    + intros s t' w Hf Hs. left. apply pure_format_iff; eauto.
    + intros c' i' t' fb'. apply pure_format_missing.
  - split; [discriminate|]. split.
    + intros s1 t1 w Hf1 _. right. split; [reflexivity|]. apply find_string_iff in Hf, Hf1. rewrite Hf in Hf1. injection Hf1 as <- <-. exact Hg.
    + intros c' i' t1 fb'. split; [discriminate|]. intros (Hm & _). apply find_string_missing in Hm. apply find_string_iff in Hf. congruence.
Qed.
Print Assumptions C30_format.

Example C30_example :
  outcome_after [] (CallLiteral (us "app") (us "bye") (us "fr") (Some false) None) = Some (Ok (us "Au revoir", us "fr")) /\
  outcome_after [] (CallLiteral (us "app") (us "note") (us "fr") (Some true) None) = Some (Ok (us "Note", us "en")) /\
  outcome_after [] (CallLiteral (us "app") (us "note") (us "fr") (Some false) None) = Some (Err (LStringNotFound (us "app") (us "note") (us "fr") false)) /\
  outcome_after [] (CallLiteral (us "app") (us "nope") (us "fr") (Some true) None) = Some (Err (LStringNotFound (us "app") (us "nope") (us "fr") true)).
Proof. vm_compute. repeat split. Qed.

(** ** C31: defaults *)
Theorem C31_history : forall PE (E : lenv PE) fallback caching tag h, let st := lrun E (localiser_new E fallback caching tag) h in
  ls_tag st = last_setting set_tag tag h /\ ls_fallback st = last_setting set_fallback fallback h /\
  ls_caching st = last_setting set_caching caching h /\ ls_script st = le_script E (ls_tag st).
Proof.
  intros PE E fb ca tag h st. destruct (settings_history E h (localiser_new E fb ca tag)) as (H1 & H2 & H3 & H4).
  repeat split; [exact H1|exact H2|exact H3|]. apply H4. reflexivity.
Qed.
Print Assumptions C31_history.

Theorem C31_with_defaults : forall PE (E : lenv PE) st c i vals d,
  loc_format_with_defaults E st c i vals = loc_format E st c i vals (ls_tag st) (Some (ls_fallback st)) (Some (ls_caching st)) /\
  loc_format_with_defaults E st c i vals = loc_format E st c i vals (ls_tag st) None None /\
  loc_literal_with_defaults E st c i = loc_literal E st c i (ls_tag st) (Some (ls_fallback st)) (Some (ls_caching st)) /\
  loc_literal_with_defaults E st c i = loc_literal E st c i (ls_tag st) None None /\
  loc_format_data_with_defaults E st d = loc_format_data E st d (ls_tag st) (Some (ls_fallback st)) (Some (ls_caching st)) /\
  loc_format_data_with_defaults E st d = loc_format_data E st d (ls_tag st) None None.
Proof. intros. repeat split. Qed.
Print Assumptions C31_with_defaults.

Example C31_example :
  let st := lrun loc_ex start_ex [CallDefaults (Some (us "ar")) (Some false) None; CallLiteralDefaults (us "app") (us "bye"); CallDefaults None None (Some false)] in
  ls_tag st = us "ar" /\ ls_fallback st = false /\ ls_caching st = false /\ ls_script st = Some (us "Arab").
Proof. vm_compute. repeat split. Qed.

(** ** C32: the cache never panics. False: a string found in another language than the one asked for is stored under its own
    language, for which there may be no entry. *)
Theorem C32_panic_refuted :
  outcome_after [CallLiteral (us "app") (us "bye") (us "fr") None None] (CallLiteral (us "app") (us "note") (us "fr") None None) = Some Panic /\
  outcome_after [CallLiteral (us "app") (us "bye") (us "fr") None None] (CallFormat (us "app") (us "note") [] (us "fr") None None) = Some Panic.
Proof. vm_compute. repeat split. Qed.
Print Assumptions C32_panic_refuted.

(** Exactly when [literal] and [format] panic, after any history, if nothing else panics. *)
Theorem C32_literal_panics_partial : forall PE (E : lenv PE) st c i t fb ca, calm E ->
  snd (lstep E st (CallLiteral c i t fb ca)) = Some Panic <->
  unwrap_or ca (ls_caching st) = true /\ cached st t (combined c i) = None /\
  exists s t', found E c i t (unwrap_or fb (ls_fallback st)) s t' /\ cache_gap st t t'.
Proof.
  intros PE E st c i t fb ca Hc. cbn [lstep snd]. unfold loc_literal. rewrite <- (literal_panic E Hc st c i t _ _).
  split; [now intros [=]|now intros ->].
Qed.
Print Assumptions C32_literal_panics_partial.
Theorem C32_format_panics_partial : forall PE (E : lenv PE) fallback caching tag h c i vals t fb ca, icu_ok (le_icu E) -> calm E ->
  let st := lrun E (localiser_new E fallback caching tag) h in
  snd (lstep E st (CallFormat c i vals t fb ca)) = Some Panic <->
  unwrap_or ca (ls_caching st) = true /\ cached st t (combined c i) = None /\
  exists s t', found E c i t (unwrap_or fb (ls_fallback st)) s t' /\ no_syntax s /\ cache_gap st t t'.
Proof.
  intros PE E fallback caching tag h c i vals t fb ca Hd Hc st. cbn [lstep snd]. unfold loc_format.
  rewrite <- (format_panic E Hd Hc (history_requests E (localiser_new E fallback caching tag) h) st c i vals t _ _).
  - split; [now intros [=]|now intros ->].
  - apply run_new. auto.
Qed.
Print Assumptions C32_format_panics_partial.
(** No call panics if every string is found in the language asked for. *)
Theorem C32_no_panic_partial : forall PE (E : lenv PE) fallback caching tag h c, icu_ok (le_icu E) -> calm E ->
  same_language E (history_requests E (localiser_new E fallback caching tag) (h ++ [c])) ->
  snd (lstep E (lrun E (localiser_new E fallback caching tag) h) c) <> Some Panic.
Proof. intros PE E fb ca tag h c Hd Hc. exact (history_calm E Hd Hc fb ca tag h c). Qed.
Print Assumptions C32_no_panic_partial.

(** Without the built-in command that panics (C20) the example is calm. *)
Definition quiet_ex : lenv unit := mk_lenv icu_ex env_ex [(us "file_path", file_path)] (fun t => t) (le_provider loc_ex) (le_script loc_ex) 8.
Example C32_calm : calm quiet_ex.
Proof.
  split; try discriminate.
  - intros name f args. cbn [le_reg quiet_ex mget]. destruct (ueqb name (us "file_path")); [|discriminate]. intros [= <-].
    unfold file_path, command_parameter. destruct args as [|[] args]; discriminate.
  - intros c i t s t' H. cbn in H. injection H as H. apply loc_ex_strings in H as (H & _). apply TreeProofs4.tree_no_hash_no_panic.
    intros Hh. vm_compute in H. repeat (destruct H as [<-|H]; [vm_compute in Hh; intuition discriminate|]). exact H.
Qed.
(** The conditions hold of the example: with fallback off nothing panics. *)
Example C32_example : answers_again loc_ex /\
  same_language loc_ex (history_requests loc_ex start_ex [CallLiteral (us "app") (us "bye") (us "fr") (Some false) None; CallLiteral (us "app") (us "note") (us "fr") (Some false) None]) /\
  outcome_after [CallLiteral (us "app") (us "bye") (us "fr") (Some false) None] (CallLiteral (us "app") (us "note") (us "fr") (Some false) None)
    = Some (Err (LStringNotFound (us "app") (us "note") (us "fr") false)).
Proof.
  split; [|split].
  - exact loc_ex_again.
  - intros q s t' H1 [H2|d _ H2 _ _].
    + injection H2 as H2. exact (proj2 (loc_ex_strings _ _ _ _ _ H2)).
    + cbn in H1. destruct H1 as [<-|[<-|[]]]; discriminate.
  - vm_compute. reflexivity.
Qed.

(** ** C33: nested localisation data. For the result without a cache; for the cache see C28. *)
Theorem C33_inside_out : forall PE (E : lenv PE) st d t fb ca w t', icu_ok (le_icu E) -> keys_distinct d ->
  uncached_result E st (CallData d t fb ca) = Some (Ok (w, t')) <-> localised E t (unwrap_or fb (ls_fallback st)) d w t'.
Proof.
  intros PE E st d t fb ca w t' Hd Hk. rewrite uncached_pure. cbn [pure_call]. rewrite <- (pure_data_iff E Hd _ _ d Hk).
  split; [now intros [=]|now intros ->].
Qed.
Print Assumptions C33_inside_out.
Theorem C33_cached_partial : forall PE (E : lenv PE) fallback caching tag h d t fb ca w t', icu_ok (le_icu E) -> keys_distinct d -> answers_again E ->
  provider_hash_ok E -> let rs := history_requests E (localiser_new E fallback caching tag) (h ++ [CallData d t fb ca]) in harmless E rs -> same_language E rs ->
  let st := lrun E (localiser_new E fallback caching tag) h in
  snd (lstep E st (CallData d t fb ca)) = Some (Ok (w, t')) <-> localised E t (unwrap_or fb (ls_fallback st)) d w t'.
Proof.
  intros PE E fallback caching tag h d t fb ca w t' Hd Hk Ha Hh rs Hr Hs st.
  destruct (transparent E Hd fallback caching tag h (CallData d t fb ca) Ha Hh Hr) as [H|(_ & H)]; [|contradiction].
  fold st in H. rewrite H. now apply C33_inside_out.
Qed.
Print Assumptions C33_cached_partial.

Example C33_example : let d := LData (us "app") (us "greet") (Some [(us "name", VData (LData (us "app") (us "greet") (Some [(us "name", VData (LData (us "app") (us "bye") None))])))]) in
  keys_distinct d /\ outcome_after [] (CallDataDefaults d) = Some (Ok (us "Hello Hello Bye!!", us "en")).
Proof.
  split; [|vm_compute; reflexivity].
  constructor; [repeat constructor; intros []|]. constructor; [|constructor]. constructor; [repeat constructor; intros []|].
  constructor; constructor.
Qed.

(** ** C08 and C09 for the methods of the localiser *)
Theorem C08_localiser : forall PE (E : lenv PE) st c i vals t fb ca s t', icu_ok (le_icu E) -> no_syntax s ->
  found E c i t (unwrap_or fb (ls_fallback st)) s t' ->
  uncached_result E st (CallFormat c i vals t fb ca) = Some (Ok (s, t')).
Proof.
  intros PE E st c i vals t fb ca s t' Hd Hn Hf. rewrite uncached_pure. cbn [pure_call]. f_equal. apply pure_format_iff; [exact Hd|].
  exists s. split; [exact Hf|now apply sg_plain].
Qed.
Print Assumptions C08_localiser.
Theorem C09_localiser : forall PE (E : lenv PE) st c i vals t fb ca w t', icu_ok (le_icu E) -> 0 < le_fuel E ->
  found E c i t (unwrap_or fb (ls_fallback st)) (escape w) t' ->
  uncached_result E st (CallFormat c i vals t fb ca) = Some (Ok (w, t')).
Proof.
  intros PE E st c i vals t fb ca w t' Hd Hfu Hf. rewrite uncached_pure. cbn [pure_call]. f_equal. unfold pure_format.
  apply find_string_iff in Hf. rewrite Hf. cbn. now apply escape_gives.
Qed.
Print Assumptions C09_localiser.
Example C08_C09_localiser_example :
  outcome_after [] (CallFormatDefaults (us "app") (us "empty") bob) = Some (Ok ([], us "en")) /\
  outcome_after [] (CallFormatDefaults (us "app") (us "note") bob) = Some (Ok (us "Note", us "en")) /\
  escape (us "{name}") = us "`{name`}" /\
  outcome_after [] (CallFormatDefaults (us "app") (us "esc") bob) = Some (Ok (us "{name}", us "en")).
Proof. vm_compute. repeat split. Qed.
