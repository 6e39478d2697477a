(** C113: what is answered when the files change during a call (crates/provider/sqlite3/src/provider.rs, crates/localiser/src/localiser.rs). *)
From Verif Require Import Base BaseFacts LexerModel IcuExample ValueModel CommandModel FormatterModel FmtExample RegistryModel ProviderModel ProviderSpec
  LocaliserModel SystemModel PropertiesProvider PropertiesSystem CallsModel LocCallsModel CallsProofs2 LocCallsProofs2 QueryModel QuerySpec PropertiesQuery AskModel
  FreshSpec PropertiesFresh TornSpec TornProofs TornProofs2 MemorySpec TornSpec2 TornProofs3 TornProofs4.

(** What a lookup finds was there during the call: all strings of the answer were in one file at one time, found for one ancestor of the
    language; and [strings] gives all that were there then for this ancestor. *)
Theorem C113_found : forall E D W p, reads_changing E W D -> provider_ok p -> order_ok E ->
  forall hist x one exact c i t answer a, lookup_of x = Some (one, exact, (c, i, t), answer) -> no_wildcard t ->
  let s := q_prun E D p qstate_new hist in let r := q_pcall E D p x s in snd r = Ok a -> strings_in a <> [] ->
  exists h f b, during s r h /\ file_of p c f /\ ancestor b t /\ b <> [] /\
    (forall y, In y (strings_in a) -> exists row, hit (W h f) c i (fit exact b) row /\ answer_of E row y) /\
    (one = false -> forall row, hit (W h f) c i (fit exact b) row -> exists y, In y (strings_in a) /\ answer_of E row y).
Proof. intros E D W p HD Hp Ho hist x one exact c i t answer a Hx Hw s r Ha. exact (torn_some E D W p HD Hp x one exact c i t answer hist Hx a Ho Hw Ha). Qed.
Print Assumptions C113_found.

(** If nothing is found, then each ancestor of the language was, in each file, without string at some time during the call. So a string
    that is there all the time is not missed. *)
Theorem C113_missing : forall E D W p, reads_changing E W D -> provider_ok p -> order_ok E ->
  forall hist x one exact c i t answer a, lookup_of x = Some (one, exact, (c, i, t), answer) -> no_wildcard t ->
  let s := q_prun E D p qstate_new hist in let r := q_pcall E D p x s in snd r = Ok a -> strings_in a = [] ->
  forall f b, file_of p c f -> ancestor b t -> b <> [] -> exists h, during s r h /\ ~ has (W h f) c i (fit exact b).
Proof. intros E D W p HD Hp Ho hist x one exact c i t answer a Hx Hw s r Ha. exact (torn_none E D W p HD Hp x one exact c i t answer hist Hx a Ho Hw Ha). Qed.
Print Assumptions C113_missing.

(** So for a localiser that does not remember: the text of [literal] was stored during the call, in the language given with it; and an
    error says that the text was at some time missing for each ancestor of the language, in each file. *)
Theorem C113_literal : forall E D W p L reg, reads_changing E W D -> provider_ok p -> order_ok E -> plain_tags E ->
  forall hist st c i t fallback, cached st t (combined c i) = None ->
  let s := q_prun E D p qstate_new hist in let y := xlstep L reg (query_provider E D p) st (CallLiteral c i t (Some fallback) (Some false)) s in
  (forall str tag, snd (snd y) = Some (Ok (str, tag)) -> exists h f row, during s y h /\ file_of p c f /\
     In row (db_pattern (W h f)) /\ pr_component row = c /\ pr_identifier row = i /\ answer_of E row (str, tag)) /\
  (forall fb, pe_canon E t = Some t -> snd (snd y) = Some (Err (LStringNotFound c i t fb)) ->
     forall f b, file_of p c f -> ancestor b t -> b <> [] -> exists h, during s y h /\ ~ has (W h f) c i (starts_with b)).
Proof.
  intros E D W p L reg HD Hp Ho Hpl hist st c i t fallback Hc s y.
  assert (Hy : fst y = fst (xfind_string (query_provider E D p) c i t fallback s) /\
    (forall z, snd (snd y) = Some (Ok z) -> snd (xfind_string (query_provider E D p) c i t fallback s) = Ok z) /\
    (forall e, snd (snd y) = Some (Err e) -> snd (xfind_string (query_provider E D p) c i t fallback s) = Err e)).
  { unfold y. cbn [xlstep unwrap_or fst snd]. unfold xactual_literal. rewrite Hc.
    destruct (xfind_string (query_provider E D p) c i t fallback s) as (w1 & [(u & v)|e| |]); cbn [fst snd return_string];
      (split; [reflexivity|split; intros z H; try discriminate H; congruence]). }
  destruct Hy as (Hf & Hok & Herr). split.
  - intros str tag H. destruct (find_torn E D W p HD Hp Ho Hpl c i t fallback hist (str, tag) (Hok _ H)) as (h & f & row & (m & rest & Hm & Hr) & Hrest).
    exists h, f, row. split; [|exact Hrest]. exists m, rest. split; [exact Hm|]. fold s in Hr. rewrite Hf. exact Hr.
  - intros fb Ht H f b H1 H2 H3. destruct (find_missing E D W p HD Hp Ho Hpl c i t fallback fb hist Ht (Herr _ H) f b H1 H2 H3) as (h & (m & rest & Hm & Hr) & Hno).
    exists h. split; [|exact Hno]. exists m, rest. split; [exact Hm|]. fold s in Hr. rewrite Hf. exact Hr.
Qed.
Print Assumptions C113_literal.

(** A text with values, or an error of the formatter, comes from a pattern string that was stored during the call: it is, as is what the
    localiser remembers, the same as with a provider that has this string only. *)
Theorem C113_format : forall E D W p L, reads_changing E W D -> provider_ok p -> order_ok E -> plain_tags E ->
  forall hist st c i vals t fallback caching, cached st t (combined c i) = None ->
  let x := CallFormat c i vals t (Some fallback) (Some caching) in
  let s := q_prun E D p qstate_new hist in let y := xlstep L (without_effects (le_reg L)) (query_provider E D p) st x s in
  (exists z, snd (snd y) = Some (Ok z)) \/ (exists e, snd (snd y) = Some (Err (LFormatter e))) ->
  exists h f row text tag, during s y h /\ file_of p c f /\ In row (db_pattern (W h f)) /\ pr_component row = c /\ pr_identifier row = i /\
    answer_of E row (text, tag) /\ snd y = lstep (over L (holding text tag)) st x.
Proof.
  intros E D W p L HD Hp Ho Hpl hist st c i vals t fallback caching Hc x s y.
  assert (Hy : fst y = fst (xfind_string (query_provider E D p) c i t fallback s) /\
    match snd (xfind_string (query_provider E D p) c i t fallback s) with
    | Ok (text, tag) => snd y = lstep (over L (holding text tag)) st x
    | Err e => snd (snd y) = Some (Err e) /\ forall e', e <> LFormatter e'
    | Panic => snd (snd y) = Some Panic
    | NoFuel => snd (snd y) = Some NoFuel
    end).
  { unfold y, x. cbn [xlstep lstep unwrap_or fst snd]. unfold loc_format, xactual_format, actual_format. cbn [unwrap_or]. rewrite Hc.
    assert (Hf : forall e e', snd (xfind_string (query_provider E D p) c i t fallback s) = Err e -> e <> LFormatter e').
    { intros e e'. unfold xfind_string. destruct (wp_string _ c i t s) as (w1 & [[r|]|e1| |]); cbn [snd]; try (intros H; congruence).
      destruct (negb fallback); cbn [snd]; try (intros H; congruence). destruct (wp_default _ c w1) as (w2 & [d|e1| |]); cbn [snd]; try (intros H; congruence).
      destruct (wp_string _ c i d w2) as (w3 & [[r|]|e1| |]); cbn [snd]; intros H; congruence. }
    destruct (xfind_string (query_provider E D p) c i t fallback s) as (w1 & [(u & v)|e| |]); cbn [fst snd];
      [|split; [reflexivity|]; split; [reflexivity|]; intros e'; now apply Hf|split; reflexivity|split; reflexivity].
    replace (find_string (over L (holding u v)) c i t fallback) with (Ok (u, v) : lout (PE := perror) (ustr * ustr)) by reflexivity.
    destruct u as [|ch0 u]; [split; reflexivity|].
    rewrite build_without. cbn [le_icu le_fmt le_reg le_locale over].
    destruct (formatter_try_new (le_icu L) localiser_grammar (le_fmt L) (le_reg L) v (le_locale L v) (ch0 :: u)) as [fm|e| |]; [|destruct e; split; reflexivity|split; reflexivity|split; reflexivity].
    rewrite run_without. change (run_formatter (over L (holding (ch0 :: u) v)) fm vals) with (run_formatter L fm vals).
    destruct (run_formatter L fm vals) as (fm' & r). split; reflexivity. }
  intros Hr. destruct Hy as (Hf & Hy). pose proof (find_torn E D W p HD Hp Ho Hpl c i t fallback hist) as F. fold s in F.
  destruct (xfind_string (query_provider E D p) c i t fallback s) as (w1 & [(text & tag)|e| |]); cbn [fst snd] in *.
  - destruct (F (text, tag) eq_refl) as (h & f & row & (m & rest & Hm & Hd) & H1 & H2 & H3 & H4 & H5). exists h, f, row, text, tag.
    split; [exists m, rest; split; [exact Hm|]; rewrite Hf; exact Hd|auto 10].
  - destruct Hy as (Hy & Hn). rewrite Hy in Hr. destruct Hr as [(z & H)|(e' & H)]; [discriminate H|]. injection H as H. destruct (Hn e' H).
  - rewrite Hy in Hr. destruct Hr as [(z & H)|(e' & H)]; discriminate H.
  - rewrite Hy in Hr. destruct Hr as [(z & H)|(e' & H)]; discriminate H.
Qed.
Print Assumptions C113_format.

(** ** Examples *)
Definition reading (E : penv) (W : changing) : database := fun h q =>
  match select E (qc_file q) (W h (qc_file q)) (qc_sql q) (qc_params q) with Ok rows => Some rows | _ => None end.
Lemma reading_reads E W : reads_changing E W (reading E W).
Proof. intros h q. reflexivity. Qed.
(** One content for the first [n] queries, then another. *)
Definition flip (n : nat) (old new : contents) : changing := fun h => if List.length h <? n then old else new.
Definition app_content (rows : list prow) (names : list crow) (dflt : string) : contents := fun _ => mk_db schema_ex rows names [main "app" dflt].
Definition app_dir : list entry := [file "app" rows_old both_wrote [main "app" "en"]].
Lemma app_ok : provider_ok (prov app_dir).
Proof. apply (prov_ok app_dir). vm_compute. reflexivity. Qed.
(** A text that is renamed, from language [en] to [en-GB]. *)
Definition renamed : changing := flip 1 (app_content [row "app" "greet" "en" "Hello"] both_wrote "en") (app_content [row "app" "greet" "en-GB" "Hello"] both_wrote "en").
Definition exact_call : pcall := CallExact (us "app") (us "greet") (us "en-GB").
(** A text that is moved from the file of the component to the all in one file. *)
Definition two_dir : list entry := [file "__all_in_one__" [] both_wrote [main "app" "en"]; file "app" [row "app" "greet" "en" "Hello"] both_wrote [main "app" "en"]].
Lemma two_ok : provider_ok (prov two_dir).
Proof. apply (prov_ok two_dir). vm_compute. reflexivity. Qed.
Definition held_by (f : ustr) : contents := fun g => mk_db schema_ex (if ueqb f g then [row "app" "greet" "en" "Hello"] else []) both_wrote [main "app" "en"].
Definition moved : changing := flip 1 (held_by (us "app")) (held_by aio).
Definition string_call_ex : pcall := CallString (us "app") (us "greet") (us "en").
(** Texts that are added in all languages. *)
Definition added : changing := flip 4 (app_content [row "app" "greet" "en" "Hello"; row "app" "greet" "fr" "Salut"] both_wrote "en")
  (app_content [row "app" "greet" "en" "Hello"; row "app" "greet" "fr" "Salut"; row "app" "bye" "en" "Bye"; row "app" "bye" "fr" "Adieu"] both_wrote "en").

(** Full claim: a call answers what a provider would answer that is opened at some time during the call. False, of lookups of the
    exact language, of lookups in two files - in either case nothing is found although a string is there at all times - and of details. *)
Theorem C113_time_refuted :
  (exists E W p, provider_ok p /\ order_ok E /\ let r := q_pcall E (reading E W) p exact_call qstate_new in
     snd r = Ok (AnString None) /\ forall h, anew E p (W h) exact_call <> snd r) /\
  (exists E W p, provider_ok p /\ order_ok E /\ let r := q_pcall E (reading E W) p string_call_ex qstate_new in
     snd r = Ok (AnString None) /\ forall h, anew E p (W h) string_call_ex <> snd r) /\
  (exists E W p cd, provider_ok p /\ order_ok E /\ let r := q_pcall E (reading E W) p (CallComponent (us "app")) qstate_new in
     snd r = Ok (AnComponent cd) /\ cd_total cd = 3%N /\ forall h, anew E p (W h) (CallComponent (us "app")) <> snd r).
Proof.
  assert (Ho : order_ok env_stored) by exact (proj1 (stored_fine (prov app_dir))).
  split; [|split].
  - exists env_stored, renamed, (prov app_dir). split; [exact app_ok|]. split; [exact Ho|]. split; [vm_compute; reflexivity|].
    intros h. unfold renamed, flip. destruct (List.length h <? 1); vm_compute; discriminate.
  - exists env_stored, moved, (prov two_dir). split; [exact two_ok|]. split; [exact Ho|]. split; [vm_compute; reflexivity|].
    intros h. unfold moved, flip. destruct (List.length h <? 1); vm_compute; discriminate.
  - set (r := q_pcall env_stored (reading env_stored added) (prov app_dir) (CallComponent (us "app")) qstate_new).
    exists env_stored, added, (prov app_dir), (match snd r with Ok (AnComponent cd) => cd | _ => mk_cdetails [] [] 0 end).
    split; [exact app_ok|]. split; [exact Ho|]. split; [vm_compute; reflexivity|]. split; [vm_compute; reflexivity|].
    intros h. unfold added, flip. destruct (List.length h <? 4); vm_compute; discriminate.
Qed.
Print Assumptions C113_time_refuted.

(** True of lookups of a language without subtags in a component that is in one file only; *)
Theorem C113_short_partial : forall E D W p, reads_changing E W D -> provider_ok p ->
  forall hist x one exact c i t answer, lookup_of x = Some (one, exact, (c, i, t), answer) -> hyphens t = 0 ->
  (forall files, mget c (sp_components p) = Some files -> fst files = false \/ snd files = false) ->
  let s := q_prun E D p qstate_new hist in snd (q_pcall E D p x s) = anew E p (W (fst s)) x.
Proof. intros E D W p HD Hp hist x one exact c i t answer Hx Ht Hf s. exact (torn_short E D W p HD Hp x one exact c i t answer hist Hx Ht Hf). Qed.
Print Assumptions C113_short_partial.
(** and of all lookups if, when they begin, there is a string for the language itself in the file that comes first. *)
Theorem C113_first_partial : forall E D W p, reads_changing E W D -> provider_ok p -> order_ok E ->
  forall hist x one exact c i t answer f, lookup_of x = Some (one, exact, (c, i, t), answer) -> no_wildcard t -> t <> [] -> first_file p c f ->
  let s := q_prun E D p qstate_new hist in has (W (fst s) f) c i (fit exact t) -> snd (q_pcall E D p x s) = anew E p (W (fst s)) x.
Proof. intros E D W p HD Hp Ho hist x one exact c i t answer f Hx Hw Ht Hf s. exact (torn_first E D W p HD Hp x one exact c i t answer hist Hx f Ho Hw Ht Hf). Qed.
Print Assumptions C113_first_partial.

(** A string that is found; one that is missed by a localiser with fallback; details that fail although every content of the files is in
    order, and wrong numbers that stay when the files no longer change. *)
Example C113_example :
  let E := env_stored in let p := prov app_dir in
  let changed := flip 1 (app_content [row "app" "greet" "en" "Hello"] both_wrote "en") (app_content [row "app" "greet" "en" "Good day"] both_wrote "en") in
  snd (q_pcall E (reading E changed) p (CallString (us "app") (us "greet") (us "en-GB")) qstate_new) = Ok (AnString (Some (us "Good day", us "en"))) /\
  snd (snd (xlstep fresh_loc (without_effects []) (query_provider E (reading E moved) (prov two_dir)) (localiser_new fresh_loc false false (us "en"))
    (CallLiteral (us "app") (us "greet") (us "en") (Some false) (Some false)) qstate_new)) = Some (Err (LStringNotFound (us "app") (us "greet") (us "en") false)) /\
  (let other := flip 1 (app_content [] [wrote "app" "en" "Ann"] "en") (app_content [] [wrote "app" "fr" "Bea"] "fr") in
   snd (q_pcall E (reading E other) p (CallComponent (us "app")) qstate_new) = Err (PInvalidDefaultLanguage (us "app")) /\
   forall h, exists cd, anew E p (other h) (CallComponent (us "app")) = Ok (AnComponent cd)) /\
  (let D := reading E added in let c := CallComponent (us "app") in
   snd (q_pcall E D p c (q_prun E D p qstate_new [c; c])) = snd (q_pcall E D p c qstate_new)).
Proof.
  cbv zeta. split; [vm_compute; reflexivity|]. split; [vm_compute; reflexivity|]. split; [|vm_compute; reflexivity].
  split; [vm_compute; reflexivity|]. intros h. unfold flip. destruct (List.length h <? 1); eexists; vm_compute; reflexivity.
Qed.

(** The details of a component, put together in this call, consist of parts each of which is as it was at some time during the call: the
    languages, the default language, and for each language its contributors and the number of its strings. *)
Theorem C113_details : forall E D W p, reads_changing E W D -> provider_ok p -> order_ok E ->
  forall hist c cd, Forall (fun y => ~ asks_details y) hist ->
  let s := q_prun E D p qstate_new hist in let r := q_pcall E D p (CallComponent c) s in snd r = Ok (AnComponent cd) ->
  exists files, mget c (sp_components p) = Some files /\ pieced E W files c (during s r) cd.
Proof. intros E D W p HD Hp Ho hist c cd Hh. exact (details_torn E D W p HD Hp Ho hist c cd Hh). Qed.
Print Assumptions C113_details.

(** The languages and the default language were read before the change, the contributors and the number of strings after it: no content
    of the files gives these details. *)
Example C113_details_example :
  let E := env_stored in let p := prov app_dir in let c := CallComponent (us "app") in
  let old := app_content [row "app" "greet" "en" "Hello"; row "app" "bye" "en" "Bye"] [wrote "app" "en" "Ann"] "en" in
  let new := app_content [row "app" "greet" "fr" "Salut"; row "app" "greet" "en" "Hi"] [wrote "app" "en" "Bea"; wrote "app" "fr" "Bea"] "fr" in
  let details langs dflt total : pout panswer := Ok (AnComponent (mk_cdetails langs dflt total)) in
  snd (q_pcall E (reading E (flip 2 old new)) p c qstate_new) = details [(us "en", mk_lgdata 1 (Some (1, 1)%N) [us "Bea"])] (us "en") 1%N /\
  anew E p old c = details [(us "en", mk_lgdata 2 (Some (2, 2)%N) [us "Ann"])] (us "en") 2%N /\
  anew E p new c = details [(us "en", mk_lgdata 1 (Some (1, 1)%N) [us "Bea"]); (us "fr", mk_lgdata 1 (Some (1, 1)%N) [us "Bea"])] (us "fr") 2%N.
Proof. cbv zeta. split; [vm_compute; reflexivity|]. split; vm_compute; reflexivity. Qed.

(** The languages of an identifier are those of one file at one time during the call; if there are none, then there were none in each
    file at some time. *)
Theorem C113_identifier : forall E D W p, reads_changing E W D -> provider_ok p -> order_ok E -> forall hist c i d,
  let s := q_prun E D p qstate_new hist in let r := q_pcall E D p (CallIdentifier c i) s in snd r = Ok (AnIdentifier d) ->
  (exists h f, during s r h /\ file_of p c f /\ forall t, In t (id_languages d) <-> told_in E (W h f) c i t) /\
  (id_languages d = [] -> forall f, file_of p c f -> exists h, during s r h /\ forall t, ~ told_in E (W h f) c i t).
Proof. intros E D W p HD Hp Ho hist c i d. exact (identifier_torn E D W p HD Hp Ho hist c i d). Qed.
Print Assumptions C113_identifier.

(** A text that is moved from the file of the component to the all in one file between the two queries has no languages. *)
Example C113_identifier_example :
  let E := env_stored in let p := prov two_dir in let ask D := snd (q_pcall E D p (CallIdentifier (us "app") (us "greet")) (q_prun E D p qstate_new [CallRepository])) in
  ask (reading E (flip 12 (held_by (us "app")) (held_by aio))) = Ok (AnIdentifier (mk_idetails [] (us "en"))) /\
  ask (reading E (flip 11 (held_by (us "app")) (held_by aio))) = Ok (AnIdentifier (mk_idetails [us "en"] (us "en"))) /\
  ask (reading E (flip 13 (held_by (us "app")) (held_by aio))) = Ok (AnIdentifier (mk_idetails [us "en"] (us "en"))).
Proof. cbv zeta. repeat split; vm_compute; reflexivity. Qed.
