(** C112: what is answered while the files of the databases change (crates/provider/sqlite3/src/provider.rs, crates/localiser/src/localiser.rs). *)
From Verif Require Import Base BaseFacts LexerModel IcuExample ValueModel CommandModel FormatterModel FmtExample RegistryModel ProviderModel ProviderSpec
  LocaliserModel SystemModel PropertiesProvider PropertiesSystem CallsModel LocCallsModel QueryModel QuerySpec PropertiesQuery AskModel AskSpec
  FreshSpec FreshProofs FreshProofs2 FreshProofs3.

(** Files that change between calls, in any way; SQLite may answer anything as long as each call sees one content. Strings are those
    of the time of the call. Details of components and of the repository are those of the time of the first call for details that
    succeeded. Of the details of an identifier the languages are of the time of the call, the default language is of that time. *)
Theorem C112_provider : forall E D p, provider_ok p -> forall h w x, sees E D p qstate_new (h ++ [(w, x)]) ->
  expected E p (known_of E p h) w x (snd (q_pcall E D p x (q_prun E D p qstate_new (map snd h)))).
Proof. intros E D p Hp h w x. exact (history_expected E p Hp D h w x). Qed.
Print Assumptions C112_provider.

(** So for a localiser, whatever its cache, for all its calls: each is as with a provider that has the strings of its time and the
    default languages of one time. *)
Theorem C112_localiser : forall E D p L, provider_ok p -> forall fallback caching tag h rs,
  lsees E D p L qstate_new (localiser_new L fallback caching tag) h rs -> in_time E p L None (localiser_new L fallback caching tag) h rs.
Proof. intros E D p L Hp fallback caching tag h rs. apply (run_times E p L Hp D h None qstate_new). split; [intros key q H; discriminate H|reflexivity]. Qed.
Print Assumptions C112_localiser.

(** ** Examples *)
(** The files have the content [old] for the first [n] queries, then [new]. *)
Definition switching (E : penv) (n : nat) (old new : contents) : database := fun h q => fixed_at E (if List.length h <? n then old else new) h q.
Lemma before_switch E n old new h qs : List.length h + List.length qs <= n -> from_content E (switching E n old new) old h qs.
Proof.
  intros Hn r q r' ->. unfold switching, fixed_at. rewrite app_length in *. cbn [List.length] in *.
  replace (List.length h + List.length r <? n) with true; [reflexivity|]. symmetry. apply Nat.ltb_lt. lia.
Qed.
Lemma after_switch E n old new h qs : n <= List.length h -> from_content E (switching E n old new) new h qs.
Proof.
  intros Hn r q r' ->. unfold switching, fixed_at. rewrite app_length.
  replace (List.length h + List.length r <? n) with false; [reflexivity|]. symmetry. apply Nat.ltb_ge. lia.
Qed.
Definition rows_old : list prow := [row "app" "greet" "en" "Hello"; row "app" "greet" "fr" "Salut"].
Definition rows_new : list prow := [row "app" "greet" "en" "Good day"; row "app" "greet" "fr" "Bonjour"; row "app" "greet" "de" "Hallo"].
Definition both_wrote : list crow := [wrote "app" "en" "Ann"; wrote "app" "fr" "Bea"].
Definition fresh_dir : list entry := [file "app" rows_old both_wrote [main "app" "en"]].
Definition fresh_prov : sprovider := prov fresh_dir.
Definition old_content : contents := fun _ => mk_db schema_ex rows_old both_wrote [main "app" "en"].
(** New strings, and another default language. *)
Definition new_content : contents := fun _ => mk_db schema_ex rows_new both_wrote [main "app" "fr"].
Lemma fresh_ok : provider_ok fresh_prov.
Proof. apply (prov_ok fresh_dir). vm_compute. reflexivity. Qed.

(** Full claim: a call answers what a provider would that is opened now. False: the default language of a component was changed, and
    the old one is given; and the localiser falls back to the old one. *)
Definition fresh_loc : lenv perror := system env_stored fresh_prov icu_ex env_ex [] (fun t => t) (fun _ => None) 8.
Definition ask_greet : lcall := CallLiteral (us "app") (us "greet") (us "it") (Some true) (Some false).
Theorem C112_now_refuted :
  (exists E D p h w x, provider_ok p /\ sees E D p qstate_new (h ++ [(w, x)]) /\
     snd (q_pcall E D p x (q_prun E D p qstate_new (map snd h))) <> anew E p w x) /\
  (exists E D p L h w x rs, provider_ok p /\ lsees E D p L qstate_new (localiser_new L true false (us "en")) (h ++ [(w, x)]) (rs ++ [Some (Ok (us "Good day", us "en"))]) /\
     (forall v y, In (v, y) (h ++ [(w, x)]) -> no_caching y) /\
     snd (lstep (over L (sqlite_provider E (files_at w p))) (localiser_new L true false (us "en")) x) = Some (Ok (us "Bonjour", us "fr"))).
Proof.
  split.
  - set (x := CallComponent (us "app")). set (n := List.length (fst (fst (q_pcall env_stored (fixed_at env_stored old_content) fresh_prov x qstate_new)))).
    exists env_stored, (switching env_stored n old_content new_content), fresh_prov, [(old_content, x)], new_content, x. split; [exact fresh_ok|]. split.
    + cbn [app sees]. split; [|split; [|exact Logic.I]].
      * eexists. split; [unfold new_queries; cbn [qstate_new fst app]; reflexivity|]. apply before_switch. apply Nat.leb_le. vm_compute. reflexivity.
      * exists []. split; [vm_compute; reflexivity|]. apply after_switch. apply Nat.leb_le. vm_compute. reflexivity.
    + vm_compute. discriminate.
  - set (s := fst (xlstep fresh_loc (without_effects (le_reg fresh_loc)) (query_provider env_stored (fixed_at env_stored old_content) fresh_prov)
      (localiser_new fresh_loc true false (us "en")) ask_greet qstate_new)).
    set (n := List.length (fst s)).
    exists env_stored, (switching env_stored n old_content new_content), fresh_prov, fresh_loc, [(old_content, ask_greet)], new_content, ask_greet, [Some (Ok (us "Hello", us "en"))].
    split; [exact fresh_ok|]. split; [|split].
    + cbn [app lsees]. split; [|split; [vm_compute; reflexivity|split; [|split; [vm_compute; reflexivity|exact Logic.I]]]].
      * eexists. split; [cbn [qstate_new fst app]; reflexivity|]. apply before_switch. apply Nat.leb_le. vm_compute. reflexivity.
      * set (y := fst (xlstep fresh_loc _ _ (localiser_new fresh_loc true false (us "en")) ask_greet qstate_new)).
        set (z := fst (xlstep _ _ _ _ ask_greet y)). exists (skipn (List.length (fst y)) (fst z)). split; [vm_compute; reflexivity|].
        apply after_switch. apply Nat.leb_le. vm_compute. reflexivity.
    + intros v y [H|[H|[]]]; injection H as <- <-; cbn; discriminate.
    + vm_compute. reflexivity.
Qed.
Print Assumptions C112_now_refuted.
(** True of lookups, and of details as long as no call for them has succeeded. *)
Theorem C112_now_partial : forall E D p, provider_ok p -> forall h w x, sees E D p qstate_new (h ++ [(w, x)]) ->
  (exists l, lookup_of x = Some l) \/ known_of E p h = None ->
  snd (q_pcall E D p x (q_prun E D p qstate_new (map snd h))) = anew E p w x.
Proof.
  intros E D p Hp h w x Hs Hx. pose proof (C112_provider E D p Hp h w x Hs) as H. destruct Hx as [(l & Hl)|Hk].
  - destruct x; try discriminate Hl; exact H.
  - rewrite Hk in H. destruct x; exact H.
Qed.
Print Assumptions C112_now_partial.
(** And of a localiser without caching, if the default languages do not change: each call gives what a localiser would that is made
    now with the settings of now. *)
Theorem C112_text_partial : forall E D p L, provider_ok p -> forall fallback tag h rs, (forall w x, In (w, x) h -> no_caching x) ->
  (forall w x w' x' c, In (w, x) h -> In (w', x') h -> pv_default (sqlite_provider E (files_at w p)) c = pv_default (sqlite_provider E (files_at w' p)) c) ->
  lsees E D p L qstate_new (localiser_new L fallback false tag) h rs -> forall n w x, nth_error h n = Some (w, x) ->
  nth_error rs n = Some (snd (lstep (over L (sqlite_provider E (files_at w p)))
    (fold_left (settings_after L) (map snd (firstn n h)) (localiser_new L fallback false tag)) x)).
Proof.
  intros E D p L Hp fallback tag h rs Hc Hd Hs. apply C112_localiser in Hs; [|exact Hp].
  apply (texts_now E p L (fun w => exists x, In (w, x) h)) with (k := None); [|exact Hs| |discriminate|split; reflexivity].
  - intros w w' c (x & Hx) (x' & Hx'). exact (Hd w x w' x' c Hx Hx').
  - intros w x Hi. split; [exact (Hc w x Hi)|now exists x].
Qed.
Print Assumptions C112_text_partial.

(** After the change a lookup gives a new string, the details of an identifier its new languages with the old default language, and
    the details of the component the old numbers. *)
Example C112_example :
  let c := CallComponent (us "app") in
  let n := List.length (fst (fst (q_pcall env_stored (fixed_at env_stored old_content) fresh_prov c qstate_new))) in
  let D := switching env_stored n old_content new_content in
  let after x := snd (q_pcall env_stored D fresh_prov x (q_prun env_stored D fresh_prov qstate_new [c])) in
  n = 6 /\ known_of env_stored fresh_prov [(old_content, c)] = Some old_content /\
  after (CallString (us "app") (us "greet") (us "de")) = Ok (AnString (Some (us "Hallo", us "de"))) /\
  anew env_stored fresh_prov old_content (CallString (us "app") (us "greet") (us "de")) = Ok (AnString None) /\
  after (CallIdentifier (us "app") (us "greet")) = Ok (AnIdentifier (mk_idetails [us "en"; us "fr"; us "de"] (us "en"))) /\
  anew env_stored fresh_prov new_content (CallIdentifier (us "app") (us "greet")) = Ok (AnIdentifier (mk_idetails [us "en"; us "fr"; us "de"] (us "fr"))) /\
  after c = anew env_stored fresh_prov old_content c.
Proof. vm_compute. repeat split; reflexivity. Qed.
Print Assumptions C112_example.
