(** Property C86: the strings of a database are independent of each other. *)
From Verif Require Import Base BaseFacts IcuExample ValueModel CommandModel FormatterModel FmtExample ProviderModel ProviderSpec ProviderProofs ProviderProofs7
  ProviderProofs8 LocaliserModel LocaliserSpec SystemModel RowsSpec RowsProofs PropertiesProvider PropertiesSystem.

(** ** The provider: whatever else is stored, and whatever was asked before, the strings of an identifier are given by its own rows. *)
Theorem C86_strings : forall E es es' p p' h h' c i t, made es p -> made es' p' -> same_string p p' c i ->
  result E p h (CallString c i t) = result E p' h' (CallString c i t) /\
  result E p h (CallExact c i t) = result E p' h' (CallExact c i t) /\
  result E p h (CallStrings c i t) = result E p' h' (CallStrings c i t).
Proof.
  intros E es es' p p' h h' c i t Hm Hm' Hs. apply made_ok in Hm, Hm'. rewrite (result_string E p Hm), (result_string E p' Hm'), (result_exact E p Hm),
    (result_exact E p' Hm'), (result_strings E p Hm), (result_strings E p' Hm'). unfold value, string_, string_exact_match.
  rewrite !(one_string_rows E p p' Hm Hm' c i Hs), (strings_rows E p p' Hm Hm' c i Hs). repeat split.
Qed.
Print Assumptions C86_strings.
(** For details of the identifier the languages, if there is an answer. *)
Theorem C86_languages_partial : forall E es es' p p' h h' c i o o', made es p -> made es' p' -> same_string p p' c i ->
  result E p h (CallIdentifier c i) = Ok (AnIdentifier o) -> result E p' h' (CallIdentifier c i) = Ok (AnIdentifier o') -> id_languages o = id_languages o'.
Proof.
  intros E es es' p p' h h' c i o o' Hm Hm' Hs H H'. apply made_ok in Hm, Hm'. rewrite (result_identifier E p Hm) in H. rewrite (result_identifier E p' Hm') in H'.
  apply bind_Ok in H as (x & Hx & [= ->]). apply bind_Ok in H' as (x' & Hx' & [= ->]).
  destruct (identifier_value E p Hm c i o Hx) as (_ & l & _ & _ & Hl & Hc). destruct (identifier_value E p' Hm' c i o' Hx') as (_ & l' & _ & _ & Hl' & Hc').
  rewrite <- !(identifier_rows E p p' Hm Hm' c i Hs) in *. assert (l' = l) by congruence. subst.
  destruct Hc as [(Hn & ->)|(Hn & Hc)], Hc' as [(Hn' & ->)|(Hn' & Hc')]; [reflexivity | contradiction | contradiction | congruence].
Qed.
Print Assumptions C86_languages_partial.

(** ** The localiser: the same histories of calls give the same results with two providers that answer the requests made in the same way. *)
Theorem C86_localiser : forall PE (L : lenv PE) P' fallback caching tag h,
  let st := localiser_new L fallback caching tag in
  same_answers (le_provider L) P' (history_requests L st h) ->
  results L st h = results (with_provider L P') (localiser_new (with_provider L P') fallback caching tag) h.
Proof. intros PE L P' fallback caching tag h st H. exact (proj1 (history_same L P' h st H)). Qed.
Print Assumptions C86_localiser.

(** ** The system. Full claim: calls give the same results for two directories with the same rows for the strings asked for, and the same
    default language of their components. False: if the string is not found in the language asked for, details are needed, which fail
    if any component lacks a default language (C51). *)
Definition plugin_added : list entry := dir_sys ++ [broken].
Lemma sys_same c i : c <> us "plugin" -> same_string prov_sys (prov plugin_added) c i.
Proof.
  intros Hc. assert (G : forall {V} (m : amap V) k v, k <> c -> mget c (minsert k v m) = mget c m).
  { intros V m k v Hk. rewrite mget_minsert. destruct (ueqb c k) eqn:Ek; [apply ueqb_eq in Ek; congruence | reflexivity]. }
  assert (Hf : mget c (sp_components (prov plugin_added)) = mget c (sp_components prov_sys)).
  { change (sp_components (prov plugin_added)) with (minsert (us "plugin") (false, true) (sp_components prov_sys)). apply G. congruence. }
  assert (Hf' : mget c (sp_connections (prov plugin_added)) = mget c (sp_connections prov_sys)).
  { change (sp_connections (prov plugin_added)) with (minsert (us "plugin") (match en_db broken with Some d => d | None => mk_db schema_ex [] [] [] end, us "1.0") (sp_connections prov_sys)).
    apply G. congruence. }
  assert (Ha : mget aio (sp_connections (prov plugin_added)) = mget aio (sp_connections prov_sys)) by (vm_compute; reflexivity).
  split; [unfold known; rewrite <- !mget_keys, Hf; reflexivity|]. unfold aio_db, own_db. rewrite Hf, Hf', Ha. split; reflexivity.
Qed.
Theorem C86_text_refuted : exists E es es' p p' ic fe reg locale script fuel c i t d,
  let L := system E p ic fe reg locale script fuel in let L' := system E p' ic fe reg locale script fuel in
  let st := localiser_new L true false t in
  made es p /\ made es' p' /\ same_string p p' c i /\ default_of E p c d /\ default_of E p' c d /\
  snd (lstep L st (CallLiteralDefaults c i)) = Some (Ok (us "Bye", us "en")) /\
  snd (lstep L' st (CallLiteralDefaults c i)) = Some (Err (LProvider (PDefaultLanguage (us "plugin")))).
Proof.
  exists env_sys, dir_sys, plugin_added, prov_sys, (prov plugin_added), icu_ex, env_ex, [], (fun t => t), (fun _ => None), 8, (us "app"), (us "bye"), (us "de"), (us "en").
  cbv zeta. split; [apply prov_made; vm_compute; reflexivity|]. split; [apply prov_made; vm_compute; reflexivity|]. split; [apply sys_same; vm_compute; discriminate|].
  assert (G : forall p, mget (us "app") (sp_components p) = Some (false, true) -> mget (us "app") (sp_connections p) = mget (us "app") (sp_connections prov_sys) ->
    default_of env_sys p (us "app") (us "en")).
  { intros p H1 H2. right. split; [intros d (f & v & H & _); rewrite H1 in H; discriminate H|].
    destruct (mget (us "app") (sp_connections prov_sys)) as [(d & v)|] eqn:Ed; [|vm_compute in Ed; discriminate Ed]. exists d. split; [exists false, v; auto|].
    vm_compute in Ed. injection Ed as <- <-. eexists. split; [left; reflexivity|]. split; vm_compute; reflexivity. }
  split; [apply G; vm_compute; reflexivity|]. split; [apply G; vm_compute; reflexivity|]. split; vm_compute; reflexivity.
Qed.
Print Assumptions C86_text_refuted.
(** What holds: no request falls back to the default language, or both providers give the details of the components. *)
Theorem C86_text_partial : forall E es es' p p' ic fe reg locale script fuel fallback caching tag h,
  let L := system E p ic fe reg locale script fuel in let L' := system E p' ic fe reg locale script fuel in
  let rs := history_requests L (localiser_new L fallback caching tag) h in
  made es p -> made es' p' -> (forall q, In q rs -> same_string p p' (rq_component q) (rq_identifier q)) ->
  no_fallback (le_provider L) rs ->
  results L (localiser_new L fallback caching tag) h = results L' (localiser_new L' fallback caching tag) h.
Proof.
  intros E es es' p p' ic fe reg locale script fuel fallback caching tag h L L' rs Hm Hm' Hs Hn. apply made_ok in Hm, Hm'.
  apply (C86_localiser perror L (sqlite_provider E p') fallback caching tag h). intros q Hq. split.
  - intros t. exact (sqlite_rows E p p' Hm Hm' _ _ (Hs q Hq) t).
  - intros Hf Ho. destruct (Hn q Hq Hf Ho).
Qed.
Print Assumptions C86_text_partial.
Theorem C86_fallback_partial : forall E es es' p p' ic fe reg locale script fuel fallback caching tag h,
  let L := system E p ic fe reg locale script fuel in let L' := system E p' ic fe reg locale script fuel in
  let rs := history_requests L (localiser_new L fallback caching tag) h in
  made es p -> made es' p' -> (forall q, In q rs -> same_string p p' (rq_component q) (rq_identifier q)) ->
  (forall q, In q rs -> exists cd cd', result E p [] (CallComponent (rq_component q)) = Ok (AnComponent cd) /\
     result E p' [] (CallComponent (rq_component q)) = Ok (AnComponent cd') /\ cd_default cd = cd_default cd') ->
  results L (localiser_new L fallback caching tag) h = results L' (localiser_new L' fallback caching tag) h.
Proof.
  intros E es es' p p' ic fe reg locale script fuel fallback caching tag h L L' rs Hm Hm' Hs Hd. apply made_ok in Hm, Hm'.
  apply (C86_localiser perror L (sqlite_provider E p') fallback caching tag h). intros q Hq. split.
  - intros t. exact (sqlite_rows E p p' Hm Hm' _ _ (Hs q Hq) t).
  - intros _ _. destruct (Hd q Hq) as (cd & cd' & H1 & H2 & He). rewrite (result_component E p Hm) in H1. rewrite (result_component E p' Hm') in H2.
    apply bind_Ok in H1 as (x & Hx & [= ->]). apply bind_Ok in H2 as (x' & Hx' & [= ->]). unfold value in *. cbn [le_provider L system pv_default sqlite_provider].
    rewrite Hx, Hx'. cbn [bind]. congruence.
Qed.
Print Assumptions C86_fallback_partial.

(** ** Examples: another component, and another string of the same component, change nothing. *)
Definition more_rows : list entry := [file "app"
  [row "app" "new" "en" "Extra"; row "app" "greet" "en-ZA" "Howzit {name}"; row "app" "greet" "en" "Hello {name}!"; row "lib" "greet" "en" "Lost";
   row "app" "bye" "en" "Ta-ta"] [wrote "app" "en" "Zoe"; wrote "app" "de" "Max"] [main "app" "en"; main "app" "de"]].
Example C86_example : same_string prov_sys (prov more_rows) (us "app") (us "greet") /\
  result env_sys prov_sys [] (CallStrings (us "app") (us "greet") (us "en")) = result env_sys (prov more_rows) [CallRepository] (CallStrings (us "app") (us "greet") (us "en")) /\
  result env_sys prov_sys [] (CallString (us "app") (us "bye") (us "en")) = Ok (AnString (Some (us "Bye", us "en"))) /\
  result env_sys (prov more_rows) [] (CallString (us "app") (us "bye") (us "en")) = Ok (AnString (Some (us "Ta-ta", us "en"))).
Proof.
  assert (H : same_string prov_sys (prov more_rows) (us "app") (us "greet")).
  { split; [unfold known; vm_compute; tauto|]. split; vm_compute; reflexivity. }
  split; [exact H|]. split; [|split; vm_compute; reflexivity].
  refine (proj2 (proj2 (C86_strings env_sys dir_sys more_rows prov_sys (prov more_rows) [] [CallRepository] (us "app") (us "greet") (us "en") _ _ H)));
    apply prov_made; vm_compute; reflexivity.
Qed.
Example C86_example_text :
  let h := [CallFormat (us "app") (us "greet") [(us "name", VString (us "Jo"))] (us "en") None (Some true); CallLiteral (us "app") (us "bye") (us "fr") (Some true) None;
            CallLiteral (us "app") (us "esc") (us "de") (Some false) None] in
  let L := system env_sys prov_sys icu_ex env_ex [] (fun t => t) (fun _ => None) 8 in
  let L' := system env_sys (prov plugin_added) icu_ex env_ex [] (fun t => t) (fun _ => None) 8 in
  results L (localiser_new L true true (us "en")) h = results L' (localiser_new L' true true (us "en")) h /\
  results L (localiser_new L true true (us "en")) h =
    [Some (Ok (us "Hello Jo!", us "en")); Some (Ok (us "Salut", us "fr")); Some (Err (LStringNotFound (us "app") (us "esc") (us "de") false))].
Proof.
  cbv zeta. split; [|vm_compute; reflexivity].
  apply C86_text_partial with dir_sys plugin_added; try (apply prov_made; vm_compute; reflexivity).
  - intros q Hq. apply sys_same. vm_compute in Hq. destruct Hq as [<-|[<-|[<-|[]]]]; vm_compute; discriminate.
  - intros q Hq. vm_compute in Hq. destruct Hq as [<-|[<-|[<-|[]]]]; cbn [rq_fallback]; intros H; try discriminate H; vm_compute; discriminate.
Qed.
Example C86_example_languages : (exists o o', result env_sys prov_sys [] (CallIdentifier (us "app") (us "greet")) = Ok (AnIdentifier o) /\
  result env_sys (prov more_rows) [] (CallIdentifier (us "app") (us "greet")) = Ok (AnIdentifier o') /\ id_languages o = id_languages o' /\ id_languages o = [us "en"; us "en-ZA"]).
Proof. do 2 eexists. split; [vm_compute; reflexivity|]. split; [vm_compute; reflexivity|]. split; vm_compute; reflexivity. Qed.
Definition other_text : list entry := [file "app" [row "app" "bye" "en" "Bye"; row "app" "bye" "fr" "Salut"; row "app" "greet" "en" "Hi"; row "app" "more" "fr" "Plus"]
  [wrote "app" "en" "Bob"] [main "app" "en"]].
Example C86_example_fallback : let h := [CallLiteral (us "app") (us "bye") (us "de") (Some true) None] in
  let L := system env_sys prov_sys icu_ex env_ex [] (fun t => t) (fun _ => None) 8 in
  let L' := system env_sys (prov other_text) icu_ex env_ex [] (fun t => t) (fun _ => None) 8 in
  results L (localiser_new L true true (us "en")) h = results L' (localiser_new L' true true (us "en")) h /\
  results L (localiser_new L true true (us "en")) h = [Some (Ok (us "Bye", us "en"))].
Proof.
  cbv zeta. split; [|vm_compute; reflexivity].
  apply C86_fallback_partial with dir_sys other_text; try (apply prov_made; vm_compute; reflexivity).
  - intros q Hq. vm_compute in Hq. destruct Hq as [<-|[]]. split; [unfold known; vm_compute; tauto|]. split; vm_compute; reflexivity.
  - intros q Hq. vm_compute in Hq. destruct Hq as [<-|[]]. do 2 eexists. split; [vm_compute; reflexivity|]. split; [vm_compute; reflexivity|]. vm_compute. reflexivity.
Qed.
