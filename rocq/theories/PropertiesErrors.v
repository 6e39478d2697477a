(** Properties C55 to C57: the errors of the library, with the localisation files that come with it. *)
From Verif Require Import Base BaseFacts LexerModel LexerSpec TreeModel TreeSpec DocSpec ValueModel CommandModel FormatterModel FormatterSpec FmtExample
  RegistryModel ProviderModel ProviderSpec LocaliserModel LocaliserSpec LocaliserProofs SystemModel IcuExample PropertiesProvider L10nData ErrorModel ErrorSpec
  ErrorProofs ErrorProofs2.
Local Opaque us.

Lemma told_pure {PE} (L : lenv PE) st t fb d x : told L st t fb d = Some x <-> pure_data L t fb d = Ok x.
Proof.
  unfold told. rewrite uncached_pure. cbn [pure_call unwrap_or]. destruct (pure_data L t fb d) as [y|e| |]; split; try discriminate; intros [= <-]; reflexivity.
Qed.
Lemma uncached_told {PE} (L : lenv PE) st t fb ca d x : uncached_result L st (CallData d t (Some fb) ca) = Some (Ok x) <-> pure_data L t fb d = Ok x.
Proof. rewrite uncached_pure. cbn [pure_call unwrap_or]. split; [intros [= H]; exact H|now intros ->]. Qed.
Lemma custom_cust {PE} (L : lenv PE) st t fb k : custom_text L st t fb k = cust_text L t fb k.
Proof.
  unfold custom_text, cust_text. destruct (told L st t fb (cu_data k)) as [(w & t')|] eqn:E.
  - apply told_pure in E. now rewrite E.
  - destruct (pure_data L t fb (cu_data k)) as [(w & t')|e| |] eqn:E'; try reflexivity. apply (told_pure L st) in E'. congruence.
Qed.
Lemma says_ext l f g e : (forall k, f k = g k) -> says l f e = says l g e.
Proof.
  intros H. destruct e as [e|e|e|e|e|e|e|e|e|e]; try reflexivity; cbn [says].
  - destruct e; cbn [provider_says]; rewrite ?H; reflexivity.
  - destruct e; cbn [command_says]; rewrite ?H; reflexivity.
  - destruct e as [e|e|e|c i t fb|c i|]; cbn [localiser_says]; try reflexivity.
    + destruct e as [| | | | | | | | |e| | | | | | | | | | | | | | | | | | | | | | | | | |]; cbn [formatter_says]; try reflexivity. destruct e; cbn [command_says]; rewrite ?H; reflexivity.
    + destruct e; cbn [provider_says]; rewrite ?H; reflexivity.
  - destruct e as [| | | | | | | | |e| | | | | | | | | | | | | | | | | | | | | | | | | |]; cbn [formatter_says]; try reflexivity. destruct e; cbn [command_says]; rewrite ?H; reflexivity.
Qed.
Lemma row_reads ic : reads_shipped ic -> forall tag c i s, row tag c i = Some s -> reads ic s.
Proof.
  intros H tag c i s Hr. apply row_sound in Hr as (d & r & Hd & Hr & _ & _ & _ & <-). unfold stem_db in Hd.
  destruct (ueqb c _); [injection Hd as <-; apply (H localiser_file _ r (or_introl eq_refl) eq_refl Hr)|].
  destruct (ueqb c _); [injection Hd as <-; apply (H provider_file _ r (or_intror (or_introl eq_refl)) eq_refl Hr)|].
  destruct (ueqb c _); [injection Hd as <-; apply (H sqlite3_file _ r (or_intror (or_intror (or_introl eq_refl))) eq_refl Hr)|discriminate].
Qed.
Lemma look_reads ic l : reads_shipped ic -> forall c i s t', look l c i = Some (s, t') -> reads ic s.
Proof.
  intros H c i s t' Hl. destruct l; cbn [look] in Hl.
  - destruct (row en c i) eqn:E; [|discriminate]. injection Hl as <- _. exact (row_reads ic H _ _ _ _ E).
  - destruct (row it c i) eqn:E; [injection Hl as <- _; exact (row_reads ic H _ _ _ _ E)|]. destruct (row en c i) eqn:E'; [|discriminate].
    injection Hl as <- _. exact (row_reads ic H _ _ _ _ E').
Qed.
Lemma tag_cases e : result_tag Italian e = it /\ bare e \/ result_tag Italian e = en /\ ~ bare e.
Proof. destruct e as [e|e|e|e|e|e|e|e|e|e]; cbn [result_tag bare]; auto. destruct e; cbn [schema_tag own_tag]; auto. Qed.
Lemma tag_english e : result_tag English e = en.
Proof. destruct e as [e|e|e|e|e|e|e|e|e|e]; try reflexivity. now destruct e. Qed.

Lemma and_assoc_l (A B C : Prop) : A /\ B /\ C <-> (A /\ B) /\ C.
Proof. tauto. Qed.

(** ** C55: every error of the library can be localised, with the files that come with it. *)
(** What holds. With English, or a language of which the files have nothing and fallback, the errors with a text have this
    text in the language en-ZA, and the others cannot be localised. *)
Theorem C55_english_partial : forall E es p ic fe reg locale script fuel st t fb ca e w t',
  let L := system E p ic fe reg locale script fuel in
  library E es p -> icu_ok ic -> reads_shipped ic -> 2 <= fuel -> asked E t ->
  comes_to t (us "en-ZA") \/ (~ comes_to t (us "en-ZA") /\ ~ comes_to t (us "it") /\ fb = true /\ defaults_fine E p) ->
  uncached_result L st (CallData (error_data e) t (Some fb) ca) = Some (Ok (w, t')) <->
  says English (custom_text L st t fb) e = Some w /\ t' = us "en-ZA".
Proof.
  intros E es p ic fe reg locale script fuel st t fb ca e w t' L Hlib Hic Hrd Hfu Ht Hto.
  destruct fuel as [|[|n]]; try lia. rewrite uncached_told, (says_ext _ _ _ e (custom_cust L st t fb)).
  assert (Hf : finds E p ic fe reg locale script (S (S n)) t fb (look English)).
  { destruct Hto as [H|(H1 & H2 & -> & H3)]; [exact (finds_english E es p Hlib ic fe reg locale script _ t fb Ht H)|
      exact (finds_other E es p Hlib ic fe reg locale script _ t Ht H1 H2 H3)]. }
  rewrite (error_result L t fb English n Hic Hf (look_reads ic English Hrd) eq_refl e w t'). rewrite tag_english. unfold with_tag.
  destruct (says _ _ e) as [w0|]; cbn [option_map]; split; try discriminate; [intros [= <- <-]; split; reflexivity|intros ([= ->] & ->); reflexivity|intros ([=] & _)].
Qed.
Print Assumptions C55_english_partial.
(** With Italian and fallback: the messages are in Italian, but within the names of the error in the format of the default
    language, en-ZA, which is also the language returned, except for the five errors without names. *)
Theorem C55_italian_partial : forall E es p ic fe reg locale script fuel st t ca e w t',
  let L := system E p ic fe reg locale script fuel in
  library E es p -> icu_ok ic -> reads_shipped ic -> 2 <= fuel -> asked E t -> comes_to t (us "it") -> defaults_fine E p ->
  uncached_result L st (CallData (error_data e) t (Some true) ca) = Some (Ok (w, t')) <->
  says Italian (custom_text L st t true) e = Some w /\ ((bare e /\ t' = us "it") \/ (~ bare e /\ t' = us "en-ZA")).
Proof.
  intros E es p ic fe reg locale script fuel st t ca e w t' L Hlib Hic Hrd Hfu Ht Hto Hdf.
  destruct fuel as [|[|n]]; try lia. rewrite uncached_told, (says_ext _ _ _ e (custom_cust L st t true)).
  pose proof (finds_italian E es p Hlib ic fe reg locale script (S (S n)) t Ht Hto Hdf) as Hf.
  rewrite (error_result L t true Italian n Hic Hf (look_reads ic Italian Hrd) eq_refl e w t'). unfold with_tag.
  destruct (says _ _ e) as [w0|]; cbn [option_map]; [|split; [discriminate|intros ([=] & _)]].
  destruct (tag_cases e) as [(-> & Hb)|(-> & Hb)]; (split; [intros [= <- <-]; auto|]).
  - intros ([= ->] & [(_ & ->)|(H & _)]); [reflexivity|contradiction].
  - intros ([= ->] & [(H & _)|(_ & ->)]); [contradiction|reflexivity].
Qed.
Print Assumptions C55_italian_partial.
(** With Italian and no fallback, or no fallback possible because the file of the lexer is in the directory: only the five
    errors without names. *)
Theorem C55_italian_alone_partial : forall E es p ic fe reg locale script fuel st t fb ca e w t',
  let L := system E p ic fe reg locale script fuel in
  library E es p -> icu_ok ic -> reads_shipped ic -> 2 <= fuel -> asked E t -> comes_to t (us "it") -> fb = false \/ In lexer_file es ->
  uncached_result L st (CallData (error_data e) t (Some fb) ca) = Some (Ok (w, t')) <->
  bare e /\ says Italian (fun _ => None) e = Some w /\ t' = us "it".
Proof.
  intros E es p ic fe reg locale script fuel st t fb ca e w t' L Hlib Hic Hrd Hfu Ht Hto Hfb.
  destruct fuel as [|[|n]]; try lia. rewrite uncached_told.
  assert (Hf : finds E p ic fe reg locale script (S (S n)) t fb only_italian).
  { pose proof (finds_only_italian E es p Hlib ic fe reg locale script (S (S n)) t Ht Hto) as H. destruct fb; [|exact H].
    destruct Hfb as [[=]|Hl]. exact (finds_no_fallback E es p Hlib ic fe reg locale script _ t _ Hl H). }
  assert (Hr : forall c i s t', only_italian c i = Some (s, t') -> reads ic s).
  { intros c i s t0 H. unfold only_italian in H. destruct (row it c i) eqn:Er; [|discriminate]. injection H as <- _. exact (row_reads ic Hrd _ _ _ _ Er). }
  rewrite (only_result L t fb n Hic Hf Hr eq_refl e w t'). rewrite and_assoc_l, <- bare_says_iff. unfold with_tag.
  destruct (bare_says e) as [w0|]; cbn [option_map]; split; try discriminate; [intros [= <- <-]; split; reflexivity|intros ([= ->] & ->); reflexivity|intros ([=] & _)].
Qed.
Print Assumptions C55_italian_alone_partial.
(** In any other language, without fallback: nothing. *)
Theorem C55_other : forall E es p ic fe reg locale script fuel st t fb ca e w t',
  let L := system E p ic fe reg locale script fuel in
  library E es p -> icu_ok ic -> asked E t -> ~ comes_to t (us "en-ZA") -> ~ comes_to t (us "it") -> fb = false \/ In lexer_file es ->
  uncached_result L st (CallData (error_data e) t (Some fb) ca) <> Some (Ok (w, t')).
Proof.
  intros E es p ic fe reg locale script fuel st t fb ca e w t' L Hlib Hic Ht Hen Hit Hfb H. apply uncached_told in H.
  assert (Hf : finds E p ic fe reg locale script fuel t fb nothing).
  { pose proof (finds_nothing E es p Hlib ic fe reg locale script fuel t Ht Hen Hit) as K. destruct fb; [|exact K].
    destruct Hfb as [[=]|Hl]. exact (finds_no_fallback E es p Hlib ic fe reg locale script _ t _ Hl K). }
  apply (no_result L t fb Hic Hf e w t') in H. discriminate H.
Qed.
Print Assumptions C55_other.
(** An error of the library put in a box ([From<ProviderSqlite3Error> for ProviderError]) has its own text there. *)
Theorem C55_custom : forall E es p ic fe reg locale script fuel st t fb e,
  let L := system E p ic fe reg locale script fuel in
  library E es p -> icu_ok ic -> reads_shipped ic -> 2 <= fuel -> asked E t -> comes_to t (us "en-ZA") ->
  custom_text L st t fb (mk_custom (error_data e) (error_text e)) = says English (custom_text L st t fb) e.
Proof.
  intros E es p ic fe reg locale script fuel st t fb e L Hlib Hic Hrd Hfu Ht Hto.
  pose proof (fun w t' => C55_english_partial E es p ic fe reg locale script fuel st t fb None e w t' Hlib Hic Hrd Hfu Ht (or_introl Hto)) as H.
  fold L in H. unfold custom_text at 1, told. cbn [cu_data].
  destruct (says English (custom_text L st t fb) e) as [w|] eqn:Es.
  - rewrite (proj2 (H w (us "en-ZA")) (conj eq_refl eq_refl)). reflexivity.
  - destruct (uncached_result L st (CallData (error_data e) t (Some fb) None)) as [[(w & t')|x| |]|] eqn:Eu; try reflexivity.
    destruct (proj1 (H w t') eq_refl) as ([=] & _).
Qed.
Print Assumptions C55_custom.

(** *** Examples *)
Definition dir_three : list entry := [localiser_file; provider_file; sqlite3_file].
Definition dir_four : list entry := [lexer_file; localiser_file; provider_file; sqlite3_file].
Lemma library_four es : es = dir_three \/ es = dir_four -> library env_stored es (prov es).
Proof.
  intros He. split.
  - apply prov_made. destruct He as [->| ->]; vm_compute; reflexivity.
  - destruct He as [->| ->]; vm_compute; repeat (constructor; [cbn [In]; intuition discriminate|]); constructor.
  - apply stored_fine.
  - intros f Hf. destruct He as [->| ->]; [exact Hf|right; exact Hf].
  - intros f Hf Hs. destruct He as [->| ->]; cbn [In dir_three dir_four] in Hf; intuition subst; try reflexivity; vm_compute in Hs; discriminate Hs.
  - intros f Hf. split; intros Hs; destruct He as [->| ->]; cbn [In dir_three dir_four] in Hf; intuition subst; vm_compute in Hs; discriminate Hs.
  - intros d c (f & Hf & Hs & _). exfalso. destruct He as [->| ->]; cbn [In dir_three dir_four] in Hf; intuition subst; vm_compute in Hs; discriminate Hs.
  - split; vm_compute; reflexivity.
Qed.
Definition errors_ex (es : list entry) : lenv perror := system env_stored (prov es) icu_ex env_ex reg_ex (fun t => t) (fun _ => None) 8.
Definition told_ex (es : list entry) (t : string) (fb : bool) (e : error) : option (ustr * ustr) :=
  told (errors_ex es) (localiser_new (errors_ex es) true true (us "en")) (us t) fb (error_data e).
(** False: the lexer's errors refer to a component whose strings are stored under another name, or to components without
    strings, or to strings that are not stored, or are no patterns. *)
Theorem C55_errors_refuted : library env_stored dir_four (prov dir_four) /\
  Forall (fun e => told_ex dir_four "en-ZA" true e = None)
    [XLexer NoGrammar; XTree EndedAbruptly; XIcu IeGrapheme; XCommand (CeNotFound (us "c")); XSqlite3 (QeNoSqlite3Files (us "p"));
     XFormatter (FePatternPart (us "i") 2); XFormatter (FeSelectorOther (us "k") (us "p"))] /\
  told_ex dir_four "it" true (XProvider (PeComponentNotFound (us "app"))) = None.
Proof. split; [apply library_four; auto|]. split; [|vm_compute; reflexivity]. repeat (constructor; [vm_compute; reflexivity|]). constructor. Qed.
Print Assumptions C55_errors_refuted.
Example C55_example :
  told_ex dir_three "en-ZA" false (XLocaliser (LeProvider (PeComponentNotFound (us "app")))) =
    Some (u8 "LocaliserError::Provider: [ProviderError::ComponentNotFound: ‘The component ‘app’ could not found.’.].", us "en-ZA") /\
  told_ex dir_three "it" true (XProvider (PeComponentNotFound (us "app"))) =
    Some (u8 "ProviderError::ComponentNotFound: ‘Impossibile trovare il componente ""app"".’.", us "en-ZA") /\
  told_ex dir_three "it" false (XProvider (PeComponentNotFound (us "app"))) = None /\
  told_ex dir_three "it" false (XSchema (SeMissingTable (us "pattern"))) = Some (us "Nel banca dati manca la tabella ""pattern"".", us "it") /\
  told_ex dir_three "fr" true (XSchema (SeMissingTable (us "pattern"))) = Some (u8 "The database is missing the table ‘pattern’.", us "en-ZA") /\
  told_ex dir_three "fr" false (XSchema (SeMissingTable (us "pattern"))) = None.
Proof. vm_compute. repeat split. Qed.

(** ** C57: the localisation data of an error names its type and variant. *)
Theorem C57_names_refuted : exists e e', ~ names (error_data e) (error_name e) /\ ~ names (error_data e') (error_name e') /\
  names (error_data e) (us "IcuError", us "LanguageIdentifier") /\ error_name e = (us "RegistryError", us "LanguageIdentifier") /\
  names (error_data e') (us "CommandError", us "Registry") /\ error_name e' = (us "CommandError", us "Custom").
Proof.
  exists (XRegistry (ReLanguageIdentifier (us "x"))), (XCommand (CeCustom (mk_custom (LData [] [] None) []))).
  split; [intros (c & i & vs & [= <- <- <-] & H1 & H2); vm_compute in H1; discriminate|].
  split; [intros (c & i & vs & [= <- <- <-] & H1 & H2); vm_compute in H2; discriminate|].
  split; [do 3 eexists; split; [reflexivity|split; vm_compute; reflexivity]|]. split; [vm_compute; reflexivity|].
  split; [do 3 eexists; split; [reflexivity|split; vm_compute; reflexivity]|vm_compute; reflexivity].
Qed.
Print Assumptions C57_names_refuted.
Ltac named := split; [intros _ []|intros _; do 3 eexists; split; [reflexivity|split; vm_compute; reflexivity]].
Ltac not_named := split; [intros (c0 & i0 & vs0 & [= <- <- <-] & H1 & H2) _; vm_compute in H1, H2; try discriminate H1; discriminate H2|intros H; destruct (H I)].
(** What holds: exactly the misnamed ones do not. *)
Theorem C57_names_partial : forall e, names (error_data e) (error_name e) <-> ~ misnamed e.
Proof.
  intros [e|e|e|e|e|e|e|e|e|e]; destruct e; cbn [error_data error_name misnamed bare]; first [named | not_named].
Qed.
Print Assumptions C57_names_partial.

(** The type and variant can be read off the data nevertheless: errors of different variants have different data. *)
Definition value_text (v : option pvalue) : ustr := match v with Some (VString s) => s | _ => [] end.
Definition read_name (d : ldata) : ustr * ustr :=
  match d with
  | LData c i (Some vs) =>
      let ty := value_text (mget (us "type") vs) in let v := value_text (mget (us "variant") vs) in
      if ueqb c (us "i18n_provider_sqlite3") then
        (us "SchemaError", if ueqb i (us "missing_table") then us "MissingTable" else if ueqb i (us "missing_column") then us "MissingColumn" else
          if ueqb i (us "column_property") then us "ColumnProperty" else if ueqb i (us "column_default") then us "ColumnDefault" else us "ColumnMismatch")
      else if (ueqb ty (us "IcuError") && ueqb v (us "LanguageIdentifier"))%bool then (us "RegistryError", v)
      else if (ueqb ty (us "IcuError") && ueqb v (us "Grapheme"))%bool then
        match mget (us "message") vs with
        | Some (VData (LData _ i' _)) => (ty, if ueqb i' (us "syntax") then us "Syntax" else if ueqb i' (us "white_space") then us "WhiteSpace" else v)
        | _ => (ty, v)
        end
      else if (ueqb ty (us "TreeError") && ueqb v (us "LexerError"))%bool then (ty, us "Lexer")
      else if (ueqb ty (us "CommandError") && ueqb v (us "Registry"))%bool then (ty, us "Custom")
      else (ty, v)
  | _ => ([], [])
  end.
Theorem C57_different : forall e e', error_data e = error_data e' -> error_name e = error_name e'.
Proof.
  assert (H : forall e, read_name (error_data e) = error_name e) by (intros [e|e|e|e|e|e|e|e|e|e]; destruct e; vm_compute; reflexivity).
  intros e e' He. rewrite <- (H e), <- (H e'), He. reflexivity.
Qed.
Print Assumptions C57_different.
Example C57_example : names (error_data (XFormatter (FeFirstChild NString))) (us "FormatterError", us "FirstChild") /\
  error_data (XIcu IeSyntax) <> error_data (XIcu IeWhiteSpace) /\ names (error_data (XIcu IeSyntax)) (us "IcuError", us "Grapheme").
Proof.
  split; [do 3 eexists; split; [reflexivity|split; vm_compute; reflexivity]|]. split; [|do 3 eexists; split; [reflexivity|split; vm_compute; reflexivity]].
  intros H. apply C57_different in H. vm_compute in H. discriminate H.
Qed.

(** ** C56: the localised text of an error is its text of [Display], with the message quoted. *)
Lemma agree_enum ty v m d w : enum ty v m = Some w -> d = ty ++ us "::" ++ v ++ us ": " ++ m -> agree d w.
Proof.
  intros [= <-] ->. right. exists (ty ++ us "::" ++ v), m, []. rewrite !app_nil_r. split; [now rewrite <- !app_assoc|].
  split; [now rewrite <- !app_assoc|]. exists 0. reflexivity.
Qed.
Lemma agree_embedded ty v o d0 w : within (embedded ty v) o = Some w -> (forall w0, o = Some w0 -> agree d0 w0) ->
  agree (ty ++ us "::" ++ v ++ us ": [" ++ d0 ++ us "].") w.
Proof.
  destruct o as [w0|]; [|discriminate]. intros [= <-] H. destruct (H w0 eq_refl) as [->|(b & m & a & -> & -> & n & ->)]; [now left|]. right.
  exists (ty ++ us "::" ++ v ++ us ": [" ++ b), m, (List.concat (repeat (us "].") n) ++ us "]."). rewrite <- !app_assoc. split; [reflexivity|]. split; [reflexivity|].
  exists (S n). rewrite <- (Nat.add_1_r n), repeat_app, concat_app. cbn [repeat List.concat]. now rewrite app_nil_r.
Qed.
Ltac agrees := intros H; first
  [ discriminate H
  | refine (agree_enum _ _ _ _ _ H _); vm_compute; reflexivity
  | injection H as <-; left; vm_compute; reflexivity ].
Lemma provider_agree cust e w : (forall k w0, cust k = Some w0 -> agree (cu_text k) w0) -> ~ error_differs (XProvider e) ->
  provider_says English cust e = Some w -> agree (provider_text e) w.
Proof.
  intros Hk. destruct e; cbn [error_differs provider_says provider_text]; intros Hd; try (exfalso; exact (Hd I)); try agrees.
  intros H. apply (agree_embedded _ _ _ _ _ H). apply Hk.
Qed.
Lemma formatter_agree cust e w : ~ formatter_differs e -> formatter_says English cust e = Some w -> agree (formatter_text e) w.
Proof.
  destruct e; cbn [formatter_differs formatter_says formatter_text]; intros Hd; try (exfalso; exact (Hd I)); agrees.
Qed.
Theorem C56_display_partial : forall cust e w, (forall k w0, cust k = Some w0 -> agree (cu_text k) w0) -> ~ error_differs e ->
  says English cust e = Some w -> agree (error_text e) w.
Proof.
  intros cust e w Hk. destruct e as [e|e|e|e|e|e|e|e|e|e]; cbn [says error_text error_differs].
  - intros _. destruct e; agrees.
  - intros _. discriminate.
  - intros H. destruct (H I).
  - intros Hd. apply (provider_agree cust e w Hk Hd).
  - destruct e; intros Hd; try (exfalso; exact (Hd I)); agrees.
  - destruct e; intros Hd; try (exfalso; exact (Hd I)); agrees.
  - intros _. discriminate.
  - intros H. destruct (H I).
  - destruct e as [e|e|e|c i t fb|c i|]; cbn [differs localiser_says localiser_text]; intros Hd; try (exfalso; exact (Hd I)).
    + intros H. apply (agree_embedded _ _ _ _ _ H). intros w0 H0. exact (formatter_agree cust e w0 Hd H0).
    + intros H. apply (agree_embedded _ _ _ _ _ H). intros w0 H0. apply (provider_agree cust e w0 Hk); [|exact H0]. destruct e; exact Hd.
    + destruct fb; agrees.
    + agrees.
  - intros Hd. apply (formatter_agree cust e w Hd).
Qed.
Print Assumptions C56_display_partial.
Lemma quoted_in d w : quoted d w -> In 8216%N w.
Proof. intros (b & m & a & _ & -> & _). apply in_or_app. right. apply in_or_app. left. vm_compute. auto. Qed.
(** False otherwise: [RegistryError] is localised as IcuError; a column is taken for a table. *)
Theorem C56_display_refuted :
  (exists e w, says English (fun _ => None) e = Some w /\ ~ agree (error_text e) w) /\
  error_text (XSchema (SeColumnMismatch (us "T") (us "C"))) =
    u8 "Check `verify_schema()` as default value type does not match column type for the column ‘T’ of table ‘C’." /\
  says English (fun _ => None) (XSchema (SeColumnMismatch (us "T") (us "C"))) =
    Some (u8 "Check the verify_schema() function as default value type does not match column type for the column ‘C’ of table ‘T’.").
Proof.
  split; [|split; vm_compute; reflexivity]. exists (XRegistry (ReLanguageIdentifier (us "x"))). eexists. split; [reflexivity|].
  intros [H|H]; [vm_compute in H; discriminate|]. apply quoted_in in H. vm_compute in H. intuition discriminate.
Qed.
Print Assumptions C56_display_refuted.
Example C56_example :
  error_text (XLocaliser (LeProvider (PeComponentNotFound (us "app")))) =
    u8 "LocaliserError::Provider: [ProviderError::ComponentNotFound: The component ‘app’ could not found.]." /\
  says English (fun _ => None) (XLocaliser (LeProvider (PeComponentNotFound (us "app")))) =
    Some (u8 "LocaliserError::Provider: [ProviderError::ComponentNotFound: ‘The component ‘app’ could not found.’.].") /\
  ~ error_differs (XLocaliser (LeProvider (PeComponentNotFound (us "app")))).
Proof. split; [vm_compute; reflexivity|]. split; [vm_compute; reflexivity|]. intros []. Qed.
