(** What the localisation of the library's own errors gives with the localisation files that come with it, and the conditions:
    which files are in the directory, and which language is asked for. The texts are written out here, from reading the files
    and crates/*/src/error.rs. *)
From Verif Require Import Base LexerModel TreeModel TreeSpec DocSpec ValueModel CommandModel FormatterModel FormatterSpec RegistryModel ProviderModel ProviderSpec LocaliserModel LocaliserSpec
  L10nData ErrorModel IcuExample.

(** ** The directory *)
(** The three files of the library in use are in the directory, as they come with it. No other file has the components the
    errors refer to; if there is a file for component i18n_lexer, it is the one that comes with the library. The stored
    language tags are canonical. *)
Definition shipped_files : list entry := [localiser_file; provider_file; sqlite3_file].
Definition shipped_components : list ustr := [us "i18n_localiser"; us "i18n_provider"; us "i18n_provider_sqlite3"].
Record library (E : penv) (es : list entry) (p : sprovider) : Prop := mk_library {
  lb_made : made es p;
  lb_names : NoDup (map en_stem es);
  lb_env : env_fine E p;
  lb_files : forall f, In f shipped_files -> In f es;
  lb_lexer : forall f, In f es -> en_stem f = Some (us "i18n_lexer") -> f = lexer_file;
  lb_others : forall f, In f es -> en_stem f <> Some (us "i18n_pattern") /\ en_stem f <> Some (us "i18n_icu");
  lb_aio : forall d c, has_file es aio d ->
    In c (us "i18n_lexer" :: us "i18n_pattern" :: us "i18n_icu" :: shipped_components) -> ~ lists_component d c;
  lb_canon : pe_canon E (us "en-ZA") = Some (us "en-ZA") /\ pe_canon E (us "it") = Some (us "it")
}.

(** The ICU data has the characters of the string in the sets Pattern_White_Space and Pattern_Syntax of Unicode. *)
Definition reads (ic : icu) (s : ustr) : Prop := forall c, In c s ->
  white_space ic c = pattern_white_space c /\ syntax ic c = pattern_syntax c.
Definition reads_shipped (ic : icu) : Prop := forall f d r, In f shipped_files -> en_db f = Some d -> In r (db_pattern d) -> reads ic (pr_string r).

(** ** Languages *)
(** The tag asked for is canonical, and the search of the provider comes to the language: a tag of which an ancestor is the
    beginning of it. *)
Definition asked (E : penv) (t : ustr) : Prop := pe_canon E t = Some t /\ no_wildcard t.
Definition comes_to (t language : ustr) : Prop := exists a, ancestor a t /\ a <> [] /\ starts_with a language.

Inductive language := English | Italian.

(** ** Texts *)
Section Texts.
  Variable l : language.
  (** The text of an error of another library *)
  Variable cust : custom -> option ustr.

  Definition either (en it : ustr) : ustr := match l with English => en | Italian => it end.
  Definition enum (ty variant message : ustr) : option ustr := Some (ty ++ us "::" ++ variant ++ u8 ": ‘" ++ message ++ u8 "’.").
  Definition embedded (ty variant w : ustr) : option ustr := Some (ty ++ us "::" ++ variant ++ us ": [" ++ w ++ us "].").
  Definition within (f : ustr -> option ustr) (o : option ustr) : option ustr := match o with Some w => f w | None => None end.

  Definition registry_says (e : registry_err) : option ustr :=
    match e with ReLanguageIdentifier w => embedded (us "IcuError") (us "LanguageIdentifier") w end.
  Definition icu_says (e : icu_err) : option ustr :=
    match e with
    | IeProperties w => embedded (us "IcuError") (us "Properties") w
    | IeSegmenter w => embedded (us "IcuError") (us "Segmenter") w
    | IeData w => embedded (us "IcuError") (us "Data") w
    | IeGrapheme | IeSyntax | IeWhiteSpace => None
    end.
  Definition provider_says (e : provider_err) : option ustr :=
    let ty := us "ProviderError" in
    match e with
    | PeComponentNotFound c => enum ty (us "ComponentNotFound") (either
        (u8 "The component ‘" ++ c ++ u8 "’ could not found.")
        (us "Impossibile trovare il componente """ ++ c ++ us """."))
    | PeDefaultLanguage c => enum ty (us "DefaultLanguage") (either
        (u8 "The default language tag is missing for the component ‘" ++ c ++ u8 "’.")
        (us "Manca il tag della lingua predefinito per il componente """ ++ c ++ us """."))
    | PeInvalidDefaultLanguage c => enum ty (us "InvalidDefaultLanguage") (either
        (u8 "The default language tag is invalid for the component ‘" ++ c ++ u8 "’.")
        (u8 "Il tag della lingua predefinita non è valido per il componente """ ++ c ++ us """."))
    | PeDefaultLanguageCount c t => enum ty (us "DefaultLanguageCount") (either
        (u8 "There are no localisation strings in the component ‘" ++ c ++ u8 "’ for the default language tag ‘" ++ t ++ u8 "’.")
        (us "Non ci sono stringhe di localizzazione nel componente """ ++ c ++ us """ per il tag di lingua predefinito """ ++ t ++ us """."))
    | PeLanguageTagRegistry e => within (embedded ty (us "LanguageTagRegistry")) (registry_says e)
    | PeCustom e => within (embedded ty (us "Custom")) (cust e)
    end.
  Definition schema_says (e : schema_err) : option ustr :=
    match e with
    | SeSqlite3 w => embedded (us "SchemaError") (us "Sqlite3") w
    | SeVersion _ _ | SeMissingVersion _ => None
    | SeMissingTable n => Some (either
        (u8 "The database is missing the table ‘" ++ n ++ u8 "’.")
        (us "Nel banca dati manca la tabella """ ++ n ++ us """."))
    | SeMissingColumn t c => Some (either
        (u8 "The table ‘" ++ t ++ u8 "’ is missing column ‘" ++ c ++ u8 "’.")
        (us "Nella tabella """ ++ t ++ us """ manca la colonna """ ++ c ++ us """."))
    | SeColumnProperty t c p => Some (either
        (u8 "The column ‘" ++ c ++ u8 "’ of the table ‘" ++ t ++ u8 "’ is missing property ‘" ++ p ++ u8 "’.")
        (us "Nella colonna """ ++ c ++ us """ della tabella """ ++ t ++ u8 """ manca la proprietà """ ++ p ++ us """."))
    | SeColumnDefault t c d => Some (either
        (u8 "The column ‘" ++ c ++ u8 "’ of the table ‘" ++ t ++ u8 "’ must have a default value of ‘" ++ d ++ u8 "’.")
        (u8 "La colonna ‘" ++ c ++ u8 "’ della tabella ‘" ++ t ++ u8 "’ deve avere il valore predefinito ‘" ++ d ++ u8 "’."))
    | SeColumnMismatch t c => Some (either
        (u8 "Check the verify_schema() function as default value type does not match column type for the column ‘" ++ c ++ u8 "’ of table ‘" ++ t ++ u8 "’.")
        (u8 "Controllare la funzione verify_schema() poiché il tipo di valore predefinito non corrisponde al tipo di colonna per la colonna """ ++ c ++ us """ della tabella """ ++ t ++ us """."))
    end.
  Definition sqlite3_says (e : sqlite3_err) : option ustr :=
    let ty := us "ProviderSqlite3Error" in
    match e with
    | QeIo w => embedded ty (us "Io") w
    | QeSqlite3 w => embedded ty (us "Sqlite3") w
    | QeNoSqlite3Files _ => None
    | QeNotDirectory p => enum ty (us "NotDirectory") (either
        (u8 "Provided path ‘" ++ p ++ u8 "’ is not a directory.")
        (u8 "Il percorso fornito “" ++ p ++ u8 "” non è una cartella."))
    | QePathConversion => enum ty (us "PathConversion") (either
        (us "Conversion to {`PathBuf`} error.")
        (us "Errore convertendo in {`PathBuf`}."))
    | QeNotExists p => enum ty (us "NotExists") (either
        (u8 "Provided path ‘" ++ p ++ u8 "’ does not exist.")
        (us "Il percorso fornito """ ++ p ++ us """ non esiste."))
    | QeSchemaInvalid e => within (enum ty (us "SchemaInvalid")) (schema_says e)
    end.
  Definition command_says (e : command_err) : option ustr :=
    match e with
    | CeCustom e => within (embedded (us "CommandError") (us "Registry")) (cust e)
    | CeAlreadyExists _ | CeNotFound _ | CeParameterMissing _ _ | CeInvalidType _ _ => None
    end.
  Definition formatter_says (e : formatter_err) : option ustr :=
    let ty := us "FormatterError" in
    match e with
    | FeLocaliser e => embedded ty (us "Localiser") (localiser_text e)
    | FeTree e => embedded ty (us "Tree") (tree_text e)
    | FeLocale w => embedded ty (us "Locale") w
    | FeCalendar w => embedded ty (us "Calendar") w
    | FeParseInt w => embedded ty (us "ParseInt") w
    | FeDecimal w => embedded ty (us "Decimal") w
    | FeDateTime w => embedded ty (us "DateTime") w
    | FePluralRules w => embedded ty (us "PluralRules") w
    | FeFixedDecimal w => embedded ty (us "FixedDecimal") w
    | FeCommand e => within (embedded ty (us "Command")) (command_says e)
    | FeNoGrammar => enum ty (us "NoGrammar") (either
        (us "No grammar syntax characters was found in the provided localisation string.")
        (us "Nessun carattere di sintassi grammaticale trovato nella stringa di localizzazione fornita."))
    | FeInvalidRoot => enum ty (us "InvalidRoot") (either
        (u8 "The tree root must be a ‘{`Root`}’ node.")
        (u8 "La radice dell'albero deve essere un nodo “{`Root`}”."))
    | FeRetrieveChildren t => enum ty (us "RetrieveChildren") (either
        (u8 "Failed to retrieve the children for the ‘" ++ ntype_text t ++ u8 "’ node.")
        (u8 "Impossibile recuperare i figli per il nodo “" ++ ntype_text t ++ u8 "”."))
    | FeNodeNotFound t => enum ty (us "NodeNotFound") (either
        (u8 "The expected node ‘" ++ ntype_text t ++ u8 "’ was not found.")
        (u8 "Il nodo “" ++ ntype_text t ++ u8 "” non è stato trovato."))
    | FeFirstChild t => enum ty (us "FirstChild") (either
        (u8 "The first child of the ‘" ++ ntype_text t ++ u8 "’ node was not found.")
        (u8 "Il primo figlio del nodo “" ++ ntype_text t ++ u8 "” non è stato trovato."))
    | FeRetrieveNodeData t => enum ty (us "RetrieveNodeData") (either
        (u8 "Failed to retrieve the data for the ‘" ++ ntype_text t ++ u8 "’ node.")
        (u8 "Impossibile recuperare dati per il nodo “" ++ ntype_text t ++ u8 "”."))
    | FeRetrieveNodeToken t => enum ty (us "RetrieveNodeToken") (either
        (u8 "Failed to retrieve the token for the ‘" ++ ntype_text t ++ u8 "’ node.")
        (u8 "Impossibile recuperare il token per il nodo “" ++ ntype_text t ++ u8 "”."))
    | FeLastChild t => enum ty (us "LastChild") (either
        (u8 "The last child of the ‘" ++ ntype_text t ++ u8 "’ node was not found.")
        (u8 "L'ultimo figlio del nodo “" ++ ntype_text t ++ u8 "” non è stato trovato."))
    | FeInvalidNode t => enum ty (us "InvalidNode") (either
        (u8 "Invalid child node found in the ‘" ++ ntype_text t ++ u8 "’ node.")
        (u8 "E' stato trovato un nodo figlio non valido nel nodo “" ++ ntype_text t ++ u8 "”."))
    | FeNoChildren t => enum ty (us "NoChildren") (either
        (u8 "No children nodes was found for ‘" ++ ntype_text t ++ u8 "’ node.")
        (u8 "Nessun nodo figlio è stato trovato per il nodo “" ++ ntype_text t ++ u8 "”."))
    | FePatternNamed i => enum ty (us "PatternNamed") (either
        (u8 "Failed to retrieve the pattern for the named string ‘" ++ i ++ u8 "’.")
        (u8 "Impossibile recuperare il pattern per la stringa denominata “" ++ i ++ u8 "”."))
    | FeInvalidOptionValue v o k => enum ty (us "InvalidOptionValue") (either
        (u8 "The value ‘" ++ v ++ u8 "’ is invalid for the option ‘" ++ o ++ u8 "’ for the keyword ‘" ++ k ++ u8 "’.")
        (u8 "Il valore “" ++ v ++ u8 "” non è valido per l'opzione “" ++ o ++ u8 "” per la parola chiave “" ++ k ++ u8 "”."))
    | FeSelectorNamed n s i => enum ty (us "SelectorNamed") (either
        (u8 "The named string identifier ‘" ++ n ++ u8 "’ was not found for the selector ‘" ++ s ++ u8 "’ of the placeholder ‘" ++ i ++ u8 "’.")
        (u8 "L'identificatore della stringa denominata “" ++ n ++ u8 "” non è stato trovato per il selettore “" ++ s ++ u8 "” del segnaposto “" ++ i ++ u8 "”."))
    | FePlaceholderValue w p => enum ty (us "PlaceholderValue") (either
        (u8 "The placeholder value was not found for the pattern part ‘" ++ w ++ u8 "’ of the placeholder ‘" ++ p ++ u8 "’.")
        (u8 "Il valore segnaposto non è stato trovato per la parte del pattern “" ++ w ++ u8 "” del segnaposto """ ++ p ++ us """."))
    | FeInvalidValue w => enum ty (us "InvalidValue") (either
        (u8 "Invalid value type was provided for the pattern part ‘" ++ w ++ u8 "’.")
        (u8 "È stato fornito un tipo di valore non valido per la parte del pattern “" ++ w ++ u8 "”."))
    | FeNoIcuProvider => enum ty (us "NoIcuProvider") (either
        (u8 "Build error: At least one {`ICU4X`} data provider must be specified for the crate ‘{`i18n_icu`}’ using the crate's features.")
        (u8 "Errore di compilazione: è necessario specificare almeno un fornitore di dati {`ICU4X`} per il crate ""{`i18n_icu`}"" utilizzando le funzionalità del crate."))
    | FeNeverReached => enum ty (us "NeverReached") (either
        (us "Build error: Should never have reached this match branch.")
        (us "Errore di compilazione: non si dovrebbe raggiungere questo ramo di corrispondenza."))
    | FePatternPart _ _ | FeInvalidKeyword _ _ | FeSelectorOther _ _ | FeInvalidOption _ _ _ | FeInvalidSelector _ _ _
    | FeNumberSignString _ | FeSelectorsIndex _ | FeSelectorsIndexNamed _ _ | FeNamedStringIdentifier _ => None
    end.
  Definition localiser_says (e : localiser_err) : option ustr :=
    let ty := us "LocaliserError" in
    match e with
    | LeRegistry e => within (embedded ty (us "Registry")) (registry_says e)
    | LeFormatter e => within (embedded ty (us "Formatter")) (formatter_says e)
    | LeProvider e => within (embedded ty (us "Provider")) (provider_says e)
    | LeStringNotFound c i t fb => enum ty (us "StringNotFound") (either
        (u8 "No string was found for the component ‘" ++ c ++ u8 "’ with identifier ‘" ++ i ++ u8 "’ for the language tag ‘" ++ t ++ u8 "’. Fallback was used: " ++ (if fb then us "True" else us "False") ++ us ".")
        (u8 "Non è stata trovata alcuna stringa per il componente “" ++ c ++ u8 "” con l'identificatore “" ++ i ++ u8 "” e il tag della lingua “" ++ t ++ u8 "”. È stato utilizzato il fallback: " ++ (if fb then us "Vero" else us "Falso") ++ us "."))
    | LeCacheEntry c i => enum ty (us "CacheEntry") (either
        (u8 "Unable to get the string for the component ‘" ++ c ++ u8 "’ with the identifier ‘" ++ i ++ u8 "’ as the cache entry requires values for formatting.")
        (us "Impossibile ottenere la stringa per il componente """ ++ c ++ us """ con l'identificatore """ ++ i ++ u8 """ poiché la voce della cache richiede valori per la formattazione."))
    | LeNeverReached => enum ty (us "NeverReached") (either
        (us "Build error: Should never have reached this match branch.")
        (us "Errore di compilazione: non si dovrebbe raggiungere questo ramo di corrispondenza."))
    end.
  Definition says (e : error) : option ustr :=
    match e with
    | XIcu e => icu_says e | XRegistry e => registry_says e | XProvider e => provider_says e
    | XSqlite3 e => sqlite3_says e | XSchema e => schema_says e | XCommand e => command_says e
    | XLocaliser e => localiser_says e | XFormatter e => formatter_says e
    | XLexer _ | XTree _ => None
    end.
End Texts.

(** The errors that are localised without type and variant. *)
Definition bare (e : error) : Prop :=
  match e with
  | XSchema (SeMissingTable _ | SeMissingColumn _ _ | SeColumnProperty _ _ _ | SeColumnDefault _ _ _ | SeColumnMismatch _ _) => True
  | _ => False
  end.

(** ** Names *)
(** The names of the type and of the variant in the source. *)
Definition error_name (e : error) : ustr * ustr :=
  match e with
  | XIcu e => (us "IcuError", match e with
      | IeProperties _ => us "Properties" | IeSegmenter _ => us "Segmenter" | IeData _ => us "Data" | IeGrapheme => us "Grapheme"
      | IeSyntax => us "Syntax" | IeWhiteSpace => us "WhiteSpace" end)
  | XLexer e => (us "LexerError", match e with NoGrammar => us "NoGrammar" | LexerModel.EmptyString => us "EmptyString" end)
  | XRegistry (ReLanguageIdentifier _) => (us "RegistryError", us "LanguageIdentifier")
  | XProvider e => (us "ProviderError", match e with
      | PeComponentNotFound _ => us "ComponentNotFound" | PeLanguageTagRegistry _ => us "LanguageTagRegistry"
      | PeDefaultLanguage _ => us "DefaultLanguage" | PeInvalidDefaultLanguage _ => us "InvalidDefaultLanguage"
      | PeDefaultLanguageCount _ _ => us "DefaultLanguageCount" | PeCustom _ => us "Custom" end)
  | XSqlite3 e => (us "ProviderSqlite3Error", match e with
      | QeIo _ => us "Io" | QeSqlite3 _ => us "Sqlite3" | QeNotDirectory _ => us "NotDirectory" | QeNoSqlite3Files _ => us "NoSqlite3Files"
      | QePathConversion => us "PathConversion" | QeNotExists _ => us "NotExists" | QeSchemaInvalid _ => us "SchemaInvalid" end)
  | XSchema e => (us "SchemaError", match e with
      | SeSqlite3 _ => us "Sqlite3" | SeMissingTable _ => us "MissingTable" | SeVersion _ _ => us "Version"
      | SeMissingVersion _ => us "MissingVersion" | SeMissingColumn _ _ => us "MissingColumn" | SeColumnProperty _ _ _ => us "ColumnProperty"
      | SeColumnDefault _ _ _ => us "ColumnDefault" | SeColumnMismatch _ _ => us "ColumnMismatch" end)
  | XTree e => (us "TreeError", match e with
      | TreeLexer _ => us "Lexer" | EndedAbruptly => us "EndedAbruptly" | InvalidToken _ _ _ => us "InvalidToken"
      | UniquePattern _ => us "UniquePattern" | MultiNumberSign _ => us "MultiNumberSign" | UniqueNamed _ => us "UniqueNamed" end)
  | XCommand e => (us "CommandError", match e with
      | CeCustom _ => us "Custom" | CeAlreadyExists _ => us "AlreadyExists" | CeNotFound _ => us "NotFound"
      | CeParameterMissing _ _ => us "ParameterMissing" | CeInvalidType _ _ => us "InvalidType" end)
  | XLocaliser e => (us "LocaliserError", match e with
      | LeRegistry _ => us "Registry" | LeFormatter _ => us "Formatter" | LeProvider _ => us "Provider"
      | LeStringNotFound _ _ _ _ => us "StringNotFound" | LeCacheEntry _ _ => us "CacheEntry" | LeNeverReached => us "NeverReached" end)
  | XFormatter e => (us "FormatterError", match e with
      | FeLocaliser _ => us "Localiser" | FeTree _ => us "Tree" | FeLocale _ => us "Locale" | FeCalendar _ => us "Calendar"
      | FeParseInt _ => us "ParseInt" | FeDecimal _ => us "Decimal" | FeDateTime _ => us "DateTime" | FePluralRules _ => us "PluralRules"
      | FeFixedDecimal _ => us "FixedDecimal" | FeCommand _ => us "Command" | FeNoGrammar => us "NoGrammar" | FeInvalidRoot => us "InvalidRoot"
      | FeRetrieveChildren _ => us "RetrieveChildren" | FeNodeNotFound _ => us "NodeNotFound" | FeFirstChild _ => us "FirstChild"
      | FeRetrieveNodeData _ => us "RetrieveNodeData" | FeRetrieveNodeToken _ => us "RetrieveNodeToken" | FeLastChild _ => us "LastChild"
      | FeInvalidNode _ => us "InvalidNode" | FePatternNamed _ => us "PatternNamed" | FePatternPart _ _ => us "PatternPart"
      | FeInvalidOptionValue _ _ _ => us "InvalidOptionValue" | FeInvalidKeyword _ _ => us "InvalidKeyword"
      | FeSelectorNamed _ _ _ => us "SelectorNamed" | FeSelectorOther _ _ => us "SelectorOther" | FeNoChildren _ => us "NoChildren"
      | FeInvalidOption _ _ _ => us "InvalidOption" | FeInvalidSelector _ _ _ => us "InvalidSelector"
      | FeNumberSignString _ => us "NumberSignString" | FeSelectorsIndex _ => us "SelectorsIndex"
      | FeSelectorsIndexNamed _ _ => us "SelectorsIndexNamed" | FePlaceholderValue _ _ => us "PlaceholderValue"
      | FeInvalidValue _ => us "InvalidValue" | FeNamedStringIdentifier _ => us "NamedStringIdentifier"
      | FeNoIcuProvider => us "NoIcuProvider" | FeNeverReached => us "NeverReached" end)
  end.
(** The localisation data has the placeholders [type] and [variant] with these values. *)
Definition names (d : ldata) (n : ustr * ustr) : Prop :=
  exists c i vs, d = LData c i (Some vs) /\ mget (us "type") vs = Some (VString (fst n)) /\ mget (us "variant") vs = Some (VString (snd n)).

(** The errors whose data does not name them: those without type and variant, and those named as another type or variant. *)
Definition misnamed (e : error) : Prop :=
  match e with
  | XRegistry _ | XIcu (IeSyntax | IeWhiteSpace) | XTree (TreeLexer _) | XCommand (CeCustom _) => True
  | _ => bare e
  end.

(** ** Localised text and [Display] *)
(** The text and the language the data is localised to, if it is. *)
Definition told {PE} (L : lenv PE) (st : lstate) (t : ustr) (fb : bool) (d : ldata) : option (ustr * ustr) :=
  match uncached_result L st (CallData d t (Some fb) None) with Some (Ok x) => Some x | _ => None end.
Definition custom_text {PE} (L : lenv PE) (st : lstate) (t : ustr) (fb : bool) (k : custom) : option ustr := option_map fst (told L st t fb (cu_data k)).

(** The localised text is the text of [Display], or has the message after the names quoted: "A::B: m" and "A::B: ‘m’.". *)
Definition quoted (d w : ustr) : Prop := exists before m after, d = before ++ us ": " ++ m ++ after /\
  w = before ++ u8 ": ‘" ++ m ++ u8 "’." ++ after /\ exists n, after = List.concat (repeat (us "].") n).
Definition agree (d w : ustr) : Prop := d = w \/ quoted d w.
(** The errors for which the two differ otherwise. *)
Definition formatter_differs (e : formatter_err) : Prop :=
  match e with
  | FeCommand _ | FeInvalidRoot | FeNoIcuProvider => True
  | _ => False
  end.
Definition differs (e : localiser_err) : Prop :=
  match e with
  | LeRegistry _ | LeCacheEntry _ _ => True
  | LeFormatter e => formatter_differs e
  | LeProvider (PeLanguageTagRegistry _) => True
  | _ => False
  end.
Definition error_differs (e : error) : Prop :=
  match e with
  | XRegistry _ | XProvider (PeLanguageTagRegistry _) | XCommand _ | XSqlite3 (QePathConversion | QeSchemaInvalid _)
  | XSchema (SeMissingTable _ | SeColumnProperty _ _ _ | SeColumnDefault _ _ _ | SeColumnMismatch _ _) => True
  | XLocaliser e => differs e
  | XFormatter e => formatter_differs e
  | _ => False
  end.

(** ** The files that come with the library *)
Definition all_files : list entry := [lexer_file; localiser_file; provider_file; sqlite3_file; application_file; aio_file].
Definition file_row (f : entry) (r : prow) : Prop := exists d, en_db f = Some d /\ In r (db_pattern d).
(** The strings that are no patterns: with a literal inside of braces, or the same placeholder twice. *)
Definition unreadable : list (ustr * ustr) :=
  map (fun i => (us "i18n_localiser", us i)) ["invalid_root"; "selector_other"; "invalid_selector"; "number_sign_string";
    "named_string_identifier"; "no_icu_provider"; "already_exists"; "command_not_found"]%string ++
  map (fun i => (us "i18n_provider_sqlite3", us i)) ["path_conversion"; "no_sqlite3"; "schema_version"; "schema_version_missing"]%string.
(** The strings that are not translated. *)
Definition untranslated : list ustr := [us "error_format_enum"; us "error_format_enum_embedded"; us "error_format"; us "error_format_embedded"].
(** The string is used as it is, or a formatter can be made of it. *)
Definition usable (ic : icu) (fe : fmtenv) (reg : cregistry) (tag locale s : ustr) : Prop :=
  no_syntax s \/ exists fm, formatter_try_new ic localiser_grammar fe reg tag locale s = Ok fm.
(** The placeholders of the string *)
Definition has_placeholder (ic : icu) (s ph : ustr) : Prop := exists a, content_of ic localiser_grammar s a /\ In ph (placeholder_names a).
