(** The error types of the library, the localisation data they are turned into ([LocalisationTrait::localisation_data]) and
    their texts ([Display]). An error of another library (ICU4X, SQLite, input/output, [ParseIntError]) is given by its text.
    A path is given by the text of [Path::display]. *)
From Coq Require Import DecimalString.
From Verif Require Import Base LexerModel TreeModel ValueModel L10nData.

(** The code that builds the data is the same in every variant: a map with the keys [type], [variant], and [message] or
    [error], inserted in this order (for example crates/lexer/src/error.rs 128-146 and 68-85). *)
Definition str (s : ustr) : pvalue := VString s.
Definition enum_message (ty variant : ustr) (message : ldata) : ldata :=
  LData (us "i18n_localiser") (us "error_format_enum")
    (Some [(us "type", str ty); (us "variant", str variant); (us "message", VData message)]).
Definition enum_embedded (ty variant : ustr) (error : pvalue) : ldata :=
  LData (us "i18n_localiser") (us "error_format_enum_embedded")
    (Some [(us "type", str ty); (us "variant", str variant); (us "error", error)]).

(** [Display] of [usize] *)
Definition show (n : nat) : ustr := us (NilEmpty.string_of_uint (Nat.to_uint n)).

(** A boxed error of any type implementing [LocalisationTrait] and [Display]: its data and its text. *)
Record custom := mk_custom { cu_data : ldata; cu_text : ustr }.

(** ** crates/utility/src/error.rs *)

(** 23-28 [RegistryError]; the feature [extend] does not exist in Cargo.toml. *)
Inductive registry_err := ReLanguageIdentifier (text : ustr).
(** 32-77 *)
Definition registry_data (e : registry_err) : ldata :=
  match e with ReLanguageIdentifier w => enum_embedded (us "IcuError") (us "LanguageIdentifier") (str w) end.
(** 79-93 *)
Definition registry_text (e : registry_err) : ustr :=
  match e with ReLanguageIdentifier w => us "RegistryError::LanguageIdentifier: [" ++ w ++ us "]." end.

(** ** crates/lexer/src/error.rs *)

(** 45-58 [IcuError]; the first three with feature [buffer] *)
Inductive icu_err := IeProperties (text : ustr) | IeSegmenter (text : ustr) | IeData (text : ustr) | IeGrapheme | IeSyntax | IeWhiteSpace.
(** 62-194 *)
Definition icu_data (e : icu_err) : ldata :=
  let ty := us "IcuError" in
  match e with
  | IeProperties w => enum_embedded ty (us "Properties") (str w)
  | IeSegmenter w => enum_embedded ty (us "Segmenter") (str w)
  | IeData w => enum_embedded ty (us "Data") (str w)
  | IeGrapheme => enum_message ty (us "Grapheme") (LData (us "i18n_icu") (us "grapheme") None)
  | IeSyntax => enum_message ty (us "Grapheme") (LData (us "i18n_icu") (us "syntax") None)
  | IeWhiteSpace => enum_message ty (us "Grapheme") (LData (us "i18n_icu") (us "white_space") None)
  end.
(** 196-228 *)
Definition icu_text (e : icu_err) : ustr :=
  match e with
  | IeProperties w => us "IcuError::Properties: [" ++ w ++ us "]."
  | IeSegmenter w => us "IcuError::Segmenter: [" ++ w ++ us "]."
  | IeData w => us "IcuError::Data: [" ++ w ++ us "]."
  | IeGrapheme => u8 "No data provider is available for the ‘GraphemeClusterSegmenter’."
  | IeSyntax => u8 "No data provider is available for the ‘Pattern_Syntax’."
  | IeWhiteSpace => u8 "No data provider is available for the ‘Pattern_White_Space’."
  end.

(** 268-318 [LexerError] *)
Definition lexer_data (e : lexer_error) : ldata :=
  let ty := us "LexerError" in
  match e with
  | NoGrammar => enum_message ty (us "NoGrammar") (LData (us "i18n_lexer") (us "no_grammar_syntax") None)
  | LexerModel.EmptyString => enum_message ty (us "EmptyString") (LData (us "i18n_lexer") (us "empty_string") None)
  end.
(** 320-333 *)
Definition lexer_text (e : lexer_error) : ustr :=
  match e with
  | NoGrammar => us "LexerError::NoGrammar: No grammar syntax characters was supplied."
  | LexerModel.EmptyString => us "LexerError::EmptyString: Empty string was supplied."
  end.

(** ** crates/provider/core/src/error.rs *)

(** 39-46 [ProviderError] *)
Inductive provider_err :=
| PeComponentNotFound (component : ustr)
| PeLanguageTagRegistry (e : registry_err)
| PeDefaultLanguage (component : ustr)
| PeInvalidDefaultLanguage (component : ustr)
| PeDefaultLanguageCount (component language : ustr)
| PeCustom (e : custom).
(** 50-202 *)
Definition provider_data (e : provider_err) : ldata :=
  let ty := us "ProviderError" in
  let message (identifier : ustr) vs := LData (us "i18n_provider") identifier (Some vs) in
  match e with
  | PeComponentNotFound c => enum_message ty (us "ComponentNotFound") (message (us "component_not_found") [(us "component", str c)])
  | PeLanguageTagRegistry e => enum_embedded ty (us "LanguageTagRegistry") (VData (registry_data e))
  | PeDefaultLanguage c => enum_message ty (us "DefaultLanguage") (message (us "default_language") [(us "component", str c)])
  | PeInvalidDefaultLanguage c =>
      enum_message ty (us "InvalidDefaultLanguage") (message (us "invalid_default_language") [(us "component", str c)])
  | PeDefaultLanguageCount c l =>
      enum_message ty (us "DefaultLanguageCount") (message (us "default_language_count") [(us "component", str c); (us "language", str l)])
  | PeCustom e => enum_embedded ty (us "Custom") (VData (cu_data e))
  end.
(** 204-235 *)
Definition provider_text (e : provider_err) : ustr :=
  match e with
  | PeComponentNotFound c => u8 "ProviderError::ComponentNotFound: The component ‘" ++ c ++ u8 "’ could not found."
  | PeLanguageTagRegistry e => us "ProviderError::LanguageTagRegistry: [" ++ registry_text e ++ us "]."
  | PeDefaultLanguage c => u8 "ProviderError::DefaultLanguage: The default language tag is missing for the component ‘" ++ c ++ u8 "’."
  | PeInvalidDefaultLanguage c =>
      u8 "ProviderError::InvalidDefaultLanguage: The default language tag is invalid for the component ‘" ++ c ++ u8 "’."
  | PeDefaultLanguageCount c l =>
      u8 "ProviderError::DefaultLanguageCount: There are no localisation strings in the component ‘" ++ c ++
      u8 "’ for the default language tag ‘" ++ l ++ u8 "’."
  | PeCustom e => us "ProviderError::Custom: [" ++ cu_text e ++ us "]."
  end.

(** ** crates/provider/sqlite3/src/error.rs *)

(** 287-296 [SchemaError] *)
Inductive schema_err :=
| SeSqlite3 (text : ustr)
| SeMissingTable (name : ustr)
| SeVersion (path version : ustr)
| SeMissingVersion (path : ustr)
| SeMissingColumn (table column : ustr)
| SeColumnProperty (table column property : ustr)
| SeColumnDefault (table column default : ustr)
| SeColumnMismatch (table column : ustr).
(** 298-458 *)
Definition schema_data (e : schema_err) : ldata :=
  let ty := us "SchemaError" in
  let message (identifier : ustr) vs := LData (us "i18n_provider_sqlite3") identifier (Some vs) in
  match e with
  | SeSqlite3 w => enum_embedded ty (us "Sqlite3") (str w)
  | SeMissingTable n => message (us "missing_table") [(us "name", str n)]
  | SeVersion p v => enum_message ty (us "Version") (message (us "schema_version") [(us "path", str p); (us "version", str v)])
  | SeMissingVersion p => enum_message ty (us "MissingVersion") (message (us "schema_version_missing") [(us "path", str p)])
  | SeMissingColumn t c => message (us "missing_column") [(us "table", str t); (us "column", str c)]
  | SeColumnProperty t c p => message (us "column_property") [(us "table", str t); (us "column", str c); (us "property", str p)]
  | SeColumnDefault t c d => message (us "column_default") [(us "table", str t); (us "column", str c); (us "default", str d)]
  | SeColumnMismatch t c => message (us "column_mismatch") [(us "table", str t); (us "column", str c)]
  end.
(** 460-513 *)
Definition schema_text (e : schema_err) : ustr :=
  match e with
  | SeSqlite3 w => us "SchemaError::Sqlite3: [" ++ w ++ us "]."
  | SeMissingTable n => u8 "The database is missing table ‘" ++ n ++ u8 "’."
  | SeVersion p v =>
      u8 "SchemaError::Version: The Sqlite3 file ‘" ++ p ++ u8 "’ is using unsupported schema version. The schema version must be ‘" ++ v ++ u8 "’."
  | SeMissingVersion p =>
      u8 "SchemaError::MissingVersion: The Sqlite3 file ‘" ++ p ++ u8 "’ is missing the schema version entry in the ‘metadata’ table."
  | SeMissingColumn t c => u8 "The table ‘" ++ t ++ u8 "’ is missing column ‘" ++ c ++ u8 "’."
  | SeColumnProperty t c p => u8 "The column ‘" ++ c ++ u8 "’ of table ‘" ++ t ++ u8 "’ is missing property ‘" ++ p ++ u8 "’."
  | SeColumnDefault t c d => u8 "The column ‘" ++ c ++ u8 "’ of table ‘" ++ t ++ u8 "’ must have a default value of ‘" ++ d ++ u8 "’."
  | SeColumnMismatch t c =>
      u8 "Check `verify_schema()` as default value type does not match column type for the column ‘" ++ t ++ u8 "’ of table ‘" ++ c ++ u8 "’."
  end.

(** 39-47 [ProviderSqlite3Error] *)
Inductive sqlite3_err :=
| QeIo (text : ustr)
| QeSqlite3 (text : ustr)
| QeNotDirectory (path : ustr)
| QeNoSqlite3Files (path : ustr)
| QePathConversion
| QeNotExists (path : ustr)
| QeSchemaInvalid (e : schema_err).
(** 51-213 *)
Definition sqlite3_data (e : sqlite3_err) : ldata :=
  let ty := us "ProviderSqlite3Error" in
  let message (identifier : ustr) vs := LData (us "i18n_provider_sqlite3") identifier vs in
  match e with
  | QeIo w => enum_embedded ty (us "Io") (str w)
  | QeSqlite3 w => enum_embedded ty (us "Sqlite3") (str w)
  | QeNotDirectory p => enum_message ty (us "NotDirectory") (message (us "path_not_directory") (Some [(us "path", str p)]))
  | QeNoSqlite3Files p => enum_message ty (us "NoSqlite3Files") (message (us "no_sqlite3") (Some [(us "path", str p)]))
  | QePathConversion => enum_message ty (us "PathConversion") (message (us "path_conversion") None)
  | QeNotExists p => enum_message ty (us "NotExists") (message (us "path_not_exist") (Some [(us "path", str p)]))
  | QeSchemaInvalid e => enum_message ty (us "SchemaInvalid") (schema_data e)
  end.
(** 215-250 *)
Definition sqlite3_text (e : sqlite3_err) : ustr :=
  match e with
  | QeIo w => us "ProviderSqlite3Error::Io: [" ++ w ++ us "]."
  | QeSqlite3 w => us "ProviderSqlite3Error::Sqlite3: [" ++ w ++ us "]."
  | QeNotDirectory p => u8 "ProviderSqlite3Error::NotDirectory: Provided path ‘" ++ p ++ u8 "’ is not a directory."
  | QeNoSqlite3Files p => u8 "ProviderSqlite3Error::NoSqlite3Files: No ‘.sqlite3’ files was found in ‘" ++ p ++ u8 "’."
  | QePathConversion => us "ProviderSqlite3Error::PathConversion: Conversion to PathBuf error."
  | QeNotExists p => u8 "ProviderSqlite3Error::NotExists: Provided path ‘" ++ p ++ u8 "’ does not exist."
  | QeSchemaInvalid e => us "ProviderSqlite3Error::SchemaInvalid: [" ++ schema_text e ++ us "]."
  end.

(** ** crates/localiser/src/error.rs *)

(** crates/localiser/src/tree.rs 89-104 and 917-931: [Display] of [NodeType] and [ParserState] *)
Definition ntype_text (t : ntype) : ustr :=
  match t with
  | NRoot => us "Root" | NNamedGroup => us "NamedGroup" | NNamedString => us "NamedString" | NString => us "String"
  | NText => us "Text" | NNumberSign => us "NumberSign" | NCommand => us "Command" | NPattern => us "Pattern"
  | NIdentifier => us "Identifier" | NSelector => us "Selector"
  end.
Definition pstate_text (s : TreeModel.pstate) : ustr :=
  match s with
  | PCommand => us "Command" | PKeyword => us "Keyword" | PLiteral => us "Literal" | PLiteralText => us "LiteralText"
  | PNamedGroup => us "NamedGroup" | PNamedString => us "NamedString" | PPattern => us "Pattern" | PString => us "String"
  | PSubString => us "SubString"
  end.

(** 57-215 [TreeError] *)
Definition tree_data (e : tree_error) : ldata :=
  let ty := us "TreeError" in
  let message (identifier : ustr) vs := LData (us "i18n_pattern") identifier vs in
  match e with
  | TreeLexer e => enum_embedded ty (us "LexerError") (VData (lexer_data e))
  | EndedAbruptly => enum_message ty (us "EndedAbruptly") (message (us "string_ended_abruptly") None)
  | InvalidToken st n tok =>
      enum_message ty (us "InvalidToken") (message (us "invalid_token")
        (Some [(us "state", str (pstate_text st)); (us "position", VUnsigned (N.of_nat n)); (us "token", str tok)]))
  | UniquePattern i => enum_message ty (us "UniquePattern") (message (us "unique_pattern") (Some [(us "identifier", str i)]))
  | MultiNumberSign n =>
      enum_message ty (us "MultiNumberSign") (message (us "multi_number_sign") (Some [(us "position", VUnsigned (N.of_nat n))]))
  | UniqueNamed i => enum_message ty (us "UniqueNamed") (message (us "unique_named") (Some [(us "identifier", str i)]))
  end.
(** 217-251 *)
Definition tree_text (e : tree_error) : ustr :=
  match e with
  | TreeLexer e => us "TreeError::LexerError: [" ++ lexer_text e ++ us "]."
  | EndedAbruptly => us "TreeError::EndedAbruptly: The string ended abruptly."
  | InvalidToken st n tok =>
      u8 "TreeError::InvalidToken: In the parser state ‘" ++ pstate_text st ++ u8 "’ an invalid token ‘" ++ tok ++
      u8 "’ was found at the position " ++ show n ++ us " of the string."
  | UniquePattern i => u8 "TreeError::UniquePattern: Pattern identifiers must be unique. The identifier ‘" ++ i ++ u8 "’ already exists."
  | MultiNumberSign n => us "TreeError::MultiNumberSign: Found sequential number signs at the position " ++ show n ++ us " of the string."
  | UniqueNamed i =>
      u8 "TreeError::UniqueNamed: Named substrings must have unique identifiers. The identifier ‘" ++ i ++ u8 "’ already exists."
  end.

(** 274-280 [CommandError] *)
Inductive command_err :=
| CeCustom (e : custom)
| CeAlreadyExists (command : ustr)
| CeNotFound (command : ustr)
| CeParameterMissing (command : ustr) (index : nat)
| CeInvalidType (command : ustr) (index : nat).
(** 284-423 *)
Definition command_data (e : command_err) : ldata :=
  let ty := us "CommandError" in
  let message (identifier : ustr) vs := LData (us "i18n_pattern") identifier (Some vs) in
  match e with
  | CeCustom e => enum_embedded ty (us "Registry") (VData (cu_data e))
  | CeAlreadyExists c => enum_message ty (us "AlreadyExists") (message (us "already_exists") [(us "command", str c)])
  | CeNotFound c => enum_message ty (us "NotFound") (message (us "command_not_found") [(us "command", str c)])
  | CeParameterMissing c n =>
      enum_message ty (us "ParameterMissing") (message (us "parameter_missing") [(us "command", str c); (us "index", VUnsigned (N.of_nat n))])
  | CeInvalidType c n =>
      enum_message ty (us "InvalidType") (message (us "invalid_type") [(us "command", str c); (us "index", VUnsigned (N.of_nat n))])
  end.
(** 425-455 *)
Definition command_text (e : command_err) : ustr :=
  match e with
  | CeCustom e => us "CommandError::Custom: [" ++ cu_text e ++ us "]."
  | CeAlreadyExists c => u8 "CommandError::AlreadyExists: The command ‘" ++ c ++ u8 "’ already exists in the CommandRegistry."
  | CeNotFound c => u8 "CommandError::NotFound: The command ‘" ++ c ++ u8 "’ was not found in the CommandRegistry."
  | CeParameterMissing c n =>
      us "CommandError::ParameterMissing: The parameter number " ++ show n ++ u8 " is missing for the command ‘" ++ c ++ u8 "’."
  | CeInvalidType c n =>
      us "CommandError::InvalidType: The parameter number " ++ show n ++ u8 " has invalid type for the command ‘" ++ c ++ u8 "’."
  end.

(** 472-479 [LocaliserError], 769-806 [FormatterError] *)
Inductive localiser_err :=
| LeRegistry (e : registry_err)
| LeFormatter (e : formatter_err)
| LeProvider (e : provider_err)
| LeStringNotFound (component identifier tag : ustr) (fallback : bool)
| LeCacheEntry (component identifier : ustr)
| LeNeverReached
with formatter_err :=
| FeLocaliser (e : localiser_err)
| FeTree (e : tree_error)
| FeLocale (text : ustr)
| FeCalendar (text : ustr)
| FeParseInt (text : ustr)
| FeDecimal (text : ustr)
| FeDateTime (text : ustr)
| FePluralRules (text : ustr)
| FeFixedDecimal (text : ustr)
| FeCommand (e : command_err)
| FeNoGrammar
| FeInvalidRoot
| FeRetrieveChildren (t : ntype)
| FeNodeNotFound (t : ntype)
| FeFirstChild (t : ntype)
| FeRetrieveNodeData (t : ntype)
| FeRetrieveNodeToken (t : ntype)
| FeLastChild (t : ntype)
| FeInvalidNode (t : ntype)
| FePatternNamed (identifier : ustr)
| FePatternPart (identifier : ustr) (index : nat)
| FeInvalidOptionValue (value option keyword : ustr)
| FeInvalidKeyword (keyword placeholder : ustr)
| FeSelectorNamed (named selector identifier : ustr)
| FeSelectorOther (keyword placeholder : ustr)
| FeNoChildren (t : ntype)
| FeInvalidOption (option keyword placeholder : ustr)
| FeInvalidSelector (option keyword placeholder : ustr)
| FeNumberSignString (index : nat)
| FeSelectorsIndex (index : nat)
| FeSelectorsIndexNamed (identifier : ustr) (index : nat)
| FePlaceholderValue (part placeholder : ustr)
| FeInvalidValue (part : ustr)
| FeNamedStringIdentifier (identifier : ustr)
| FeNoIcuProvider
| FeNeverReached.

(** 635-675 and 1731-1856. The line break and the sixteen blanks in the text of [CacheEntry] are in the source (661-662). *)
Fixpoint localiser_text (e : localiser_err) : ustr :=
  match e with
  | LeRegistry e => us "LocaliserError::Registry: [" ++ registry_text e ++ us "]."
  | LeFormatter e => us "LocaliserError::Formatter: [" ++ formatter_text e ++ us "]."
  | LeProvider e => us "LocaliserError::Provider: [" ++ provider_text e ++ us "]."
  | LeStringNotFound c i t fb =>
      u8 "LocaliserError::StringNotFound: No string was found for the component ‘" ++ c ++ u8 "’ with identifier ‘" ++ i ++
      u8 "’ for the language tag ‘" ++ t ++ u8 "’. Fallback was used: " ++ (if fb then us "True" else us "False") ++ us "."
  | LeCacheEntry c i =>
      u8 "LocaliserError::CacheEntry: Unable to get the string for the component ‘" ++ c ++ u8 "’ with the identifier" ++
      10%N :: u8 "                ‘" ++ i ++ u8 "’ as the cache entry requires values for formatting."
  | LeNeverReached => us "LocaliserError::NeverReached: Build error: Should never have reached this match branch."
  end
with formatter_text (e : formatter_err) : ustr :=
  let node (variant before after : ustr) (t : ntype) := us "FormatterError::" ++ variant ++ us ": " ++ before ++ ntype_text t ++ after in
  match e with
  | FeLocaliser e => us "FormatterError::Localiser: [" ++ localiser_text e ++ us "]."
  | FeTree e => us "FormatterError::Tree: [" ++ tree_text e ++ us "]."
  | FeLocale w => us "FormatterError::Locale: [" ++ w ++ us "]."
  | FeCalendar w => us "FormatterError::Calendar: [" ++ w ++ us "]."
  | FeParseInt w => us "FormatterError::ParseInt: [" ++ w ++ us "]."
  | FeDecimal w => us "FormatterError::Decimal: [" ++ w ++ us "]."
  | FeDateTime w => us "FormatterError::DateTime: [" ++ w ++ us "]."
  | FePluralRules w => us "FormatterError::PluralRules: [" ++ w ++ us "]."
  | FeFixedDecimal w => us "FormatterError::FixedDecimal: [" ++ w ++ us "]."
  | FeCommand e => us "FormatterError::Command: [" ++ command_text e ++ us "]."
  | FeInvalidRoot => u8 "FormatterError::InvalidRoot: The tree root must be a ‘Root’ node."
  | FeNoGrammar => us "FormatterError::NoGrammar: No grammar syntax characters was found in the provided localisation string."
  | FeRetrieveChildren t => node (us "RetrieveChildren") (u8 "Failed to retrieve the children for the ‘") (u8 "’ node.") t
  | FeNodeNotFound t => node (us "NodeNotFound") (u8 "The expected node ‘") (u8 "’ was not found.") t
  | FeFirstChild t => node (us "FirstChild") (u8 "The first child of the ‘") (u8 "’ node was not found.") t
  | FeRetrieveNodeData t => node (us "RetrieveNodeData") (u8 "Failed to retrieve the data for the ‘") (u8 "’ node.") t
  | FeRetrieveNodeToken t => node (us "RetrieveNodeToken") (u8 "Failed to retrieve the token for the ‘") (u8 "’ node.") t
  | FeLastChild t => node (us "LastChild") (u8 "The last child of the ‘") (u8 "’ node was not found.") t
  | FeInvalidNode t => node (us "InvalidNode") (u8 "Invalid child node found in the ‘") (u8 "’ node.") t
  | FePatternNamed i => u8 "FormatterError::PatternNamed: Failed to retrieve the pattern for the named string ‘" ++ i ++ u8 "’."
  | FePatternPart i n =>
      u8 "FormatterError::PatternPart: Failed to retrieve the part ‘" ++ i ++ u8 "’ of the pattern for the named string ‘" ++ show n ++ u8 "’."
  | FeInvalidOptionValue v o k =>
      u8 "FormatterError::InvalidOptionValue: The value ‘" ++ v ++ u8 "’ is invalid for the option ‘" ++ o ++ u8 "’ for the keyword ‘" ++ k ++ u8 "’."
  | FeInvalidKeyword k p => u8 "FormatterError::InvalidKeyword: Invalid keyword ‘" ++ k ++ u8 "’ for the placeholder ‘" ++ p ++ u8 "’."
  | FeSelectorNamed n s i =>
      u8 "FormatterError::SelectorNamed: The named string identifier ‘" ++ n ++ u8 "’ was not found for the selector ‘" ++ s ++
      u8 "’ of the placeholder ‘" ++ i ++ u8 "’."
  | FeSelectorOther k p =>
      u8 "FormatterError::SelectorOther: The required ‘other’ selector was not found for the keyword ‘" ++ k ++ u8 "’ of the placeholder ‘" ++ p ++ u8 "’."
  | FeNoChildren t => node (us "NoChildren") (u8 "No children nodes was found for ‘") (u8 "’ node.") t
  | FeInvalidOption o k p =>
      u8 "FormatterError::InvalidOption: Invalid option ‘" ++ o ++ u8 "’ for the keyword ‘" ++ k ++ u8 "’ of the placeholder ‘" ++ p ++ u8 "’."
  | FeInvalidSelector o k p =>
      u8 "FormatterError::InvalidSelector: Invalid selector ‘" ++ o ++ u8 "’ for the keyword ‘" ++ k ++ u8 "’ of the placeholder ‘" ++ p ++ u8 "’."
  | FeNumberSignString n =>
      us "FormatterError::NumberSignString: Unable to retrieve the formatted string for the NumberSign index " ++ show n ++ us "."
  | FeSelectorsIndex n => us "FormatterError::SelectorsIndex: The index " ++ show n ++ us " is not found in the collected selectors."
  | FeSelectorsIndexNamed i n =>
      u8 "FormatterError::SelectorsIndexNamed: Failed to retrieve the string for the named string ‘" ++ i ++ u8 "’ of the selectors index " ++
      show n ++ us "."
  | FePlaceholderValue w p =>
      u8 "FormatterError::PlaceholderValue: The placeholder value was not found for the pattern part ‘" ++ w ++ u8 "’ of the placeholder ‘" ++ p ++ u8 "’."
  | FeInvalidValue w => u8 "FormatterError::InvalidValue: Invalid value type was provided for the pattern part ‘" ++ w ++ u8 "’."
  | FeNamedStringIdentifier i =>
      u8 "FormatterError::NamedStringIdentifier: The named string identifier ‘" ++ i ++
      u8 "’ already exists. The identifiers must be unique and not ‘_’."
  | FeNoIcuProvider =>
      u8 "FormatterError::NoIcuProvider: Build error: At least one ICU4X data provider must be specified for the crate ‘i18n_icu’ using the crate's features."
  | FeNeverReached => us "FormatterError::NeverReached: Build error: Should never have reached this match branch."
  end.

(** 810-1729 *)
Definition formatter_data (e : formatter_err) : ldata :=
  let ty := us "FormatterError" in
  let message (variant identifier : ustr) vs := enum_message ty variant (LData (us "i18n_localiser") identifier vs) in
  let node variant identifier t := message variant identifier (Some [(us "node_type", str (ntype_text t))]) in
  let embedded variant w := enum_embedded ty variant (str w) in
  let index n := (us "index", VUnsigned (N.of_nat n)) in
  match e with
  | FeLocaliser e => embedded (us "Localiser") (localiser_text e)
  | FeTree e => embedded (us "Tree") (tree_text e)
  | FeLocale w => embedded (us "Locale") w
  | FeCalendar w => embedded (us "Calendar") w
  | FeParseInt w => embedded (us "ParseInt") w
  | FeDecimal w => embedded (us "Decimal") w
  | FeDateTime w => embedded (us "DateTime") w
  | FePluralRules w => embedded (us "PluralRules") w
  | FeFixedDecimal w => embedded (us "FixedDecimal") w
  | FeCommand e => enum_embedded ty (us "Command") (VData (command_data e))
  | FeInvalidRoot => message (us "InvalidRoot") (us "invalid_root") None
  | FeNoGrammar => message (us "NoGrammar") (us "no_grammar") None
  | FeRetrieveChildren t => node (us "RetrieveChildren") (us "retrieve_children") t
  | FeNodeNotFound t => node (us "NodeNotFound") (us "node_not_found") t
  | FeFirstChild t => node (us "FirstChild") (us "first_child") t
  | FeRetrieveNodeData t => node (us "RetrieveNodeData") (us "retrieve_node_data") t
  | FeRetrieveNodeToken t => node (us "RetrieveNodeToken") (us "retrieve_node_token") t
  | FeLastChild t => node (us "LastChild") (us "last_child") t
  | FeInvalidNode t => node (us "InvalidNode") (us "invalid_node") t
  | FePatternNamed i => message (us "PatternNamed") (us "pattern_named") (Some [(us "identifier", str i)])
  | FePatternPart i n => message (us "PatternPart") (us "pattern_part") (Some [(us "identifier", str i); index n])
  | FeInvalidOptionValue v o k =>
      message (us "InvalidOptionValue") (us "invalid_option_value") (Some [(us "value", str v); (us "option", str o); (us "keyword", str k)])
  | FeInvalidKeyword k p => message (us "InvalidKeyword") (us "invalid_keyword") (Some [(us "keyword", str k); (us "placeholder", str p)])
  | FeSelectorNamed n s i =>
      message (us "SelectorNamed") (us "selector_named") (Some [(us "named", str n); (us "selector", str s); (us "identifier", str i)])
  | FeSelectorOther k p => message (us "SelectorOther") (us "selector_other") (Some [(us "keyword", str k); (us "placeholder", str p)])
  | FeNoChildren t => node (us "NoChildren") (us "no_children") t
  | FeInvalidOption o k p =>
      message (us "InvalidOption") (us "invalid_option") (Some [(us "option", str o); (us "keyword", str k); (us "placeholder", str p)])
  | FeInvalidSelector o k p =>
      message (us "InvalidSelector") (us "invalid_selector") (Some [(us "option", str o); (us "keyword", str k); (us "placeholder", str p)])
  | FeNumberSignString n => message (us "NumberSignString") (us "number_sign_string") (Some [index n])
  | FeSelectorsIndex n => message (us "SelectorsIndex") (us "selectors_index") (Some [index n])
  | FeSelectorsIndexNamed i n => message (us "SelectorsIndexNamed") (us "selectors_index_named") (Some [(us "identifier", str i); index n])
  | FePlaceholderValue w p => message (us "PlaceholderValue") (us "placeholder_value") (Some [(us "part", str w); (us "placeholder", str p)])
  | FeInvalidValue w => message (us "InvalidValue") (us "invalid_value") (Some [(us "part", str w)])
  | FeNamedStringIdentifier i =>
      message (us "NamedStringIdentifier") (us "named_string_identifier") (Some [(us "identifier", str i)])
  | FeNoIcuProvider => message (us "NoIcuProvider") (us "no_icu_provider") None
  | FeNeverReached => message (us "NeverReached") (us "never_reach") None
  end.

(** 483-633 *)
Definition localiser_data (e : localiser_err) : ldata :=
  let ty := us "LocaliserError" in
  let message (variant identifier : ustr) vs := enum_message ty variant (LData (us "i18n_localiser") identifier vs) in
  match e with
  | LeRegistry e => enum_embedded ty (us "Registry") (VData (registry_data e))
  | LeFormatter e => enum_embedded ty (us "Formatter") (VData (formatter_data e))
  | LeProvider e => enum_embedded ty (us "Provider") (VData (provider_data e))
  | LeStringNotFound c i t fb =>
      message (us "StringNotFound") (us "string_not_found")
        (Some [(us "component", str c); (us "identifier", str i); (us "language_tag", str t);
               (us "fallback", str (if fb then us "true" else us "false"))])
  | LeCacheEntry c i => message (us "CacheEntry") (us "cache_entry") (Some [(us "component", str c); (us "identifier", str i)])
  | LeNeverReached => message (us "NeverReached") (us "never_reach") None
  end.

(** ** All of them *)
Inductive error :=
| XIcu (e : icu_err)
| XLexer (e : lexer_error)
| XRegistry (e : registry_err)
| XProvider (e : provider_err)
| XSqlite3 (e : sqlite3_err)
| XSchema (e : schema_err)
| XTree (e : tree_error)
| XCommand (e : command_err)
| XLocaliser (e : localiser_err)
| XFormatter (e : formatter_err).
Definition error_data (e : error) : ldata :=
  match e with
  | XIcu e => icu_data e | XLexer e => lexer_data e | XRegistry e => registry_data e | XProvider e => provider_data e
  | XSqlite3 e => sqlite3_data e | XSchema e => schema_data e | XTree e => tree_data e | XCommand e => command_data e
  | XLocaliser e => localiser_data e | XFormatter e => formatter_data e
  end.
Definition error_text (e : error) : ustr :=
  match e with
  | XIcu e => icu_text e | XLexer e => lexer_text e | XRegistry e => registry_text e | XProvider e => provider_text e
  | XSqlite3 e => sqlite3_text e | XSchema e => schema_text e | XTree e => tree_text e | XCommand e => command_text e
  | XLocaliser e => localiser_text e | XFormatter e => formatter_text e
  end.
(** crates/provider/sqlite3/src/error.rs 272-276: [From<ProviderSqlite3Error> for ProviderError] *)
Definition provider_of_sqlite3 (e : sqlite3_err) : provider_err := PeCustom (mk_custom (sqlite3_data e) (sqlite3_text e)).
