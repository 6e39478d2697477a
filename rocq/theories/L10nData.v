(** The localisation files that come with the library, as rows: crates/lexer/l10n/i18n_lexer.sqlite3,
    crates/localiser/l10n/i18n_localiser.sqlite3, crates/provider/core/l10n/i18n_provider.sqlite3 and, in
    crates/provider/sqlite3/l10n, i18n_provider_sqlite3.sqlite3, application.sqlite3 and __all_in_one__.sqlite3.
    Generated from the content of these SQLite files: tables pattern, contributor, component (the columns the provider reads,
    in the order of [rowID]), the names of the tables in sqlite_master, [pragma_table_info] of each, and the values of key
    [schema_version] of table metadata. *)
From Verif Require Import Base RegistryModel ProviderModel.

(** Literals written in UTF-8. *)
Fixpoint utf8 (s : string) : ustr :=
  match s with
  | EmptyString => []
  | String a r =>
      let x := N_of_ascii a in
      if (x <? 128)%N then x :: utf8 r
      else if (x <? 224)%N then
        match r with
        | String b r => ((x - 192) * 64 + (N_of_ascii b - 128))%N :: utf8 r
        | EmptyString => []
        end
      else
        match r with
        | String b (String c r) => ((x - 224) * 4096 + (N_of_ascii b - 128) * 64 + (N_of_ascii c - 128))%N :: utf8 r
        | _ => []
        end
  end.
Definition u8 (s : string) : ustr := utf8 s.
Arguments u8 s%string_scope.

Definition pattern_row (c i t s : string) : prow := mk_prow (u8 c) (u8 i) (u8 t) (u8 s).
Definition contributor_row (c t n : string) : crow := mk_crow (u8 c) (u8 t) (u8 n).
Definition component_row (i t : string) : irow := mk_irow (u8 i) (u8 t).

(** The six files have the same tables and columns. *)
Definition shipped_tables : list ustr := map us ["component"; "contributor"; "language"; "languageData"; "metadata"; "pattern"; "sqlite_sequence"]%string.
Definition shipped_column (name ty : ustr) (notnull pk : N) : column := mk_column name ty notnull None pk.
Definition shipped_columns (t : ustr) : list column :=
  let c := shipped_column in
  if ueqb t (us "component") then [c (us "rowID") (us "INTEGER") 1%N 1%N; c (us "identifier") (us "TEXT") 1%N 0%N; c (us "languageTag") (us "TEXT") 1%N 0%N; c (us "comment") (us "TEXT") 0%N 0%N; c (us "added") (us "DATE") 1%N 0%N] else
  if ueqb t (us "contributor") then [c (us "rowID") (us "INTEGER") 1%N 1%N; c (us "component") (us "TEXT") 1%N 0%N; c (us "languageTag") (us "TEXT") 1%N 0%N; c (us "contributor") (us "TEXT") 1%N 0%N; c (us "substituteFor") (us "TEXT") 0%N 0%N; c (us "comment") (us "TEXT") 0%N 0%N; c (us "verified") (us "DATE") 0%N 0%N] else
  if ueqb t (us "language") then [c (us "rowID") (us "INTEGER") 1%N 1%N; c (us "tag") (us "TEXT") 1%N 0%N; c (us "englishName") (us "TEXT") 0%N 0%N; c (us "added") (us "DATE") 1%N 0%N] else
  if ueqb t (us "languageData") then [c (us "rowID") (us "INTEGER") 1%N 1%N; c (us "component") (us "TEXT") 1%N 0%N; c (us "languageTag") (us "TEXT") 1%N 0%N; c (us "count") (us "INTEGER") 1%N 0%N; c (us "ratio") (us "REAL") 1%N 0%N] else
  if ueqb t (us "metadata") then [c (us "rowID") (us "INTEGER") 1%N 1%N; c (us "component") (us "TEXT") 1%N 0%N; c (us "key") (us "TEXT") 1%N 0%N; c (us "value") (us "TEXT") 1%N 0%N; c (us "comment") (us "TEXT") 0%N 0%N; c (us "verified") (us "DATE") 0%N 0%N] else
  if ueqb t (us "pattern") then [c (us "rowID") (us "INTEGER") 1%N 1%N; c (us "component") (us "TEXT") 1%N 0%N; c (us "identifier") (us "TEXT") 1%N 0%N; c (us "languageTag") (us "TEXT") 1%N 0%N; c (us "string") (us "TEXT") 1%N 0%N; c (us "comment") (us "TEXT") 0%N 0%N; c (us "verified") (us "DATE") 0%N 0%N] else
  if ueqb t (us "sqlite_sequence") then [c (us "name") [] 0%N 0%N; c (us "seq") [] 0%N 0%N] else
  [].
Definition shipped_schema (version path : string) : schema := mk_schema shipped_tables shipped_columns [us version] (Some (us path)) true.

Definition lexer_patterns : list prow :=
  [pattern_row "i18b_lexer" "grapheme" "en-ZA" "No data provider is available for the ‘GraphemeClusterSegmenter’.";
   pattern_row "i18b_lexer" "syntax" "en-ZA" "No data provider is available for the ‘Pattern_Syntax’.";
   pattern_row "i18b_lexer" "white_space" "en-ZA" "No data provider is available for the ‘Pattern_White_Space’.";
   pattern_row "i18b_lexer" "grapheme" "it" "Nessun fornitore di dati è disponibile per ""GraphemeClusterSegmenter"".";
   pattern_row "i18b_lexer" "syntax" "it" "Nessun fornitore di dati è disponibile per ""Pattern_Syntax"".";
   pattern_row "i18b_lexer" "white_space" "it" "Nessun fornitore di dati è disponibile per ""Pattern_White_Space"".";
   pattern_row "i18b_lexer" "no_grammar" "en-ZA" "No grammar syntax characters was supplied.";
   pattern_row "i18b_lexer" "no_grammar" "it" "Non è stato fornito alcun carattere di sintassi grammaticale.";
   pattern_row "i18b_lexer" "empty_string" "en-ZA" "Empty string was supplied.";
   pattern_row "i18b_lexer" "empty_string" "it" "È stata fornita una stringa vuota."].
Definition lexer_contributors : list crow := [contributor_row "i18b_lexer" "en-ZA" "Rizzen Yazston"; contributor_row "i18b_lexer" "it" "Stefano Angeleri"].
Definition lexer_components : list irow := [component_row "i18b_lexer" "en-ZA"].
Definition lexer_db : db := mk_db (shipped_schema "1.0" "i18n_lexer.sqlite3") lexer_patterns lexer_contributors lexer_components.
Definition lexer_file : entry := mk_entry (Some (us "i18n_lexer")) (Some lexer_db).

Definition localiser_patterns : list prow :=
  [pattern_row "i18n_localiser" "string_not_found" "en-ZA" "No string was found for the component ‘{component}’ with identifier ‘{identifier}’ for the language tag ‘{language_tag}’. Fallback was used: {fallback select true#true false#false}.#{true True}{false False}";
   pattern_row "i18n_localiser" "string_not_found" "it" "Non è stata trovata alcuna stringa per il componente “{component}” con l'identificatore “{identifier}” e il tag della lingua “{language_tag}”. È stato utilizzato il fallback: {fallback select true#true false#false}.#{true Vero}{false Falso}";
   pattern_row "i18n_localiser" "cache_entry" "en-ZA" "Unable to get the string for the component ‘{component}’ with the identifier ‘{identifier}’ as the cache entry requires values for formatting.";
   pattern_row "i18n_localiser" "cache_entry" "it" "Impossibile ottenere la stringa per il componente ""{component}"" con l'identificatore ""{identifier}"" poiché la voce della cache richiede valori per la formattazione.";
   pattern_row "i18n_localiser" "error_format_enum" "en-ZA" "{type}::{variant}: ‘{message}’.";
   pattern_row "i18n_localiser" "error_format_enum_embedded" "en-ZA" "{type}::{variant}: [{error}].";
   pattern_row "i18n_localiser" "error_format" "en-ZA" "{type}: ‘{message}’.";
   pattern_row "i18n_localiser" "error_format_embedded" "en-ZA" "{type}: [{error}].";
   pattern_row "i18n_localiser" "invalid_root" "en-ZA" "The tree root must be a ‘{`Root`}’ node.";
   pattern_row "i18n_localiser" "retrieve_children" "en-ZA" "Failed to retrieve the children for the ‘{node_type}’ node.";
   pattern_row "i18n_localiser" "first_child" "en-ZA" "The first child of the ‘{node_type}’ node was not found.";
   pattern_row "i18n_localiser" "node_not_found" "en-ZA" "The expected node ‘{node_type}’ was not found.";
   pattern_row "i18n_localiser" "retrieve_node_data" "en-ZA" "Failed to retrieve the data for the ‘{node_type}’ node.";
   pattern_row "i18n_localiser" "retrieve_node_token" "en-ZA" "Failed to retrieve the token for the ‘{node_type}’ node.";
   pattern_row "i18n_localiser" "last_child" "en-ZA" "The last child of the ‘{node_type}’ node was not found.";
   pattern_row "i18n_localiser" "invalid_node" "en-ZA" "Invalid child node found in the ‘{node_type}’ node.";
   pattern_row "i18n_localiser" "pattern_named" "en-ZA" "Failed to retrieve the pattern for the named string ‘{identifier}’.";
   pattern_row "i18n_localiser" "pattern_part" "en-ZA" "Failed to retrieve the part ‘{index}’ of the pattern for the named string ‘{identifier}’.";
   pattern_row "i18n_localiser" "invalid_option_value" "en-ZA" "The value ‘{value}’ is invalid for the option ‘{option}’ for the keyword ‘{keyword}’.";
   pattern_row "i18n_localiser" "invalid_keyword" "en-ZA" "Invalid keyword ‘{keyword}’ for the placeholder ‘{identifier}’.";
   pattern_row "i18n_localiser" "selector_named" "en-ZA" "The named string identifier ‘{named}’ was not found for the selector ‘{selector}’ of the placeholder ‘{identifier}’.";
   pattern_row "i18n_localiser" "selector_other" "en-ZA" "The required ‘{`other`}’ selector was not found for the keyword ‘{keyword}’ of the placeholder ‘{identifier}’.";
   pattern_row "i18n_localiser" "no_children" "en-ZA" "No children nodes was found for ‘{node_type}’ node.";
   pattern_row "i18n_localiser" "invalid_option" "en-ZA" "Invalid option ‘{option}’ for the keyword ‘{keyword}’ for the placeholder ‘{identifier}’.";
   pattern_row "i18n_localiser" "invalid_selector" "en-ZA" "Invalid selector ‘{identifier}’ for the keyword ‘{keyword}’ for the placeholder ‘{identifier}’.";
   pattern_row "i18n_localiser" "number_sign_string" "en-ZA" "Unable to retrieve the formatted string for the {`NumberSign`} index {index}.";
   pattern_row "i18n_localiser" "selectors_index" "en-ZA" "The index {index} ws not found in the collected selectors.";
   pattern_row "i18n_localiser" "selectors_index_named" "en-ZA" "Failed to retrieve the string for the named string ‘{identifier}’ of the selectors index {index}.";
   pattern_row "i18n_localiser" "placeholder_value" "en-ZA" "The placeholder value was not found for the pattern part ‘{part}’ of the placeholder ‘{placeholder}’.";
   pattern_row "i18n_localiser" "invalid_value" "en-ZA" "Invalid value type was provided for the pattern part ‘{part}’.";
   pattern_row "i18n_localiser" "named_string_identifier" "en-ZA" "The named string identifier ‘{identifier}’ already exists. The identifiers must be unique and not ‘{`_`}’.";
   pattern_row "i18n_localiser" "invalid_root" "it" "La radice dell'albero deve essere un nodo “{`Root`}”.";
   pattern_row "i18n_localiser" "retrieve_children" "it" "Impossibile recuperare i figli per il nodo “{node_type}”.";
   pattern_row "i18n_localiser" "first_child" "it" "Il primo figlio del nodo “{node_type}” non è stato trovato.";
   pattern_row "i18n_localiser" "node_not_found" "it" "Il nodo “{node_type}” non è stato trovato.";
   pattern_row "i18n_localiser" "retrieve_node_data" "it" "Impossibile recuperare dati per il nodo “{node_type}”.";
   pattern_row "i18n_localiser" "retrieve_node_token" "it" "Impossibile recuperare il token per il nodo “{node_type}”.";
   pattern_row "i18n_localiser" "last_child" "it" "L'ultimo figlio del nodo “{node_type}” non è stato trovato.";
   pattern_row "i18n_localiser" "invalid_node" "it" "E' stato trovato un nodo figlio non valido nel nodo “{node_type}”.";
   pattern_row "i18n_localiser" "pattern_named" "it" "Impossibile recuperare il pattern per la stringa denominata “{identifier}”.";
   pattern_row "i18n_localiser" "pattern_part" "it" "Impossibile recuperare la parte “{index}” del pattern per la stringa denominata “{identifier}”.";
   pattern_row "i18n_localiser" "invalid_option_value" "it" "Il valore “{value}” non è valido per l'opzione “{option}” per la parola chiave “{keyword}”.";
   pattern_row "i18n_localiser" "invalid_keyword" "it" "Parola chiave non valida “{keyword}” per il segnaposto “{identifier}”.";
   pattern_row "i18n_localiser" "selector_named" "it" "L'identificatore della stringa denominata “{named}” non è stato trovato per il selettore “{selector}” del segnaposto “{identifier}”.";
   pattern_row "i18n_localiser" "selector_other" "it" "Il selettore “{`other`}” richiesto non è stato trovato per la parola chiave “{keyword}” del segnaposto “{identifier}”.";
   pattern_row "i18n_localiser" "no_children" "it" "Nessun nodo figlio è stato trovato per il nodo “{node_type}”.";
   pattern_row "i18n_localiser" "invalid_option" "it" "Opzione “{option}” non valida per la parola chiave “{keyword}” per il segnaposto “{identifier}”.";
   pattern_row "i18n_localiser" "invalid_selector" "it" "Selettore “{identifier}” non valido per la parola chiave “{keyword}” per il segnaposto “{identifier}”.";
   pattern_row "i18n_localiser" "number_sign_string" "it" "Impossibile recuperare la stringa formattata per l'indice {`NumberSign`} {index}.";
   pattern_row "i18n_localiser" "selectors_index" "it" "L'indice {index} non è stato trovato nei selettori raccolti.";
   pattern_row "i18n_localiser" "selectors_index_named" "it" "Impossibile recuperare la stringa per la stringa denominata “{identifier}” dell'indice dei selettori {index}.";
   pattern_row "i18n_localiser" "placeholder_value" "it" "Il valore segnaposto non è stato trovato per la parte del pattern “{part}” del segnaposto ""{placeholder}"".";
   pattern_row "i18n_localiser" "invalid_value" "it" "È stato fornito un tipo di valore non valido per la parte del pattern “{part}”.";
   pattern_row "i18n_localiser" "named_string_identifier" "it" "L'identificatore di stringa denominato “{identifier}” esiste già. Gli identificatori devono essere univoci e non “{`_`}”.";
   pattern_row "i18n_localiser" "no_icu_provider" "en-ZA" "Build error: At least one {`ICU4X`} data provider must be specified for the crate ‘{`i18n_icu`}’ using the crate's features.";
   pattern_row "i18n_localiser" "no_icu_provider" "it" "Errore di compilazione: è necessario specificare almeno un fornitore di dati {`ICU4X`} per il crate ""{`i18n_icu`}"" utilizzando le funzionalità del crate.";
   pattern_row "i18n_localiser" "never_reach" "en-ZA" "Build error: Should never have reached this match branch.";
   pattern_row "i18n_localiser" "never_reach" "it" "Errore di compilazione: non si dovrebbe raggiungere questo ramo di corrispondenza.";
   pattern_row "i18n_localiser" "no_grammar" "en-ZA" "No grammar syntax characters was found in the provided localisation string.";
   pattern_row "i18n_localiser" "no_grammar" "it" "Nessun carattere di sintassi grammaticale trovato nella stringa di localizzazione fornita.";
   pattern_row "i18n_localiser" "string_ended_abruptly" "en-ZA" "The string ended abruptly.";
   pattern_row "i18n_localiser" "invalid_token" "en-ZA" "In the parser state ‘{state}’ an invalid token ‘{token}’ was found at the position {position} of the string.";
   pattern_row "i18n_localiser" "multi_number_sign" "en-ZA" "Found sequential number signs at the position {position} of the string.";
   pattern_row "i18n_localiser" "unique_named" "en-ZA" "Named substrings must have unique identifiers. The identifier ‘{identifier}’ already exists.";
   pattern_row "i18n_localiser" "unique_pattern" "en-ZA" "Pattern identifiers must be unique. The identifier ‘{identifier}’ already exists.";
   pattern_row "i18n_localiser" "already_exists" "en-ZA" "The command ‘{identifier}’ already exists in the {`CommandRegistry`}.";
   pattern_row "i18n_localiser" "command_not_found" "en-ZA" "The command ‘{identifier}’ was not found in the {`CommandRegistry`}.";
   pattern_row "i18n_localiser" "parameter_missing" "en-ZA" "The parameter number {parameter} is missing for the command ‘{identifier}’.";
   pattern_row "i18n_localiser" "invalid_type" "en-ZA" "The parameter number {parameter} has invalid type for the command ‘{identifier}’.";
   pattern_row "i18n_localiser" "string_ended_abruptly" "it" "La stringa è incompleta.";
   pattern_row "i18n_localiser" "invalid_token" "it" "Nello stato del parser ""{state}"" è stato trovato un token non valido “{token}” alla posizione {position} della stringa.";
   pattern_row "i18n_localiser" "multi_number_sign" "it" "Trovati numeri sequenziali alla posizione {posizione} della stringa.";
   pattern_row "i18n_localiser" "unique_named" "it" "Le sottostringhe denominate devono avere identificatori univoci. L'identificatore “{identifier}” esiste già.";
   pattern_row "i18n_localiser" "unique_pattern" "it" "Gli identificatori di pattern devono essere univoci. L'identificatore “{identifier}” esiste già.";
   pattern_row "i18n_localiser" "already_exists" "it" "Il comando “{identifier}” esiste già nel {`CommandRegistry`}.";
   pattern_row "i18n_localiser" "command_not_found" "it" "Il comando “{identifier}” non è stato trovato nel {`CommandRegistry`}.";
   pattern_row "i18n_localiser" "parameter_missing" "it" "Manca il numero del parametro {parameter} per il comando “{identifier}”.";
   pattern_row "i18n_localiser" "invalid_type" "it" "Il numero di parametro {parameter} ha un tipo non valido per il comando “{identifier}”."].
Definition localiser_contributors : list crow := [contributor_row "i18n_localiser" "en-ZA" "Rizzen Yazston"; contributor_row "i18n_localiser" "it" "Stefano Angeleri"].
Definition localiser_components : list irow := [component_row "i18n_localiser" "en-ZA"].
Definition localiser_db : db := mk_db (shipped_schema "1.0" "i18n_localiser.sqlite3") localiser_patterns localiser_contributors localiser_components.
Definition localiser_file : entry := mk_entry (Some (us "i18n_localiser")) (Some localiser_db).

Definition provider_patterns : list prow :=
  [pattern_row "i18n_provider" "default_language" "en-ZA" "The default language tag is missing for the component ‘{component}’.";
   pattern_row "i18n_provider" "default_language" "it" "Manca il tag della lingua predefinito per il componente ""{component}"".";
   pattern_row "i18n_provider" "default_language_count" "en-ZA" "There are no localisation strings in the component ‘{component}’ for the default language tag ‘{language}’.";
   pattern_row "i18n_provider" "default_language_count" "it" "Non ci sono stringhe di localizzazione nel componente ""{component}"" per il tag di lingua predefinito ""{language}"".";
   pattern_row "i18n_provider" "component_not_found" "en-ZA" "The component ‘{component}’ could not found.";
   pattern_row "i18n_provider" "component_not_found" "it" "Impossibile trovare il componente ""{component}"".";
   pattern_row "i18n_provider" "invalid_default_language" "en-ZA" "The default language tag is invalid for the component ‘{component}’.";
   pattern_row "i18n_provider" "invalid_default_language" "it" "Il tag della lingua predefinita non è valido per il componente ""{component}""."].
Definition provider_contributors : list crow := [contributor_row "i18n_provider" "en-ZA" "Rizzen Yazston"; contributor_row "i18n_provider" "it" "Stefano Angeleri"].
Definition provider_components : list irow := [component_row "i18n_provider" "en-ZA"].
Definition provider_db : db := mk_db (shipped_schema "1.0" "i18n_provider.sqlite3") provider_patterns provider_contributors provider_components.
Definition provider_file : entry := mk_entry (Some (us "i18n_provider")) (Some provider_db).

Definition sqlite3_patterns : list prow :=
  [pattern_row "i18n_provider_sqlite3" "path_conversion" "en-ZA" "Conversion to {`PathBuf`} error.";
   pattern_row "i18n_provider_sqlite3" "path_conversion" "it" "Errore convertendo in {`PathBuf`}.";
   pattern_row "i18n_provider_sqlite3" "no_sqlite3" "en-ZA" "No ‘{`.sqlite3`}’ files was found in ‘{path}’.";
   pattern_row "i18n_provider_sqlite3" "no_sqlite3" "it" "Nessun file “{`.sqlite3`}” è stato trovato nella cartella “{path}”.";
   pattern_row "i18n_provider_sqlite3" "path_not_directory" "en-ZA" "Provided path ‘{path}’ is not a directory.";
   pattern_row "i18n_provider_sqlite3" "path_not_directory" "it" "Il percorso fornito “{path}” non è una cartella.";
   pattern_row "i18n_provider_sqlite3" "path_not_exist" "en-ZA" "Provided path ‘{path}’ does not exist.";
   pattern_row "i18n_provider_sqlite3" "path_not_exist" "it" "Il percorso fornito ""{path}"" non esiste.";
   pattern_row "i18n_provider_sqlite3" "already_tried" "en-ZA" "Already tried connecting to the component ‘{component}’ Sqlite3 file and failed.";
   pattern_row "i18n_provider_sqlite3" "already_tried" "it" "Ho già provato a connettermi al file Sqlite3 del componente ""{component}"" e non è riuscito.";
   pattern_row "i18n_provider_sqlite3" "schema_invalid" "en-ZA" "The Sqlite3 file schema is invalid for the component ‘{component}’.";
   pattern_row "i18n_provider_sqlite3" "schema_invalid" "it" "Lo schema del file Sqlite3 non è valido per il componente ""{component}"".";
   pattern_row "i18n_provider_sqlite3" "schema_version" "en-ZA" "The ‘{`Sqlite3`}’ file ‘{path}’ is using unsupported schema version. The schema version must be ‘{version}’.";
   pattern_row "i18n_provider_sqlite3" "schema_version" "it" "Il file ""{`Sqlite3`}"" ""{path}"" utilizza una versione dello schema non supportata. La versione dello schema deve essere ""{version}"".";
   pattern_row "i18n_provider_sqlite3" "schema_version_missing" "en-ZA" "The ‘{`Sqlite3`}’ file ‘{path}’ is missing the schema version entry in the ‘{`metadata`}’ table.";
   pattern_row "i18n_provider_sqlite3" "schema_version_missing" "it" "Nel file ""{`Sqlite3`}"" ""{path}"" manca la voce della versione dello schema nella tabella ""{`metadata`}"".";
   pattern_row "i18n_provider_sqlite3" "missing_table" "en-ZA" "The database is missing the table ‘{name}’.";
   pattern_row "i18n_provider_sqlite3" "missing_table" "it" "Nel banca dati manca la tabella ""{name}"".";
   pattern_row "i18n_provider_sqlite3" "missing_column" "en-ZA" "The table ‘{table}’ is missing column ‘{column}’.";
   pattern_row "i18n_provider_sqlite3" "missing_column" "it" "Nella tabella ""{table}"" manca la colonna ""{column}"".";
   pattern_row "i18n_provider_sqlite3" "column_property" "en-ZA" "The column ‘{column}’ of the table ‘{table}’ is missing property ‘{property}’.";
   pattern_row "i18n_provider_sqlite3" "column_property" "it" "Nella colonna ""{column}"" della tabella ""{table}"" manca la proprietà ""{property}"".";
   pattern_row "i18n_provider_sqlite3" "column_default" "en-ZA" "The column ‘{column}’ of the table ‘{table}’ must have a default value of ‘{default}’.";
   pattern_row "i18n_provider_sqlite3" "column_default" "it" "La colonna ‘{column}’ della tabella ‘{table}’ deve avere il valore predefinito ‘{default}’.";
   pattern_row "i18n_provider_sqlite3" "column_mismatch" "en-ZA" "Check the `verify_schema()` function as default value type does not match column type for the column ‘{column}’ of table ‘{table}’.";
   pattern_row "i18n_provider_sqlite3" "column_mismatch" "it" "Controllare la funzione `verify_schema()` poiché il tipo di valore predefinito non corrisponde al tipo di colonna per la colonna ""{column}"" della tabella ""{table}""."].
Definition sqlite3_contributors : list crow := [contributor_row "i18n_provider_sqlite3" "en-ZA" "Rizzen Yazston"; contributor_row "i18n_provider_sqlite3" "it" "Stefano Angeleri"].
Definition sqlite3_components : list irow := [component_row "i18n_provider_sqlite3" "en-ZA"].
Definition sqlite3_db : db := mk_db (shipped_schema "1.0" "i18n_provider_sqlite3.sqlite3") sqlite3_patterns sqlite3_contributors sqlite3_components.
Definition sqlite3_file : entry := mk_entry (Some (us "i18n_provider_sqlite3")) (Some sqlite3_db).

Definition application_patterns : list prow :=
  [pattern_row "application" "example_string" "en-US" "The color of the knight's armor is silver.";
   pattern_row "application" "example_string" "it" "Il colore dell'armatura del cavaliere è argento."].
Definition application_contributors : list crow := [contributor_row "application" "en-US" "Rizzen Yazston"; contributor_row "application" "it" "Stefano Angeleri"].
Definition application_components : list irow := [component_row "application" "en-US"].
Definition application_db : db := mk_db (shipped_schema "1.0" "application.sqlite3") application_patterns application_contributors application_components.
Definition application_file : entry := mk_entry (Some (us "application")) (Some application_db).

Definition aio_patterns : list prow :=
  [pattern_row "application" "example" "en-US" "This string comes from __all_in_one__.sqlite3 file.";
   pattern_row "application" "example" "it" "Questa stringa proviene dal file __all_in_one__.sqlite3."].
Definition aio_contributors : list crow := [contributor_row "application" "en-US" "Rizzen Yazston"; contributor_row "application" "it" "Stefano Angeleri"].
Definition aio_components : list irow := [component_row "application" "en-US"].
Definition aio_db : db := mk_db (shipped_schema "1.0" "__all_in_one__.sqlite3") aio_patterns aio_contributors aio_components.
Definition aio_file : entry := mk_entry (Some (us "__all_in_one__")) (Some aio_db).

