(** Model of the types of the library as far as their use by several threads is concerned: which pointers, cells and trait objects
    they own. *)
From Coq Require Import String List.
Import ListNotations.
Open Scope string_scope.

(** [TPlain]: strings, numbers, paths, function pointers, C-like enums. [TAll]: struct, enum, tuple, [Vec], [HashMap], [Option],
    [Box] and all else that owns its parts and nothing more. [TExt]: a type of another library. [TDyn]: a trait object. *)
Inductive rty :=
| TPlain
| TExt (name : string)
| TName (name : string)
| TAll (parts : list rty)
| TRc (t : rty) | TArc (t : rty)
| TRefCell (t : rty) | TOnceCell (t : rty)
| TMutex (t : rty) | TRwLock (t : rty) | TOnceLock (t : rty)
| TDyn (trait : string).

Section Types.
  (** Whether the feature [sync] is enabled, in all crates (see C73). *)
  Variable sync : bool.

  (** The imports such as utility/src/language.rs 14-22 *)
  Definition ref_count (t : rty) : rty := if sync then TArc t else TRc t.
  (** language.rs 14-22 and provider/sqlite3/src/provider.rs 23-28: a [Mutex]; localiser.rs 20-28: an [RwLock] *)
  Definition mut_cell (t : rty) : rty := if sync then TMutex t else TRefCell t.
  Definition rw_cell (t : rty) : rty := if sync then TRwLock t else TRefCell t.
  Definition once_cell (t : rty) : rty := if sync then TOnceLock t else TOnceCell t.
  Definition tag := ref_count (TName "LanguageTag").

  (** The declarations. *)
  Definition types : list (string * rty) := [
    (* utility/src/language.rs 54-56, 106-117 *)
    ("LanguageTag", TPlain);
    ("LanguageTagRegistry", TAll [mut_cell (TAll [TPlain; tag]); mut_cell (TAll [TPlain; tag]); mut_cell (TAll [tag; ref_count (TExt "IcuLanguage")])]);
    (* utility/src/tagged_string.rs 39-42, utility/src/types.rs 26-31, 54-66 *)
    ("TaggedString", TAll [TPlain; tag]);
    ("LocalisationData", TAll [TPlain; TPlain; TName "PlaceholderValue"]);
    ("PlaceholderValue", TAll [TPlain; TName "TaggedString"; ref_count TPlain; tag; TName "LocalisationData"; TExt "FixedDecimal"; TExt "DateTime";
      TExt "Date"; TExt "Time"]);
    (* utility/src/error.rs 25-32, utility/src/script.rs *)
    ("RegistryError", TExt "ParserError");
    ("ScriptData", TPlain);
    (* lexer/src/lexer.rs 65-111, lexer/src/icu.rs 62-87, lexer/src/error.rs *)
    ("Token", TPlain);
    ("DataProvider", TPlain);
    ("IcuDataProvider", TAll [TName "DataProvider"; TExt "GraphemeClusterSegmenter"; TExt "CodePointSetData"]);
    ("LexerIterator", TAll [TPlain; ref_count (TName "IcuDataProvider"); TPlain]);
    ("IcuError", TAll [TExt "PropertiesError"; TExt "SegmenterError"; TExt "DataError"]);
    ("LexerError", TPlain);
    (* provider/core/src/error.rs 39-47: Custom(RefCount<Box<dyn ProviderErrorTrait>>) *)
    ("ProviderError", TAll [TPlain; TName "RegistryError"; ref_count (TDyn "ProviderErrorTrait")]);
    (* provider/core/src/provider.rs 126-163 *)
    ("IdentifierDetails", TAll [tag]);
    ("LanguageData", TPlain);
    ("ComponentDetails", TAll [tag; TName "LanguageData"]);
    ("RepositoryDetails", TAll [tag; TName "LanguageData"; TPlain]);
    (* provider/sqlite3/src/error.rs 39-47, 288-297 *)
    ("ProviderSqlite3Error", TAll [ref_count (TExt "IoError"); ref_count (TExt "Sqlite3Error"); TPlain; TName "SchemaError"]);
    ("SchemaError", TAll [ref_count (TExt "Sqlite3Error"); TPlain]);
    (* provider/sqlite3/src/provider.rs 79-97 *)
    ("LocalisationProviderSqlite3", TAll [ref_count (TName "LanguageTagRegistry"); mut_cell TPlain; TPlain;
      if sync then TPlain else ref_count (TExt "Connection");
      once_cell (ref_count (TName "RepositoryDetails")); once_cell (TAll [TPlain; ref_count (TName "ComponentDetails")])]);
    (* localiser/src/tree.rs, localiser/src/script.rs 7-9 *)
    ("Length", TPlain); ("NodeType", TPlain); ("ParserState", TPlain);
    ("script::DataProvider", TAll [TPlain; TName "ScriptData"]);
    (* localiser/src/error.rs 46-53, 273-279, 474-481, 771-808 *)
    ("TreeError", TAll [TName "LexerError"; TName "ParserState"; TPlain]);
    ("CommandError", TAll [ref_count (TDyn "LocalisationErrorTrait"); TPlain]);
    ("LocaliserError", TAll [TName "RegistryError"; TName "FormatterError"; TName "ProviderError"; TPlain]);
    ("FormatterError", TAll [TName "LocaliserError"; TName "TreeError"; TExt "ParserError"; TExt "CalendarError"; TPlain; TExt "DecimalError";
      TExt "DateTimeError"; TExt "PluralError"; TExt "FixedDecimalError"; TName "CommandError"; TName "NodeType"]);
    (* localiser/src/command.rs 33-36: a [RefCell] in either case *)
    ("CommandRegistry", TRefCell TPlain);
    (* localiser/src/formatter.rs 45-51, 1442-1467 *)
    ("Formatter", TAll [tag; ref_count (TExt "IcuLanguage"); TPlain; TName "PatternPart"]);
    ("PatternPart", TAll [TPlain; TExt "SignDisplay"; TExt "GroupingStrategy"; TExt "IcuLanguage"; TName "PlaceholderValue"]);
    (* localiser/src/localiser.rs 39-52, 1309-1312 *)
    ("CacheData", TAll [ref_count TPlain; tag; rw_cell (TName "Formatter")]);
    ("Localiser", TAll [ref_count (TName "IcuDataProvider"); TPlain; ref_count (TName "LanguageTagRegistry"); TDyn "LocalisationProviderTrait";
      ref_count (TName "CommandRegistry"); TName "script::DataProvider"; TExt "LocaleExpander"; rw_cell TPlain; rw_cell TPlain;
      rw_cell (TAll [tag; TPlain; TName "CacheData"]); rw_cell tag; rw_cell (TName "ScriptData")])
  ].
End Types.
