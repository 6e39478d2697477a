(** Model of the cargo features of the crates (the Cargo.toml files), of the conditional compilation that depends on them, and of
    crates/lexer/src/icu.rs. *)
From Coq Require Import String.
From Verif Require Import Base LexerModel FormatterModel.
Open Scope string_scope.

(** ** Features *)

(** A feature of a crate; the names of the library's crates without the ending [-rizzen-yazston]. *)
Definition cfeature := (string * string)%type.
Definition cf_eqb (a b : cfeature) : bool := (String.eqb (fst a) (fst b) && String.eqb (snd a) (snd b))%bool.

(** The tables [features] of crates/i18n/Cargo.toml 24-55, crates/lexer/Cargo.toml 24-47, crates/localiser/Cargo.toml 24-53,
    crates/provider/core/Cargo.toml 24-25, crates/provider/sqlite3/Cargo.toml 24-26, crates/utility/Cargo.toml 24-26: every feature with
    those it enables. *)
Definition features : list (cfeature * list cfeature) := [
  (("i18n", "default"), [("i18n_lexer", "default")]);
  (("i18n", "icu_blob"), [("i18n_lexer", "icu_blob"); ("i18n_localiser", "icu_blob")]);
  (("i18n", "icu_compiled_data"), [("i18n_lexer", "icu_compiled_data"); ("i18n_localiser", "icu_compiled_data")]);
  (("i18n", "icu_extended"), [("i18n_utility", "icu_extended"); ("i18n_localiser", "icu_extended")]);
  (("i18n", "icu_fs"), [("i18n_lexer", "icu_fs"); ("i18n_localiser", "icu_fs")]);
  (("i18n", "logging"), [("i18n_lexer", "logging"); ("i18n_provider_sqlite3", "logging"); ("i18n_localiser", "logging")]);
  (("i18n", "sync"), [("i18n_lexer", "sync"); ("i18n_utility", "sync"); ("i18n_provider", "sync"); ("i18n_provider_sqlite3", "sync");
    ("i18n_localiser", "sync")]);
  (("i18n_lexer", "default"), [("i18n_lexer", "icu_compiled_data")]);
  (("i18n_lexer", "buffer"), [("icu_segmenter", "serde"); ("icu_properties", "serde")]);
  (("i18n_lexer", "icu_blob"), [("i18n_lexer", "buffer"); ("icu_provider", "deserialize_postcard_1")]);
  (("i18n_lexer", "icu_compiled_data"), [("icu_properties", "compiled_data"); ("icu_segmenter", "compiled_data")]);
  (("i18n_lexer", "icu_extended"), [("i18n_utility", "icu_extended")]);
  (("i18n_lexer", "icu_fs"), [("i18n_lexer", "buffer"); ("icu_provider", "deserialize_bincode_1")]);
  (("i18n_lexer", "logging"), []);
  (("i18n_lexer", "sync"), [("icu_provider", "sync"); ("i18n_utility", "sync")]);
  (("i18n_localiser", "default"), [("i18n_lexer", "default")]);
  (("i18n_localiser", "icu_blob"), [("i18n_lexer", "icu_blob")]);
  (("i18n_localiser", "icu_compiled_data"), [("i18n_lexer", "icu_compiled_data"); ("icu_calendar", "compiled_data");
    ("icu_datetime", "compiled_data"); ("icu_decimal", "compiled_data"); ("icu_plurals", "compiled_data")]);
  (("i18n_localiser", "icu_extended"), [("i18n_utility", "icu_extended")]);
  (("i18n_localiser", "icu_fs"), [("i18n_lexer", "icu_fs")]);
  (("i18n_localiser", "logging"), [("i18n_lexer", "logging"); ("i18n_provider_sqlite3", "logging")]);
  (("i18n_localiser", "sync"), [("i18n_lexer", "sync"); ("i18n_utility", "sync"); ("i18n_provider", "sync");
    ("i18n_provider_sqlite3", "sync")]);
  (("i18n_provider", "sync"), [("i18n_utility", "sync")]);
  (("i18n_provider_sqlite3", "sync"), [("i18n_utility", "sync"); ("i18n_provider", "sync")]);
  (("i18n_provider_sqlite3", "logging"), []);
  (("i18n_utility", "sync"), []);
  (("i18n_utility", "icu_extended"), [])
].

(** The sections [dependencies]: which crate of the library uses which. All have [default-features = false] (Cargo.toml 40-45), so
    depending on a crate enables no feature of it. *)
Definition dependencies : list (string * string) := [
  ("i18n", "i18n_lexer"); ("i18n", "i18n_localiser"); ("i18n", "i18n_provider"); ("i18n", "i18n_provider_sqlite3"); ("i18n", "i18n_utility");
  ("i18n_lexer", "i18n_utility");
  ("i18n_localiser", "i18n_lexer"); ("i18n_localiser", "i18n_provider"); ("i18n_localiser", "i18n_provider_sqlite3"); ("i18n_localiser", "i18n_utility");
  ("i18n_provider", "i18n_utility");
  ("i18n_provider_sqlite3", "i18n_utility"); ("i18n_provider_sqlite3", "i18n_provider")
].

Definition enables (f : cfeature) : list cfeature :=
  match find (fun e => cf_eqb (fst e) f) features with Some (_, l) => l | None => [] end.

(** Cargo unifies the features of a crate over the whole build: enabled are those requested and, repeatedly, those they enable. *)
Fixpoint closure (n : nat) (l : list cfeature) : list cfeature :=
  match n with O => l | S n => closure n (l ++ flat_map enables l)%list end.
Definition on (requested : list cfeature) (c f : string) : bool := existsb (cf_eqb (c, f)) (closure 8 requested).

(** ** Sources of Unicode data *)

(** icu.rs 62-72 [DataProvider]; the providers of ICU4X are numbered. *)
Inductive source := Internal | Blob (provider : nat) | Fs (provider : nat).
(** Which constructors are compiled. *)
Definition constructor (requested : list cfeature) (s : source) : bool :=
  match s with
  | Internal => on requested "i18n_lexer" "icu_compiled_data"
  | Blob _ => on requested "i18n_lexer" "blob"
  | Fs _ => on requested "i18n_lexer" "fs"
  end.

(** lexer/src/error.rs 45-58 [IcuError], without the text of the errors of ICU4X *)
Inductive icu_error := IeProperties | IeSegmenter | IeData | IeGrapheme | IeSyntax | IeWhiteSpace.

(** ICU4X: the compiled data, and what loading from a provider gives. *)
Record icu_data := mk_icu_data {
  compiled_segmenter : ustr -> nat;
  compiled_syntax : uchar -> bool;
  compiled_white_space : uchar -> bool;
  load_segmenter : nat -> option (ustr -> nat);
  load_syntax : nat -> option (uchar -> bool);
  load_white_space : nat -> option (uchar -> bool)
}.
(** icu.rs 78-87 [IcuDataProvider] *)
Record icu_provider := mk_icu_provider { ip_source : source; ip_icu : icu }.

(** icu.rs 92-169 [try_new]. The branch of a source whose constructor is not compiled is that of [_] (143). *)
Definition load_all (I : icu_data) (p : nat) : outcome icu_error (option (ustr -> nat) * option (uchar -> bool) * option (uchar -> bool)) :=
  match load_segmenter I p with
  | None => Err IeSegmenter
  | Some g => match load_syntax I p with
    | None => Err IeProperties
    | Some s => match load_white_space I p with
      | None => Err IeProperties
      | Some w => Ok (Some g, Some s, Some w)
      end
    end
  end.
Definition icu_try_new (requested : list cfeature) (I : icu_data) (s : source) : outcome icu_error icu_provider :=
  let! (gs, w) := match s with
    | Blob p => if on requested "i18n_lexer" "blob" then load_all I p else Ok (None, None, None)
    | Fs p => if on requested "i18n_lexer" "fs" then load_all I p else Ok (None, None, None)
    | Internal => if on requested "i18n_lexer" "icu_compiled_data"
        then Ok (Some (compiled_segmenter I), Some (compiled_syntax I), Some (compiled_white_space I)) else Ok (None, None, None)
    end in
  match gs, w with
  | (None, _), _ => Err IeSyntax
  | (_, None), _ => Err IeSyntax
  | _, None => Err IeWhiteSpace
  | (Some g, Some sy), Some ws => Ok (mk_icu_provider s (mk_icu ws sy g))
  end.

(** ** Formatting *)

(** formatter.rs 674-858: whether the branch of the source is compiled; otherwise [NoIcuProvider]. *)
Definition branch (requested : list cfeature) (s : source) : bool :=
  match s with
  | Internal => on requested "i18n_localiser" "icu_compiled_data"
  | Blob _ => on requested "i18n_localiser" "blob"
  | Fs _ => on requested "i18n_localiser" "fs"
  end.
(** What the formatter asks of ICU4X, if [fe s] is what ICU4X has for the source [s]. Numbers, dates and locales need no data. *)
Definition formatter_env (requested : list cfeature) (fe : source -> fmtenv) (s : source) : fmtenv :=
  let e := fe s in
  let if_on {A} (x : option A) := if branch requested s then x else None in
  mk_fmtenv (fe_unsigned e) (fe_integer e) (fe_float e) (fe_sign e)
    (fun l g => if_on (fe_decimal e l g)) (fun l => if_on (fe_cardinal e l)) (fun l => if_on (fe_ordinal e l))
    (fun l a b => if_on (fe_datetime e l a b)) (fun l a => if_on (fe_date e l a)) (fun l a => if_on (fe_time e l a))
    (fe_valid_date e) (fe_locale e).

(** ** Languages: utility/src/language.rs 8-12 [IcuLanguage] *)
Inductive icu_language := LanguageIdentifier | Locale.
Definition language_type (requested : list cfeature) : icu_language :=
  if on requested "i18n_utility" "extend" then Locale else LanguageIdentifier.

(** ** Pointers: the imports of [RefCount] in every file that has one, such as lexer/src/lexer.rs 33-38 *)
Inductive pointer := Rc | Arc.
Definition ref_count (requested : list cfeature) (crate : string) : pointer := if on requested crate "sync" then Arc else Rc.
