(** What the documentation says of the cargo features (README.asciidoc 26-40, the head of every lib.rs). *)
From Coq Require Import String.
From Verif Require Import Base LexerModel TreeSpec FormatterModel FeatureModel.
Open Scope string_scope.

(** A build is given by the features requested of the crates; cargo refuses those that no crate declares. *)
Definition build (requested : list cfeature) : Prop := forall f, In f requested -> exists l, In (f, l) features.
Inductive enabled (requested : list cfeature) : cfeature -> Prop :=
| en_requested f : In f requested -> enabled requested f
| en_by g f l : enabled requested g -> In (g, l) features -> In f l -> enabled requested f.

(** ICU4X can load the data of the source. *)
Definition loads (I : icu_data) (s : source) (d : icu) : Prop :=
  match s with
  | Internal => d = mk_icu (compiled_white_space I) (compiled_syntax I) (compiled_segmenter I)
  | Blob p | Fs p => load_segmenter I p = Some (breaks d) /\ load_syntax I p = Some (syntax d) /\ load_white_space I p = Some (white_space d)
  end.

(** The formatter gets from ICU4X all that ICU4X has. *)
Definition all_of (e e' : fmtenv) : Prop :=
  (forall l g, fe_decimal e l g = fe_decimal e' l g) /\ (forall l, fe_cardinal e l = fe_cardinal e' l) /\
  (forall l, fe_ordinal e l = fe_ordinal e' l) /\ (forall l a b, fe_datetime e l a b = fe_datetime e' l a b) /\
  (forall l a, fe_date e l a = fe_date e' l a) /\ (forall l a, fe_time e l a = fe_time e' l a).

(** A source of data can be used: it can be named, its data are loaded if ICU4X can, and strings are formatted with them. *)
Definition usable (requested : list cfeature) (s : source) : Prop :=
  constructor requested s = true /\
  (forall I d, loads I s d -> icu_try_new requested I s = Ok (mk_icu_provider s d)) /\
  (forall fe, all_of (formatter_env requested fe s) (fe s)).

(** "`icu_compiled_data` [default]: Allow for the internal data of the various ICU4X components." *)
Definition default_documented (requested : list cfeature) : Prop :=
  enabled requested ("i18n", "default") \/ enabled requested ("i18n_localiser", "default") -> usable requested Internal.
Definition compiled_documented (requested : list cfeature) : Prop :=
  enabled requested ("i18n", "icu_compiled_data") \/ enabled requested ("i18n_localiser", "icu_compiled_data") -> usable requested Internal.
(** "`icu_blob`: Allow for instances of `BlobDataProvider` to be used various ICU4X components"; `icu_fs` likewise *)
Definition blob_documented (requested : list cfeature) : Prop :=
  enabled requested ("i18n", "icu_blob") \/ enabled requested ("i18n_localiser", "icu_blob") -> forall p, usable requested (Blob p).
Definition fs_documented (requested : list cfeature) : Prop :=
  enabled requested ("i18n", "icu_fs") \/ enabled requested ("i18n_localiser", "icu_fs") -> forall p, usable requested (Fs p).
(** "`icu_extended`: Use the more detailed ICU information structs, types, and methods" *)
Definition extended_documented (requested : list cfeature) : Prop :=
  enabled requested ("i18n_utility", "icu_extended") -> language_type requested = Locale.

(** An item that formats a number, a date or a time. *)
Definition needs_data (x : sitem) : Prop :=
  exists ph kw sels, x = SPat ph (Some (kw, sels)) /\ In kw [us "decimal"; us "date_time"; us "plural"; us "ordinal"].

(** Values with shared pointers can be passed between a crate and one it uses. *)
Definition agree (requested : list cfeature) (a b : string) : Prop := ref_count requested a = ref_count requested b.
(** The crates that have code: crates/i18n/src/lib.rs has none. *)
Definition with_code (crate : string) : Prop := crate <> "i18n".
