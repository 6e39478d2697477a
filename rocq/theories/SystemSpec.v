(** Conditions on the database and on requests under which the localiser over the sqlite3 provider is proved correct. *)
From Coq Require Import Sorted.
From Verif Require Import Base LexerModel LexerSpec TreeModel TreeSpec DocSpec ValueModel CommandModel FormatterModel FormatterSpec RegistryModel
  ProviderModel ProviderSpec LocaliserModel LocaliserSpec SystemModel.

(** A row of table pattern in a file of the provider. *)
Definition stored_row (p : sprovider) (r : prow) : Prop := exists file d v, mget file (sp_connections p) = Some (d, v) /\ In r (db_pattern d).

(** A directory was read without problem: SQLite runs every query and gives the rows of table pattern in one order; stored
    language tags are canonical; no canonical tag has a wildcard. *)
Record database_fine (E : penv) (es : list entry) (p : sprovider) : Prop := mk_database_fine {
  df_made : made es p;
  df_env : env_fine E p;
  df_order : fixed_order E p;
  df_canonical : canonical_tags E p;
  df_wildcard : forall t, pe_canon E t = Some t -> no_wildcard t
}.
(** In stored strings number signs stand only in branches of plural and ordinal placeholders. *)
Definition stored_hash_ok (ic : icu) (p : sprovider) : Prop := forall r a, stored_row p r ->
  content_of ic localiser_grammar (pr_string r) a -> hash_in_plurals_only a.
(** No stored string makes the parser panic (see C06). *)
Definition stored_parse (ic : icu) (p : sprovider) : Prop := forall r, stored_row p r -> tree_try_new ic (pr_string r) localiser_grammar <> Panic.
(** No command panics. *)
Definition commands_calm (reg : cregistry) : Prop := forall name f args, mget name reg = Some f -> f (VString name :: args) <> Panic.

(** The component has the string [i] in the language [t], and the answer of SQLite is unambiguous: one file holds the component,
    rows are given in the order of the index of the UNIQUE constraint, that constraint holds for the row, and languages are written with
    the same letters. *)
Record translated (E : penv) (p : sprovider) (c i t : ustr) (r : prow) : Prop := mk_translated {
  tr_known : known p c;
  tr_one : one_source p c;
  tr_row : exists d, source p c d /\ hit d c i (eq t) r;
  tr_unique : forall d r', source p c d -> hit d c i (eq t) r' -> pr_string r' = pr_string r;
  tr_index : index_order E;
  tr_case : forall d r', source p c d -> hit d c i (starts_with t) r' -> exists y, pr_tag r' = t ++ y;
  tr_tag : t <> [] /\ pe_canon E t = Some t
}.
(** Every request is for a string stored in the language asked for. *)
Definition all_translated (E : penv) (p : sprovider) (rs : list request) : Prop := forall q, In q rs ->
  exists r, translated E p (rq_component q) (rq_identifier q) (rq_tag q) r.
