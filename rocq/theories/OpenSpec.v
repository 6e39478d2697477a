(** What the errors of opening a provider say: the sentences of crates/provider/sqlite3/src/error.rs 215-250 and 460-513
    ([Display]) read as propositions about the directory and its files, independent of provider.rs; and what they amount to. *)
From Verif Require Import Base RegistryModel ProviderModel ProviderSpec ErrorModel OpenModel.

(** A property as an error names it: a type, or a word of SQL. *)
Definition has_property (p : ustr) (col : column) : Prop :=
  (p = us "NOT NULL" /\ cl_notnull col = 1%N) \/ (p = us "NULL" /\ cl_notnull col = 0%N) \/
  (p = us "PRIMARY KEY" /\ cl_pk col <> 0%N) \/ p = cl_type col \/ p = [].
(** The value of a default as an error names it. *)
Definition has_default (d : ustr) (col : column) : Prop :=
  (d = us "NULL" /\ cl_default col = None) \/ (d <> us "NULL" /\ cl_default col = Some d).

(** What each error of a schema says. *)
Definition schema_says (s : schema) (e : schema_err) : Prop :=
  match e with
  | SeSqlite3 _ => True
  | SeMissingTable t => ~ In t (sc_tables s)
  | SeVersion path v => sc_path s = Some path /\ exists v', In v' (sc_versions s) /\ v' <> v
  | SeMissingVersion path => sc_path s = Some path /\ sc_versions s = []
  | SeMissingColumn t c => forall col, In col (sc_columns s t) -> cl_name col <> c
  | SeColumnProperty t c p => exists col, In col (sc_columns s t) /\ cl_name col = c /\ ~ has_property p col
  | SeColumnDefault t c d => exists col, In col (sc_columns s t) /\ cl_name col = c /\ ~ has_default d col
  | SeColumnMismatch _ _ => False
  end.

(** A file of the directory called [name].sqlite3. *)
Definition sqlite3_item (f : fs) (it : fsitem) : Prop :=
  exists items, fs_read f = inr items /\ In (inr it) items /\ fi_extension it = Some (us "sqlite3").
Definition holds (f : fs) (name : ustr) (d : db) : Prop :=
  exists it, sqlite3_item f it /\ en_stem (fi_entry it) = Some name /\ en_db (fi_entry it) = Some d.

(** What each error of opening says. *)
Definition opening_says (f : fs) (e : sqlite3_err) : Prop :=
  match e with
  | QePathConversion => fs_path f = None
  | QeNotDirectory path => fs_path f = Some path /\ fs_is_dir f = false
  | QeNotExists path => False
  | QeNoSqlite3Files path => fs_path f = Some path /\ forall it, ~ sqlite3_item f it
  | QeIo w => fs_read f = inl w \/ exists items, fs_read f = inr items /\ In (inl w) items
  | QeSqlite3 _ => True
  | QeSchemaInvalid e => exists name d, holds f name d /\ schema_says (db_schema d) e
  end.

(** What the errors amount to. [col] stands where table [t] must have the column [req], and the columns before it fit. *)
Definition required_at (s : schema) (t : ustr) (req : ustr * ustr * N * N) (col : column) : Prop :=
  exists n cols, In (t, cols) required_tables /\ nth_error cols n = Some req /\ nth_error (sc_columns s t) n = Some col /\
    table_fits (firstn n cols) (firstn n (sc_columns s t)).
Definition schema_reports (s : schema) (e : schema_err) : Prop :=
  match e with
  | SeSqlite3 _ => sc_readable s = false \/
      exists t c ty nn pk col, required_at s t (c, ty, nn, pk) col /\ cl_default col <> None /\ (ty = us "INTEGER" \/ ty = us "REAL")
  | SeMissingTable t => ~ In t (sc_tables s) /\ (t = us "metadata" \/ In t (map fst required_tables))
  | SeVersion path v => sc_path s = Some path /\ v = us "1.0" /\ (sc_versions s = [] \/ exists vs v', sc_versions s = vs ++ [v'] /\ v' <> v)
  | SeMissingVersion _ => False
  | SeMissingColumn t c => exists ty nn pk col, required_at s t (c, ty, nn, pk) col /\ cl_name col <> c
  | SeColumnProperty t c p => exists ty nn pk col, required_at s t (c, ty, nn, pk) col /\ cl_name col = c /\
      ((p = ty /\ cl_type col <> ty) \/
       (cl_type col = ty /\
        ((p = us "NOT NULL" /\ nn = 1%N /\ cl_notnull col <> 1%N) \/ (p = us "NULL" /\ nn = 0%N /\ cl_notnull col <> 0%N) \/
         (p = us "PRIMARY KEY" /\ nn = 1%N /\ cl_pk col <> pk) \/ (p = [] /\ nn = 0%N /\ cl_pk col <> pk))))
  | SeColumnDefault t c d => d = us "NULL" /\ exists ty nn pk col, required_at s t (c, ty, nn, pk) col /\ cl_name col = c /\
      cl_default col <> None /\ (ty = us "TEXT" \/ ty = us "DATE")
  | SeColumnMismatch _ _ => False
  end.
Definition opening_reports (comp_ok : db -> bool) (f : fs) (e : sqlite3_err) : Prop :=
  match e with
  | QeNoSqlite3Files path => fs_path f = Some path /\ fs_is_dir f = true /\
      forall name d, holds f name d -> name = us "__all_in_one__" /\ db_component d = []
  | QeSqlite3 _ => exists d, holds f (us "__all_in_one__") d /\ comp_ok d = false
  | QeSchemaInvalid e => exists name d, holds f name d /\ schema_reports (db_schema d) e
  | QePathConversion | QeNotDirectory _ | QeIo _ | QeNotExists _ => opening_says f e
  end.

(** ** When the sentences are true *)
(** [l] is [m] with some elements left out. *)
Inductive thinned {A} : list A -> list A -> Prop :=
| th_end m : thinned [] m
| th_keep x l m : thinned l m -> thinned (x :: l) (x :: m)
| th_drop x l m : thinned l m -> thinned l (x :: m).
(** The tables have their columns in the order of schema.sql, though some may be missing, and further columns may follow. *)
Definition in_order (s : schema) : Prop := forall t cols, In (t, cols) required_tables ->
  exists had more, map cl_name (sc_columns s t) = had ++ more /\ thinned had (map (fun r => fst (fst (fst r))) cols) /\
    forall c, In c more -> ~ In c (map (fun r => fst (fst (fst r))) cols).
(** rowID is the primary key, if there is one. *)
Definition keyed (s : schema) : Prop := forall t cols col, In (t, cols) required_tables -> In col (sc_columns s t) ->
  cl_pk col = 0%N \/ (cl_name col = us "rowID" /\ cl_pk col = 1%N).
(** There is a version. *)
Definition versioned (s : schema) : Prop := sc_versions s <> [].
Definition tidy (s : schema) : Prop := in_order s /\ keyed s /\ versioned s.
(** Every file called .sqlite3 can be opened and has a tidy schema, and __all_in_one__ lists a component. *)
Definition orderly (f : fs) : Prop := forall it, sqlite3_item f it -> exists name d,
  en_stem (fi_entry it) = Some name /\ en_db (fi_entry it) = Some d /\ tidy (db_schema d) /\
  (name = us "__all_in_one__" -> db_component d <> []).
