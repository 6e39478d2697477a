(** What the provider is meant to return, in terms of the content of the files. *)
From Coq Require Import Sorted.
From Verif Require Import Base RegistryModel ProviderModel.

(** ** Language tags *)
(** [a] is [t] without any number of subtags at the end. *)
Definition ancestor (a t : ustr) : Prop := a = t \/ exists r, t = a ++ ch "-" :: r.
(** [s] starts with [a], upper and lower case of the letters A-Z being the same. *)
Definition starts_with (a s : ustr) : Prop := exists x y, s = x ++ y /\ map lower x = map lower a.
(** [s] is [a], or [a] with further subtags, ignoring case. *)
Definition extends (a s : ustr) : Prop :=
  exists x y, s = x ++ y /\ map lower x = map lower a /\ (y = [] \/ exists r, y = ch "-" :: r).
(** No character with a meaning in LIKE. *)
Definition no_wildcard (t : ustr) : Prop := ~ In (ch "%") t /\ ~ In (ch "_") t.

(** ** Sources *)

(** A provider made by [try_new]: see theorem [C40_try_new]. The order of the components does not matter. *)
Definition provider_ok (p : sprovider) : Prop :=
  NoDup (mkeys (sp_components p)) /\
  forall c f, mget c (sp_components p) = Some f ->
    (fst f = true -> exists d, mget aio (sp_connections p) = Some (d, us "1.0")) /\
    (snd f = true -> exists d, mget c (sp_connections p) = Some (d, us "1.0")).

(** SQLite runs every query, and every stored language tag is valid. *)
Definition sql_fine (E : penv) : Prop := forall f q ps, pe_ok E f q ps = true.
Definition tags_fine (E : penv) (d : db) : Prop :=
  (forall r, In r (db_pattern d) -> pe_canon E (pr_tag r) <> None) /\
  (forall r, In r (db_contributor d) -> pe_canon E (co_tag r) <> None) /\
  (forall r, In r (db_component d) -> pe_canon E (ir_tag r) <> None).
Definition env_fine (E : penv) (p : sprovider) : Prop :=
  order_ok E /\ sql_fine E /\ forall n d v, mget n (sp_connections p) = Some (d, v) -> tags_fine E d.

(** The file [d] is the all in one file, or the file of the component, and it is known to hold the component [c]. *)
Definition in_aio (p : sprovider) (c : ustr) (d : db) : Prop :=
  exists f v, mget c (sp_components p) = Some (true, f) /\ mget aio (sp_connections p) = Some (d, v).
Definition in_own (p : sprovider) (c : ustr) (d : db) : Prop :=
  exists f v, mget c (sp_components p) = Some (f, true) /\ mget c (sp_connections p) = Some (d, v).
Definition source (p : sprovider) (c : ustr) (d : db) : Prop := in_aio p c d \/ in_own p c d.
Definition known (p : sprovider) (c : ustr) : Prop := In c (mkeys (sp_components p)).

(** ** Strings *)

(** A row of [c] and [i] of which the language satisfies [fit]. *)
Definition hit (d : db) (c i : ustr) (fit : ustr -> Prop) (r : prow) : Prop :=
  In r (db_pattern d) /\ pr_component r = c /\ pr_identifier r = i /\ fit (pr_tag r).
Definition has (d : db) (c i : ustr) (fit : ustr -> Prop) : Prop := exists r, hit d c i fit r.
(** The languages looked at for an ancestor [a]. *)
Definition fit (exact : bool) (a : ustr) : ustr -> Prop := if exact then eq a else starts_with a.
(** In file [d], [a] is the first - that is longest - ancestor of [t] for which there is a string. *)
Definition first_level (d : db) (c i t : ustr) (exact : bool) (a : ustr) : Prop :=
  ancestor a t /\ a <> [] /\ has d c i (fit exact a) /\
  forall b, ancestor b t -> has d c i (fit exact b) -> List.length b <= List.length a.
Definition no_level (d : db) (c i t : ustr) (exact : bool) : Prop :=
  forall b, ancestor b t -> b <> [] -> ~ has d c i (fit exact b).
(** The level at which a lookup answers: that of the all in one file; if there is none there, that of the component's file. *)
Definition answering (p : sprovider) (c i t : ustr) (exact : bool) (d : db) (a : ustr) : Prop :=
  (in_aio p c d /\ first_level d c i t exact a) \/
  ((forall d', in_aio p c d' -> no_level d' c i t exact) /\ in_own p c d /\ first_level d c i t exact a).

(** The answers of SQLite for the level [a], as strings with their languages. *)
Definition answer_of (E : penv) (r : prow) (x : ustr * ustr) : Prop :=
  fst x = pr_string r /\ pe_canon E (pr_tag r) = Some (snd x).

(** [l] are the ancestors of [t], longest first. *)
Definition longer (a b : ustr) : Prop := List.length b < List.length a.
Definition are_levels (t : ustr) (l : list ustr) : Prop :=
  (forall a, In a l <-> a <> [] /\ ancestor a t) /\ StronglySorted longer l.

(** Asking for one language tag after the other. *)
Inductive search {A} (ask : ustr -> pout (list A)) : list ustr -> pout (list A) -> Prop :=
| se_nil : search ask [] (Ok [])
| se_next a l r : ask a = Ok [] -> search ask l r -> search ask (a :: l) r
| se_stop a l : ask a <> Ok [] -> search ask (a :: l) (ask a).

(** ** Details *)

(** The number of strings stored for a component in a language. *)
Definition stored_in (d : db) (c t : ustr) : N :=
  N.of_nat (List.length (filter (fun r => ueqb (pr_tag r) t && ueqb (pr_component r) c) (db_pattern d))).
(** The numbers for the two sources of a component. *)
Definition aio_db (p : sprovider) (c : ustr) : option db :=
  match mget c (sp_components p) with
  | Some (true, _) => option_map fst (mget aio (sp_connections p))
  | _ => None
  end.
Definition own_db (p : sprovider) (c : ustr) : option db :=
  match mget c (sp_components p) with
  | Some (_, true) => option_map fst (mget c (sp_connections p))
  | _ => None
  end.
Definition stored (p : sprovider) (c t : ustr) : N :=
  (match aio_db p c with Some d => stored_in d c t | None => 0 end + match own_db p c with Some d => stored_in d c t | None => 0 end)%N.
Definition sumN (l : list N) : N := fold_right N.add 0%N l.

(** A contributor of a component in a language. *)
Definition contributes (p : sprovider) (c t n : ustr) : Prop :=
  exists d r, source p c d /\ In r (db_contributor d) /\ co_component r = c /\ co_tag r = t /\ co_name r = n.
(** The component has contributors in the language [t], which may be written differently in the file. *)
Definition has_language (E : penv) (p : sprovider) (c t : ustr) : Prop :=
  exists d r, source p c d /\ In r (db_contributor d) /\ co_component r = c /\ pe_canon E (co_tag r) = Some t.
(** Every language of the contributors is written in one way. *)
Definition one_spelling (E : penv) (p : sprovider) (c : ustr) : Prop :=
  forall d r r', source p c d -> In r (db_contributor d) -> In r' (db_contributor d) -> co_component r = c -> co_component r' = c ->
    pe_canon E (co_tag r) = pe_canon E (co_tag r') -> co_tag r = co_tag r'.
(** The language of a row of table component is a default language. *)
Definition default_in (E : penv) (d : db) (c t : ustr) : Prop :=
  exists r, In r (db_component d) /\ ir_identifier r = c /\ pe_canon E (ir_tag r) = Some t.
Definition no_default_in (d : db) (c : ustr) : Prop := forall r, In r (db_component d) -> ir_identifier r <> c.
Definition default_of (E : penv) (p : sprovider) (c t : ustr) : Prop :=
  (exists d, in_aio p c d /\ default_in E d c t) \/
  ((forall d, in_aio p c d -> no_default_in d c) /\ exists d, in_own p c d /\ default_in E d c t).

(** ** Schema *)
(** A column has the required name, type, NOT NULL and primary key property, and no default. *)
Definition column_fits (required : ustr * ustr * N * N) (col : column) : Prop :=
  let '(name, ty, notnull, pk) := required in
  cl_name col = name /\ cl_type col = ty /\ cl_notnull col = notnull /\ cl_pk col = pk /\ cl_default col = None.
(** Every required column is in its position. *)
Definition table_complete (required : list (ustr * ustr * N * N)) (cols : list column) : Prop :=
  forall n req, nth_error required n = Some req -> exists col, nth_error cols n = Some col /\ column_fits req col.
(** The columns there are fit. *)
Definition table_fits (required : list (ustr * ustr * N * N)) (cols : list column) : Prop :=
  forall n req col, nth_error required n = Some req -> nth_error cols n = Some col -> column_fits req col.
(** crates/provider/sqlite3/l10n/schema.sql 10-25 (without table metadata): name, type, NOT NULL and primary key of the columns. *)
Definition required_tables : list (ustr * list (ustr * ustr * N * N)) :=
  let c (name ty : string) (notnull pk : N) := (us name, us ty, notnull, pk) in
  [(us "component", [c "rowID" "INTEGER" 1 1; c "identifier" "TEXT" 1 0; c "languageTag" "TEXT" 1 0; c "comment" "TEXT" 0 0;
      c "added" "DATE" 1 0]);
   (us "contributor", [c "rowID" "INTEGER" 1 1; c "component" "TEXT" 1 0; c "languageTag" "TEXT" 1 0; c "contributor" "TEXT" 1 0;
      c "substituteFor" "TEXT" 0 0; c "comment" "TEXT" 0 0; c "verified" "DATE" 0 0]);
   (us "language", [c "rowID" "INTEGER" 1 1; c "tag" "TEXT" 1 0; c "englishName" "TEXT" 0 0; c "added" "DATE" 1 0]);
   (us "languageData", [c "rowID" "INTEGER" 1 1; c "component" "TEXT" 1 0; c "languageTag" "TEXT" 1 0; c "count" "INTEGER" 1 0;
      c "ratio" "REAL" 1 0]);
   (us "pattern", [c "rowID" "INTEGER" 1 1; c "component" "TEXT" 1 0; c "identifier" "TEXT" 1 0; c "languageTag" "TEXT" 1 0;
      c "string" "TEXT" 1 0; c "comment" "TEXT" 0 0; c "verified" "DATE" 0 0])]%string%N.
Definition schema_complete (s : schema) : Prop :=
  forall t cols, In (t, cols) required_tables -> In t (sc_tables s) /\ table_complete cols (sc_columns s t).
Definition schema_fits (s : schema) : Prop :=
  sc_readable s = true /\ In (us "metadata") (sc_tables s) /\ last (sc_versions s) [] = us "1.0" /\
  forall t cols, In (t, cols) required_tables -> In t (sc_tables s) /\ table_fits cols (sc_columns s t).

(** ** Conditions *)
(** Only one file holds the component. *)
Definition one_source (p : sprovider) (c : ustr) : Prop := forall d d', source p c d -> source p c d' -> d = d'.
(** Among the strings of [c] and [i], those found for an ancestor of [t] are in a language that is an ancestor of [t]. *)
Definition no_extensions (p : sprovider) (c i t : ustr) : Prop := forall d a r, source p c d -> ancestor a t -> a <> [] ->
  hit d c i (starts_with a) r -> ancestor (pr_tag r) t.
(** Where a subtag of [t] ends, one of [s] ends. *)
Definition same_boundaries (t s : ustr) : Prop := forall n, nth_error t n = Some (ch "-") \/ n = List.length t ->
  nth_error s n = Some (ch "-") \/ List.length s <= n.
(** SQLite gives the rows of table pattern in an order that does not depend on the query. *)
Definition fixed_order (E : penv) (p : sprovider) : Prop := forall file d v, mget file (sp_connections p) = Some (d, v) ->
  exists rows, Permutation rows (db_pattern d) /\ forall q ps f, pe_patterns E file q ps (filter f (db_pattern d)) = filter f rows.
(** SQLite gives the rows of table pattern in the order of their languages, as in the index of the UNIQUE constraint of schema.sql. *)
Fixpoint tag_le (a b : ustr) : bool :=
  match a, b with [], _ => true | _, [] => false | x :: a', y :: b' => (x <? y)%N || ((x =? y)%N && tag_le a' b') end.
Definition index_order (E : penv) : Prop := forall file one exact ps l,
  StronglySorted (fun r r' => tag_le (pr_tag r) (pr_tag r') = true) (pe_patterns E file (SqlPattern one exact) ps l).
(** The stored languages are written in canonical form, which has no wildcards. *)
Definition canonical_tags (E : penv) (p : sprovider) : Prop := forall file d v, mget file (sp_connections p) = Some (d, v) ->
  forall r, In r (db_pattern d) -> pe_canon E (pr_tag r) = Some (pr_tag r) /\ no_wildcard (pr_tag r).

(** ** Directories *)
(** The file [name].sqlite3 of the directory holds the database [d]. *)
Definition has_file (es : list entry) (name : ustr) (d : db) : Prop := exists e, In e es /\ en_stem e = Some name /\ en_db e = Some d.
(** Table component of the database has a row for [c]. *)
Definition lists_component (d : db) (c : ustr) : Prop := exists r, In r (db_component d) /\ ir_identifier r = c.
(** The names of the files are UTF-8. *)
Definition names_fine (es : list entry) : Prop := forall e, In e es ->
  en_stem e <> None /\ forall d, en_db e = Some d -> sc_path (db_schema d) <> None.
(** [p] is a provider for the directory; the components, in a hash map, are visited in any order. *)
Definition made (es : list entry) (p : sprovider) : Prop := exists comp_ok cs,
  provider_try_new comp_ok es = Ok (mk_sprovider cs (sp_connections p)) /\ Permutation (sp_components p) cs.
(** The result of a call after a history of calls of a new provider. *)
Definition result (E : penv) (p : sprovider) (h : list pcall) (c : pcall) : pout panswer := snd (pcall_run E p c (prun E p pstate_new h)).

(** ** Details, continued *)
(** The strings of the component in its files. *)
Definition rows_in (d : db) (c : ustr) : N := N.of_nat (List.length (filter (fun r => ueqb (pr_component r) c) (db_pattern d))).
Definition rows_of (p : sprovider) (c : ustr) : N :=
  (match aio_db p c with Some d => rows_in d c | None => 0 end + match own_db p c with Some d => rows_in d c | None => 0 end)%N.
(** Every language of the strings has a contributor, and is written in canonical form there. *)
Definition all_listed (E : penv) (p : sprovider) (c : ustr) : Prop :=
  forall d r, source p c d -> In r (db_pattern d) -> pr_component r = c -> has_language E p c (pr_tag r).
(** A language of the identifier [i] of [c] in the file [d] *)
Definition id_speaks (E : penv) (d : db) (c i t : ustr) : Prop :=
  exists r, In r (db_pattern d) /\ pr_component r = c /\ pr_identifier r = i /\ pe_canon E (pr_tag r) = Some t.
(** Every component has a default language, in which it has a contributor. *)
Definition defaults_fine (E : penv) (p : sprovider) : Prop := pe_canon E (us "und") <> None /\
  forall c, known p c -> (exists t, default_of E p c t) /\ forall t, default_of E p c t -> has_language E p c t.
