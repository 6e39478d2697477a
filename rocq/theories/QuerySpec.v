(** What queries a call of the provider is meant to make (C97). *)
From Verif Require Import Base RegistryModel ProviderModel ProviderSpec QueryModel.

(** SQLite reads the files of the provider, which do not change. *)
Definition reads_files (E : penv) (p : sprovider) (D : database) : Prop := forall h f d v q ps,
  mget f (sp_connections p) = Some (d, v) -> D h (mk_qcall f q ps) = match select E f d q ps with Ok rows => Some rows | _ => None end.

(** No file of a component has the name of the all in one file. *)
Definition own_names (p : sprovider) : Prop := forall c f, mget c (sp_components p) = Some (f, true) -> c <> aio.

(** ** Lookups *)
(** The query for the language [a]. *)
Definition level_query (one exact : bool) (file c i a : ustr) : qcall :=
  mk_qcall file (SqlPattern one exact) [i; if exact then a else a ++ [ch "%"]; c].
(** All queries that may be needed: for each level in the all in one file, and then in the file of the component. *)
Definition lookup_plan (one exact : bool) (files : bool * bool) (c i : ustr) (levels : list ustr) : list qcall :=
  (if fst files then map (level_query one exact aio c i) levels else []) ++ (if snd files then map (level_query one exact c c i) levels else []).
(** Queries made one after the other until SQLite answers with a row, or fails; and the last answer. *)
Inductive until_answered (D : database) : list qcall -> list qcall -> list qcall -> option (list (list cell)) -> Prop :=
| ua_none h : until_answered D h [] [] (Some [])
| ua_next h q plan qs r : D h q = Some [] -> until_answered D (h ++ [q]) plan qs r -> until_answered D h (q :: plan) (q :: qs) r
| ua_stop h q plan r : D h q = r -> r <> Some [] -> until_answered D h (q :: plan) [q] r.
(** A row is a string in a language. *)
Definition row_says (E : penv) (row : list cell) (x : ustr * ustr) : Prop :=
  exists raw rest, row = CellText (fst x) :: CellText raw :: rest /\ pe_canon E raw = Some (snd x).
Definition rows_say (E : penv) (rows : list (list cell)) (l : list (ustr * ustr)) : Prop := Forall2 (row_says E) rows l.
(** What a call makes of the last answer. *)
Definition concludes {A} (E : penv) (r : option (list (list cell))) (answer : list (ustr * ustr) -> A) (x : pout A) : Prop :=
  match r with
  | None => x = Err PSqlite
  | Some rows => (exists l, rows_say E rows l /\ x = Ok (answer l)) \/ ((forall l, ~ rows_say E rows l) /\ exists e, x = Err e)
  end.
(** The last of the strings. *)
Definition last_string (l : list (ustr * ustr)) : option (ustr * ustr) := last (map Some l) None.
(** What a lookup is about: whether one string is wanted, exactly, component, identifier, language, and the answer. *)
Definition lookup_of (x : pcall) : option (bool * bool * (ustr * ustr * ustr) * (list (ustr * ustr) -> panswer)) :=
  match x with
  | CallString c i t => Some (true, false, (c, i, t), fun l => AnString (last_string l))
  | CallExact c i t => Some (true, true, (c, i, t), fun l => AnString (last_string l))
  | CallStrings c i t => Some (false, false, (c, i, t), AnStrings)
  | _ => None
  end.
Definition hyphens (t : ustr) : nat := count_occ N.eq_dec t (ch "-").

(** ** All calls *)
(** The number of parameters of a query. *)
Definition parameters (q : sql) : nat :=
  match q with SqlPattern _ _ => 3 | SqlLanguages | SqlDefault => 1 | SqlIdentifier | SqlContributors | SqlCount => 2 end.
(** The query is about a component that is known, and is made on a file in which the component is. *)
Definition to_the_point (p : sprovider) (q : qcall) : Prop := exists c files, mget c (sp_components p) = Some files /\
  List.length (qc_params q) = parameters (qc_sql q) /\ last (qc_params q) [] = c /\
  ((fst files = true /\ qc_file q = aio) \/ (snd files = true /\ qc_file q = c)).
(** The queries that a call adds to those made before. *)
Definition new_queries {A} (s : qstate) (r : qstate * pout A) (qs : list qcall) : Prop := fst (fst r) = fst s ++ qs.

(** The most queries a call may make, when there are [n] components and SQLite gives [rows] languages. *)
Definition most_queries (n rows : nat) (x : pcall) : nat :=
  match x with
  | CallString _ _ t | CallExact _ _ t | CallStrings _ _ t => 2 * S (hyphens t)
  | CallIdentifier _ _ => 2 + 4 * n + 4 * rows
  | CallComponent _ | CallRepository => 4 * n + 4 * rows
  end.

(** ** Details *)
(** How many rows, languages, SQLite gives in answer to the queries for the languages of a component. *)
Fixpoint language_rows (D : database) (h qs : list qcall) : nat :=
  match qs with
  | [] => 0
  | q :: r => (match qc_sql q, D h q with SqlLanguages, Some rows => List.length rows | _, _ => 0 end) + language_rows D (h ++ [q]) r
  end.
(** SQLite does not give a language of the all in one file in two spellings. *)
Definition spelt_once (E : penv) (D : database) : Prop := forall h ps rows n m r r' x x',
  D h (mk_qcall aio SqlLanguages ps) = Some rows -> nth_error rows n = Some (CellText r :: x) -> nth_error rows m = Some (CellText r' :: x') ->
  pe_canon E r <> None -> pe_canon E r = pe_canon E r' -> n = m.
(** The details of an identifier are looked up first in the all in one file. *)
Definition looks_once (p : sprovider) (x : pcall) : Prop :=
  match x with CallIdentifier c _ => forall files, mget c (sp_components p) = Some files -> fst files = true | _ => True end.

(** ** What the details need *)
(** Rows that give languages. *)
Definition tells (E : penv) (rows : list (list cell)) (l : list ustr) : Prop :=
  Forall2 (fun row t => exists raw rest, row = CellText raw :: rest /\ pe_canon E raw = Some t) rows l.
Definition asked_languages (E : penv) (D : database) (h : list qcall) (f c : ustr) (l : list ustr) : Prop :=
  exists rows, D h (mk_qcall f SqlLanguages [c]) = Some rows /\ tells E rows l.
(** A query in all files of the component. *)
Definition in_files (c : ustr) (files : bool * bool) (q : sql) (ps : list ustr) : list qcall :=
  (if fst files then [mk_qcall aio q ps] else []) ++ (if snd files then [mk_qcall c q ps] else []).
(** The queries for the details of a component: for the languages of all its files; for the default language, in its own file only
    if the all in one file gives none; and for the contributors and the number of strings of each language, first those of the
    all in one file and then the others. *)
Definition component_asks (E : penv) (D : database) (h : list qcall) (c : ustr) (files : bool * bool) (qs : list qcall) : Prop :=
  exists l1 l2 l3 missing,
    (if fst files then asked_languages E D h aio c l1 else l1 = []) /\
    (if snd files then asked_languages E D (h ++ if fst files then [mk_qcall aio SqlLanguages [c]] else []) c c l2 else l2 = []) /\
    NoDup l3 /\ (forall t, In t l3 <-> In t l2 /\ ~ In t l1) /\
    (if fst files then exists rows, D (h ++ in_files c files SqlLanguages [c]) (mk_qcall aio SqlDefault [c]) = Some rows /\ (missing = true <-> rows = [])
     else missing = true) /\
    qs = in_files c files SqlLanguages [c] ++ (if fst files then [mk_qcall aio SqlDefault [c]] else []) ++
         (if missing && snd files then [mk_qcall c SqlDefault [c]] else []) ++
         List.concat (map (fun t => in_files c files SqlContributors [t; c] ++ in_files c files SqlCount [t; c]) (l1 ++ l3)).
(** Those of all components. *)
Inductive details_asks (E : penv) (D : database) : list qcall -> amap (bool * bool) -> list qcall -> Prop :=
| da_none h : details_asks E D h [] []
| da_next h c files cs q1 q2 : component_asks E D h c files q1 -> details_asks E D (h ++ q1) cs q2 ->
    details_asks E D h ((c, files) :: cs) (q1 ++ q2).
(** Those of an identifier: in the all in one file if the component is in it, and in the file of the component if there is no row. *)
Definition identifier_asks (D : database) (p : sprovider) (h : list qcall) (c i : ustr) (qs : list qcall) : Prop := exists files,
  mget c (sp_components p) = Some files /\
  let q := mk_qcall (if fst files then aio else c) SqlIdentifier [i; c] in
  exists rows, D h q = Some rows /\ match rows with [] => snd files = true /\ qs = [q; mk_qcall c SqlIdentifier [i; c]] | _ => qs = [q] end.
Definition then_asks (D : database) (p : sprovider) (h : list qcall) (x : pcall) (qs : list qcall) : Prop :=
  match x with CallIdentifier c i => identifier_asks D p h c i qs | _ => qs = [] end.
