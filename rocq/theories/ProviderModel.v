(** Model of crates/provider/sqlite3/src/provider.rs (without feature [sync]) and of the SQL it uses. *)
From Coq Require Export Permutation.
From Verif Require Import Base RegistryModel.

(** ** SQLite *)

(** crates/provider/sqlite3/l10n/schema.sql: the columns the provider reads. *)
Record prow := mk_prow { pr_component : ustr; pr_identifier : ustr; pr_tag : ustr; pr_string : ustr }.   (* pattern *)
Record crow := mk_crow { co_component : ustr; co_tag : ustr; co_name : ustr }.                            (* contributor *)
Record irow := mk_irow { ir_identifier : ustr; ir_tag : ustr }.                                           (* component *)

(** A row of [pragma_table_info]; the column number is the position in the list. *)
Record column := mk_column { cl_name : ustr; cl_type : ustr; cl_notnull : N; cl_default : option ustr; cl_pk : N }.
(** What [verify_schema] reads of a database: the names of the tables, the columns of a table, the values of the key
    [schema_version] of table metadata, the path of the file if it is UTF-8; [sc_readable] is false if SQLite fails. *)
Record schema := mk_schema {
  sc_tables : list ustr;
  sc_columns : ustr -> list column;
  sc_versions : list ustr;
  sc_path : option ustr;
  sc_readable : bool
}.
Record db := mk_db { db_schema : schema; db_pattern : list prow; db_contributor : list crow; db_component : list irow }.

(** The queries of provider.rs 2159-2220 for schema version 1.0. *)
Inductive sql :=
| SqlPattern (one exact : bool) (* SELECT string, languageTag FROM pattern WHERE identifier = ?1 AND languageTag {= | LIKE} ?2
                                   AND component = ?3 [LIMIT 1] *)
| SqlLanguages                  (* SELECT DISTINCT languageTag FROM contributor WHERE component = ?1 *)
| SqlIdentifier                 (* SELECT languageTag FROM pattern WHERE identifier = ?1 AND component = ?2 *)
| SqlContributors               (* SELECT DISTINCT contributor FROM contributor WHERE languageTag = ?1 AND component = ?2 *)
| SqlCount                      (* SELECT count( * ) FROM pattern WHERE languageTag = ?1 AND component = ?2 *)
| SqlDefault.                   (* SELECT languageTag FROM component WHERE identifier = ?1 *)

(** SQLite's LIKE: [%] stands for any characters, [_] for one; letters A-Z match their lower case form. *)
Definition lower (c : uchar) : uchar := if ((65 <=? c) && (c <=? 90))%N%bool then (c + 32)%N else c.
Fixpoint like (p s : ustr) {struct p} : bool :=
  match p with
  | [] => match s with [] => true | _ => false end
  | x :: p' =>
      if (x =? ch "%")%N then
        (fix any (s : ustr) : bool := like p' s || match s with [] => false | _ :: s' => any s' end) s
      else match s with
           | [] => false
           | y :: s' => ((x =? ch "_")%N || (lower x =? lower y)%N) && like p' s'
           end
  end.
(** DISTINCT *)
Fixpoint distinct (l : list ustr) : list ustr :=
  match l with [] => [] | x :: r => if umem x r then distinct r else x :: distinct r end.

Inductive cell := CellText (s : ustr) | CellInt (n : N).

(** crates/provider/core/src/error.rs 39-46 [ProviderError]; [PSqlite] is [Custom] with an SQLite error. *)
Inductive perror :=
| PComponentNotFound (component : ustr)
| PRegistry (e : registry_error)
| PDefaultLanguage (component : ustr)
| PInvalidDefaultLanguage (component : ustr)
| PSqlite.
Definition pout := outcome perror.

(** The environment: the canonical form of language tags (by C25 the answer of the language tag registry in every
    history); whether SQLite runs a query with parameters on a file without error; the order in which it gives the rows,
    which SQL leaves open. The content of the files is taken not to change. *)
Record penv := mk_penv {
  pe_canon : ustr -> option ustr;
  pe_ok : ustr -> sql -> list ustr -> bool;
  pe_patterns : ustr -> sql -> list ustr -> list prow -> list prow;
  pe_texts : ustr -> sql -> list ustr -> list ustr -> list ustr;
  pe_defaults : ustr -> sql -> list ustr -> list irow -> list irow
}.
Definition order_ok (E : penv) : Prop :=
  (forall f q ps l, Permutation (pe_patterns E f q ps l) l) /\ (forall f q ps l, Permutation (pe_texts E f q ps l) l) /\
  (forall f q ps l, Permutation (pe_defaults E f q ps l) l).

(** ** Schema verification *)
Inductive schema_error :=
| SMissingTable (table : ustr)
| SMissingColumn (table column : ustr)
| SColumnProperty (table column property : ustr)
| SColumnDefault (table column value : ustr)
| SVersion (path required : ustr)
| SSqlite.
Definition sout := outcome schema_error.

(** provider.rs 1921-1932 [table_exists] *)
Definition table_exists (tables : list ustr) (name : ustr) : sout unit :=
  if umem name tables then Ok tt else Err (SMissingTable name).
(** provider.rs 1947-2152 [columns_check] with [DefaultValue::Null], the only one used. A default of an INTEGER or REAL column
    is a text in the row (2006, 2042), which does not convert: an SQLite error. *)
Definition columns_check (table : ustr) (row : column) (name ty : ustr) (notnull pk : N) : sout unit :=
  if negb (ueqb (cl_name row) name) then Err (SMissingColumn table name)
  else if negb (ueqb (cl_type row) ty) then Err (SColumnProperty table name ty)
  else if negb (cl_notnull row =? notnull)%N then
    Err (SColumnProperty table name (if (notnull =? 1)%N then us "NOT NULL" else us "NULL"))
  else if negb (cl_pk row =? pk)%N then
    Err (SColumnProperty table name (if (notnull =? 1)%N then us "PRIMARY KEY" else []))
  else match cl_default row with
       | None => Ok tt
       | Some _ => if ueqb ty (us "INTEGER") || ueqb ty (us "REAL") then Err SSqlite
                   else Err (SColumnDefault table name (us "NULL"))
       end.
(** The loops over [pragma_table_info] in 1584-1906: row number [cid] is compared with the required column of that number;
    further rows are skipped. The loop ends with the rows. *)
Fixpoint check_rows (table : ustr) (rows : list column) (required : list (ustr * ustr * N * N)) : sout unit :=
  match rows, required with
  | row :: rows', (name, ty, notnull, pk) :: required' =>
      let! _ := columns_check table row name ty notnull pk in check_rows table rows' required'
  | _, _ => Ok tt
  end.
(** provider.rs 1586-1671, 1674-1710, 1713-1782, 1785-1840, 1843-1906 *)
Definition row_id : ustr * ustr * N * N := (us "rowID", us "INTEGER", 1%N, 1%N).
Definition column_ (name ty : ustr) (notnull : N) : ustr * ustr * N * N := (name, ty, notnull, 0%N).
Definition contributor_columns := [row_id; column_ (us "component") (us "TEXT") 1; column_ (us "languageTag") (us "TEXT") 1;
  column_ (us "contributor") (us "TEXT") 1; column_ (us "substituteFor") (us "TEXT") 0; column_ (us "comment") (us "TEXT") 0;
  column_ (us "verified") (us "DATE") 0].
Definition language_columns := [row_id; column_ (us "tag") (us "TEXT") 1; column_ (us "englishName") (us "TEXT") 0;
  column_ (us "added") (us "DATE") 1].
Definition pattern_columns := [row_id; column_ (us "component") (us "TEXT") 1; column_ (us "identifier") (us "TEXT") 1;
  column_ (us "languageTag") (us "TEXT") 1; column_ (us "string") (us "TEXT") 1; column_ (us "comment") (us "TEXT") 0;
  column_ (us "verified") (us "DATE") 0].
Definition component_columns := [row_id; column_ (us "identifier") (us "TEXT") 1; column_ (us "languageTag") (us "TEXT") 1;
  column_ (us "comment") (us "TEXT") 0; column_ (us "added") (us "DATE") 1].
Definition language_data_columns := [row_id; column_ (us "component") (us "TEXT") 1; column_ (us "languageTag") (us "TEXT") 1;
  column_ (us "count") (us "INTEGER") 1; column_ (us "ratio") (us "REAL") 1].

(** provider.rs 1546-1916 [verify_schema] *)
Definition verify_schema (s : schema) : sout ustr :=
  if negb (sc_readable s) then Err SSqlite
  else if negb (umem (us "metadata") (sc_tables s)) then Err (SMissingTable (us "metadata"))       (* 1561-1563 *)
  else
    let version := last (sc_versions s) [] in                                                       (* 1564-1574 *)
    if ueqb version (us "1.0") then
      let! _ := table_exists (sc_tables s) (us "contributor") in
      let! _ := table_exists (sc_tables s) (us "language") in
      let! _ := table_exists (sc_tables s) (us "pattern") in
      let! _ := table_exists (sc_tables s) (us "component") in
      let! _ := table_exists (sc_tables s) (us "languageData") in
      let! _ := check_rows (us "contributor") (sc_columns s (us "contributor")) contributor_columns in
      let! _ := check_rows (us "language") (sc_columns s (us "language")) language_columns in
      let! _ := check_rows (us "pattern") (sc_columns s (us "pattern")) pattern_columns in
      let! _ := check_rows (us "component") (sc_columns s (us "component")) component_columns in
      let! _ := check_rows (us "languageData") (sc_columns s (us "languageData")) language_data_columns in
      Ok version
    else match sc_path s with None => Panic | Some path => Err (SVersion path (us "1.0")) end.      (* 1908-1913 *)

(** ** The provider *)

(** provider.rs 79-97 [LocalisationProviderSqlite3]: the fields that do not change. The order of [sp_components] is that of
    the iteration in [build_cache]. *)
Record sprovider := mk_sprovider {
  sp_components : amap (bool * bool);
  sp_connections : amap (db * ustr)
}.
Definition aio : ustr := us "__all_in_one__".

(** A directory entry with extension [sqlite3]: its stem, if it is UTF-8, and the database if it can be opened. *)
Record entry := mk_entry { en_stem : option ustr; en_db : option db }.
(** error.rs 36-46 [ProviderSqlite3Error], as far as [try_new] returns it for a readable directory. *)
Inductive new_error := NSchema (e : schema_error) | NSqlite | NNoSqlite3Files.

(** provider.rs 161-182: the rows of table component. *)
Fixpoint add_aio (rows : list irow) (m : amap (bool * bool)) : amap (bool * bool) :=
  match rows with
  | [] => m
  | r :: rest =>
      add_aio rest (minsert (ir_identifier r) (match mget (ir_identifier r) m with None => (true, false) | Some v => (true, snd v) end) m)
  end.
(** provider.rs 137-230; [comp_ok] tells whether the query of line 162 succeeds. *)
Fixpoint add_entries (comp_ok : db -> bool) (es : list entry) (p : sprovider) : outcome new_error sprovider :=
  match es with
  | [] => Ok p
  | e :: rest =>
      match en_stem e with
      | None => Panic                                                                               (* 142 *)
      | Some name =>
          match en_db e with
          | None => add_entries comp_ok rest p
          | Some d =>
              let! version := map_err NSchema (verify_schema (db_schema d)) in
              if ueqb name aio then
                if negb (comp_ok d) then Err NSqlite else
                add_entries comp_ok rest (mk_sprovider (add_aio (db_component d) (sp_components p))
                  (minsert aio (d, version) (sp_connections p)))
              else
                add_entries comp_ok rest (mk_sprovider
                  (minsert name (match mget name (sp_components p) with None => (false, true) | Some v => (fst v, true) end)
                     (sp_components p))
                  (minsert name (d, version) (sp_connections p)))
          end
      end
  end.
(** provider.rs 114-246 [try_new] for a readable directory *)
Definition provider_try_new (comp_ok : db -> bool) (es : list entry) : outcome new_error sprovider :=
  let! p := add_entries comp_ok es (mk_sprovider [] []) in
  match sp_components p with [] => Err NNoSqlite3Files | _ => Ok p end.

(** crates/provider/core/src/provider.rs 138-160. A ratio is the quotient of two numbers ([f32] arithmetic is not modelled);
    [None] is the initial 0.0. *)
Record lgdata := mk_lgdata { lg_count : N; lg_ratio : option (N * N); lg_contributors : list ustr }.
Record cdetails := mk_cdetails { cd_languages : amap lgdata; cd_default : ustr; cd_total : N }.
Record rdetails := mk_rdetails {
  rd_languages : amap lgdata;
  rd_default : option ustr;
  rd_total : N;
  rd_components : list ustr;
  rd_contributors : list ustr
}.
Record idetails := mk_idetails { id_languages : list ustr; id_default : ustr }.

(** The fields that change: the cache of queries and the cells of the details. *)
Record pstate := mk_pstate { ps_queries : amap sql; ps_details : option (amap cdetails * rdetails) }.
Definition pstate_new : pstate := mk_pstate [] None.

(** Computations on the state of the provider. *)
Definition PM (A : Type) := pstate -> pstate * pout A.
Definition pret {A} (x : pout A) : PM A := fun st => (st, x).
Definition pbind {A B} (m : PM A) (f : A -> PM B) : PM B := fun st =>
  match m st with
  | (st', Ok a) => f a st'
  | (st', Err e) => (st', Err e)
  | (st', Panic) => (st', Panic)
  | (st', NoFuel) => (st', NoFuel)
  end.
Notation "'let*' x ':=' a 'in' b" := (pbind a (fun x => b))
  (at level 200, x pattern, a at level 100, b at level 200, right associativity).

Section Provider.
  Variable E : penv.
  Variable p : sprovider.

  (** provider.rs 251-272 [connection]: the name of the file, its content and schema version. *)
  Definition connection (component : ustr) (all_in_one : bool) : pout (ustr * (db * ustr)) :=
    match mget component (sp_components p) with
    | None => Err (PComponentNotFound component)
    | Some value =>
        if all_in_one && fst value then
          match mget aio (sp_connections p) with Some r => Ok (aio, r) | None => Panic end
        else if snd value then
          match mget component (sp_connections p) with Some r => Ok (component, r) | None => Panic end
        else Err (PComponentNotFound component)
    end.

  (** provider.rs 2159-2220: [todo!] for other schema versions. *)
  Definition make_query (version : ustr) (q : sql) : pout sql := if ueqb version (us "1.0") then Ok q else Panic.
  (** provider.rs 350-382 and the same lines of the other methods: the query is looked up under its identifier, or made and
      remembered. *)
  Definition get_query (key version : ustr) (q : sql) : PM sql := fun st =>
    match mget key (ps_queries st) with
    | Some q' => (st, Ok q')
    | None => match make_query version q with
              | Ok q' => (mk_pstate (minsert key q' (ps_queries st)) (ps_details st), Ok q')
              | Err e => (st, Err e)
              | Panic => (st, Panic)
              | NoFuel => (st, NoFuel)
              end
    end.

  (** Running a query on a file: the rows. *)
  Definition select (file : ustr) (d : db) (q : sql) (ps : list ustr) : pout (list (list cell)) :=
    if negb (pe_ok E file q ps) then Err PSqlite else
    match q, ps with
    | SqlPattern one exact, [identifier; tag; component] =>
        let rows := pe_patterns E file q ps (filter (fun r => ueqb (pr_identifier r) identifier &&
          (if exact then ueqb (pr_tag r) tag else like tag (pr_tag r)) && ueqb (pr_component r) component) (db_pattern d)) in
        Ok (map (fun r => [CellText (pr_string r); CellText (pr_tag r)]) (if one then firstn 1 rows else rows))
    | SqlLanguages, [component] =>
        Ok (map (fun t => [CellText t]) (pe_texts E file q ps
          (distinct (map co_tag (filter (fun r => ueqb (co_component r) component) (db_contributor d))))))
    | SqlIdentifier, [identifier; component] =>
        Ok (map (fun r => [CellText (pr_tag r)]) (pe_patterns E file q ps
          (filter (fun r => ueqb (pr_identifier r) identifier && ueqb (pr_component r) component) (db_pattern d))))
    | SqlContributors, [tag; component] =>
        Ok (map (fun n => [CellText n]) (pe_texts E file q ps
          (distinct (map co_name (filter (fun r => ueqb (co_tag r) tag && ueqb (co_component r) component) (db_contributor d))))))
    | SqlCount, [tag; component] =>
        Ok [[CellInt (N.of_nat (List.length (filter (fun r => ueqb (pr_tag r) tag && ueqb (pr_component r) component) (db_pattern d))))]]
    | SqlDefault, [component] =>
        Ok (map (fun r => [CellText (ir_tag r)]) (pe_defaults E file q ps
          (filter (fun r => ueqb (ir_identifier r) component) (db_component d))))
    | _, _ => Err PSqlite
    end.
  Definition get_text (row : list cell) (n : nat) : pout ustr :=
    match nth_error row n with Some (CellText s) => Ok s | _ => Err PSqlite end.
  Definition get_int (row : list cell) (n : nat) : pout N :=
    match nth_error row n with Some (CellInt k) => Ok k | _ => Err PSqlite end.
  (** [tag] of the language tag registry *)
  Definition registry_tag (raw : ustr) : pout ustr :=
    match pe_canon E raw with Some t => Ok t | None => Err (PRegistry IcuLocid) end.
  Fixpoint map_rows {A} (f : list cell -> pout A) (rows : list (list cell)) : pout (list A) :=
    match rows with [] => Ok [] | r :: rest => let! a := f r in let! l := map_rows f rest in Ok (a :: l) end.

  (** [str::rsplit_once('-')], the part before the last hyphen. *)
  Fixpoint before_last_hyphen (s : ustr) : option ustr :=
    match s with
    | [] => None
    | c :: r => match before_last_hyphen r with
                | Some a => Some (c :: a)
                | None => if (c =? ch "-")%N then Some [] else None
                end
    end.
  (** provider.rs 407-459 *)
  Fixpoint find_loop (fuel : nat) (file : ustr) (d : db) (q : sql) (component identifier : ustr) (exact : bool) (tag : ustr)
    : pout (list (ustr * ustr)) :=
    match fuel with
    | O => NoFuel
    | S f =>
        match tag with
        | [] => Ok []
        | _ :: _ =>
            let tag := if exact then tag else tag ++ [ch "%"] in
            let! rows := select file d q [identifier; tag; component] in
            let! strings := map_rows (fun row => let! s := get_text row 0 in let! raw := get_text row 1 in
                                                 let! t := registry_tag raw in Ok (s, t)) rows in
            match strings with
            | _ :: _ => Ok strings
            | [] => find_loop f file d q component identifier exact
                      (match before_last_hyphen tag with None => [] | Some a => a end)
            end
        end
    end.
  (** provider.rs 327-460 [find_strings] *)
  Definition find_strings (component identifier tag : ustr) (all_in_one only_one exact : bool) : PM (list (ustr * ustr)) :=
    let* (file, (d, version)) := pret (connection component all_in_one) in
    let key := us "Pattern" ++ (if exact then us "Exact" else []) ++ (if all_in_one then us "Aio" else []) ++
               (if only_one then us "One" else []) in
    let* q := get_query key version (SqlPattern only_one exact) in
    pret (find_loop (S (List.length tag)) file d q component identifier exact tag).

  Definition aio_key (s : ustr) (all_in_one : bool) : ustr := s ++ (if all_in_one then us "Aio" else []).
  (** provider.rs 463-554 [languages] *)
  Definition languages (component : ustr) (all_in_one : bool) : PM (list ustr) :=
    let* (file, (d, version)) := pret (connection component all_in_one) in
    let* q := get_query (aio_key (us "Languages") all_in_one) version SqlLanguages in
    pret (let! rows := select file d q [component] in
          map_rows (fun row => let! raw := get_text row 0 in registry_tag raw) rows).
  (** provider.rs 557-653 [identifier_languages] *)
  Definition identifier_languages (component identifier : ustr) (all_in_one : bool) : PM (list ustr) :=
    let* (file, (d, version)) := pret (connection component all_in_one) in
    let* q := get_query (aio_key (us "Identifier") all_in_one) version SqlIdentifier in
    pret (let! rows := select file d q [identifier; component] in
          map_rows (fun row => let! raw := get_text row 0 in registry_tag raw) rows).
  (** provider.rs 656-751 [contributors] *)
  Definition contributors (component tag : ustr) (all_in_one : bool) : PM (list ustr) :=
    let* (file, (d, version)) := pret (connection component all_in_one) in
    let* q := get_query (aio_key (us "Contributors") all_in_one) version SqlContributors in
    pret (let! rows := select file d q [tag; component] in map_rows (fun row => get_text row 0) rows).
  (** provider.rs 754-848 [count]: the value of the last row *)
  Definition count (component tag : ustr) (all_in_one : bool) : PM N :=
    let* (file, (d, version)) := pret (connection component all_in_one) in
    let* q := get_query (aio_key (us "Count") all_in_one) version SqlCount in
    pret (let! rows := select file d q [tag; component] in
          let! l := map_rows (fun row => get_int row 0) rows in Ok (last l 0%N)).
  (** provider.rs 851-941 [default_language]: the value of the last row *)
  Definition default_language (component : ustr) (all_in_one : bool) : PM (option ustr) :=
    let* (file, (d, version)) := pret (connection component all_in_one) in
    let* q := get_query (aio_key (us "Default") all_in_one) version SqlDefault in
    pret (let! rows := select file d q [component] in
          let! l := map_rows (fun row => let! raw := get_text row 0 in registry_tag raw) rows in
          Ok (last (map Some l) None)).

  (** ** The methods of the trait *)

  Definition skip {A} (a : A) : PM A := pret (Ok a).
  (** provider.rs 1178-1220 [string] and, with [exact], 1261-1303 [string_exact_match]; [pop] takes the last string. *)
  Definition one_string (exact : bool) (component identifier tag : ustr) : PM (option (ustr * ustr)) :=
    match mget component (sp_components p) with
    | None => pret (Err (PComponentNotFound component))
    | Some files =>
        let* o := if fst files then
                    let* l := find_strings component identifier tag true true exact in skip (last (map Some l) None)
                  else skip None in
        match o with
        | Some r => skip (Some r)
        | None =>
            if snd files then
              let* l := find_strings component identifier tag false true exact in skip (last (map Some l) None)
            else skip None
        end
    end.
  Definition string_ := one_string false.
  Definition string_exact_match := one_string true.
  (** provider.rs 1344-1383 [strings] *)
  Definition strings (component identifier tag : ustr) : PM (list (ustr * ustr)) :=
    match mget component (sp_components p) with
    | None => pret (Err (PComponentNotFound component))
    | Some files =>
        let* l := if fst files then find_strings component identifier tag true false false else skip [] in
        match l with
        | _ :: _ => skip l
        | [] => if snd files then find_strings component identifier tag false false false else skip []
        end
    end.

  (** ** Details *)
  Definition no_data : lgdata := mk_lgdata 0 None [].
  Definition ensure (m : amap lgdata) (t : ustr) : amap lgdata := if mhas t m then m else minsert t no_data m.
  (** provider.rs 972-992: for the languages in the all in one file. *)
  Definition add_aio_languages (ls : list ustr) (cm : amap lgdata) : amap lgdata := fold_left (fun m t => minsert t no_data m) ls cm.
  (** provider.rs 997-1020: for the languages in the file of the component; the list of languages and the map. *)
  Definition add_own_languages (ls : list ustr) (acc : list ustr * amap lgdata) : list ustr * amap lgdata :=
    fold_left (fun a t => if umem t (fst a) then a else (fst a ++ [t], minsert t no_data (snd a))) ls acc.
  (** [contains] and [push] *)
  Definition push_new (l : list ustr) (x : ustr) : list ustr := if umem x l then l else l ++ [x].
  Definition set_count (x : lgdata) (n : N) : lgdata := mk_lgdata n (lg_ratio x) (lg_contributors x).

  (** provider.rs 1054-1093: the data of one language of a component. *)
  Definition language_step (component : ustr) (files : bool * bool) (t : ustr) (acc : cdetails * rdetails) : PM (cdetails * rdetails) :=
    let (cd, rd) := acc in
    match mget t (cd_languages cd) with
    | None => pret Panic                                                                            (* 1056 *)
    | Some data =>
        let* c1 := if fst files then contributors component t true else skip (lg_contributors data) in (* 1057-1067 *)
        let rc1 := if fst files then fold_left push_new c1 (rd_contributors rd) else rd_contributors rd in
        let* c2 := if snd files then contributors component t false else skip [] in                 (* 1068-1081 *)
        let c3 := fold_left push_new c2 c1 in
        let rc2 := fold_left push_new c2 rc1 in
        let* n1 := if fst files then count component t true else skip (lg_count data) in            (* 1083-1085 *)
        let* n2 := if snd files then count component t false else skip 0%N in                       (* 1086-1088 *)
        let n := (n1 + n2)%N in
        match mget t (rd_languages rd) with
        | None => pret Panic                                                                        (* 1089 *)
        | Some rl =>
            skip (mk_cdetails (minsert t (mk_lgdata n (lg_ratio data) c3) (cd_languages cd)) (cd_default cd) (cd_total cd + n),
                  mk_rdetails (minsert t (set_count rl (lg_count rl + n)) (rd_languages rd)) (rd_default rd) (rd_total rd + n)
                    (rd_components rd) rc2)
        end
    end.
  Fixpoint language_loop (component : ustr) (files : bool * bool) (ls : list ustr) (acc : cdetails * rdetails) : PM (cdetails * rdetails) :=
    match ls with
    | [] => skip acc
    | t :: r => let* acc' := language_step component files t acc in language_loop component files r acc'
    end.
  (** provider.rs 1094-1105 and 1117-1128 *)
  Definition set_ratios (n : N) (m : amap lgdata) : amap lgdata :=
    map (fun x => (fst x, mk_lgdata (lg_count (snd x)) (Some (lg_count (snd x), n)) (lg_contributors (snd x)))) m.

  (** provider.rs 959-1111: one component. *)
  Definition component_step (component : ustr) (files : bool * bool) (acc : amap cdetails * rdetails) : PM (amap cdetails * rdetails) :=
    let (cds, rd0) := acc in
    let rcomponents := rd_components rd0 ++ [component] in
    let* und := pret (registry_tag (us "und")) in
    let* l1 := if fst files then languages component true else skip [] in
    let cm1 := if fst files then add_aio_languages l1 [] else [] in
    let rm1 := fold_left ensure l1 (rd_languages rd0) in
    let* l2 := if snd files then languages component false else skip [] in
    let (ls, cm2) := add_own_languages l2 (l1, cm1) in
    let rm2 := fold_left ensure l2 rm1 in
    let* d1 := if fst files then default_language component true else skip None in
    let* d2 := match d1 with
               | None => if snd files then default_language component false else skip None
               | Some _ => skip d1
               end in
    match d2 with
    | None => pret (Err (PDefaultLanguage component))
    | Some t =>
        if negb (mhas t cm2) then pret (Err (PInvalidDefaultLanguage component)) else
        let rdefault := if ueqb component (us "application") then Some t else rd_default rd0 in
        let* (cd, rd) := language_loop component files ls
          (mk_cdetails cm2 t 0, mk_rdetails rm2 rdefault (rd_total rd0) rcomponents (rd_contributors rd0)) in
        match mget (cd_default cd) (cd_languages cd) with
        | None => pret Panic                                                                        (* 1099 *)
        | Some data =>
            skip (minsert component (mk_cdetails (set_ratios (lg_count data) (cd_languages cd)) (cd_default cd) (cd_total cd)) cds, rd)
        end
    end.
  Fixpoint component_loop (cs : amap (bool * bool)) (acc : amap cdetails * rdetails) : PM (amap cdetails * rdetails) :=
    match cs with
    | [] => skip acc
    | (c, files) :: r => let* acc' := component_step c files acc in component_loop r acc'
    end.
  (** provider.rs 944-1135 [build_cache] *)
  Definition build_details : PM (amap cdetails * rdetails) :=
    let* (cds, rd) := component_loop (sp_components p) ([], mk_rdetails [] None 0 [] []) in
    match rd_default rd with
    | None => skip (cds, rd)
    | Some t =>
        match mget t (rd_languages rd) with
        | None => pret Panic                                                                        (* 1122 *)
        | Some data => skip (cds, mk_rdetails (set_ratios (lg_count data) (rd_languages rd)) (rd_default rd) (rd_total rd)
                                    (rd_components rd) (rd_contributors rd))
        end
    end.
  (** The cells are filled if the details could be built (1130-1133), and read. *)
  Definition get_details : PM (amap cdetails * rdetails) := fun st =>
    match ps_details st with
    | Some x => (st, Ok x)
    | None => match build_details st with
              | (st', Ok x) => (mk_pstate (ps_queries st') (Some x), Ok x)
              | other => other
              end
    end.
  (** provider.rs 1416-1447 [identifier_details], 1480-1498 [component_details], 1531-1542 [repository_details] *)
  Definition identifier_details (component identifier : ustr) : PM idetails :=
    let* (cds, _) := get_details in
    match mget component cds with
    | None => pret (Err (PComponentNotFound component))
    | Some cd =>
        let* l := identifier_languages component identifier true in
        let* l' := match l with [] => identifier_languages component identifier false | _ => skip l end in
        skip (mk_idetails l' (cd_default cd))
    end.
  Definition component_details (component : ustr) : PM cdetails :=
    let* (cds, _) := get_details in
    match mget component cds with None => pret (Err (PComponentNotFound component)) | Some cd => skip cd end.
  Definition repository_details : PM rdetails := let* (_, rd) := get_details in skip rd.

  (** ** Calls *)
  Inductive pcall :=
  | CallString (component identifier tag : ustr)
  | CallExact (component identifier tag : ustr)
  | CallStrings (component identifier tag : ustr)
  | CallIdentifier (component identifier : ustr)
  | CallComponent (component : ustr)
  | CallRepository.
  Inductive panswer :=
  | AnString (o : option (ustr * ustr))
  | AnStrings (l : list (ustr * ustr))
  | AnIdentifier (d : idetails)
  | AnComponent (d : cdetails)
  | AnRepository (d : rdetails).
  Definition pcall_run (c : pcall) : PM panswer :=
    match c with
    | CallString c i t => let* o := string_ c i t in skip (AnString o)
    | CallExact c i t => let* o := string_exact_match c i t in skip (AnString o)
    | CallStrings c i t => let* l := strings c i t in skip (AnStrings l)
    | CallIdentifier c i => let* d := identifier_details c i in skip (AnIdentifier d)
    | CallComponent c => let* d := component_details c in skip (AnComponent d)
    | CallRepository => let* d := repository_details in skip (AnRepository d)
    end.
  Definition prun (st : pstate) (h : list pcall) : pstate := fold_left (fun st c => fst (pcall_run c st)) h st.
End Provider.
