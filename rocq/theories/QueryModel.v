(** Model of crates/provider/sqlite3/src/provider.rs (without feature [sync]) once more, with the queries it sends to SQLite. The
    methods are those of [ProviderModel]; lines as there. What differs: the content of the files is not given. SQLite answers a
    query depending on all queries it got before, so files may change while the provider is in use, and each query counts. *)
From Verif Require Import Base RegistryModel ProviderModel.

(** [statement.query] with the name of the file, the query and its parameters. A statement that SQLite does not prepare is taken as
    a first query that fails. *)
Record qcall := mk_qcall { qc_file : ustr; qc_sql : sql; qc_params : list ustr }.
(** SQLite: the rows that answer a query after earlier ones, or [None] if it fails. *)
Definition database := list qcall -> qcall -> option (list (list cell)).

(** Computations on the queries made and the state of the provider. *)
Definition qstate := (list qcall * pstate)%type.
Definition QM (A : Type) := qstate -> qstate * pout A.
Definition qret {A} (x : pout A) : QM A := fun s => (s, x).
Definition qbind {A B} (m : QM A) (f : A -> QM B) : QM B := fun s =>
  match m s with
  | (s', Ok a) => f a s'
  | (s', Err e) => (s', Err e)
  | (s', Panic) => (s', Panic)
  | (s', NoFuel) => (s', NoFuel)
  end.
Notation "'let&' x ':=' a 'in' b" := (qbind a (fun x => b))
  (at level 200, x pattern, a at level 100, b at level 200, right associativity).

Section Queries.
  Variable E : penv.        (* only the registry of language tags is used *)
  Variable D : database.
  Variable p : sprovider.   (* only the names and the schema versions of the connections are used *)

  Definition qskip {A} (a : A) : QM A := qret (Ok a).
  (** Parts without SQLite. *)
  Definition quietly {A} (m : PM A) : QM A := fun s => let (st, x) := m (snd s) in ((fst s, st), x).
  (** [statement.query] and [rows.next] *)
  Definition q_select (file : ustr) (q : sql) (ps : list ustr) : QM (list (list cell)) := fun s =>
    ((fst s ++ [mk_qcall file q ps], snd s), match D (fst s) (mk_qcall file q ps) with Some rows => Ok rows | None => Err PSqlite end).

  (** provider.rs 407-459 *)
  Fixpoint q_find_loop (fuel : nat) (file : ustr) (q : sql) (component identifier : ustr) (exact : bool) (tag : ustr)
    : QM (list (ustr * ustr)) :=
    match fuel with
    | O => qret NoFuel
    | S f =>
        match tag with
        | [] => qskip []
        | _ :: _ =>
            let tag := if exact then tag else tag ++ [ch "%"] in
            let& rows := q_select file q [identifier; tag; component] in
            let& strings := qret (map_rows (fun row => let! s := get_text row 0 in let! raw := get_text row 1 in
                                                       let! t := registry_tag E raw in Ok (s, t)) rows) in
            match strings with
            | _ :: _ => qskip strings
            | [] => q_find_loop f file q component identifier exact
                      (match before_last_hyphen tag with None => [] | Some a => a end)
            end
        end
    end.
  (** provider.rs 327-460 [find_strings] *)
  Definition q_find_strings (component identifier tag : ustr) (all_in_one only_one exact : bool) : QM (list (ustr * ustr)) :=
    let& (file, (_, version)) := qret (connection p component all_in_one) in
    let key := us "Pattern" ++ (if exact then us "Exact" else []) ++ (if all_in_one then us "Aio" else []) ++
               (if only_one then us "One" else []) in
    let& q := quietly (get_query key version (SqlPattern only_one exact)) in
    q_find_loop (S (List.length tag)) file q component identifier exact tag.
  (** provider.rs 463-554 [languages] *)
  Definition q_languages (component : ustr) (all_in_one : bool) : QM (list ustr) :=
    let& (file, (_, version)) := qret (connection p component all_in_one) in
    let& q := quietly (get_query (aio_key (us "Languages") all_in_one) version SqlLanguages) in
    let& rows := q_select file q [component] in
    qret (map_rows (fun row => let! raw := get_text row 0 in registry_tag E raw) rows).
  (** provider.rs 557-653 [identifier_languages] *)
  Definition q_identifier_languages (component identifier : ustr) (all_in_one : bool) : QM (list ustr) :=
    let& (file, (_, version)) := qret (connection p component all_in_one) in
    let& q := quietly (get_query (aio_key (us "Identifier") all_in_one) version SqlIdentifier) in
    let& rows := q_select file q [identifier; component] in
    qret (map_rows (fun row => let! raw := get_text row 0 in registry_tag E raw) rows).
  (** provider.rs 656-751 [contributors] *)
  Definition q_contributors (component tag : ustr) (all_in_one : bool) : QM (list ustr) :=
    let& (file, (_, version)) := qret (connection p component all_in_one) in
    let& q := quietly (get_query (aio_key (us "Contributors") all_in_one) version SqlContributors) in
    let& rows := q_select file q [tag; component] in
    qret (map_rows (fun row => get_text row 0) rows).
  (** provider.rs 754-848 [count] *)
  Definition q_count (component tag : ustr) (all_in_one : bool) : QM N :=
    let& (file, (_, version)) := qret (connection p component all_in_one) in
    let& q := quietly (get_query (aio_key (us "Count") all_in_one) version SqlCount) in
    let& rows := q_select file q [tag; component] in
    qret (let! l := map_rows (fun row => get_int row 0) rows in Ok (last l 0%N)).
  (** provider.rs 851-941 [default_language] *)
  Definition q_default_language (component : ustr) (all_in_one : bool) : QM (option ustr) :=
    let& (file, (_, version)) := qret (connection p component all_in_one) in
    let& q := quietly (get_query (aio_key (us "Default") all_in_one) version SqlDefault) in
    let& rows := q_select file q [component] in
    qret (let! l := map_rows (fun row => let! raw := get_text row 0 in registry_tag E raw) rows in
          Ok (last (map Some l) None)).

  (** provider.rs 1178-1220 [string], 1261-1303 [string_exact_match] *)
  Definition q_one_string (exact : bool) (component identifier tag : ustr) : QM (option (ustr * ustr)) :=
    match mget component (sp_components p) with
    | None => qret (Err (PComponentNotFound component))
    | Some files =>
        let& o := if fst files then
                    let& l := q_find_strings component identifier tag true true exact in qskip (last (map Some l) None)
                  else qskip None in
        match o with
        | Some r => qskip (Some r)
        | None =>
            if snd files then
              let& l := q_find_strings component identifier tag false true exact in qskip (last (map Some l) None)
            else qskip None
        end
    end.
  (** provider.rs 1344-1383 [strings] *)
  Definition q_strings (component identifier tag : ustr) : QM (list (ustr * ustr)) :=
    match mget component (sp_components p) with
    | None => qret (Err (PComponentNotFound component))
    | Some files =>
        let& l := if fst files then q_find_strings component identifier tag true false false else qskip [] in
        match l with
        | _ :: _ => qskip l
        | [] => if snd files then q_find_strings component identifier tag false false false else qskip []
        end
    end.

  (** provider.rs 1054-1093 *)
  Definition q_language_step (component : ustr) (files : bool * bool) (t : ustr) (acc : cdetails * rdetails) : QM (cdetails * rdetails) :=
    let (cd, rd) := acc in
    match mget t (cd_languages cd) with
    | None => qret Panic
    | Some data =>
        let& c1 := if fst files then q_contributors component t true else qskip (lg_contributors data) in
        let rc1 := if fst files then fold_left push_new c1 (rd_contributors rd) else rd_contributors rd in
        let& c2 := if snd files then q_contributors component t false else qskip [] in
        let c3 := fold_left push_new c2 c1 in
        let rc2 := fold_left push_new c2 rc1 in
        let& n1 := if fst files then q_count component t true else qskip (lg_count data) in
        let& n2 := if snd files then q_count component t false else qskip 0%N in
        let n := (n1 + n2)%N in
        match mget t (rd_languages rd) with
        | None => qret Panic
        | Some rl =>
            qskip (mk_cdetails (minsert t (mk_lgdata n (lg_ratio data) c3) (cd_languages cd)) (cd_default cd) (cd_total cd + n),
                  mk_rdetails (minsert t (set_count rl (lg_count rl + n)) (rd_languages rd)) (rd_default rd) (rd_total rd + n)
                    (rd_components rd) rc2)
        end
    end.
  Fixpoint q_language_loop (component : ustr) (files : bool * bool) (ls : list ustr) (acc : cdetails * rdetails) : QM (cdetails * rdetails) :=
    match ls with
    | [] => qskip acc
    | t :: r => let& acc' := q_language_step component files t acc in q_language_loop component files r acc'
    end.
  (** provider.rs 959-1111 *)
  Definition q_component_step (component : ustr) (files : bool * bool) (acc : amap cdetails * rdetails) : QM (amap cdetails * rdetails) :=
    let (cds, rd0) := acc in
    let rcomponents := rd_components rd0 ++ [component] in
    let& und := qret (registry_tag E (us "und")) in
    let& l1 := if fst files then q_languages component true else qskip [] in
    let cm1 := if fst files then add_aio_languages l1 [] else [] in
    let rm1 := fold_left ensure l1 (rd_languages rd0) in
    let& l2 := if snd files then q_languages component false else qskip [] in
    let (ls, cm2) := add_own_languages l2 (l1, cm1) in
    let rm2 := fold_left ensure l2 rm1 in
    let& d1 := if fst files then q_default_language component true else qskip None in
    let& d2 := match d1 with
               | None => if snd files then q_default_language component false else qskip None
               | Some _ => qskip d1
               end in
    match d2 with
    | None => qret (Err (PDefaultLanguage component))
    | Some t =>
        if negb (mhas t cm2) then qret (Err (PInvalidDefaultLanguage component)) else
        let rdefault := if ueqb component (us "application") then Some t else rd_default rd0 in
        let& (cd, rd) := q_language_loop component files ls
          (mk_cdetails cm2 t 0, mk_rdetails rm2 rdefault (rd_total rd0) rcomponents (rd_contributors rd0)) in
        match mget (cd_default cd) (cd_languages cd) with
        | None => qret Panic
        | Some data =>
            qskip (minsert component (mk_cdetails (set_ratios (lg_count data) (cd_languages cd)) (cd_default cd) (cd_total cd)) cds, rd)
        end
    end.
  Fixpoint q_component_loop (cs : amap (bool * bool)) (acc : amap cdetails * rdetails) : QM (amap cdetails * rdetails) :=
    match cs with
    | [] => qskip acc
    | (c, files) :: r => let& acc' := q_component_step c files acc in q_component_loop r acc'
    end.
  (** provider.rs 944-1135 [build_cache] *)
  Definition q_build_details : QM (amap cdetails * rdetails) :=
    let& (cds, rd) := q_component_loop (sp_components p) ([], mk_rdetails [] None 0 [] []) in
    match rd_default rd with
    | None => qskip (cds, rd)
    | Some t =>
        match mget t (rd_languages rd) with
        | None => qret Panic
        | Some data => qskip (cds, mk_rdetails (set_ratios (lg_count data) (rd_languages rd)) (rd_default rd) (rd_total rd)
                                     (rd_components rd) (rd_contributors rd))
        end
    end.
  (** provider.rs 1130-1133; 1427-1433, 1487-1493, 1534-1540 *)
  Definition q_get_details : QM (amap cdetails * rdetails) := fun s =>
    match ps_details (snd s) with
    | Some x => (s, Ok x)
    | None => match q_build_details s with
              | (s', Ok x) => ((fst s', mk_pstate (ps_queries (snd s')) (Some x)), Ok x)
              | other => other
              end
    end.
  (** provider.rs 1416-1447 [identifier_details], 1480-1498 [component_details], 1531-1542 [repository_details] *)
  Definition q_identifier_details (component identifier : ustr) : QM idetails :=
    let& (cds, _) := q_get_details in
    match mget component cds with
    | None => qret (Err (PComponentNotFound component))
    | Some cd =>
        let& l := q_identifier_languages component identifier true in
        let& l' := match l with [] => q_identifier_languages component identifier false | _ => qskip l end in
        qskip (mk_idetails l' (cd_default cd))
    end.
  Definition q_component_details (component : ustr) : QM cdetails :=
    let& (cds, _) := q_get_details in
    match mget component cds with None => qret (Err (PComponentNotFound component)) | Some cd => qskip cd end.
  Definition q_repository_details : QM rdetails := let& (_, rd) := q_get_details in qskip rd.

  Definition q_pcall (c : pcall) : QM panswer :=
    match c with
    | CallString c i t => let& o := q_one_string false c i t in qskip (AnString o)
    | CallExact c i t => let& o := q_one_string true c i t in qskip (AnString o)
    | CallStrings c i t => let& l := q_strings c i t in qskip (AnStrings l)
    | CallIdentifier c i => let& d := q_identifier_details c i in qskip (AnIdentifier d)
    | CallComponent c => let& d := q_component_details c in qskip (AnComponent d)
    | CallRepository => let& d := q_repository_details in qskip (AnRepository d)
    end.
  Definition q_prun (s : qstate) (h : list pcall) : qstate := fold_left (fun s c => fst (q_pcall c s)) h s.
  Definition qstate_new : qstate := ([], pstate_new).
End Queries.
