(** Model of crates/provider/sqlite3/src/provider.rs with feature [sync]: threads that call methods of one provider. The methods
    are those of [ProviderModel]; lines as there. What differs: the queries are in a [Mutex], the details in [OnceLock]s
    (lines 26-28), and a file is opened whenever it is needed (line 275). *)
From Verif Require Import Base RegistryModel ProviderModel.

(** What the threads share and what changes. [sh_poisoned]: a thread has panicked while it held the lock on the queries. *)
Record pshared := mk_pshared {
  sh_queries : amap sql;
  sh_poisoned : bool;
  sh_components : option (amap cdetails);
  sh_repository : option rdetails
}.
Definition pshared_new : pshared := mk_pshared [] false None None.

(** What a thread has still to do. A step is one critical section, one access to a cell, or one use of SQLite. The files do not
    change, but SQLite may fail to open one, or to run a query, at any time ("Possible Sqlite is concurrency lock on file",
    lines 298 and 317). *)
Inductive prog (A : Type) : Type :=
| DRet (x : pout A)
| DAsk (k : bool -> prog A)                                       (* SQLite: whether it succeeds *)
| DLook (key : ustr) (k : option sql -> prog A)                   (* queries.lock(), get *)
| DPut (key version : ustr) (q : sql) (k : prog A)                (* queries.lock(), insert; the query is made while it is locked *)
| DGetComponents (k : option (amap cdetails) -> prog A)           (* component_details.get() *)
| DGetRepository (k : option rdetails -> prog A)                  (* repository_details.get() *)
| DSetComponents (v : amap cdetails) (k : prog A)                 (* 1130: set, if not set *)
| DSetRepository (v : rdetails) (k : prog A).                     (* 1131 *)
Arguments DRet {A}.
Arguments DAsk {A}.
Arguments DLook {A}.
Arguments DPut {A}.
Arguments DGetComponents {A}.
Arguments DGetRepository {A}.
Arguments DSetComponents {A}.
Arguments DSetRepository {A}.

Fixpoint dbind {A B} (m : prog A) (f : A -> prog B) : prog B :=
  match m with
  | DRet (Ok a) => f a
  | DRet (Err e) => DRet (Err e)
  | DRet Panic => DRet Panic
  | DRet NoFuel => DRet NoFuel
  | DAsk k => DAsk (fun o => dbind (k o) f)
  | DLook key k => DLook key (fun o => dbind (k o) f)
  | DPut key v q k => DPut key v q (dbind k f)
  | DGetComponents k => DGetComponents (fun o => dbind (k o) f)
  | DGetRepository k => DGetRepository (fun o => dbind (k o) f)
  | DSetComponents v k => DSetComponents v (dbind k f)
  | DSetRepository v k => DSetRepository v (dbind k f)
  end.
Notation "'do' x ':=' a 'in' b" := (dbind a (fun x => b))
  (at level 200, x pattern, a at level 100, b at level 200, right associativity).

Section ProviderSync.
  Variable E : penv.
  Variable p : sprovider.

  Definition done {A} (a : A) : prog A := DRet (Ok a).
  (** provider.rs 275-324 [connection_sync]: as [connection], and the file is opened. *)
  Definition sync_connection (component : ustr) (all_in_one : bool) : prog (ustr * (db * ustr)) :=
    match connection p component all_in_one with
    | Ok r => DAsk (fun ok => DRet (if ok then Ok r else Err PSqlite))
    | Err e => DRet (Err e)
    | Panic => DRet Panic
    | NoFuel => DRet NoFuel
    end.
  (** provider.rs 362-393 and the same lines of the other methods *)
  Definition sync_query (key version : ustr) (q : sql) : prog sql :=
    DLook key (fun o =>
      match o with
      | Some q' => DRet (Ok q')
      | None => DPut key version q (DLook key (fun o => match o with Some q' => DRet (Ok q') | None => DRet Panic end))
      end).
  (** [statement.query] and [rows.next] *)
  Definition sync_select (file : ustr) (d : db) (q : sql) (ps : list ustr) : prog (list (list cell)) :=
    DAsk (fun ok => DRet (if ok then select E file d q ps else Err PSqlite)).

  (** provider.rs 407-459 *)
  Fixpoint sync_find_loop (fuel : nat) (file : ustr) (d : db) (q : sql) (component identifier : ustr) (exact : bool) (tag : ustr)
    : prog (list (ustr * ustr)) :=
    match fuel with
    | O => DRet NoFuel
    | S f =>
        match tag with
        | [] => done []
        | _ :: _ =>
            let tag := if exact then tag else tag ++ [ch "%"] in
            do rows := sync_select file d q [identifier; tag; component] in
            do strings := DRet (map_rows (fun row => let! s := get_text row 0 in let! raw := get_text row 1 in
                                                     let! t := registry_tag E raw in Ok (s, t)) rows) in
            match strings with
            | _ :: _ => done strings
            | [] => sync_find_loop f file d q component identifier exact
                      (match before_last_hyphen tag with None => [] | Some a => a end)
            end
        end
    end.
  (** provider.rs 327-460 [find_strings] *)
  Definition sync_find_strings (component identifier tag : ustr) (all_in_one only_one exact : bool) : prog (list (ustr * ustr)) :=
    do (file, (d, version)) := sync_connection component all_in_one in
    let key := us "Pattern" ++ (if exact then us "Exact" else []) ++ (if all_in_one then us "Aio" else []) ++
               (if only_one then us "One" else []) in
    do q := sync_query key version (SqlPattern only_one exact) in
    sync_find_loop (S (List.length tag)) file d q component identifier exact tag.
  (** provider.rs 463-554 [languages] *)
  Definition sync_languages (component : ustr) (all_in_one : bool) : prog (list ustr) :=
    do (file, (d, version)) := sync_connection component all_in_one in
    do q := sync_query (aio_key (us "Languages") all_in_one) version SqlLanguages in
    do rows := sync_select file d q [component] in
    DRet (map_rows (fun row => let! raw := get_text row 0 in registry_tag E raw) rows).
  (** provider.rs 557-653 [identifier_languages] *)
  Definition sync_identifier_languages (component identifier : ustr) (all_in_one : bool) : prog (list ustr) :=
    do (file, (d, version)) := sync_connection component all_in_one in
    do q := sync_query (aio_key (us "Identifier") all_in_one) version SqlIdentifier in
    do rows := sync_select file d q [identifier; component] in
    DRet (map_rows (fun row => let! raw := get_text row 0 in registry_tag E raw) rows).
  (** provider.rs 656-751 [contributors] *)
  Definition sync_contributors (component tag : ustr) (all_in_one : bool) : prog (list ustr) :=
    do (file, (d, version)) := sync_connection component all_in_one in
    do q := sync_query (aio_key (us "Contributors") all_in_one) version SqlContributors in
    do rows := sync_select file d q [tag; component] in
    DRet (map_rows (fun row => get_text row 0) rows).
  (** provider.rs 754-848 [count] *)
  Definition sync_count (component tag : ustr) (all_in_one : bool) : prog N :=
    do (file, (d, version)) := sync_connection component all_in_one in
    do q := sync_query (aio_key (us "Count") all_in_one) version SqlCount in
    do rows := sync_select file d q [tag; component] in
    DRet (let! l := map_rows (fun row => get_int row 0) rows in Ok (last l 0%N)).
  (** provider.rs 851-941 [default_language] *)
  Definition sync_default_language (component : ustr) (all_in_one : bool) : prog (option ustr) :=
    do (file, (d, version)) := sync_connection component all_in_one in
    do q := sync_query (aio_key (us "Default") all_in_one) version SqlDefault in
    do rows := sync_select file d q [component] in
    DRet (let! l := map_rows (fun row => let! raw := get_text row 0 in registry_tag E raw) rows in
          Ok (last (map Some l) None)).

  (** provider.rs 1178-1220 [string], 1261-1303 [string_exact_match] *)
  Definition sync_one_string (exact : bool) (component identifier tag : ustr) : prog (option (ustr * ustr)) :=
    match mget component (sp_components p) with
    | None => DRet (Err (PComponentNotFound component))
    | Some files =>
        do o := if fst files then
                  do l := sync_find_strings component identifier tag true true exact in done (last (map Some l) None)
                else done None in
        match o with
        | Some r => done (Some r)
        | None =>
            if snd files then
              do l := sync_find_strings component identifier tag false true exact in done (last (map Some l) None)
            else done None
        end
    end.
  (** provider.rs 1344-1383 [strings] *)
  Definition sync_strings (component identifier tag : ustr) : prog (list (ustr * ustr)) :=
    match mget component (sp_components p) with
    | None => DRet (Err (PComponentNotFound component))
    | Some files =>
        do l := if fst files then sync_find_strings component identifier tag true false false else done [] in
        match l with
        | _ :: _ => done l
        | [] => if snd files then sync_find_strings component identifier tag false false false else done []
        end
    end.

  (** provider.rs 1054-1093 *)
  Definition sync_language_step (component : ustr) (files : bool * bool) (t : ustr) (acc : cdetails * rdetails) : prog (cdetails * rdetails) :=
    let (cd, rd) := acc in
    match mget t (cd_languages cd) with
    | None => DRet Panic
    | Some data =>
        do c1 := if fst files then sync_contributors component t true else done (lg_contributors data) in
        let rc1 := if fst files then fold_left push_new c1 (rd_contributors rd) else rd_contributors rd in
        do c2 := if snd files then sync_contributors component t false else done [] in
        let c3 := fold_left push_new c2 c1 in
        let rc2 := fold_left push_new c2 rc1 in
        do n1 := if fst files then sync_count component t true else done (lg_count data) in
        do n2 := if snd files then sync_count component t false else done 0%N in
        let n := (n1 + n2)%N in
        match mget t (rd_languages rd) with
        | None => DRet Panic
        | Some rl =>
            done (mk_cdetails (minsert t (mk_lgdata n (lg_ratio data) c3) (cd_languages cd)) (cd_default cd) (cd_total cd + n),
                  mk_rdetails (minsert t (set_count rl (lg_count rl + n)) (rd_languages rd)) (rd_default rd) (rd_total rd + n)
                    (rd_components rd) rc2)
        end
    end.
  Fixpoint sync_language_loop (component : ustr) (files : bool * bool) (ls : list ustr) (acc : cdetails * rdetails) : prog (cdetails * rdetails) :=
    match ls with
    | [] => done acc
    | t :: r => do acc' := sync_language_step component files t acc in sync_language_loop component files r acc'
    end.
  (** provider.rs 959-1111 *)
  Definition sync_component_step (component : ustr) (files : bool * bool) (acc : amap cdetails * rdetails) : prog (amap cdetails * rdetails) :=
    let (cds, rd0) := acc in
    let rcomponents := rd_components rd0 ++ [component] in
    do und := DRet (registry_tag E (us "und")) in
    do l1 := if fst files then sync_languages component true else done [] in
    let cm1 := if fst files then add_aio_languages l1 [] else [] in
    let rm1 := fold_left ensure l1 (rd_languages rd0) in
    do l2 := if snd files then sync_languages component false else done [] in
    let (ls, cm2) := add_own_languages l2 (l1, cm1) in
    let rm2 := fold_left ensure l2 rm1 in
    do d1 := if fst files then sync_default_language component true else done None in
    do d2 := match d1 with
             | None => if snd files then sync_default_language component false else done None
             | Some _ => done d1
             end in
    match d2 with
    | None => DRet (Err (PDefaultLanguage component))
    | Some t =>
        if negb (mhas t cm2) then DRet (Err (PInvalidDefaultLanguage component)) else
        let rdefault := if ueqb component (us "application") then Some t else rd_default rd0 in
        do (cd, rd) := sync_language_loop component files ls
          (mk_cdetails cm2 t 0, mk_rdetails rm2 rdefault (rd_total rd0) rcomponents (rd_contributors rd0)) in
        match mget (cd_default cd) (cd_languages cd) with
        | None => DRet Panic
        | Some data =>
            done (minsert component (mk_cdetails (set_ratios (lg_count data) (cd_languages cd)) (cd_default cd) (cd_total cd)) cds, rd)
        end
    end.
  Fixpoint sync_component_loop (cs : amap (bool * bool)) (acc : amap cdetails * rdetails) : prog (amap cdetails * rdetails) :=
    match cs with
    | [] => done acc
    | (c, files) :: r => do acc' := sync_component_step c files acc in sync_component_loop r acc'
    end.
  (** provider.rs 944-1129, what is computed *)
  Definition sync_build_details : prog (amap cdetails * rdetails) :=
    do (cds, rd) := sync_component_loop (sp_components p) ([], mk_rdetails [] None 0 [] []) in
    match rd_default rd with
    | None => done (cds, rd)
    | Some t =>
        match mget t (rd_languages rd) with
        | None => DRet Panic
        | Some data => done (cds, mk_rdetails (set_ratios (lg_count data) (rd_languages rd)) (rd_default rd) (rd_total rd)
                                    (rd_components rd) (rd_contributors rd))
        end
    end.
  (** provider.rs 944-1135 [build_cache] *)
  Definition sync_build_cache : prog unit :=
    do (cds, rd) := sync_build_details in DSetComponents cds (DSetRepository rd (done tt)).
  (** provider.rs 1427-1433 and 1487-1493, 1534-1540: the cell is read again after [build_cache], with [unwrap]. *)
  Definition sync_components : prog (amap cdetails) :=
    DGetComponents (fun o =>
      match o with
      | Some v => done v
      | None => do _ := sync_build_cache in DGetComponents (fun o => match o with Some v => done v | None => DRet Panic end)
      end).
  Definition sync_repository : prog rdetails :=
    DGetRepository (fun o =>
      match o with
      | Some v => done v
      | None => do _ := sync_build_cache in DGetRepository (fun o => match o with Some v => done v | None => DRet Panic end)
      end).
  (** provider.rs 1416-1447 [identifier_details], 1480-1498 [component_details] *)
  Definition sync_identifier_details (component identifier : ustr) : prog idetails :=
    do cds := sync_components in
    match mget component cds with
    | None => DRet (Err (PComponentNotFound component))
    | Some cd =>
        do l := sync_identifier_languages component identifier true in
        do l' := match l with [] => sync_identifier_languages component identifier false | _ => done l end in
        done (mk_idetails l' (cd_default cd))
    end.
  Definition sync_component_details (component : ustr) : prog cdetails :=
    do cds := sync_components in
    match mget component cds with None => DRet (Err (PComponentNotFound component)) | Some cd => done cd end.

  Definition sync_pcall (c : pcall) : prog panswer :=
    match c with
    | CallString c i t => do o := sync_one_string false c i t in done (AnString o)
    | CallExact c i t => do o := sync_one_string true c i t in done (AnString o)
    | CallStrings c i t => do l := sync_strings c i t in done (AnStrings l)
    | CallIdentifier c i => do d := sync_identifier_details c i in done (AnIdentifier d)
    | CallComponent c => do d := sync_component_details c in done (AnComponent d)
    | CallRepository => do d := sync_repository in done (AnRepository d)
    end.

  (** ** Steps *)
  (** One step of a thread; [ok] tells whether SQLite succeeds if it is used. [None]: there is nothing left to do. *)
  Definition prog_step {A} (g : pshared) (ok : bool) (m : prog A) : option (pshared * prog A) :=
    match m with
    | DRet _ => None
    | DAsk k => Some (g, k ok)
    | DLook key k => Some (g, if sh_poisoned g then DRet Panic else k (mget key (sh_queries g)))
    | DPut key version q k =>
        if sh_poisoned g then Some (g, DRet Panic) else
        match make_query version q with
        | Ok q' => Some (mk_pshared (minsert key q' (sh_queries g)) false (sh_components g) (sh_repository g), k)
        | Err e => Some (g, DRet (Err e))
        | Panic => Some (mk_pshared (sh_queries g) true (sh_components g) (sh_repository g), DRet Panic)
        | NoFuel => Some (g, DRet NoFuel)
        end
    | DGetComponents k => Some (g, k (sh_components g))
    | DGetRepository k => Some (g, k (sh_repository g))
    | DSetComponents v k =>
        Some (mk_pshared (sh_queries g) (sh_poisoned g) (match sh_components g with None => Some v | o => o end) (sh_repository g), k)
    | DSetRepository v k =>
        Some (mk_pshared (sh_queries g) (sh_poisoned g) (sh_components g) (match sh_repository g with None => Some v | o => o end), k)
    end.

  (** Calls of the provider: each is in the hands of one thread. A thread that makes several calls starts one after the other. *)
  Record pconf := mk_pconf { pf_shared : pshared; pf_calls : list (pcall * prog panswer) }.
  Definition pconf_new : pconf := mk_pconf pshared_new [].
  (** What happens: a call starts, or the call [i] makes a step. *)
  Inductive pevent := EStart (c : pcall) | EStep (i : nat) (ok : bool).
  Definition pevent_step (g : pconf) (e : pevent) : pconf :=
    match e with
    | EStart c => mk_pconf (pf_shared g) (pf_calls g ++ [(c, sync_pcall c)])
    | EStep i ok =>
        match nth_error (pf_calls g) i with
        | None => g
        | Some (c, m) =>
            match prog_step (pf_shared g) ok m with
            | None => g
            | Some (s, m') => mk_pconf s (firstn i (pf_calls g) ++ (c, m') :: skipn (S i) (pf_calls g))
            end
        end
    end.
  Definition pevents (evs : list pevent) : pconf := fold_left pevent_step evs pconf_new.
End ProviderSync.
