(** Model of crates/localiser/src/localiser.rs with feature [sync]: threads that call methods of one localiser. *)
From Verif Require Import Base LexerModel TreeModel ValueModel CommandModel IsoModel FormatterModel RegistryModel LocaliserModel.

(** What the threads share, localiser.rs 39-52: every field is a value in a [RwLock] of its own. A step of a thread is one
    critical section, that is, what happens between taking a lock and giving it back. The lock of a formatter is only taken
    while the cache is locked for reading (lines 959-986 and 1108-1129); nothing else is taken while it is held, so both
    together are one step. The read lock on [language_tag] of line 516 is held while the lock on [language_script_data]
    is taken (517): these are two steps, and [sy_readers] counts the threads between them.
    A thread that panics while it holds a write lock poisons the lock, and every later [unwrap] of it panics.
    [sy_poisoned] is that of the cache; [sy_bad] are the entries of the cache of which the formatter is poisoned. No other
    write lock is held where something can panic.
    The type [Localiser] is not [Sync] even with the feature (command.rs 35 has a [RefCell] without lock, and
    [Box<dyn LocalisationProviderTrait>] is not [Sync]), so that the compiler refuses to share a localiser between threads. The
    model is of the locks as they are written, for callers that share it nevertheless; with a single thread it is of what
    can be compiled. *)
Record systate := mk_systate {
  sy_ls : lstate;
  sy_readers : nat;
  sy_poisoned : bool;
  sy_bad : list (ustr * ustr)
}.

Section Sync.
  Context {PE : Type}.
  Variable E : lenv PE.
  Local Notation text := (outcome (localiser_error PE) (ustr * ustr)).

  (** What a thread has still to do: a critical section and what follows it, given what it read. *)
  Inductive prog :=
  | PRet (r : option text)
  | PTag (k : ustr -> prog)                                                 (* language_tag.read() *)
  | PFallback (k : bool -> prog)                                            (* fallback.read() *)
  | PCaching (k : bool -> prog)                                             (* caching.read() *)
  | PSetTag (t : ustr) (k : prog)                                           (* 515 *)
  | PHoldTag (k : ustr -> prog)                                             (* 516 *)
  | PSetScript (s : option ustr) (k : prog)                                 (* 517-518 *)
  | PSetFallback (b : bool) (k : prog)                                      (* 527 *)
  | PSetCaching (b : bool) (k : prog)                                       (* 536 *)
  | PLookup (t key : ustr) (k : option cache_data -> bool -> prog)          (* 1146-1167: the entry, [_language_entry] *)
  | PLookupFormat (t key : ustr) (vals : amap pvalue) (k : text + bool -> prog) (* 955-991: the result, or [_language_entry] *)
  | PAdd (language_exists : bool) (key s t : ustr) (k : prog)               (* 1262-1304 *)
  | PPut (language_entry : bool) (t key : ustr) (fm : formatter) (k : prog) (* 1071-1100 *)
  | PUse (t key : ustr) (vals : amap pvalue) (k : text -> prog).            (* 1107-1129 *)

  (** localiser.rs 941-1130 [actual_format], then [k] *)
  Definition sync_format (c i : ustr) (vals : amap pvalue) (t : ustr) (fb ca : bool) (k : text -> prog) : prog :=
    let key := combined c i in
    PLookupFormat t key vals (fun x =>
      match x with
      | inl r => k r
      | inr language_entry =>
          let return_string s t' := if ca then PAdd language_entry key s t' (k (Ok (s, t'))) else k (Ok (s, t')) in
          match find_string E c i t fb with
          | Err e => k (Err e)
          | Panic => k Panic
          | NoFuel => k NoFuel
          | Ok (s, t') =>
              match s with
              | [] => return_string s t'
              | _ :: _ =>
                  match formatter_try_new (le_icu E) localiser_grammar (le_fmt E) (le_reg E) t' (le_locale E t') s with
                  | Err FNoGrammar => return_string s t'
                  | Err e => k (Err (LFormatter e))
                  | Panic => k Panic
                  | NoFuel => k NoFuel
                  | Ok fm =>
                      if ca then PPut language_entry t key fm (PUse t key vals k)
                      else k (snd (run_formatter E fm vals))
                  end
              end
          end
      end).

  (** localiser.rs 1133-1213 [actual_literal], then [k] *)
  Definition sync_literal (c i t : ustr) (fb ca : bool) (k : text -> prog) : prog :=
    let key := combined c i in
    PLookup t key (fun x language_entry =>
      match x with
      | Some (CLocalised s t') => k (Ok (s, t'))
      | Some (CFormatter _) => k (Err (LCacheEntry c i))
      | None =>
          match find_string E c i t fb with
          | Err e => k (Err e)
          | Panic => k Panic
          | NoFuel => k NoFuel
          | Ok (s, t') => if ca then PAdd language_entry key s t' (k (Ok (s, t'))) else k (Ok (s, t'))
          end
      end).

  (** localiser.rs 1215-1260 [actual_format_localisation_data], then [k] *)
  Fixpoint sync_data (d : ldata) (t : ustr) (fb ca : bool) (k : text -> prog) {struct d} : prog :=
    match d with
    | LData c i None => sync_literal c i t fb ca k
    | LData c i (Some vs) =>
        (fix go (vs : list (ustr * pvalue)) (new : amap pvalue) {struct vs} : prog :=
           match vs with
           | [] => sync_format c i new t fb ca k
           | (ph, v) :: r =>
               match v with
               | VData inner =>
                   sync_data inner t fb ca (fun x =>
                     match x with
                     | Ok (s, t') => go r (minsert ph (VLocalised s t') new)
                     | other => k other
                     end)
               | _ => go r (minsert ph v new)
               end
           end) vs []
    end.

  (** The public methods, lines as in [LocaliserModel]: with an argument [None], or without arguments for the settings,
      these are read one after the other. [fallback] and [caching] are also read where the argument is not [None]. *)
  Definition finish (r : text) : prog := PRet (Some r).
  Definition sync_call (c : lcall) : prog :=
    match c with
    | CallFormat c i vals t f ca =>
        PFallback (fun fb => PCaching (fun cb => sync_format c i vals t (unwrap_or f fb) (unwrap_or ca cb) finish))
    | CallFormatDefaults c i vals => PTag (fun t => PFallback (fun fb => PCaching (fun cb => sync_format c i vals t fb cb finish)))
    | CallLiteral c i t f ca =>
        PFallback (fun fb => PCaching (fun cb => sync_literal c i t (unwrap_or f fb) (unwrap_or ca cb) finish))
    | CallLiteralDefaults c i => PTag (fun t => PFallback (fun fb => PCaching (fun cb => sync_literal c i t fb cb finish)))
    | CallData d t f ca => PFallback (fun fb => PCaching (fun cb => sync_data d t (unwrap_or f fb) (unwrap_or ca cb) finish))
    | CallDataDefaults d => PTag (fun t => PFallback (fun fb => PCaching (fun cb => sync_data d t fb cb finish)))
    | CallDefaults t f ca =>
        let last := match ca with Some b => PSetCaching b (PRet None) | None => PRet None end in
        let rest := match f with Some b => PSetFallback b last | None => last end in
        match t with
        | Some t => PSetTag t (PHoldTag (fun t' => PSetScript (le_script E t') rest))
        | None => rest
        end
    end.

  (** ** Steps *)
  Definition with_ls (g : systate) (st : lstate) : systate := mk_systate st (sy_readers g) (sy_poisoned g) (sy_bad g).
  Definition settings (st : lstate) (fb ca : bool) (t : ustr) (s : option ustr) : lstate := mk_lstate (ls_cache st) fb ca t s.

  Definition is_bad (g : systate) (t key : ustr) : bool :=
    existsb (fun x : ustr * ustr => ueqb (fst x) t && ueqb (snd x) key) (sy_bad g).
  (** A new entry replaces a poisoned one; a new map for a language replaces all of its entries. *)
  Definition replaced (g : systate) (whole : bool) (t key : ustr) : list (ustr * ustr) :=
    filter (fun x : ustr * ustr => negb (ueqb (fst x) t && (whole || ueqb (snd x) key))) (sy_bad g).
  Definition panicked {A} (r : outcome (localiser_error PE) A) : bool := match r with Panic => true | _ => false end.
  (** localiser.rs 980-987 and 1123-1128: [format] of the formatter of an entry. *)
  Definition use_formatter (g : systate) (t key : ustr) (fm : formatter) (vals : amap pvalue) : systate * text :=
    if is_bad g t key then (g, Panic) else
    let (fm', r) := run_formatter E fm vals in
    (mk_systate (put_formatter (sy_ls g) t key fm') (sy_readers g) (sy_poisoned g)
       (if panicked r then (t, key) :: sy_bad g else sy_bad g), r).
  (** An insertion into the cache; [None] is a panic while the cache is locked for writing. *)
  Definition insertion (g : systate) (whole : bool) (t key : ustr) (o : option lstate) (k : prog) : systate * prog :=
    match o with
    | Some st => (mk_systate st (sy_readers g) (sy_poisoned g) (replaced g whole t key), k)
    | None => (mk_systate (sy_ls g) (sy_readers g) true (sy_bad g), PRet (Some Panic))
    end.
  (** localiser.rs 1071-1100 *)
  Definition insert_formatter (st : lstate) (language_entry : bool) (t key : ustr) (fm : formatter) : option lstate :=
    if negb language_entry then Some (set_cache st (minsert t [(key, CFormatter fm)] (ls_cache st)))
    else match mget t (ls_cache st) with
         | None => None
         | Some m => Some (set_cache st (minsert t (minsert key (CFormatter fm) m) (ls_cache st)))
         end.

  (** One step; [None] if the thread is finished or waits for a lock. *)
  Definition prog_step (p : prog) (g : systate) : option (systate * prog) :=
    let st := sy_ls g in
    match p with
    | PRet _ => None
    | PTag k => Some (g, k (ls_tag st))
    | PFallback k => Some (g, k (ls_fallback st))
    | PCaching k => Some (g, k (ls_caching st))
    | PSetTag t k =>
        match sy_readers g with
        | 0 => Some (with_ls g (settings st (ls_fallback st) (ls_caching st) t (ls_script st)), k)
        | S _ => None
        end
    | PHoldTag k => Some (mk_systate st (S (sy_readers g)) (sy_poisoned g) (sy_bad g), k (ls_tag st))
    | PSetScript s k =>
        Some (mk_systate (settings st (ls_fallback st) (ls_caching st) (ls_tag st) s) (pred (sy_readers g)) (sy_poisoned g) (sy_bad g), k)
    | PSetFallback b k => Some (with_ls g (settings st b (ls_caching st) (ls_tag st) (ls_script st)), k)
    | PSetCaching b k => Some (with_ls g (settings st (ls_fallback st) b (ls_tag st) (ls_script st)), k)
    | PLookup t key k =>
        if sy_poisoned g then Some (g, PRet (Some Panic)) else Some (g, k (cached st t key) (mhas t (ls_cache st)))
    | PLookupFormat t key vals k =>
        if sy_poisoned g then Some (g, PRet (Some Panic)) else
        match cached st t key with
        | None => Some (g, k (inr (mhas t (ls_cache st))))
        | Some (CLocalised s t') => Some (g, k (inl (Ok (s, t'))))
        | Some (CFormatter fm) => let (g', r) := use_formatter g t key fm vals in Some (g', k (inl r))
        end
    | PAdd b key s t k =>
        if sy_poisoned g then Some (g, PRet (Some Panic)) else
        Some (insertion g (negb b) t key (add_string_to_cache st b key s t) k)
    | PPut b t key fm k =>
        if sy_poisoned g then Some (g, PRet (Some Panic)) else
        Some (insertion g (negb b) t key (insert_formatter st b t key fm) k)
    | PUse t key vals k =>
        if sy_poisoned g then Some (g, PRet (Some Panic)) else
        match cached st t key with
        | None => Some (g, PRet (Some Panic))
        | Some (CLocalised _ _) => Some (g, k (Err LNeverReached))
        | Some (CFormatter fm) => let (g', r) := use_formatter g t key fm vals in Some (g', k r)
        end
    end.

  (** ** Threads *)

  (** A thread makes calls one after the other; a panic ends it. The calls made and their results are recorded. *)
  Record sthread := mk_sthread {
    th_done : list (lcall * option text);
    th_now : option (lcall * prog);
    th_todo : list lcall
  }.
  Definition thread_step (g : systate) (th : sthread) : option (systate * sthread) :=
    match th_now th with
    | None =>
        match th_todo th with
        | [] => None
        | c :: r => Some (g, mk_sthread (th_done th) (Some (c, sync_call c)) r)
        end
    | Some (c, PRet r) =>
        Some (g, mk_sthread (th_done th ++ [(c, r)]) None
          (match r with Some Panic => [] | _ => th_todo th end))
    | Some (c, p) =>
        match prog_step p g with
        | None => None
        | Some (g', p') => Some (g', mk_sthread (th_done th) (Some (c, p')) (th_todo th))
        end
    end.

  Record sys := mk_sys { sys_state : systate; sys_threads : list sthread }.
  Definition sys_step (x : sys) (i : nat) : option sys :=
    match nth_error (sys_threads x) i with
    | None => None
    | Some th =>
        match thread_step (sys_state x) th with
        | None => None
        | Some (g, th') => Some (mk_sys g (lset (sys_threads x) i th'))
        end
    end.
  (** A schedule is the sequence of threads taking a step; a thread that cannot step is skipped. *)
  Fixpoint sys_run (x : sys) (sch : list nat) : sys :=
    match sch with
    | [] => x
    | i :: r => sys_run (match sys_step x i with Some x' => x' | None => x end) r
    end.
  Definition sys_start (st : lstate) (calls : list (list lcall)) : sys :=
    mk_sys (mk_systate st 0 false []) (map (fun cs => mk_sthread [] None cs) calls).
End Sync.
