(** A localiser whose commands use it, with the feature [sync]: [ReenterModel] once more, with a [RwLock] for each cell
    (localiser.rs 28 and 39-52, and 1311 for a formatter of the cache). One thread uses the localiser, see [SyncModel]. A lock that the
    thread itself holds, and that it takes to write or takes while it is held to be written, is never given back: the thread
    waits for ever. (The documentation of [std::sync::RwLock::write] allows a panic too; the implementation for Linux waits.)
    A lock held for reading can be taken for reading once more, as no other thread waits for it. A panic while a lock is held
    for writing poisons it, and every later [unwrap] of it panics. *)
From Verif Require Import Base LexerModel TreeModel ValueModel CommandModel IsoModel FormatterModel RegistryModel LocaliserModel CallsModel LocCallsModel ReenterModel.

Section ReenterSync.
  Context {PE W : Type}.
  Notation answer := (option (lout (PE := PE) (ustr * ustr))).
  Notation text := (lout (PE := PE) (ustr * ustr)).

  (** The localiser, how often the cache is locked for reading, the formatters of the cache that are locked for writing, whether
      the cache is poisoned, the formatters of the cache that are, how many locks were poisoned so far (not in the code), whether
      the thread waits for ever, and the rest of the world. If the thread waits, the answer of a call is [Panic], which nobody
      gets. *)
  Record sst := mk_sst {
    ss_loc : lstate;
    ss_readers : nat;
    ss_locked : list (ustr * ustr);
    ss_poisoned : bool;
    ss_bad : list (ustr * ustr);
    ss_spoilt : nat;
    ss_waits : bool;
    ss_world : W
  }.
  Definition with_loc (s : sst) (l : lstate) : sst :=
    mk_sst l (ss_readers s) (ss_locked s) (ss_poisoned s) (ss_bad s) (ss_spoilt s) (ss_waits s) (ss_world s).
  Definition with_other (s : sst) (w : W) : sst :=
    mk_sst (ss_loc s) (ss_readers s) (ss_locked s) (ss_poisoned s) (ss_bad s) (ss_spoilt s) (ss_waits s) w.
  (** A lock is never given back. *)
  Definition wait {A} (s : sst) : sst * lout (PE := PE) A :=
    (mk_sst (ss_loc s) (ss_readers s) (ss_locked s) (ss_poisoned s) (ss_bad s) (ss_spoilt s) true (ss_world s), Panic).
  (** [self.cache.read()] and [formatter.write()], and both guards dropped. *)
  Definition lock (s : sst) (e : ustr * ustr) : sst :=
    mk_sst (ss_loc s) (S (ss_readers s)) (e :: ss_locked s) (ss_poisoned s) (ss_bad s) (ss_spoilt s) (ss_waits s) (ss_world s).
  Definition unlock (s : sst) (e : ustr * ustr) : sst :=
    mk_sst (ss_loc s) (pred (ss_readers s)) (filter (fun x => negb (same_entry e x)) (ss_locked s)) (ss_poisoned s) (ss_bad s) (ss_spoilt s)
      (ss_waits s) (ss_world s).
  (** The write guard of a formatter, or of the cache, is dropped in a panic. *)
  Definition spoil_entry (s : sst) (e : ustr * ustr) : sst :=
    mk_sst (ss_loc s) (ss_readers s) (ss_locked s) (ss_poisoned s) (e :: ss_bad s) (S (ss_spoilt s)) (ss_waits s) (ss_world s).
  Definition spoil_cache (s : sst) : sst :=
    mk_sst (ss_loc s) (ss_readers s) (ss_locked s) true (ss_bad s) (S (ss_spoilt s)) (ss_waits s) (ss_world s).
  (** An entry, or all entries of a language, are replaced: the locks of the old ones are gone. *)
  Definition fresh (s : sst) (l : lstate) (whole : bool) (tag key : ustr) : sst :=
    mk_sst l (ss_readers s) (ss_locked s) (ss_poisoned s) (filter (fun x : ustr * ustr => negb (ueqb (fst x) tag && (whole || ueqb (snd x) key))) (ss_bad s))
      (ss_spoilt s) (ss_waits s) (ss_world s).

  (** A command runs, see [interp]. Nothing more happens when the thread waits. *)
  Fixpoint sinterp (ask : lcall -> sst -> sst * answer) (p : cprog PE W) (s : sst) : sst * cout ustr :=
    match p with
    | PDone r => (s, r)
    | PAsk c k =>
        match ask c s with
        | (s', Some NoFuel) => (s', NoFuel)
        | (s', a) => if ss_waits s' then (s', Panic) else sinterp ask (k a) s'
        end
    | PRead k => sinterp ask (k (ss_world s)) s
    | PWrite w k => sinterp ask k (with_other s w)
    end.
  Definition srunning (ask : lcall -> sst -> sst * answer) (cmds : commands PE W) : wregistry sst :=
    map (fun x => (fst x, fun ps s => sinterp ask (snd x ps) s)) cmds.

  Variables (E : lenv PE) (cmds : commands PE W).

  (** localiser.rs 1262-1304 [add_string_to_cache], and 1036-1043, 1048-1055, 1208-1212 *)
  Definition sreturn_string (s : sst) (language_entry caching : bool) (key str tag : ustr) : sst * text :=
    if caching then
      if Nat.ltb 0 (ss_readers s) then wait s else                                      (* 1286, 1296: the lock *)
      if ss_poisoned s then (s, Panic) else                                             (* the [unwrap] *)
      match add_string_to_cache (ss_loc s) language_entry key str tag with
      | Some st => (fresh s st (negb language_entry) tag key, Ok (str, tag))
      | None => (spoil_cache s, Panic)                                                  (* 1299 *)
      end
    else (s, Ok (str, tag)).

  Section Ask.
    Variable ask : lcall -> sst -> sst * answer.
    Definition sreg : wregistry sst := srunning ask cmds.

    (** localiser.rs 959, 980-987, and 1108-1129: a formatter of the cache formats. That the cache is not poisoned is known before. *)
    Definition sformat_cached (s : sst) (tag key : ustr) (fm : formatter) (vals : amap pvalue) : sst * text :=
      if existsb (same_entry (tag, key)) (ss_locked s) then wait s else
      if existsb (same_entry (tag, key)) (ss_bad s) then (s, Panic) else
      let '(s1, (fm', r)) := wrun_formatter E sreg fm vals (lock s (tag, key)) in
      if ss_waits s1 then (s1, Panic) else
      let s2 := unlock (with_loc s1 (put_formatter (ss_loc s1) tag key fm')) (tag, key) in
      (match r with Panic => spoil_entry s2 (tag, key) | _ => s2 end, r).

    (** localiser.rs 941-1130 [actual_format] *)
    Definition sactual_format (s : sst) (component identifier : ustr) (vals : amap pvalue) (tag : ustr) (fallback caching : bool) : sst * text :=
      let key := combined component identifier in
      if ss_poisoned s then (s, Panic) else                                             (* 959 *)
      match cached (ss_loc s) tag key with
      | Some (CLocalised str t) => (s, Ok (str, t))                                     (* 965-967 *)
      | Some (CFormatter fm) => sformat_cached s tag key fm vals                        (* 979-987 *)
      | None =>
          let language_entry := mhas tag (ls_cache (ss_loc s)) in
          match find_string E component identifier tag fallback with
          | Err e => (s, Err e)
          | Panic => (s, Panic)
          | NoFuel => (s, NoFuel)
          | Ok (str, t) =>
              match str with
              | [] => sreturn_string s language_entry caching key str t                 (* 1036-1043 *)
              | _ :: _ =>
                  match wformatter_try_new (le_icu E) localiser_grammar (le_fmt E) sreg t (le_locale E t) str s with
                  | (s1, Err FNoGrammar) => sreturn_string s1 language_entry caching key str t  (* 1047-1055 *)
                  | (s1, Err e) => (s1, Err (LFormatter e))                             (* 1056 *)
                  | (s1, Panic) => (s1, Panic)
                  | (s1, NoFuel) => (s1, NoFuel)
                  | (s1, Ok fm) =>
                      if caching then
                        if Nat.ltb 0 (ss_readers s1) then wait s1 else                  (* 1085, 1093 *)
                        if ss_poisoned s1 then (s1, Panic) else
                        match radd_formatter (ss_loc s1) language_entry tag key fm with
                        | Some st => sformat_cached (fresh s1 st (negb language_entry) tag key) tag key fm vals  (* 1108-1129 *)
                        | None => (spoil_cache s1, Panic)                               (* 1096 *)
                        end
                      else let '(s2, (_, r)) := wrun_formatter E sreg fm vals s1 in (s2, r)  (* 1061-1064 *)
                  end
              end
          end
      end.

    (** localiser.rs 1133-1213 [actual_literal] *)
    Definition sactual_literal (s : sst) (component identifier tag : ustr) (fallback caching : bool) : sst * text :=
      let key := combined component identifier in
      if ss_poisoned s then (s, Panic) else                                             (* 1150 *)
      match cached (ss_loc s) tag key with
      | Some (CLocalised str t) => (s, Ok (str, t))
      | Some (CFormatter _) => (s, Err (LCacheEntry component identifier))
      | None =>
          match find_string E component identifier tag fallback with
          | Err e => (s, Err e)
          | Panic => (s, Panic)
          | NoFuel => (s, NoFuel)
          | Ok (str, t) => sreturn_string s (mhas tag (ls_cache (ss_loc s))) caching key str t
          end
      end.

    (** localiser.rs 1215-1260 [actual_format_localisation_data] *)
    Fixpoint sactual_format_data (d : ldata) (tag : ustr) (fallback caching : bool) (s : sst) {struct d} : sst * text :=
      match d with
      | LData component identifier None => sactual_literal s component identifier tag fallback caching
      | LData component identifier (Some vs) =>
          (fix go (vs : list (ustr * pvalue)) (new : amap pvalue) (s : sst) {struct vs} :=
             match vs with
             | [] => sactual_format s component identifier new tag fallback caching
             | (ph, v) :: r =>
                 match v with
                 | VData inner =>
                     match sactual_format_data inner tag fallback caching s with
                     | (s', Ok (str, t)) => go r (minsert ph (VLocalised str t) new) s'
                     | other => other
                     end
                 | _ => go r (minsert ph v new) s
                 end
             end) vs [] s
      end.

    (** The public methods, see [lstep]. The locks of the settings are held within one expression only, or while no command runs. *)
    Definition scall (c : lcall) (s : sst) : sst * answer :=
      let some (x : sst * text) : sst * answer := (fst x, Some (snd x)) in
      let st := ss_loc s in
      let fb f := unwrap_or f (ls_fallback st) in
      let ch c := unwrap_or c (ls_caching st) in
      match c with
      | CallFormat c i vals t f ca => some (sactual_format s c i vals t (fb f) (ch ca))
      | CallFormatDefaults c i vals => some (sactual_format s c i vals (ls_tag st) (ls_fallback st) (ls_caching st))
      | CallLiteral c i t f ca => some (sactual_literal s c i t (fb f) (ch ca))
      | CallLiteralDefaults c i => some (sactual_literal s c i (ls_tag st) (ls_fallback st) (ls_caching st))
      | CallData d t f ca => some (sactual_format_data d t (fb f) (ch ca) s)
      | CallDataDefaults d => some (sactual_format_data d (ls_tag st) (ls_fallback st) (ls_caching st) s)
      | CallDefaults t f ca => (with_loc s (loc_defaults E st t f ca), None)
      end.
  End Ask.

  (** A call of the localiser; calls made by commands called in it are followed to a depth of [n]. *)
  Fixpoint sstep (n : nat) : lcall -> sst -> sst * answer :=
    match n with
    | O => fun _ s => (s, Some NoFuel)
    | S m => scall (sstep m)
    end.
  (** Calls one after the other, caught if they panic. A thread that waits makes no more calls. *)
  Definition srun (n : nat) (s : sst) (h : list lcall) : sst := fold_left (fun s c => if ss_waits s then s else fst (sstep n c s)) h s.
End ReenterSync.
Arguments sst : clear implicits.
