(** The localiser over the sqlite3 provider, both with feature [sync]: threads that call methods of one localiser. In [SyncModel] a
    call of the provider is a function of its arguments and takes no time; here it is a call of [ProviderSyncModel], of which the
    steps mingle with the steps of all threads. Others may use the provider at the same time. No lock of the localiser is held
    while the provider is called (localiser.rs 954-991 and 1145-1167 end before 996 and 1170, which precede 1071 and 1208). Whether
    the two can be shared by threads at all is C71; see [SyncModel] for what that means. *)
From Verif Require Import Base LexerModel TreeModel ValueModel CommandModel IsoModel FormatterModel RegistryModel ProviderModel LocaliserModel ProviderSyncModel
  SyncModel.

Section Whole.
  Variables (E : penv) (p : sprovider) (L : lenv perror).   (* the provider of [L] is not used *)
  Local Notation text := (outcome (localiser_error perror) (ustr * ustr)).

  (** What a thread has still to do: the critical sections of [SyncModel.prog], and calls of the provider. *)
  Inductive fprog :=
  | FRet (r : option text)
  | FTag (k : ustr -> fprog)
  | FFallback (k : bool -> fprog)
  | FCaching (k : bool -> fprog)
  | FSetTag (t : ustr) (k : fprog)
  | FHoldTag (k : ustr -> fprog)
  | FSetScript (s : option ustr) (k : fprog)
  | FSetFallback (b : bool) (k : fprog)
  | FSetCaching (b : bool) (k : fprog)
  | FLookup (t key : ustr) (k : option cache_data -> bool -> fprog)
  | FLookupFormat (t key : ustr) (vals : amap pvalue) (k : text + bool -> fprog)
  | FAdd (language_exists : bool) (key s t : ustr) (k : fprog)
  | FPut (language_entry : bool) (t key : ustr) (fm : formatter) (k : fprog)
  | FUse (t key : ustr) (vals : amap pvalue) (k : text -> fprog)
  | FAsk (c : pcall) (k : pout panswer -> fprog)            (* a call of the provider begins *)
  | FWait (i : nat) (k : pout panswer -> fprog).            (* the thread is in call [i] of the provider *)

  (** The methods [string] and [component_details] of the provider, then [k]. For tags see [sqlite_provider] of [SystemModel]. The answer
      of a call is of the kind that belongs to it. *)
  Definition ask_string (c i t : ustr) (k : pout (option (ustr * ustr)) -> fprog) : fprog :=
    match pe_canon E t with
    | Some t' => if ueqb t t' then FAsk (CallString c i t) (fun r => k (let! a := r in match a with AnString o => Ok o | _ => Panic end)) else k (Ok None)
    | None => k (Ok None)
    end.
  Definition ask_default (c : ustr) (k : pout ustr -> fprog) : fprog :=
    FAsk (CallComponent c) (fun r => k (let! a := r in match a with AnComponent cd => Ok (cd_default cd) | _ => Panic end)).
  (** localiser.rs 996-1031, and again 1170-1205, then [k] *)
  Definition whole_find (c i t : ustr) (fb : bool) (k : text -> fprog) : fprog :=
    ask_string c i t (fun r =>
      match r with
      | Ok (Some x) => k (Ok x)
      | Ok None =>
          if negb fb then k (Err (LStringNotFound c i t false)) else
          ask_default c (fun r =>
            match r with
            | Ok dflt =>
                ask_string c i dflt (fun r =>
                  match r with
                  | Ok (Some x) => k (Ok x)
                  | Ok None => k (Err (LStringNotFound c i t true))
                  | Err e => k (Err (LProvider e))
                  | Panic => k Panic
                  | NoFuel => k NoFuel
                  end)
            | Err e => k (Err (LProvider e))
            | Panic => k Panic
            | NoFuel => k NoFuel
            end)
      | Err e => k (Err (LProvider e))
      | Panic => k Panic
      | NoFuel => k NoFuel
      end).

  (** localiser.rs 941-1130 [actual_format], then [k] *)
  Definition whole_format (c i : ustr) (vals : amap pvalue) (t : ustr) (fb ca : bool) (k : text -> fprog) : fprog :=
    let key := combined c i in
    FLookupFormat t key vals (fun x =>
      match x with
      | inl r => k r
      | inr language_entry =>
          let return_string s t' := if ca then FAdd language_entry key s t' (k (Ok (s, t'))) else k (Ok (s, t')) in
          whole_find c i t fb (fun r =>
            match r with
            | Err e => k (Err e)
            | Panic => k Panic
            | NoFuel => k NoFuel
            | Ok (s, t') =>
                match s with
                | [] => return_string s t'
                | _ :: _ =>
                    match formatter_try_new (le_icu L) localiser_grammar (le_fmt L) (le_reg L) t' (le_locale L t') s with
                    | Err FNoGrammar => return_string s t'
                    | Err e => k (Err (LFormatter e))
                    | Panic => k Panic
                    | NoFuel => k NoFuel
                    | Ok fm =>
                        if ca then FPut language_entry t key fm (FUse t key vals k)
                        else k (snd (run_formatter L fm vals))
                    end
                end
            end)
      end).

  (** localiser.rs 1133-1213 [actual_literal], then [k] *)
  Definition whole_literal (c i t : ustr) (fb ca : bool) (k : text -> fprog) : fprog :=
    let key := combined c i in
    FLookup t key (fun x language_entry =>
      match x with
      | Some (CLocalised s t') => k (Ok (s, t'))
      | Some (CFormatter _) => k (Err (LCacheEntry c i))
      | None =>
          whole_find c i t fb (fun r =>
            match r with
            | Err e => k (Err e)
            | Panic => k Panic
            | NoFuel => k NoFuel
            | Ok (s, t') => if ca then FAdd language_entry key s t' (k (Ok (s, t'))) else k (Ok (s, t'))
            end)
      end).

  (** localiser.rs 1215-1260 [actual_format_localisation_data], then [k] *)
  Fixpoint whole_data (d : ldata) (t : ustr) (fb ca : bool) (k : text -> fprog) {struct d} : fprog :=
    match d with
    | LData c i None => whole_literal c i t fb ca k
    | LData c i (Some vs) =>
        (fix go (vs : list (ustr * pvalue)) (new : amap pvalue) {struct vs} : fprog :=
           match vs with
           | [] => whole_format c i new t fb ca k
           | (ph, v) :: r =>
               match v with
               | VData inner =>
                   whole_data inner t fb ca (fun x =>
                     match x with
                     | Ok (s, t') => go r (minsert ph (VLocalised s t') new)
                     | other => k other
                     end)
               | _ => go r (minsert ph v new)
               end
           end) vs []
    end.

  (** The public methods, see [sync_call]. *)
  Definition whole_finish (r : text) : fprog := FRet (Some r).
  Definition whole_call (c : lcall) : fprog :=
    match c with
    | CallFormat c i vals t f ca =>
        FFallback (fun fb => FCaching (fun cb => whole_format c i vals t (unwrap_or f fb) (unwrap_or ca cb) whole_finish))
    | CallFormatDefaults c i vals => FTag (fun t => FFallback (fun fb => FCaching (fun cb => whole_format c i vals t fb cb whole_finish)))
    | CallLiteral c i t f ca =>
        FFallback (fun fb => FCaching (fun cb => whole_literal c i t (unwrap_or f fb) (unwrap_or ca cb) whole_finish))
    | CallLiteralDefaults c i => FTag (fun t => FFallback (fun fb => FCaching (fun cb => whole_literal c i t fb cb whole_finish)))
    | CallData d t f ca => FFallback (fun fb => FCaching (fun cb => whole_data d t (unwrap_or f fb) (unwrap_or ca cb) whole_finish))
    | CallDataDefaults d => FTag (fun t => FFallback (fun fb => FCaching (fun cb => whole_data d t fb cb whole_finish)))
    | CallDefaults t f ca =>
        let last := match ca with Some b => FSetCaching b (FRet None) | None => FRet None end in
        let rest := match f with Some b => FSetFallback b last | None => last end in
        match t with
        | Some t => FSetTag t (FHoldTag (fun t' => FSetScript (le_script L t') rest))
        | None => rest
        end
    end.

  (** ** Steps *)
  (** An insertion into the cache, see [insertion] of [SyncModel]. *)
  Definition whole_insertion (g : systate) (whole : bool) (t key : ustr) (o : option lstate) (k : fprog) : systate * fprog :=
    match o with
    | Some st => (mk_systate st (sy_readers g) (sy_poisoned g) (replaced g whole t key), k)
    | None => (mk_systate (sy_ls g) (sy_readers g) true (sy_bad g), FRet (Some Panic))
    end.
  (** One step; [ok] tells whether SQLite succeeds if it is used. [None] if the thread is finished or waits for a lock. *)
  Definition fprog_step (f : fprog) (g : systate) (pc : pconf) (ok : bool) : option (systate * pconf * fprog) :=
    let st := sy_ls g in
    match f with
    | FRet _ => None
    | FTag k => Some (g, pc, k (ls_tag st))
    | FFallback k => Some (g, pc, k (ls_fallback st))
    | FCaching k => Some (g, pc, k (ls_caching st))
    | FSetTag t k =>
        match sy_readers g with
        | 0 => Some (with_ls g (settings st (ls_fallback st) (ls_caching st) t (ls_script st)), pc, k)
        | S _ => None
        end
    | FHoldTag k => Some (mk_systate st (S (sy_readers g)) (sy_poisoned g) (sy_bad g), pc, k (ls_tag st))
    | FSetScript s k =>
        Some (mk_systate (settings st (ls_fallback st) (ls_caching st) (ls_tag st) s) (pred (sy_readers g)) (sy_poisoned g) (sy_bad g), pc, k)
    | FSetFallback b k => Some (with_ls g (settings st b (ls_caching st) (ls_tag st) (ls_script st)), pc, k)
    | FSetCaching b k => Some (with_ls g (settings st (ls_fallback st) b (ls_tag st) (ls_script st)), pc, k)
    | FLookup t key k =>
        if sy_poisoned g then Some (g, pc, FRet (Some Panic)) else Some (g, pc, k (cached st t key) (mhas t (ls_cache st)))
    | FLookupFormat t key vals k =>
        if sy_poisoned g then Some (g, pc, FRet (Some Panic)) else
        match cached st t key with
        | None => Some (g, pc, k (inr (mhas t (ls_cache st))))
        | Some (CLocalised s t') => Some (g, pc, k (inl (Ok (s, t'))))
        | Some (CFormatter fm) => let (g', r) := use_formatter L g t key fm vals in Some (g', pc, k (inl r))
        end
    | FAdd b key s t k =>
        if sy_poisoned g then Some (g, pc, FRet (Some Panic)) else
        let (g', f') := whole_insertion g (negb b) t key (add_string_to_cache st b key s t) k in Some (g', pc, f')
    | FPut b t key fm k =>
        if sy_poisoned g then Some (g, pc, FRet (Some Panic)) else
        let (g', f') := whole_insertion g (negb b) t key (insert_formatter st b t key fm) k in Some (g', pc, f')
    | FUse t key vals k =>
        if sy_poisoned g then Some (g, pc, FRet (Some Panic)) else
        match cached st t key with
        | None => Some (g, pc, FRet (Some Panic))
        | Some (CLocalised _ _) => Some (g, pc, k (Err LNeverReached))
        | Some (CFormatter fm) => let (g', r) := use_formatter L g t key fm vals in Some (g', pc, k r)
        end
    | FAsk c k => Some (g, pevent_step E p pc (EStart c), FWait (List.length (pf_calls pc)) k)
    | FWait i k =>
        match nth_error (pf_calls pc) i with
        | Some (_, DRet r) => Some (g, pc, k r)
        | _ => Some (g, pevent_step E p pc (EStep i ok), FWait i k)
        end
    end.

  (** ** Threads, see [sthread] and [sys] of [SyncModel] *)
  Record fthread := mk_fthread {
    ft_done : list (lcall * option text);
    ft_now : option (lcall * fprog);
    ft_todo : list lcall
  }.
  Definition fthread_step (g : systate) (pc : pconf) (ok : bool) (th : fthread) : option (systate * pconf * fthread) :=
    match ft_now th with
    | None =>
        match ft_todo th with
        | [] => None
        | c :: r => Some (g, pc, mk_fthread (ft_done th) (Some (c, whole_call c)) r)
        end
    | Some (c, FRet r) =>
        Some (g, pc, mk_fthread (ft_done th ++ [(c, r)]) None (match r with Some Panic => [] | _ => ft_todo th end))
    | Some (c, f) =>
        match fprog_step f g pc ok with
        | None => None
        | Some (g', pc', f') => Some (g', pc', mk_fthread (ft_done th) (Some (c, f')) (ft_todo th))
        end
    end.
  Record whole := mk_whole { wh_state : systate; wh_provider : pconf; wh_threads : list fthread }.
  (** What happens: a thread makes a step, if it can, or somebody else uses the provider. *)
  Inductive wevent := WThread (i : nat) (ok : bool) | WOther (e : pevent).
  Definition whole_step (x : whole) (e : wevent) : whole :=
    match e with
    | WOther e => mk_whole (wh_state x) (pevent_step E p (wh_provider x) e) (wh_threads x)
    | WThread i ok =>
        match nth_error (wh_threads x) i with
        | None => x
        | Some th =>
            match fthread_step (wh_state x) (wh_provider x) ok th with
            | None => x
            | Some (g, pc, th') => mk_whole g pc (lset (wh_threads x) i th')
            end
        end
    end.
  Definition whole_run (x : whole) (evs : list wevent) : whole := fold_left whole_step evs x.
  Definition whole_start (st : lstate) (calls : list (list lcall)) : whole :=
    mk_whole (mk_systate st 0 false []) pconf_new (map (fun cs => mk_fthread [] None cs) calls).
End Whole.
