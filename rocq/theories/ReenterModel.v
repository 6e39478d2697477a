(** A localiser whose commands use it. A command is a Rust function (command.rs 35-37) that reaches what is outside of it, a
    localiser of the same thread too (through a [thread_local!]). The cells of a localiser are [RefCell]s (localiser.rs 39-52,
    without the feature [sync]): they count who has borrowed them, and panic if the cache or a formatter is borrowed to be
    changed while it is borrowed already. [LocCallsModel] has no borrows in it; here they are explicit. The other cells
    (fallback, caching, language, script data, command registry, provider) are borrowed only within one expression or
    method that calls no command. *)
From Verif Require Import Base LexerModel TreeModel ValueModel CommandModel IsoModel FormatterModel RegistryModel LocaliserModel CallsModel LocCallsModel.

Section Reenter.
  Context {PE W : Type}.
  Notation answer := (option (lout (PE := PE) (ustr * ustr))).

  (** What a command does: it asks the localiser and goes on with the answer, it reads or changes the rest of the world [W],
      or it ends. An answer can be a panic, which a command may catch ([std::panic::catch_unwind]); one that does not catch
      it ends with a panic. *)
  Inductive cprog :=
  | PDone (r : cout ustr)
  | PAsk (c : lcall) (k : answer -> cprog)
  | PRead (k : W -> cprog)
  | PWrite (w : W) (k : cprog).
  Definition commands := amap (list pvalue -> cprog).

  (** The localiser, how often its cache is borrowed to be read, the formatters of the cache that are borrowed to be changed
      (each by language and key), how many borrows have failed so far (not in the code), and the rest of the world. *)
  Record rst := mk_rst {
    rs_loc : lstate;
    rs_readers : nat;
    rs_locked : list (ustr * ustr);
    rs_failed : nat;
    rs_world : W
  }.
  Definition set_loc (s : rst) (l : lstate) : rst := mk_rst l (rs_readers s) (rs_locked s) (rs_failed s) (rs_world s).
  Definition set_world (s : rst) (w : W) : rst := mk_rst (rs_loc s) (rs_readers s) (rs_locked s) (rs_failed s) w.
  (** A borrow fails: a panic ([already mutably borrowed], [already borrowed]). *)
  Definition fail {A} (s : rst) : rst * lout (PE := PE) A := (mk_rst (rs_loc s) (rs_readers s) (rs_locked s) (S (rs_failed s)) (rs_world s), Panic).
  Definition same_entry (x y : ustr * ustr) : bool := ueqb (fst x) (fst y) && ueqb (snd x) (snd y).
  (** [self.cache.borrow()] and [formatter.borrow_mut()], and the end of both borrows. *)
  Definition hold (s : rst) (e : ustr * ustr) : rst := mk_rst (rs_loc s) (S (rs_readers s)) (e :: rs_locked s) (rs_failed s) (rs_world s).
  Definition release (s : rst) (e : ustr * ustr) : rst :=
    mk_rst (rs_loc s) (pred (rs_readers s)) (filter (fun x => negb (same_entry e x)) (rs_locked s)) (rs_failed s) (rs_world s).

  (** A command runs: [ask] is the localiser for it. *)
  Fixpoint interp (ask : lcall -> rst -> rst * answer) (p : cprog) (s : rst) : rst * cout ustr :=
    match p with
    | PDone r => (s, r)
    | PAsk c k =>
        match ask c s with
        | (s', Some NoFuel) => (s', NoFuel)
        | (s', a) => interp ask (k a) s'
        end
    | PRead k => interp ask (k (rs_world s)) s
    | PWrite w k => interp ask k (set_world s w)
    end.
  Definition running (ask : lcall -> rst -> rst * answer) (cmds : commands) : wregistry rst :=
    map (fun x => (fst x, fun ps s => interp ask (snd x ps) s)) cmds.

  Variables (E : lenv PE) (cmds : commands).

  (** localiser.rs 1262-1304 [add_string_to_cache], and 1036-1043, 1048-1055, 1208-1212 *)
  Definition rreturn_string (s : rst) (language_entry caching : bool) (key str tag : ustr) : rst * lout (PE := PE) (ustr * ustr) :=
    if caching then
      if Nat.ltb 0 (rs_readers s) then fail s else                                      (* 1282, 1293 *)
      match add_string_to_cache (rs_loc s) language_entry key str tag with
      | Some st => (set_loc s st, Ok (str, tag))
      | None => (s, Panic)
      end
    else (s, Ok (str, tag)).
  (** localiser.rs 1074-1100: [language_entry] is what was found before the provider was asked and the formatter made. *)
  Definition radd_formatter (st : lstate) (language_entry : bool) (tag key : ustr) (fm : formatter) : option lstate :=
    if negb language_entry then Some (set_cache st (minsert tag [(key, CFormatter fm)] (ls_cache st)))
    else match mget tag (ls_cache st) with
         | None => None
         | Some m => Some (set_cache st (minsert tag (minsert key (CFormatter fm) m) (ls_cache st)))
         end.

  Section Ask.
    Variable ask : lcall -> rst -> rst * answer.
    Definition reg : wregistry rst := running ask cmds.

    (** localiser.rs 955-956, 970-977, and 1104-1129: a formatter of the cache formats, with the cache borrowed to be read and the
        formatter to be changed. *)
    Definition rformat_cached (s : rst) (tag key : ustr) (fm : formatter) (vals : amap pvalue) : rst * lout (PE := PE) (ustr * ustr) :=
      if existsb (same_entry (tag, key)) (rs_locked s) then fail s else
      let '(s1, (fm', r)) := wrun_formatter E reg fm vals (hold s (tag, key)) in
      (release (set_loc s1 (put_formatter (rs_loc s1) tag key fm')) (tag, key), r).

    (** localiser.rs 941-1130 [actual_format] *)
    Definition ractual_format (s : rst) (component identifier : ustr) (vals : amap pvalue) (tag : ustr) (fallback caching : bool)
      : rst * lout (PE := PE) (ustr * ustr) :=
      let key := combined component identifier in
      match cached (rs_loc s) tag key with
      | Some (CLocalised str t) => (s, Ok (str, t))                                     (* 965-967 *)
      | Some (CFormatter fm) => rformat_cached s tag key fm vals                        (* 969-977 *)
      | None =>
          let language_entry := mhas tag (ls_cache (rs_loc s)) in
          match find_string E component identifier tag fallback with
          | Err e => (s, Err e)
          | Panic => (s, Panic)
          | NoFuel => (s, NoFuel)
          | Ok (str, t) =>
              match str with
              | [] => rreturn_string s language_entry caching key str t                 (* 1036-1043 *)
              | _ :: _ =>
                  match wformatter_try_new (le_icu E) localiser_grammar (le_fmt E) reg t (le_locale E t) str s with
                  | (s1, Err FNoGrammar) => rreturn_string s1 language_entry caching key str t  (* 1047-1055 *)
                  | (s1, Err e) => (s1, Err (LFormatter e))                             (* 1056 *)
                  | (s1, Panic) => (s1, Panic)
                  | (s1, NoFuel) => (s1, NoFuel)
                  | (s1, Ok fm) =>
                      if caching then
                        if Nat.ltb 0 (rs_readers s1) then fail s1 else                  (* 1081, 1090 *)
                        match radd_formatter (rs_loc s1) language_entry tag key fm with
                        | Some st => rformat_cached (set_loc s1 st) tag key fm vals     (* 1104-1129 *)
                        | None => (s1, Panic)
                        end
                      else let '(s2, (_, r)) := wrun_formatter E reg fm vals s1 in (s2, r)  (* 1061-1064 *)
                  end
              end
          end
      end.

    (** localiser.rs 1133-1213 [actual_literal] *)
    Definition ractual_literal (s : rst) (component identifier tag : ustr) (fallback caching : bool) : rst * lout (PE := PE) (ustr * ustr) :=
      let key := combined component identifier in
      match cached (rs_loc s) tag key with
      | Some (CLocalised str t) => (s, Ok (str, t))
      | Some (CFormatter _) => (s, Err (LCacheEntry component identifier))
      | None =>
          match find_string E component identifier tag fallback with
          | Err e => (s, Err e)
          | Panic => (s, Panic)
          | NoFuel => (s, NoFuel)
          | Ok (str, t) => rreturn_string s (mhas tag (ls_cache (rs_loc s))) caching key str t
          end
      end.

    (** localiser.rs 1215-1260 [actual_format_localisation_data] *)
    Fixpoint ractual_format_data (d : ldata) (tag : ustr) (fallback caching : bool) (s : rst) {struct d} : rst * lout (PE := PE) (ustr * ustr) :=
      match d with
      | LData component identifier None => ractual_literal s component identifier tag fallback caching
      | LData component identifier (Some vs) =>
          (fix go (vs : list (ustr * pvalue)) (new : amap pvalue) (s : rst) {struct vs} :=
             match vs with
             | [] => ractual_format s component identifier new tag fallback caching
             | (ph, v) :: r =>
                 match v with
                 | VData inner =>
                     match ractual_format_data inner tag fallback caching s with
                     | (s', Ok (str, t)) => go r (minsert ph (VLocalised str t) new) s'
                     | other => other
                     end
                 | _ => go r (minsert ph v new) s
                 end
             end) vs [] s
      end.

    (** The public methods, see [lstep]. *)
    Definition rcall (c : lcall) (s : rst) : rst * answer :=
      let some (x : rst * lout (PE := PE) (ustr * ustr)) : rst * answer := (fst x, Some (snd x)) in
      let st := rs_loc s in
      let fb f := unwrap_or f (ls_fallback st) in
      let ch c := unwrap_or c (ls_caching st) in
      match c with
      | CallFormat c i vals t f ca => some (ractual_format s c i vals t (fb f) (ch ca))
      | CallFormatDefaults c i vals => some (ractual_format s c i vals (ls_tag st) (ls_fallback st) (ls_caching st))
      | CallLiteral c i t f ca => some (ractual_literal s c i t (fb f) (ch ca))
      | CallLiteralDefaults c i => some (ractual_literal s c i (ls_tag st) (ls_fallback st) (ls_caching st))
      | CallData d t f ca => some (ractual_format_data d t (fb f) (ch ca) s)
      | CallDataDefaults d => some (ractual_format_data d (ls_tag st) (ls_fallback st) (ls_caching st) s)
      | CallDefaults t f ca => (set_loc s (loc_defaults E st t f ca), None)
      end.
  End Ask.

  (** A call of the localiser; calls made by commands called in it are followed to a depth of [n]. *)
  Fixpoint rstep (n : nat) : lcall -> rst -> rst * answer :=
    match n with
    | O => fun _ s => (s, Some NoFuel)
    | S m => rcall (rstep m)
    end.
  Definition rrun (n : nat) (s : rst) (h : list lcall) : rst := fold_left (fun s c => fst (rstep n c s)) h s.
End Reenter.
Arguments cprog : clear implicits.
Arguments commands : clear implicits.
Arguments rst : clear implicits.

(** A command with effects (see [CallsModel]) that does not use the localiser. *)
Definition without_asking {PE W} (f : wcommand W) (ps : list pvalue) : cprog PE W :=
  PRead (fun w => let (w', r) := f ps w in PWrite w' (PDone r)).
Definition none_asking {PE W} (r : wregistry W) : commands PE W := map (fun x => (fst x, without_asking (snd x))) r.
