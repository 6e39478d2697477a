(** The localiser with commands that have effects (see [CallsModel]): the functions of [LocaliserModel] on the way to a
    formatter, with a state of the world [W]. The commands are those of [reg]; [le_reg] is not used. *)
From Verif Require Import Base LexerModel TreeModel ValueModel CommandModel IsoModel FormatterModel RegistryModel LocaliserModel CallsModel.

Section LocCalls.
  Context {PE W : Type}.
  Variables (E : lenv PE) (reg : wregistry W).
  Definition wlout := (W * (lstate * lout (PE := PE) (ustr * ustr)))%type.

  (** formatter.rs 190-197 *)
  Definition wrun_formatter (fm : formatter) (vals : amap pvalue) (w : W) : W * (formatter * lout (PE := PE) (ustr * ustr)) :=
    let '(w', (fm', r)) := wformat (le_fuel E) (le_fmt E) reg fm vals w in
    (w', (fm', let! s := map_err LFormatter r in Ok (s, fm_tag fm'))).

  (** localiser.rs 941-1130 [actual_format] *)
  Definition wactual_format (st : lstate) (component identifier : ustr) (vals : amap pvalue) (tag : ustr)
    (fallback caching : bool) (w : W) : wlout :=
    let key := combined component identifier in
    match cached st tag key with
    | Some (CLocalised s t) => (w, (st, Ok (s, t)))                                     (* 965-967 *)
    | Some (CFormatter fm) =>                                                           (* 969-977 *)
        let '(w', (fm', r)) := wrun_formatter fm vals w in (w', (put_formatter st tag key fm', r))
    | None =>
        let language_entry := mhas tag (ls_cache st) in
        match find_string E component identifier tag fallback with
        | Err e => (w, (st, Err e))
        | Panic => (w, (st, Panic))
        | NoFuel => (w, (st, NoFuel))
        | Ok (s, t) =>
            match s with
            | [] => (w, return_string st language_entry caching key s t)                (* 1036-1043 *)
            | _ :: _ =>
                match wformatter_try_new (le_icu E) localiser_grammar (le_fmt E) reg t (le_locale E t) s w with
                | (w', Err FNoGrammar) => (w', return_string st language_entry caching key s t)  (* 1047-1055 *)
                | (w', Err e) => (w', (st, Err (LFormatter e)))                         (* 1056 *)
                | (w', Panic) => (w', (st, Panic))
                | (w', NoFuel) => (w', (st, NoFuel))
                | (w', Ok fm) =>                                                        (* 1061-1064, 1071-1129 *)
                    let '(w2, (fm', r)) := wrun_formatter fm vals w' in
                    (w2, (if caching then put_formatter st tag key fm' else st, r))
                end
            end
        end
    end.

  (** localiser.rs 1215-1260 [actual_format_localisation_data]. [actual_literal] (1133-1213) uses no formatter. *)
  Fixpoint wactual_format_data (d : ldata) (tag : ustr) (fallback caching : bool) (st : lstate) (w : W) {struct d} : wlout :=
    match d with
    | LData component identifier None => (w, actual_literal E st component identifier tag fallback caching)
    | LData component identifier (Some vs) =>
        (fix go (vs : list (ustr * pvalue)) (new : amap pvalue) (st : lstate) (w : W) {struct vs} :=
           match vs with
           | [] => wactual_format st component identifier new tag fallback caching w
           | (ph, v) :: r =>
               match v with
               | VData inner =>
                   match wactual_format_data inner tag fallback caching st w with
                   | (w', (st', Ok (s, t))) => go r (minsert ph (VLocalised s t) new) st' w'
                   | other => other
                   end
               | _ => go r (minsert ph v new) st w
               end
           end) vs [] st w
    end.

  (** The public methods, see [lstep]. *)
  Definition wlstep (st : lstate) (c : lcall) (w : W) : W * (lstate * option (lout (PE := PE) (ustr * ustr))) :=
    let some (x : wlout) := (fst x, (fst (snd x), Some (snd (snd x)))) in
    let fb f := unwrap_or f (ls_fallback st) in
    let ch c := unwrap_or c (ls_caching st) in
    match c with
    | CallFormat c i vals t f ca => some (wactual_format st c i vals t (fb f) (ch ca) w)
    | CallFormatDefaults c i vals => some (wactual_format st c i vals (ls_tag st) (ls_fallback st) (ls_caching st) w)
    | CallLiteral c i t f ca => some (w, actual_literal E st c i t (fb f) (ch ca))
    | CallLiteralDefaults c i => some (w, actual_literal E st c i (ls_tag st) (ls_fallback st) (ls_caching st))
    | CallData d t f ca => some (wactual_format_data d t (fb f) (ch ca) st w)
    | CallDataDefaults d => some (wactual_format_data d (ls_tag st) (ls_fallback st) (ls_caching st) st w)
    | CallDefaults t f ca => (w, (loc_defaults E st t f ca, None))
    end.
  (** Calls one after the other, each in any state of the world: it may change in between. *)
  Definition wlrun (st : lstate) (h : list (lcall * W)) : lstate := fold_left (fun st x => fst (snd (wlstep st (fst x) (snd x)))) h st.
End LocCalls.
