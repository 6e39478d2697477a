(** The localiser with a provider that has effects, and whose answers may change: the functions of [LocaliserModel] and
    [LocCallsModel] once more, with a state of the world [W] on which provider and commands may act. The provider is [P] and the
    commands are those of [reg]; [le_provider] and [le_reg] are not used. *)
From Verif Require Import Base LexerModel TreeModel ValueModel CommandModel IsoModel FormatterModel RegistryModel LocaliserModel CallsModel LocCallsModel
  ProviderModel QueryModel.

(** crates/provider/core/src/provider.rs 34-40 and 109-112, see [provider] of [LocaliserModel]. *)
Record wprovider (PE W : Type) := mk_wprovider {
  wp_string : ustr -> ustr -> ustr -> W -> W * outcome PE (option (ustr * ustr));
  wp_default : ustr -> W -> W * outcome PE ustr
}.
Arguments wp_string {PE W}.
Arguments wp_default {PE W}.
Arguments mk_wprovider {PE W}.

Section Ask.
  Context {PE W : Type}.
  Variables (E : lenv PE) (reg : wregistry W) (P : wprovider PE W).

  (** localiser.rs 996-1031, and again 1170-1205 *)
  Definition xfind_string (component identifier tag : ustr) (fallback : bool) (w : W) : W * lout (PE := PE) (ustr * ustr) :=
    match wp_string P component identifier tag w with
    | (w1, Ok (Some r)) => (w1, Ok r)
    | (w1, Ok None) =>
        if negb fallback then (w1, Err (LStringNotFound component identifier tag false)) else
        match wp_default P component w1 with
        | (w2, Ok dflt) =>
            match wp_string P component identifier dflt w2 with
            | (w3, Ok (Some r)) => (w3, Ok r)
            | (w3, Ok None) => (w3, Err (LStringNotFound component identifier tag true))
            | (w3, Err e) => (w3, Err (LProvider e))
            | (w3, Panic) => (w3, Panic)
            | (w3, NoFuel) => (w3, NoFuel)
            end
        | (w2, Err e) => (w2, Err (LProvider e))
        | (w2, Panic) => (w2, Panic)
        | (w2, NoFuel) => (w2, NoFuel)
        end
    | (w1, Err e) => (w1, Err (LProvider e))
    | (w1, Panic) => (w1, Panic)
    | (w1, NoFuel) => (w1, NoFuel)
    end.

  (** localiser.rs 941-1130 [actual_format] *)
  Definition xactual_format (st : lstate) (component identifier : ustr) (vals : amap pvalue) (tag : ustr)
    (fallback caching : bool) (w : W) : wlout (PE := PE) (W := W) :=
    let key := combined component identifier in
    match cached st tag key with
    | Some (CLocalised s t) => (w, (st, Ok (s, t)))                                     (* 965-967 *)
    | Some (CFormatter fm) =>                                                           (* 969-977 *)
        let '(w', (fm', r)) := wrun_formatter E reg fm vals w in (w', (put_formatter st tag key fm', r))
    | None =>
        let language_entry := mhas tag (ls_cache st) in
        match xfind_string component identifier tag fallback w with
        | (w1, Err e) => (w1, (st, Err e))
        | (w1, Panic) => (w1, (st, Panic))
        | (w1, NoFuel) => (w1, (st, NoFuel))
        | (w1, Ok (s, t)) =>
            match s with
            | [] => (w1, return_string st language_entry caching key s t)               (* 1036-1043 *)
            | _ :: _ =>
                match wformatter_try_new (le_icu E) localiser_grammar (le_fmt E) reg t (le_locale E t) s w1 with
                | (w2, Err FNoGrammar) => (w2, return_string st language_entry caching key s t)  (* 1047-1055 *)
                | (w2, Err e) => (w2, (st, Err (LFormatter e)))                         (* 1056 *)
                | (w2, Panic) => (w2, (st, Panic))
                | (w2, NoFuel) => (w2, (st, NoFuel))
                | (w2, Ok fm) =>                                                        (* 1061-1064, 1071-1129 *)
                    let '(w3, (fm', r)) := wrun_formatter E reg fm vals w2 in
                    (w3, (if caching then put_formatter st tag key fm' else st, r))
                end
            end
        end
    end.

  (** localiser.rs 1133-1213 [actual_literal] *)
  Definition xactual_literal (st : lstate) (component identifier tag : ustr) (fallback caching : bool) (w : W) : wlout (PE := PE) (W := W) :=
    let key := combined component identifier in
    match cached st tag key with
    | Some (CLocalised s t) => (w, (st, Ok (s, t)))
    | Some (CFormatter _) => (w, (st, Err (LCacheEntry component identifier)))
    | None =>
        match xfind_string component identifier tag fallback w with
        | (w1, Err e) => (w1, (st, Err e))
        | (w1, Panic) => (w1, (st, Panic))
        | (w1, NoFuel) => (w1, (st, NoFuel))
        | (w1, Ok (s, t)) => (w1, return_string st (mhas tag (ls_cache st)) caching key s t)
        end
    end.

  (** localiser.rs 1215-1260 [actual_format_localisation_data] *)
  Fixpoint xactual_format_data (d : ldata) (tag : ustr) (fallback caching : bool) (st : lstate) (w : W) {struct d} : wlout (PE := PE) (W := W) :=
    match d with
    | LData component identifier None => xactual_literal st component identifier tag fallback caching w
    | LData component identifier (Some vs) =>
        (fix go (vs : list (ustr * pvalue)) (new : amap pvalue) (st : lstate) (w : W) {struct vs} :=
           match vs with
           | [] => xactual_format st component identifier new tag fallback caching w
           | (ph, v) :: r =>
               match v with
               | VData inner =>
                   match xactual_format_data inner tag fallback caching st w with
                   | (w', (st', Ok (s, t))) => go r (minsert ph (VLocalised s t) new) st' w'
                   | other => other
                   end
               | _ => go r (minsert ph v new) st w
               end
           end) vs [] st w
    end.

  (** The public methods, see [lstep]. *)
  Definition xlstep (st : lstate) (c : lcall) (w : W) : W * (lstate * option (lout (PE := PE) (ustr * ustr))) :=
    let some (x : wlout (PE := PE) (W := W)) := (fst x, (fst (snd x), Some (snd (snd x)))) in
    let fb f := unwrap_or f (ls_fallback st) in
    let ch c := unwrap_or c (ls_caching st) in
    match c with
    | CallFormat c i vals t f ca => some (xactual_format st c i vals t (fb f) (ch ca) w)
    | CallFormatDefaults c i vals => some (xactual_format st c i vals (ls_tag st) (ls_fallback st) (ls_caching st) w)
    | CallLiteral c i t f ca => some (xactual_literal st c i t (fb f) (ch ca) w)
    | CallLiteralDefaults c i => some (xactual_literal st c i (ls_tag st) (ls_fallback st) (ls_caching st) w)
    | CallData d t f ca => some (xactual_format_data d t (fb f) (ch ca) st w)
    | CallDataDefaults d => some (xactual_format_data d (ls_tag st) (ls_fallback st) (ls_caching st) st w)
    | CallDefaults t f ca => (w, (loc_defaults E st t f ca, None))
    end.
  (** Calls one after the other. Before each of them the world may change by itself. *)
  Definition xlrun (s : W * lstate) (h : list ((W -> W) * lcall)) : W * lstate :=
    fold_left (fun s x => let r := xlstep (snd s) (snd x) (fst x (fst s)) in (fst r, fst (snd r))) h s.
End Ask.

(** The provider of the crate i18n_provider_sqlite3 with the queries it makes, see [sqlite_provider] of [SystemModel]: [string] and
    [component_details]. *)
Definition query_provider (E : penv) (D : database) (p : sprovider) : wprovider perror qstate :=
  mk_wprovider
    (fun c i t s => match pe_canon E t with
                    | Some t' => if ueqb t t' then q_one_string E D p false c i t s else (s, Ok None)
                    | None => (s, Ok None)
                    end)
    (fun c s => let (s', x) := q_component_details E D p c s in (s', let! cd := x in Ok (cd_default cd))).
