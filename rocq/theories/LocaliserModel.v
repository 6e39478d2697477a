(** Model of crates/localiser/src/localiser.rs (without feature [sync]). *)
From Verif Require Import Base LexerModel TreeModel ValueModel CommandModel IsoModel FormatterModel RegistryModel.

(** What the localiser uses of a provider, crates/provider/core/src/provider.rs 34-40 and 109-112: [string], and the field
    [default] of the result of [component_details]. A language tag is given by its string: two references with the same
    string are equal in Rust as well (derived [Eq] and [Hash]). A provider is taken to be a function of the arguments; its
    data does not change. [PE] is the type of its errors. *)
Record provider (PE : Type) := mk_provider {
  pv_string : ustr -> ustr -> ustr -> outcome PE (option (ustr * ustr));
  pv_default : ustr -> outcome PE ustr
}.
Arguments pv_string {PE}.
Arguments pv_default {PE}.
Arguments mk_provider {PE}.

(** crates/localiser/src/error.rs 472-479 [LocaliserError] *)
Inductive localiser_error (PE : Type) :=
| LRegistry (e : registry_error)
| LFormatter (e : formatter_error)
| LProvider (e : PE)
| LStringNotFound (component identifier tag : ustr) (fallback : bool)
| LCacheEntry (component identifier : ustr)
| LNeverReached.
Arguments LRegistry {PE}.
Arguments LFormatter {PE}.
Arguments LProvider {PE}.
Arguments LStringNotFound {PE}.
Arguments LCacheEntry {PE}.
Arguments LNeverReached {PE}.

(** localiser.rs 1309-1312 [CacheData] *)
Inductive cache_data := CLocalised (s tag : ustr) | CFormatter (fm : formatter).
Definition cache := amap (amap cache_data).

(** localiser.rs 39-52 [Localiser]: the parts that change. *)
Record lstate := mk_lstate {
  ls_cache : cache;
  ls_fallback : bool;
  ls_caching : bool;
  ls_tag : ustr;
  ls_script : option ustr
}.

(** The parts that do not change: ICU data, ICU formatting, commands, the locale of a tag ([icu_language] of the language
    tag registry, which never fails for tags of the registry, see C46), the provider, the script data of a tag
    (localiser.rs 1314-1352 [get_script_data], see [ScriptModel]), and the depth to which the recursion of the formatter is
    followed: a call that goes deeper has the outcome [NoFuel]. The command registry is taken not to change. *)
Record lenv (PE : Type) := mk_lenv {
  le_icu : icu;
  le_fmt : fmtenv;
  le_reg : cregistry;
  le_locale : ustr -> ustr;
  le_provider : provider PE;
  le_script : ustr -> option ustr;
  le_fuel : nat
}.
Arguments le_icu {PE}.
Arguments le_fmt {PE}.
Arguments le_reg {PE}.
Arguments le_locale {PE}.
Arguments le_provider {PE}.
Arguments le_script {PE}.
Arguments le_fuel {PE}.
Arguments mk_lenv {PE}.

(** localiser.rs 145 *)
Definition localiser_grammar : ustr := us "{}`#".

Definition set_cache (st : lstate) (c : cache) : lstate :=
  mk_lstate c (ls_fallback st) (ls_caching st) (ls_tag st) (ls_script st).

(** localiser.rs 950-952 and 1141-1143: the cache key. *)
Definition combined (component identifier : ustr) : ustr := component ++ ch "/" :: identifier.

Section Localiser.
  Context {PE : Type}.
  Variable E : lenv PE.
  Definition lout := outcome (localiser_error PE).

  (** localiser.rs 961-963 and 1152-1154: the entry for a language, and in it the entry for a key. *)
  Definition cached (st : lstate) (tag key : ustr) : option cache_data :=
    match mget tag (ls_cache st) with Some m => mget key m | None => None end.

  (** localiser.rs 996-1031, and again 1170-1205 *)
  Definition find_string (component identifier tag : ustr) (fallback : bool) : lout (ustr * ustr) :=
    let! o := map_err LProvider (pv_string (le_provider E) component identifier tag) in
    match o with
    | Some r => Ok r
    | None =>
        if negb fallback then Err (LStringNotFound component identifier tag false) else
        let! dflt := map_err LProvider (pv_default (le_provider E) component) in
        let! o' := map_err LProvider (pv_string (le_provider E) component identifier dflt) in
        match o' with
        | Some r => Ok r
        | None => Err (LStringNotFound component identifier tag true)
        end
    end.

  (** localiser.rs 1262-1304 [add_string_to_cache]; [None] is the panic of line 1299. *)
  Definition add_string_to_cache (st : lstate) (language_exists : bool) (key s tag : ustr) : option lstate :=
    if negb language_exists then Some (set_cache st (minsert tag [(key, CLocalised s tag)] (ls_cache st)))
    else match mget tag (ls_cache st) with
         | None => None
         | Some m => Some (set_cache st (minsert tag (minsert key (CLocalised s tag) m) (ls_cache st)))
         end.
  (** localiser.rs 1036-1043, 1048-1055, 1208-1212: a string returned as it is. *)
  Definition return_string (st : lstate) (language_exists caching : bool) (key s tag : ustr) : lstate * lout (ustr * ustr) :=
    if caching then
      match add_string_to_cache st language_exists key s tag with
      | Some st' => (st', Ok (s, tag))
      | None => (st, Panic)
      end
    else (st, Ok (s, tag)).

  (** [format] of a formatter and the tag it returns, formatter.rs 190-197. *)
  Definition run_formatter (fm : formatter) (vals : amap pvalue) : formatter * lout (ustr * ustr) :=
    let (fm', r) := format (le_fuel E) (le_fmt E) (le_reg E) fm vals in
    (fm', let! s := map_err LFormatter r in Ok (s, fm_tag fm')).

  (** Replacing an entry of the cache: a formatter has changed, or is added (1071-1100). *)
  Definition put_formatter (st : lstate) (tag key : ustr) (fm : formatter) : lstate :=
    match mget tag (ls_cache st) with
    | None => set_cache st (minsert tag [(key, CFormatter fm)] (ls_cache st))
    | Some m => set_cache st (minsert tag (minsert key (CFormatter fm) m) (ls_cache st))
    end.

  (** localiser.rs 941-1130 [actual_format] *)
  Definition actual_format (st : lstate) (component identifier : ustr) (vals : amap pvalue) (tag : ustr)
    (fallback caching : bool) : lstate * lout (ustr * ustr) :=
    let key := combined component identifier in
    match cached st tag key with
    | Some (CLocalised s t) => (st, Ok (s, t))                                          (* 965-967 *)
    | Some (CFormatter fm) =>                                                           (* 969-977 *)
        let (fm', r) := run_formatter fm vals in (put_formatter st tag key fm', r)
    | None =>
        let language_entry := mhas tag (ls_cache st) in
        match find_string component identifier tag fallback with
        | Err e => (st, Err e)
        | Panic => (st, Panic)
        | NoFuel => (st, NoFuel)
        | Ok (s, t) =>
            match s with
            | [] => return_string st language_entry caching key s t                     (* 1036-1043 *)
            | _ :: _ =>
                match formatter_try_new (le_icu E) localiser_grammar (le_fmt E) (le_reg E) t (le_locale E t) s with
                | Err FNoGrammar => return_string st language_entry caching key s t     (* 1047-1055 *)
                | Err e => (st, Err (LFormatter e))                                     (* 1056 *)
                | Panic => (st, Panic)
                | NoFuel => (st, NoFuel)
                | Ok fm =>
                    let (fm', r) := run_formatter fm vals in
                    (* 1061-1064 without caching; 1071-1129: the formatter is put into the cache and used there. Nothing
                       happens in between, so lines 1110-1114 find it. *)
                    (if caching then put_formatter st tag key fm' else st, r)
                end
            end
        end
    end.

  (** localiser.rs 1133-1213 [actual_literal] *)
  Definition actual_literal (st : lstate) (component identifier tag : ustr) (fallback caching : bool)
    : lstate * lout (ustr * ustr) :=
    let key := combined component identifier in
    match cached st tag key with
    | Some (CLocalised s t) => (st, Ok (s, t))
    | Some (CFormatter _) => (st, Err (LCacheEntry component identifier))
    | None =>
        match find_string component identifier tag fallback with
        | Err e => (st, Err e)
        | Panic => (st, Panic)
        | NoFuel => (st, NoFuel)
        | Ok (s, t) => return_string st (mhas tag (ls_cache st)) caching key s t
        end
    end.

  (** localiser.rs 1215-1260 [actual_format_localisation_data]. The values are visited in the order of the list, which
      stands for the unspecified order of the [HashMap]. *)
  Fixpoint actual_format_data (d : ldata) (tag : ustr) (fallback caching : bool) (st : lstate) {struct d}
    : lstate * lout (ustr * ustr) :=
    match d with
    | LData component identifier None => actual_literal st component identifier tag fallback caching
    | LData component identifier (Some vs) =>
        (fix go (vs : list (ustr * pvalue)) (new : amap pvalue) (st : lstate) {struct vs} :=
           match vs with
           | [] => actual_format st component identifier new tag fallback caching
           | (ph, v) :: r =>
               match v with
               | VData inner =>
                   match actual_format_data inner tag fallback caching st with
                   | (st', Ok (s, t)) => go r (minsert ph (VLocalised s t) new) st'
                   | other => other
                   end
               | _ => go r (minsert ph v new) st
               end
           end) vs [] st
    end.

  (** ** Public methods *)
  Definition unwrap_or {A} (o : option A) (a : A) : A := match o with Some x => x | None => a end.

  (** localiser.rs 130-159 [try_new], for a language tag already made canonical by the registry (line 141, C25). *)
  Definition localiser_new (fallback caching : bool) (tag : ustr) : lstate :=
    mk_lstate [] fallback caching tag (le_script E tag).
  (** localiser.rs 223-255 [format] and 305-340 [format_with_defaults] *)
  Definition loc_format (st : lstate) (component identifier : ustr) (vals : amap pvalue) (tag : ustr)
    (fallback caching : option bool) : lstate * lout (ustr * ustr) :=
    actual_format st component identifier vals tag (unwrap_or fallback (ls_fallback st)) (unwrap_or caching (ls_caching st)).
  Definition loc_format_with_defaults (st : lstate) (component identifier : ustr) (vals : amap pvalue)
    : lstate * lout (ustr * ustr) :=
    actual_format st component identifier vals (ls_tag st) (ls_fallback st) (ls_caching st).
  (** localiser.rs 385-415 [literal] and 455-482 [literal_with_defaults] *)
  Definition loc_literal (st : lstate) (component identifier tag : ustr) (fallback caching : option bool)
    : lstate * lout (ustr * ustr) :=
    actual_literal st component identifier tag (unwrap_or fallback (ls_fallback st)) (unwrap_or caching (ls_caching st)).
  Definition loc_literal_with_defaults (st : lstate) (component identifier : ustr) : lstate * lout (ustr * ustr) :=
    actual_literal st component identifier (ls_tag st) (ls_fallback st) (ls_caching st).
  (** localiser.rs 649-672 [format_localisation_data], 735-761 [format_localisation_data_with_defaults]; 813-837
      [format_error] and 886-913 [format_error_with_defaults] are the same for the localisation data of the error. *)
  Definition loc_format_data (st : lstate) (d : ldata) (tag : ustr) (fallback caching : option bool)
    : lstate * lout (ustr * ustr) :=
    actual_format_data d tag (unwrap_or fallback (ls_fallback st)) (unwrap_or caching (ls_caching st)) st.
  Definition loc_format_data_with_defaults (st : lstate) (d : ldata) : lstate * lout (ustr * ustr) :=
    actual_format_data d (ls_tag st) (ls_fallback st) (ls_caching st) st.
  (** localiser.rs 495-540 [defaults] *)
  Definition loc_defaults (st : lstate) (tag : option ustr) (fallback caching : option bool) : lstate :=
    mk_lstate (ls_cache st) (unwrap_or fallback (ls_fallback st)) (unwrap_or caching (ls_caching st))
      (unwrap_or tag (ls_tag st)) (match tag with Some t => le_script E t | None => ls_script st end).

  (** A call of a public method, and the state and result after it. *)
  Inductive lcall :=
  | CallFormat (component identifier : ustr) (vals : amap pvalue) (tag : ustr) (fallback caching : option bool)
  | CallFormatDefaults (component identifier : ustr) (vals : amap pvalue)
  | CallLiteral (component identifier tag : ustr) (fallback caching : option bool)
  | CallLiteralDefaults (component identifier : ustr)
  | CallData (d : ldata) (tag : ustr) (fallback caching : option bool)
  | CallDataDefaults (d : ldata)
  | CallDefaults (tag : option ustr) (fallback caching : option bool).
  Definition lstep (st : lstate) (c : lcall) : lstate * option (lout (ustr * ustr)) :=
    let some (x : lstate * lout (ustr * ustr)) := (fst x, Some (snd x)) in
    match c with
    | CallFormat c i vals t f ca => some (loc_format st c i vals t f ca)
    | CallFormatDefaults c i vals => some (loc_format_with_defaults st c i vals)
    | CallLiteral c i t f ca => some (loc_literal st c i t f ca)
    | CallLiteralDefaults c i => some (loc_literal_with_defaults st c i)
    | CallData d t f ca => some (loc_format_data st d t f ca)
    | CallDataDefaults d => some (loc_format_data_with_defaults st d)
    | CallDefaults t f ca => (loc_defaults st t f ca, None)
    end.
  Definition lrun (st : lstate) (h : list lcall) : lstate := fold_left (fun st c => fst (lstep st c)) h st.
End Localiser.
