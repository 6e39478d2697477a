(** What the methods of the localiser are meant to return, and the conditions under which its cache is harmless. *)
From Verif Require Import Base LexerModel LexerSpec TreeModel TreeSpec DocSpec ValueModel CommandModel FormatterModel FormatterSpec
  RegistryModel LocaliserModel.

Section Spec.
  Context {PE : Type}.
  Variable E : lenv PE.
  Let P := le_provider E.

  (** The string for a request, and its language: the provider's answer for the language asked for, or, if there is none and
      fallback is on, its answer for the default language of the component. *)
  Inductive found (c i t : ustr) (fallback : bool) (s t' : ustr) : Prop :=
  | fd_asked : pv_string P c i t = Ok (Some (s, t')) -> found c i t fallback s t'
  | fd_default d : pv_string P c i t = Ok None -> fallback = true -> pv_default P c = Ok d ->
      pv_string P c i d = Ok (Some (s, t')) -> found c i t fallback s t'.
  (** The provider has no string for the request. *)
  Inductive missing (c i t : ustr) : bool -> Prop :=
  | ms_no_fallback : pv_string P c i t = Ok None -> missing c i t false
  | ms_default d : pv_string P c i t = Ok None -> pv_default P c = Ok d -> pv_string P c i d = Ok None -> missing c i t true.

  Definition no_syntax (s : ustr) : Prop := forall c, In c s -> ~ In c (us "{}`#").

  (** The text of a string of language [t] for values: the string itself if it has no grammar character, otherwise what a
      new formatter gives. *)
  Inductive string_gives (vals : amap pvalue) (s t : ustr) : ustr -> Prop :=
  | sg_plain : no_syntax s -> string_gives vals s t s
  | sg_format fm w : ~ no_syntax s ->
      formatter_try_new (le_icu E) localiser_grammar (le_fmt E) (le_reg E) t (le_locale E t) s = Ok fm ->
      snd (format (le_fuel E) (le_fmt E) (le_reg E) fm vals) = Ok w -> string_gives vals s t w.

  (** Localisation data, formatted inside out in the language [t]. *)
  Inductive localised (t : ustr) (fallback : bool) : ldata -> ustr -> ustr -> Prop :=
  | lz_literal c i s t' : found c i t fallback s t' -> localised t fallback (LData c i None) s t'
  | lz_format c i vs vs' s t' w : localised_values t fallback vs vs' -> found c i t fallback s t' ->
      string_gives vs' s t' w -> localised t fallback (LData c i (Some vs)) w t'
  with localised_values (t : ustr) (fallback : bool) : list (ustr * pvalue) -> list (ustr * pvalue) -> Prop :=
  | lv_nil : localised_values t fallback [] []
  | lv_data ph d s t' vs vs' : localised t fallback d s t' -> localised_values t fallback vs vs' ->
      localised_values t fallback ((ph, VData d) :: vs) ((ph, VLocalised s t') :: vs')
  | lv_other ph v vs vs' : (forall d, v <> VData d) -> localised_values t fallback vs vs' ->
      localised_values t fallback ((ph, v) :: vs) ((ph, v) :: vs').

  (** The keys of a map are distinct, also in nested data. *)
  Inductive keys_distinct : ldata -> Prop :=
  | kd_none c i : keys_distinct (LData c i None)
  | kd_some c i vs : NoDup (map fst vs) -> keys_distinct_in vs -> keys_distinct (LData c i (Some vs))
  with keys_distinct_in : list (ustr * pvalue) -> Prop :=
  | ki_nil : keys_distinct_in []
  | ki_data ph d vs : keys_distinct d -> keys_distinct_in vs -> keys_distinct_in ((ph, VData d) :: vs)
  | ki_other ph v vs : (forall d, v <> VData d) -> keys_distinct_in vs -> keys_distinct_in ((ph, v) :: vs).

  (** ** Requests for strings made by calls *)
  Record request := mk_request { rq_component : ustr; rq_identifier : ustr; rq_tag : ustr; rq_fallback : bool; rq_literal : bool }.

  Fixpoint data_requests (t : ustr) (fallback : bool) (d : ldata) : list request :=
    match d with
    | LData c i None => [mk_request c i t fallback true]
    | LData c i (Some vs) =>
        (fix go (vs : list (ustr * pvalue)) : list request :=
           match vs with
           | [] => []
           | (_, v) :: r => (match v with VData d' => data_requests t fallback d' | _ => [] end) ++ go r
           end) vs ++ [mk_request c i t fallback false]
    end.
  Definition call_requests (st : lstate) (c : lcall) : list request :=
    match c with
    | CallFormat c i _ t f _ => [mk_request c i t (unwrap_or f (ls_fallback st)) false]
    | CallFormatDefaults c i _ => [mk_request c i (ls_tag st) (ls_fallback st) false]
    | CallLiteral c i t f _ => [mk_request c i t (unwrap_or f (ls_fallback st)) true]
    | CallLiteralDefaults c i => [mk_request c i (ls_tag st) (ls_fallback st) true]
    | CallData d t f _ => data_requests t (unwrap_or f (ls_fallback st)) d
    | CallDataDefaults d => data_requests (ls_tag st) (ls_fallback st) d
    | CallDefaults _ _ _ => []
    end.
  Fixpoint history_requests (st : lstate) (h : list lcall) : list request :=
    match h with
    | [] => []
    | c :: r => call_requests st c ++ history_requests (fst (lstep E st c)) r
    end.

  (** The same call of a localiser without a cache. *)
  Definition without_caching (c : lcall) : lcall :=
    match c with
    | CallFormat c i vals t f _ => CallFormat c i vals t f (Some false)
    | CallLiteral c i t f _ => CallLiteral c i t f (Some false)
    | CallData d t f _ => CallData d t f (Some false)
    | c => c
    end.
  Definition uncached_result (st : lstate) (c : lcall) : option (outcome (localiser_error PE) (ustr * ustr)) :=
    snd (lstep E (mk_lstate [] (ls_fallback st) false (ls_tag st) (ls_script st)) (without_caching c)).

  (** ** Conditions under which the cache does not change results *)

  (** Asking the provider again, for the language it answered in, gives the same answer. *)
  Definition answers_again : Prop := forall c i t s t', pv_string P c i t = Ok (Some (s, t')) -> pv_string P c i t' = Ok (Some (s, t')).
  (** Number signs stand only in branches of plural and ordinal placeholders (see C19). *)
  Definition provider_hash_ok : Prop := forall c i t s t' a, pv_string P c i t = Ok (Some (s, t')) ->
    content_of (le_icu E) localiser_grammar s a -> hash_in_plurals_only a.
  (** No slash in the names of components. *)
  Definition no_slashes (rs : list request) : Prop := forall r, In r rs -> ~ In (ch "/") (rq_component r).
  (** A string asked for with [literal] and with [format] has no grammar characters. *)
  Definition not_mixed (rs : list request) : Prop := forall r r' s t', In r rs -> In r' rs ->
    rq_component r = rq_component r' -> rq_identifier r = rq_identifier r' -> rq_literal r = true -> rq_literal r' = false ->
    found (rq_component r) (rq_identifier r) (rq_tag r) (rq_fallback r) s t' -> no_syntax s.
  (** Requests for a string the provider does not have in the language asked for agree on fallback. *)
  Definition same_fallback (rs : list request) : Prop := forall r r', In r rs -> In r' rs ->
    rq_component r = rq_component r' -> rq_identifier r = rq_identifier r' -> rq_tag r = rq_tag r' ->
    pv_string P (rq_component r) (rq_identifier r) (rq_tag r) = Ok None -> rq_fallback r = rq_fallback r'.
  Definition harmless (rs : list request) : Prop := no_slashes rs /\ not_mixed rs /\ same_fallback rs.
  (** Every string found is in the language asked for. *)
  Definition same_language (rs : list request) : Prop := forall r s t', In r rs ->
    found (rq_component r) (rq_identifier r) (rq_tag r) (rq_fallback r) s t' -> t' = rq_tag r.

  (** Neither the provider nor a command panics, and no string of the provider makes the parser panic (see C06). *)
  Record calm : Prop := mk_calm {
    cm_string : forall c i t, pv_string P c i t <> Panic;
    cm_default : forall c, pv_default P c <> Panic;
    cm_commands : forall name f args, mget name (le_reg E) = Some f -> f (VString name :: args) <> Panic;
    cm_parser : forall c i t s t', pv_string P c i t = Ok (Some (s, t')) -> tree_try_new (le_icu E) s localiser_grammar <> Panic
  }.

  (** The cache has an entry for language [t] but none for [t']: storing a string of language [t'] found for language [t]
      panics. *)
  Definition cache_gap (st : lstate) (t t' : ustr) : Prop := mget t (ls_cache st) <> None /\ mget t' (ls_cache st) = None.

  (** The last value of a setting passed as [Some] to [defaults] in a history of calls. *)
  Fixpoint last_setting {A} (get : lcall -> option A) (a : A) (h : list lcall) : A :=
    match h with
    | [] => a
    | c :: r => last_setting get (match get c with Some b => b | None => a end) r
    end.
  Definition set_tag (c : lcall) : option ustr := match c with CallDefaults t _ _ => t | _ => None end.
  Definition set_fallback (c : lcall) : option bool := match c with CallDefaults _ f _ => f | _ => None end.
  Definition set_caching (c : lcall) : option bool := match c with CallDefaults _ _ ca => ca | _ => None end.
  (** A call that turns caching on or asks for it. *)
  Definition asks_caching (c : lcall) : Prop :=
    match c with
    | CallFormat _ _ _ _ _ ca | CallLiteral _ _ _ _ ca | CallData _ _ _ ca | CallDefaults _ _ ca => ca = Some true
    | _ => False
    end.
End Spec.
