(** What the errors of the localiser say (crates/localiser/src/error.rs 456-470 and 636-672), and what they amount to. *)
From Verif Require Import Base LexerModel LexerSpec TreeModel TreeSpec ValueModel CommandModel FormatterModel FormatterSpec RegistryModel LocaliserModel
  LocaliserSpec DefectSpec.

Section Spec.
  Context {PE : Type}.
  Variable E : lenv PE.
  Let P := le_provider E.

  (** The provider fails for a request: for the language asked for, for the default language, or for the string in it. *)
  Inductive provider_fails (c i t : ustr) (fallback : bool) : PE -> Prop :=
  | pf_asked e : pv_string P c i t = Err e -> provider_fails c i t fallback e
  | pf_default e : pv_string P c i t = Ok None -> fallback = true -> pv_default P c = Err e -> provider_fails c i t fallback e
  | pf_string d e : pv_string P c i t = Ok None -> fallback = true -> pv_default P c = Ok d -> pv_string P c i d = Err e ->
      provider_fails c i t fallback e.
  Definition request_found (q : request) (s t : ustr) : Prop := found E (rq_component q) (rq_identifier q) (rq_tag q) (rq_fallback q) s t.
  (** A string of language [t] cannot be made a formatter, or the formatter, used before or not, fails for some values. *)
  Definition string_fails (s t : ustr) (e : formatter_error) : Prop :=
    ~ no_syntax s /\
    (formatter_try_new (le_icu E) localiser_grammar (le_fmt E) (le_reg E) t (le_locale E t) s = Err e \/
     exists fm fm' vals, formatter_try_new (le_icu E) localiser_grammar (le_fmt E) (le_reg E) t (le_locale E t) s = Ok fm /\
       after_formatting (le_fmt E) (le_reg E) fm fm' /\ snd (format (le_fuel E) (le_fmt E) (le_reg E) fm' vals) = Err e).
  (** A placeholder or a command in the main string. *)
  Definition needs_values (s : ustr) : Prop := exists a, content_of (le_icu E) localiser_grammar s a /\
    exists x, In x (fst a) /\ ((exists ph kw, x = SPat ph kw) \/ exists ps, x = SCmd ps).

  (** What an error says of the requests [qs] of the call that returns it. *)
  Definition localiser_says (qs : list request) (e : localiser_error PE) : Prop :=
    match e with
    | LRegistry _ | LNeverReached => False
    | LFormatter e => exists q s t, In q qs /\ rq_literal q = false /\ request_found q s t /\ string_fails s t e
    | LProvider e => exists q, In q qs /\ provider_fails (rq_component q) (rq_identifier q) (rq_tag q) (rq_fallback q) e
    | LStringNotFound c i t fb => (exists l, In (mk_request c i t fb l) qs) /\ missing E c i t fb
    | LCacheEntry c i => exists t fb s t', In (mk_request c i t fb true) qs /\ found E c i t fb s t' /\ needs_values s
    end.

  (** What it amounts to after requests [rs], those of the call among them. *)
  Definition same_key (q q' : request) : Prop :=
    rq_component q ++ us "/" ++ rq_identifier q = rq_component q' ++ us "/" ++ rq_identifier q' /\ rq_tag q = rq_tag q'.
  Definition localiser_reports (rs qs : list request) (e : localiser_error PE) : Prop :=
    match e with
    | LRegistry _ | LNeverReached => False
    | LFormatter e => exists q q' s t, In q qs /\ rq_literal q = false /\ In q' rs /\ same_key q q' /\ rq_literal q' = false /\
        request_found q' s t /\ string_fails s t e
    | LProvider e => exists q, In q qs /\ provider_fails (rq_component q) (rq_identifier q) (rq_tag q) (rq_fallback q) e
    | LStringNotFound c i t fb => (exists l, In (mk_request c i t fb l) qs) /\ missing E c i t fb
    | LCacheEntry c i => exists t fb q' s t', In (mk_request c i t fb true) qs /\ In q' rs /\ same_key (mk_request c i t fb true) q' /\
        rq_literal q' = false /\ request_found q' s t' /\ ~ no_syntax s /\ exists a, content_of (le_icu E) localiser_grammar s a
    end.
End Spec.
