(** What is meant by an answer from memory, and by the size of the memory (C90, C91). *)
From Verif Require Import Base LexerModel DocSpec ValueModel CommandModel FormatterModel RegistryModel RegistrySpec LocaliserModel LocaliserSpec ProviderModel.

(** The request of a call for one string. *)
Definition asks_one (st : lstate) (x : lcall) : option request :=
  match x with
  | CallFormat c i _ t f _ => Some (mk_request c i t (unwrap_or f (ls_fallback st)) false)
  | CallFormatDefaults c i _ => Some (mk_request c i (ls_tag st) (ls_fallback st) false)
  | CallLiteral c i t f _ => Some (mk_request c i t (unwrap_or f (ls_fallback st)) true)
  | CallLiteralDefaults c i => Some (mk_request c i (ls_tag st) (ls_fallback st) true)
  | _ => None
  end.

Section Localiser.
  Context {PE : Type}.

  (** Another provider and other data for parsing; numbers, dates and commands are the same. *)
  Definition elsewhere (E E' : lenv PE) : Prop :=
    le_fmt E' = le_fmt E /\ le_reg E' = le_reg E /\ le_fuel E' = le_fuel E /\ le_script E' = le_script E.
  (** The call needs neither the provider nor the parser: its result and what it leaves behind do not depend on them. *)
  Definition from_memory (E : lenv PE) (st : lstate) (c : lcall) : Prop :=
    forall E', elsewhere E E' -> lstep E' st c = lstep E st c.

  (** A call is made with caching on. *)
  Definition caches (st : lstate) (c : lcall) : bool :=
    match c with
    | CallFormat _ _ _ _ _ ca | CallLiteral _ _ _ _ ca | CallData _ _ _ ca => unwrap_or ca (ls_caching st)
    | CallFormatDefaults _ _ _ | CallLiteralDefaults _ _ | CallDataDefaults _ => ls_caching st
    | CallDefaults _ _ _ => false
    end.
  (** Every string is found in the language asked for, or is one to be formatted. *)
  Definition settled (E : lenv PE) (rs : list request) : Prop := forall q s t', In q rs ->
    found E (rq_component q) (rq_identifier q) (rq_tag q) (rq_fallback q) s t' ->
    t' = rq_tag q \/ (rq_literal q = false /\ ~ no_syntax s).
  (** Every string that a call asks for was asked for, in the same language, by another. *)
  Definition asks_again (rs rs' : list request) : Prop := forall q, In q rs ->
    exists q', In q' rs' /\ rq_component q' = rq_component q /\ rq_identifier q' = rq_identifier q /\ rq_tag q' = rq_tag q.

  (** Places of the cache that are in use: language and key. *)
  Definition in_use (st : lstate) (l : list (ustr * ustr)) : Prop :=
    NoDup l /\ forall p, In p l -> cached st (fst p) (snd p) <> None.
End Localiser.

(** Registries after further calls. *)
Inductive later (L : locid) (r : lregistry) : lregistry -> Prop :=
| lt_same : later L r r
| lt_tag r1 s r2 o : later L r r1 -> tag L r1 s = (r2, o) -> later L r r2
| lt_icu r1 t r2 o : later L r r1 -> icu_language L r1 t = (r2, o) -> later L r r2.

(** Calls of a provider that need the details of the components, and those that need nothing else. *)
Definition asks_details (c : pcall) : Prop :=
  match c with CallIdentifier _ _ | CallComponent _ | CallRepository => True | _ => False end.
Definition asks_overview (c : pcall) : Prop := match c with CallComponent _ | CallRepository => True | _ => False end.
