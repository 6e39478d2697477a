(** When a localiser asks its provider, and what it makes of the answers (C98). *)
From Verif Require Import Base LexerModel ValueModel CommandModel FormatterModel RegistryModel LocaliserModel LocaliserSpec MemorySpec CallsModel CallsSpec
  LocCallsModel ProviderModel QueryModel AskModel.

Section Ask.
  Context {PE W : Type}.
  Variables (E : lenv PE) (reg : wregistry W) (P : wprovider PE W).

  (** An answer of the provider that is no answer. *)
  Definition fails {A B} (x : outcome PE A) (y : lout (PE := PE) B) : Prop :=
    match x with Ok _ => False | Err e => y = Err (LProvider e) | Panic => y = Panic | NoFuel => y = NoFuel end.
  (** How the provider is asked for a string, from the world [w] to [w']: in the language wanted; if it has none and fallback is
      on, for the default language of the component, and then for the string in this language. *)
  Inductive asks (c i t : ustr) (fallback : bool) (w w' : W) : lout (PE := PE) (ustr * ustr) -> Prop :=
  | as_string r : wp_string P c i t w = (w', Ok (Some r)) -> asks c i t fallback w w' (Ok r)
  | as_failed x y : wp_string P c i t w = (w', x) -> fails x y -> asks c i t fallback w w' y
  | as_none : fallback = false -> wp_string P c i t w = (w', Ok None) -> asks c i t fallback w w' (Err (LStringNotFound c i t false))
  | as_no_default w1 x y : fallback = true -> wp_string P c i t w = (w1, Ok None) -> wp_default P c w1 = (w', x) -> fails x y ->
      asks c i t fallback w w' y
  | as_default w1 w2 d r : fallback = true -> wp_string P c i t w = (w1, Ok None) -> wp_default P c w1 = (w2, Ok d) ->
      wp_string P c i d w2 = (w', Ok (Some r)) -> asks c i t fallback w w' (Ok r)
  | as_default_failed w1 w2 d x y : fallback = true -> wp_string P c i t w = (w1, Ok None) -> wp_default P c w1 = (w2, Ok d) ->
      wp_string P c i d w2 = (w', x) -> fails x y -> asks c i t fallback w w' y
  | as_default_none w1 w2 d : fallback = true -> wp_string P c i t w = (w1, Ok None) -> wp_default P c w1 = (w2, Ok d) ->
      wp_string P c i d w2 = (w', Ok None) -> asks c i t fallback w w' (Err (LStringNotFound c i t true)).

  Definition remembered (st : lstate) (q : request) : Prop := cached st (rq_tag q) (combined (rq_component q) (rq_identifier q)) <> None.
  (** The same localiser, with a provider that gives this string whatever it is asked for. *)
  Definition given (r : ustr * ustr) : lenv PE :=
    mk_lenv (le_icu E) (le_fmt E) (le_reg E) (le_locale E) (mk_provider (fun _ _ _ => Ok (Some r)) (fun _ => Panic)) (le_script E) (le_fuel E).

  (** A call for the string of a request. *)
  Definition call_for (q : request) (vals : amap pvalue) (caching : bool) : lcall :=
    if rq_literal q then CallLiteral (rq_component q) (rq_identifier q) (rq_tag q) (Some (rq_fallback q)) (Some caching)
    else CallFormat (rq_component q) (rq_identifier q) vals (rq_tag q) (Some (rq_fallback q)) (Some caching).
  (** Requests one after the other, with the world and the state after the last; up to the first that fails, whose result it is. *)
  Inductive in_turn (caching : bool) : list request -> W * lstate -> W * lstate -> lout (PE := PE) (ustr * ustr) -> Prop :=
  | it_last q vals w st w' st' r : xlstep E reg P st (call_for q vals caching) w = (w', (st', Some r)) ->
      in_turn caching [q] (w, st) (w', st') r
  | it_next q vals w st w1 st1 x l s r : xlstep E reg P st (call_for q vals caching) w = (w1, (st1, Some (Ok x))) -> in_turn caching l (w1, st1) s r ->
      in_turn caching (q :: l) (w, st) s r
  | it_fails q vals w st w1 st1 l r : xlstep E reg P st (call_for q vals caching) w = (w1, (st1, Some r)) -> (forall x, r <> Ok x) ->
      in_turn caching (q :: l) (w, st) (w1, st1) r.

  (** ** A record of what the provider said *)
  (** Component, identifier and language asked for; string and language answered. *)
  Definition said := (ustr * ustr * ustr * (ustr * ustr))%type.
  Definition never_forgets (G : W -> said -> Prop) (w w' : W) : Prop := forall x, G w x -> G w' x.
  (** [G w x]: in the world [w] there is a record of [x]. Whatever happens nothing is taken from it, and answers are put into it. *)
  Definition records (G : W -> said -> Prop) : Prop :=
    (forall c i l w, never_forgets G w (fst (wp_string P c i l w)) /\
       forall r, snd (wp_string P c i l w) = Ok (Some r) -> G (fst (wp_string P c i l w)) (c, i, l, r)) /\
    (forall c w, never_forgets G w (fst (wp_default P c w))) /\
    (forall name f ps w, mget name reg = Some f -> never_forgets G w (fst (f ps w))).
  (** The text of a string of language [t] for values: the string, or what a formatter made from it gives, whenever it was made and
      however it was used. *)
  Inductive text_from (s t : ustr) (vals : amap pvalue) : ustr -> Prop :=
  | tf_plain : text_from s t vals s
  | tf_format w0 w1 fm0 fm w w2 fm' x : wformatter_try_new (le_icu E) localiser_grammar (le_fmt E) reg t (le_locale E t) s w0 = (w1, Ok fm0) ->
      wafter (le_fmt E) reg fm0 fm -> wformat (le_fuel E) (le_fmt E) reg fm vals w = (w2, (fm', Ok x)) -> text_from s t vals x.
  Definition call_values (x : lcall) : amap pvalue := match x with CallFormat _ _ vals _ _ _ | CallFormatDefaults _ _ vals => vals | _ => [] end.

  (** ** No caching *)
  (** No call switches caching on. *)
  Definition no_caching (x : lcall) : Prop :=
    match x with
    | CallFormat _ _ _ _ _ ca | CallLiteral _ _ _ _ ca | CallData _ _ _ ca | CallDefaults _ _ ca => ca <> Some true
    | _ => True
    end.

  (** ** A provider whose answers do not change, though it may have effects *)
  (** While [I] holds of the world. *)
  Definition answers_as (I : W -> Prop) (pv : provider PE) : Prop :=
    (forall c i t w, I w -> I (fst (wp_string P c i t w)) /\ snd (wp_string P c i t w) = pv_string pv c i t) /\
    (forall c w, I w -> I (fst (wp_default P c w)) /\ snd (wp_default P c w) = pv_default pv c).
End Ask.
(** A provider without effects. *)
Definition effectless {PE W} (pv : provider PE) : wprovider PE W :=
  mk_wprovider (fun c i t w => (w, pv_string pv c i t)) (fun c w => (w, pv_default pv c)).

(** Which calls of the sqlite3 provider a localiser makes for a string. *)
Section Sqlite.
  Variables (E : penv) (D : database) (p : sprovider).
  Definition none_found (x : pout panswer) : Prop := x = Ok (AnString None).
  Inductive provider_calls (c i t : ustr) (fallback : bool) (s : qstate) : list pcall -> Prop :=
  | pc_found : fallback = false \/ ~ none_found (snd (q_pcall E D p (CallString c i t) s)) -> provider_calls c i t fallback s [CallString c i t]
  | pc_details s1 x : fallback = true -> none_found (snd (q_pcall E D p (CallString c i t) s)) -> s1 = q_prun E D p s [CallString c i t] ->
      snd (q_pcall E D p (CallComponent c) s1) = x -> (forall cd, x = Ok (AnComponent cd) -> pe_canon E (cd_default cd) <> Some (cd_default cd)) ->
      provider_calls c i t fallback s [CallString c i t; CallComponent c]
  | pc_default s1 cd : fallback = true -> none_found (snd (q_pcall E D p (CallString c i t) s)) -> s1 = q_prun E D p s [CallString c i t] ->
      snd (q_pcall E D p (CallComponent c) s1) = Ok (AnComponent cd) -> pe_canon E (cd_default cd) = Some (cd_default cd) ->
      provider_calls c i t fallback s [CallString c i t; CallComponent c; CallString c i (cd_default cd)].
End Sqlite.
