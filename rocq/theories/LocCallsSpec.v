(** When and how often a localiser calls commands (C96). *)
From Verif Require Import Base LexerModel TreeSpec DocSpec ValueModel CommandModel FormatterModel FormatterSpec RegistryModel LocaliserModel LocaliserSpec
  CallsModel CallsSpec LocCallsModel.

Section LocCalls.
  Context {PE W : Type}.
  Variables (E : lenv PE) (reg : wregistry W).

  (** A localiser after any calls, each in any state of the world. *)
  Definition in_service (st : lstate) : Prop := exists fallback caching tag h, st = wlrun E reg (localiser_new E fallback caching tag) h.

  (** [s], of language [t], was found for a language and a key. *)
  Definition source (tag key s t : ustr) : Prop := exists c i fb, combined c i = key /\ found E c i tag fb s t.

  (** The delayed commands that are shown of a string of language [t] with content [a]; and the first of them. *)
  Definition delayed_shown (t : ustr) (a : sast) (vals : amap pvalue) : list ccall -> Prop :=
    shows (le_fmt E) (le_locale E t) vals (all_strings a) (fst a).
  Definition delayed_first (t : ustr) (a : sast) (vals : amap pvalue) : list ccall -> Prop :=
    shows_first (le_fmt E) (le_locale E t) vals (all_strings a) (fst a).
  (** The commands without delay marker, then the delayed ones that are shown; and the first of them. *)
  Inductive both_shown (t : ustr) (a : sast) (vals : amap pvalue) : list ccall -> Prop :=
  | bs_both cs : delayed_shown t a vals cs -> both_shown t a vals (build_calls a ++ cs).
  Inductive both_first (t : ustr) (a : sast) (vals : amap pvalue) : list ccall -> Prop :=
  | bf_building pre post : build_calls a = pre ++ post -> both_first t a vals pre
  | bf_showing cs : delayed_first t a vals cs -> both_first t a vals (build_calls a ++ cs).
  Definition content (s : ustr) (a : sast) : Prop := content_of (le_icu E) localiser_grammar s a.

  (** The commands called for one request. [new]: for strings asked for the first time, commands without delay marker may
      be among them. *)
  Inductive request_calls (new : bool) (q : request) : list ccall -> Prop :=
  | rc_literal : rq_literal q = true -> request_calls new q []
  | rc_plain s t : source (rq_tag q) (combined (rq_component q) (rq_identifier q)) s t -> no_syntax s -> request_calls new q []
  | rc_kept c i tag fb s : combined c i = combined (rq_component q) (rq_identifier q) -> found E c i tag fb s (rq_tag q) -> request_calls new q []
  | rc_again s t a vals cs : rq_literal q = false -> source (rq_tag q) (combined (rq_component q) (rq_identifier q)) s t -> content s a ->
      delayed_shown t a vals cs -> request_calls new q cs
  | rc_new s t a vals cs : new = true -> rq_literal q = false -> found E (rq_component q) (rq_identifier q) (rq_tag q) (rq_fallback q) s t -> content s a ->
      both_shown t a vals cs -> request_calls new q cs.
  (** Those called for a request that fails. *)
  Inductive failed_calls (new : bool) (q : request) : list ccall -> Prop :=
  | fc_none : failed_calls new q []
  | fc_again s t a vals cs : rq_literal q = false -> source (rq_tag q) (combined (rq_component q) (rq_identifier q)) s t -> content s a ->
      delayed_first t a vals cs -> failed_calls new q cs
  | fc_new s t a vals cs : new = true -> rq_literal q = false -> found E (rq_component q) (rq_identifier q) (rq_tag q) (rq_fallback q) s t -> content s a ->
      both_first t a vals cs -> failed_calls new q cs.
  (** Those of requests one after the other, all successful; and of requests of which one failed. *)
  Inductive requests_calls (new : bool) : list request -> list ccall -> Prop :=
  | rs_nil : requests_calls new [] []
  | rs_cons q l cs cs' : request_calls new q cs -> requests_calls new l cs' -> requests_calls new (q :: l) (cs ++ cs').
  Inductive some_requests_calls (new : bool) : list request -> list ccall -> Prop :=
  | sr_fail q l cs : failed_calls new q cs -> some_requests_calls new (q :: l) cs
  | sr_cons q l cs cs' : request_calls new q cs -> some_requests_calls new l cs' -> some_requests_calls new (q :: l) (cs ++ cs').

  (** The requests of calls one after the other. *)
  Fixpoint whistory_requests (st : lstate) (h : list (lcall * W)) : list request :=
    match h with
    | [] => []
    | (c, w) :: r => call_requests st c ++ whistory_requests (fst (snd (wlstep E reg st c w))) r
    end.
End LocCalls.
