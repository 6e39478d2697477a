(** What holds of commands that are registered at any time (C102). *)
From Verif Require Import Base ValueModel CommandModel FormatterModel RegistryModel LocaliserModel LocaliserSpec GrowModel.

(** What one registry has the other has too. *)
Definition extends (r r' : cregistry) : Prop := forall name f, mget name r = Some f -> mget name r' = Some f.
(** The error of a command that is not registered. *)
Definition lacking (r : cregistry) (e : formatter_error) : Prop := exists name, mget name r = None /\ e = FCommand (NotFound name).
Definition lacking_answer {PE} (r : cregistry) (a : option (lout (PE := PE) (ustr * ustr))) : Prop :=
  exists e, lacking r e /\ a = Some (Err (LFormatter e)).

Section Grow.
  Context {PE : Type}.
  Variable E : lenv PE.
  (** The calls of a script, and the answers to them. *)
  Definition calls (h : list event) : list lcall := flat_map (fun e => match e with Use c => [c] | Insert _ _ => [] end) h.
  Definition answers (l : list (reply PE)) : list (option (lout (PE := PE) (ustr * ustr))) :=
    flat_map (fun a => match a with Answered a => [a] | Inserted _ => [] end) l.
  (** The answers to calls without insertions. *)
  Fixpoint call_answers (st : lstate) (h : list lcall) : list (option (lout (PE := PE) (ustr * ustr))) :=
    match h with
    | [] => []
    | c :: h => snd (lstep E st c) :: call_answers (fst (lstep E st c)) h
    end.
  (** The requests of a script. *)
  Fixpoint script_requests (x : lstate * cregistry) (h : list event) : list request :=
    match h with
    | [] => []
    | e :: h => (match e with Use c => call_requests (fst x) c | Insert _ _ => [] end) ++ script_requests (fst (gstep E x e)) h
    end.
  (** No call of a script fails for want of a command. *)
  Fixpoint well_supplied (x : lstate * cregistry) (h : list event) : Prop :=
    match h with
    | [] => True
    | e :: h => (match snd (gstep E x e) with Answered a => ~ lacking_answer (snd x) a | Inserted _ => True end) /\ well_supplied (fst (gstep E x e)) h
    end.
End Grow.
