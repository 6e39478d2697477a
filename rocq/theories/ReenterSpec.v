(** What commands that use the localiser may do (C100). *)
From Verif Require Import Base LexerModel TreeSpec DocSpec ValueModel CommandModel FormatterModel FormatterSpec RegistryModel LocaliserModel LocaliserSpec
  CallsModel CallsSpec LocCallsModel LocCallsSpec ReenterModel.

Section Reenter.
  Context {PE W : Type}.

  (** All calls a program can make are of this kind. *)
  Inductive asks_only (P : lcall -> Prop) : cprog PE W -> Prop :=
  | ao_done r : asks_only P (PDone r)
  | ao_ask c k : P c -> (forall a, asks_only P (k a)) -> asks_only P (PAsk c k)
  | ao_read k : (forall w, asks_only P (k w)) -> asks_only P (PRead k)
  | ao_write w k : asks_only P k -> asks_only P (PWrite w k).
  Definition command_asks_only (P : lcall -> Prop) (cmds : commands PE W) (name : ustr) : Prop :=
    forall f ps, mget name cmds = Some f -> asks_only P (f ps).
  (** A command that does not use the localiser. *)
  Definition quiet : commands PE W -> ustr -> Prop := command_asks_only (fun _ => False).

  (** No delayed command of a string of the provider uses the localiser. *)
  Definition delayed_quiet (E : lenv PE) (cmds : commands PE W) : Prop :=
    forall c i t fb s t' a name, found E c i t fb s t' -> content E s a -> delays a name -> quiet cmds name.

  (** A call that does not remember anything with caching switched off, and does not switch it on. *)
  Definition forgets (c : lcall) : Prop :=
    match c with
    | CallFormat _ _ _ _ _ ca | CallLiteral _ _ _ _ ca | CallData _ _ _ ca | CallDefaults _ _ ca => ca <> Some true
    | _ => True
    end.

  (** A call for languages of [T]. *)
  Definition within (T : ustr -> Prop) (c : lcall) : Prop :=
    match c with
    | CallFormat _ _ _ t _ _ | CallLiteral _ _ t _ _ | CallData _ t _ _ | CallDefaults (Some t) _ _ => T t
    | _ => True
    end.

  (** A command that asks for a literal string with the settings of the localiser. The world says whether it ever got one. *)
  Definition witness (c i : ustr) (ps : list pvalue) : cprog PE bool :=
    PAsk (CallLiteralDefaults c i) (fun a => match a with
                                             | Some (Ok (s, _)) => PWrite true (PDone (Ok s))
                                             | _ => PDone Panic
                                             end).

  (** Nothing is borrowed. *)
  Definition idle (s : rst W) : Prop := rs_readers s = 0 /\ rs_locked s = [].
  Definition start (E : lenv PE) (fallback caching : bool) (tag : ustr) (w : W) : rst W :=
    mk_rst (localiser_new E fallback caching tag) 0 [] 0 w.
End Reenter.
