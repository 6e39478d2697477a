(** A localiser whose commands are registered at any time: the registry is shared (localiser.rs 44, 148), so that commands can be
    inserted into it between calls. Other than that, the functions are those of [LocaliserModel]. *)
From Verif Require Import Base ValueModel CommandModel FormatterModel RegistryModel LocaliserModel.

Section Grow.
  Context {PE : Type}.
  (** localiser.rs 565 [command_registry]: the localiser with what is registered now. *)
  Definition with_reg (E : lenv PE) (r : cregistry) : lenv PE :=
    mk_lenv (le_icu E) (le_fmt E) r (le_locale E) (le_provider E) (le_script E) (le_fuel E).

  (** A command is registered (command.rs 94-109 [insert]), or the localiser is used. *)
  Inductive event :=
  | Insert (name : ustr) (f : command)
  | Use (c : lcall).
  Inductive reply :=
  | Inserted (r : cout unit)
  | Answered (a : option (lout (PE := PE) (ustr * ustr))).
  Variable E : lenv PE.
  Definition gstep (x : lstate * cregistry) (e : event) : (lstate * cregistry) * reply :=
    match e with
    | Insert name f => let (r, a) := creg_insert (snd x) name f in ((fst x, r), Inserted a)
    | Use c => let (st, a) := lstep (with_reg E (snd x)) (fst x) c in ((st, snd x), Answered a)
    end.
  Fixpoint grun (x : lstate * cregistry) (h : list event) : (lstate * cregistry) * list reply :=
    match h with
    | [] => (x, [])
    | e :: h => let (x1, a) := gstep x e in let (x2, l) := grun x1 h in (x2, a :: l)
    end.
End Grow.
Arguments reply : clear implicits.
