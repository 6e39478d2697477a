(** What a formatter remembers (C94): numerals only, and they are seen only where a number sign stands. Independent of the
    formatter. *)
From Verif Require Import Base LexerModel TreeModel ValueModel CommandModel IsoModel FormatterModel FormatterSpec RegistryModel LocaliserModel.

(** A text in which places are left open for what is remembered: a numeral for each number sign. *)
Inductive piece := PcText (s : ustr) | PcOpen (i : nat).
Definition complete (memory : list ustr) (l : list piece) : ustr :=
  List.concat (map (fun p => match p with PcText s => s | PcOpen i => nth i memory [] end) l).
(** A result with open places. *)
Definition completed (memory : list ustr) (r : fout (list piece)) : fout ustr :=
  match r with Ok l => Ok (complete memory l) | Err e => Err e | Panic => Panic | NoFuel => NoFuel end.

(** What is shown for a number in a locale. *)
Definition numeral (fe : fmtenv) (locale s : ustr) : Prop := exists f dec, fe_decimal fe locale None = Some f /\ s = f dec.

(** The results of doing the same again and again. *)
Fixpoint repeated {St R} (f : St -> St * R) (n : nat) (st : St) : list R :=
  match n with O => [] | S n => snd (f st) :: repeated f n (fst (f st)) end.
(** A call of the localiser for a single string: not for localisation data, which may have further data as values. *)
Definition single (c : lcall) : Prop := match c with CallData _ _ _ _ | CallDataDefaults _ => False | _ => True end.
(** Two results that are both texts, or the same error. *)
Definition same_outcome (a b : fout ustr) : Prop :=
  match a, b with Ok _, Ok _ => True | Err e, Err e' => e = e' | Panic, Panic | NoFuel, NoFuel => True | _, _ => False end.
