(** Texts that are the same up to numerals (C115). *)
From Verif Require Import Base ValueModel CommandModel IsoModel FormatterModel LocaliserModel SettleSpec.

Section Spec.
  Context {PE : Type}.
  Variable E : lenv PE.
  (** Nothing, or what is shown for a number in the language. *)
  Definition nothing_but_numerals (t : ustr) (m : list ustr) : Prop := forall x, In x m -> x = [] \/ numeral (le_fmt E) (le_locale E t) x.
  (** Two results are the same up to numerals: texts of the same language that have the same pieces between numerals, the same
      error, or both no result. *)
  Definition same_up_to_numerals (r r' : option (outcome (localiser_error PE) (ustr * ustr))) : Prop :=
    match r, r' with
    | Some (Ok (w, t)), Some (Ok (w', t')) => t = t' /\ exists l m m', w = complete m l /\ w' = complete m' l /\
        nothing_but_numerals t m /\ nothing_but_numerals t m' /\ List.length m = List.length m'
    | r, r' => r = r'
    end.
End Spec.
