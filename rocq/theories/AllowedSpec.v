(** Which characters the texts of a localiser may have (C116). Nothing here knows of the cache or of the syntax of strings. *)
From Verif Require Import Base ValueModel CommandModel FormatterModel FormatterSpec LocaliserModel SettleSpec.

(** The texts in a value: its own one, or those in the values of localisation data. *)
Inductive text_in : pvalue -> ustr -> Prop :=
| ti_own v t : text_value v = Some t -> text_in v t
| ti_data c i vs ph v t : In (ph, v) vs -> text_in v t -> text_in (VData (LData c i (Some vs))) t.

Section Spec.
  (** A set of characters. *)
  Variable P : N -> Prop.
  Definition allowed (t : ustr) : Prop := Forall P t.
  Definition value_allowed (v : pvalue) : Prop := forall t, text_in v t -> allowed t.
  Definition values_allowed (vals : amap pvalue) : Prop := forall ph v, mget ph vals = Some v -> value_allowed v.
  (** The values given to a call; nothing is said of names, components, identifiers and languages. *)
  Definition call_allowed (c : lcall) : Prop :=
    match c with
    | CallFormat _ _ vals _ _ _ | CallFormatDefaults _ _ vals => values_allowed vals
    | CallData d _ _ _ | CallDataDefaults d => value_allowed (VData d)
    | CallLiteral _ _ _ _ _ | CallLiteralDefaults _ _ | CallDefaults _ _ _ => True
    end.

  Context {PE : Type}.
  Variable E : lenv PE.
  (** The provider has only strings of such characters; numerals, dates and times have only such characters; commands answer with such
      characters if they are given values of such characters only. *)
  Record surroundings_allowed : Prop := {
    al_strings : forall c i t s t', pv_string (le_provider E) c i t = Ok (Some (s, t')) -> allowed s;
    al_numerals : forall locale x, numeral (le_fmt E) locale x -> allowed x;
    al_moments : forall locale m x, shown (le_fmt E) locale m x -> allowed x;
    al_commands : forall name f ps x, mget name (le_reg E) = Some f -> Forall value_allowed ps -> f ps = Ok x -> allowed x
  }.
  Definition result_allowed (r : option (outcome (localiser_error PE) (ustr * ustr))) : Prop := forall x t, r = Some (Ok (x, t)) -> allowed x.
End Spec.
