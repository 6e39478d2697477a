(** Histories of a localiser that differ in the values that were given only (C115). Nothing here knows of the cache. *)
From Verif Require Import Base ValueModel FormatterModel LocaliserModel.

(** Localisation data that asks for the same strings; the values may be other ones, and more or fewer. *)
Inductive same_shape : ldata -> ldata -> Prop :=
| sh_literal c i : same_shape (LData c i None) (LData c i None)
| sh_format c i vs vs' : same_shapes vs vs' -> same_shape (LData c i (Some vs)) (LData c i (Some vs'))
with same_shapes : list (ustr * pvalue) -> list (ustr * pvalue) -> Prop :=
| ss_nil : same_shapes [] []
| ss_left ph v vs vs' : (forall d, v <> VData d) -> same_shapes vs vs' -> same_shapes ((ph, v) :: vs) vs'
| ss_right ph v vs vs' : (forall d, v <> VData d) -> same_shapes vs vs' -> same_shapes vs ((ph, v) :: vs')
| ss_data ph ph' d d' vs vs' : same_shape d d' -> same_shapes vs vs' -> same_shapes ((ph, VData d) :: vs) ((ph', VData d') :: vs').

(** Data without data in it. *)
Definition flat (d : ldata) : Prop :=
  match d with LData _ _ None => True | LData _ _ (Some vs) => forall ph v, In (ph, v) vs -> forall d', v <> VData d' end.

(** The same call up to the values given. *)
Inductive other_values : lcall -> lcall -> Prop :=
| ov_same c : other_values c c
| ov_format c i vals vals' t f ca : other_values (CallFormat c i vals t f ca) (CallFormat c i vals' t f ca)
| ov_format_defaults c i vals vals' : other_values (CallFormatDefaults c i vals) (CallFormatDefaults c i vals')
| ov_data d d' t f ca : same_shape d d' -> other_values (CallData d t f ca) (CallData d' t f ca)
| ov_data_defaults d d' : same_shape d d' -> other_values (CallDataDefaults d) (CallDataDefaults d').
Definition call_flat (c : lcall) : Prop := match c with CallData d _ _ _ | CallDataDefaults d => flat d | _ => True end.
(** The same call, or one with other values without data in data. *)
Definition pair_like (c c' : lcall) : Prop := c = c' \/ (other_values c c' /\ call_flat c /\ call_flat c').

Section Spec.
  Context {PE : Type}.
  Variable E : lenv PE.
  Definition comes_out (st : lstate) (c : lcall) : Prop := exists x, snd (lstep E st c) = Some (Ok x).

  (** Two histories, from two states, that differ in values. Where data stands in data, a value may make the inner data fail,
      and then the outer string is not asked for; so such calls are the same, or both give a text. *)
  Inductive differ_in_values : lstate -> lstate -> list lcall -> list lcall -> Prop :=
  | dv_nil st st' : differ_in_values st st' [] []
  | dv_call st st' c c' h h' : other_values c c' -> c = c' \/ (call_flat c /\ call_flat c') \/ (comes_out st c /\ comes_out st' c') ->
      differ_in_values (fst (lstep E st c)) (fst (lstep E st' c')) h h' -> differ_in_values st st' (c :: h) (c' :: h').

  (** What the calls of a history give. *)
  Fixpoint outcomes (st : lstate) (h : list lcall) : list (option (outcome (localiser_error PE) (ustr * ustr))) :=
    match h with [] => [] | c :: r => snd (lstep E st c) :: outcomes (fst (lstep E st c)) r end.
End Spec.
