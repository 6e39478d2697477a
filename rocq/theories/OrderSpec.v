(** What does not depend on the order in which a map is gone through. *)
From Coq Require Import Permutation.
From Verif Require Import Base ValueModel.

(** The orders there can be: each entry once. *)
Definition an_order {V} (order : nat -> amap V -> amap V) : Prop := forall i m, Permutation m (order i m).

(** The same success, or a failure of the same kind; the errors may differ. *)
Definition agree {E A} (x y : outcome E A) : Prop :=
  match x, y with
  | Ok a, Ok b => a = b
  | Err _, Err _ | Panic, Panic | NoFuel, NoFuel => True
  | _, _ => False
  end.

(** Localisation data whose maps of values, also the nested ones, have the same entries in any order. *)
Inductive same_data : ldata -> ldata -> Prop :=
| sd_none c i : same_data (LData c i None) (LData c i None)
| sd_some c i vs vs1 vs' : same_values vs vs1 -> Permutation vs1 vs' -> same_data (LData c i (Some vs)) (LData c i (Some vs'))
with same_values : list (ustr * pvalue) -> list (ustr * pvalue) -> Prop :=
| sv_nil : same_values [] []
| sv_data ph d d' vs vs' : same_data d d' -> same_values vs vs' -> same_values ((ph, VData d) :: vs) ((ph, VData d') :: vs')
| sv_other ph v vs vs' : (forall d, v <> VData d) -> same_values vs vs' -> same_values ((ph, v) :: vs) ((ph, v) :: vs').
