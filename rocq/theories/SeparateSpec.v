(** What is stored for one component. *)
From Verif Require Import Base ProviderModel ProviderSpec.

(** The rows of the three tables for the component [c]. *)
Definition tables_of (c : ustr) (d : db) : list prow * list crow * list irow :=
  (filter (fun r => ueqb (pr_component r) c) (db_pattern d), filter (fun r => ueqb (co_component r) c) (db_contributor d),
   filter (fun r => ueqb (ir_identifier r) c) (db_component d)).
(** Two providers know the component [c] or not, and have the same rows for it in the files holding it. *)
Definition same_component (p p' : sprovider) (c : ustr) : Prop :=
  (known p c <-> known p' c) /\
  option_map (tables_of c) (aio_db p c) = option_map (tables_of c) (aio_db p' c) /\
  option_map (tables_of c) (own_db p c) = option_map (tables_of c) (own_db p' c).
