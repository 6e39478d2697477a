(** The size and the shape of syntax trees, read off the list of nodes. *)
From Verif Require Import Base LexerModel TreeModel.
From Coq Require Import Sorted.

(** The tokens of all nodes, in the order of the nodes. *)
Definition used_tokens (tr : tree) : list nat :=
  flat_map (fun n => match n_tokens n with Some l => l | None => [] end) (tr_nodes tr).

(** [level nodes i k]: from node [i] the root is reached over [k] parents. *)
Inductive level (nodes : list node) : nat -> nat -> Prop :=
| lv_root : level nodes 0 0
| lv_child i n p k : nth_error nodes i = Some n -> n_parent n = Some p -> level nodes p k -> level nodes i (S k).

(** Tokens that are neither white space nor grammar ([#] is grammar in the syntax of the strings). *)
Definition meaningful (t : token) : Prop := (t_type t = TIdentifier \/ t_type t = TSyntax) /\ t_string t <> us "#".

Record small_tree (tr : tree) : Prop := {
  sm_nodes : List.length (tr_nodes tr) <= List.length (tr_tokens tr) + 2;
  sm_level : forall i, i < List.length (tr_nodes tr) -> exists k, k <= 6 /\ level (tr_nodes tr) i k;
  sm_order : StronglySorted lt (used_tokens tr);
  sm_range : forall j, In j (used_tokens tr) -> j < List.length (tr_tokens tr);
  sm_complete : forall j t, nth_error (tr_tokens tr) j = Some t -> meaningful t -> In j (used_tokens tr)
}.
