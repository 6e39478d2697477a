(** What a pattern string makes use of. *)
From Verif Require Import Base TreeSpec FormatterSpec.

(** A value of the name [w] is asked for somewhere: by a placeholder, or as a parameter of a delayed command. *)
Definition asks_for (x : sitem) (w : ustr) : Prop :=
  (exists kw, x = SPat w kw) \/ exists name args, x = SCmd (SId name :: SDelay :: map SId args) /\ In w args.
Definition mentions (a : sast) (w : ustr) : Prop := exists name body x, In (name, body) (all_strings a) /\ In x body /\ asks_for x w.

(** The strings that selectors lead to from the main string. *)
Inductive reached (a : sast) : ustr -> Prop :=
| rc_main : reached a (us "_")
| rc_selector name body ph kw sels sel : reached a name -> mget name (all_strings a) = Some body ->
    In (SPat ph (Some (kw, sels))) body -> In sel (map fst sels) -> reached a sel.
