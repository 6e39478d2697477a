(** What threads that use a localiser over the sqlite3 provider are meant to get (C111). *)
From Verif Require Import Base ValueModel FormatterModel RegistryModel ProviderModel ProviderSpec LocaliserModel ProviderSyncModel SyncModel WholeModel.

(** The calls that have returned, with their results. *)
Definition came_back (x : whole) (c : lcall) (r : option (outcome (localiser_error perror) (ustr * ustr))) : Prop :=
  exists th, In th (wh_threads x) /\ In (c, r) (ft_done th).
Definition all_back (x : whole) : Prop := forall th, In th (wh_threads x) -> ft_now th = None /\ ft_todo th = [].
(** SQLite fails at some time. *)
Definition sqlite_fails (evs : list wevent) : Prop := exists i, In (WThread i false) evs \/ In (WOther (EStep i false)) evs.
(** Calls that a thread makes from some time on. *)
Definition later_calls (calls : list (list lcall)) (l : list lcall) : Prop := exists before, In (before ++ l) calls.
