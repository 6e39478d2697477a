(** What threads that share a provider may expect. *)
From Verif Require Import Base RegistryModel ProviderModel ProviderSpec ProviderSyncModel.

(** After the events, call [i], which is [c], has ended with [r]. *)
Definition ended (E : penv) (p : sprovider) (evs : list pevent) (i : nat) (c : pcall) (r : pout panswer) : Prop :=
  nth_error (pf_calls (pevents E p evs)) i = Some (c, DRet r).
(** It has started. *)
Definition started (E : penv) (p : sprovider) (evs : list pevent) (i : nat) (c : pcall) : Prop :=
  exists m, nth_error (pf_calls (pevents E p evs)) i = Some (c, m).
(** SQLite has failed in a step of call [i]. *)
Definition sqlite_failed (evs : list pevent) (i : nat) : Prop := In (EStep i false) evs.
(** Call [i] makes [n] steps in [evs]. *)
Definition number_of_steps (i : nat) (evs : list pevent) : nat :=
  List.length (filter (fun e => match e with EStep j _ => Nat.eqb j i | EStart _ => false end) evs).
