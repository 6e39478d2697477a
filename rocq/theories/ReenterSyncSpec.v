(** What commands that use the localiser may do with the feature [sync] (C101). *)
From Verif Require Import Base LexerModel ValueModel CommandModel FormatterModel RegistryModel LocaliserModel LocaliserSpec CallsModel LocCallsModel SyncModel
  ReenterModel ReenterSpec ReenterSyncModel.

Section ReenterSync.
  Context {PE W : Type}.

  (** No lock is poisoned, and the thread does not wait. *)
  Definition unharmed (s : sst W) : Prop := ss_poisoned s = false /\ ss_bad s = [] /\ ss_waits s = false.
  (** The same localiser without the feature. *)
  Definition in_cells (s : sst W) : rst W := mk_rst (ss_loc s) (ss_readers s) (ss_locked s) 0 (ss_world s).
  Definition sstart (E : lenv PE) (fallback caching : bool) (tag : ustr) (w : W) : sst W :=
    mk_sst (localiser_new E fallback caching tag) 0 [] false [] 0 false w.
End ReenterSync.

(** ** One thread, and [SyncModel] *)
(** The state of [SyncModel]. *)
Definition shared (s : sst unit) : systate := mk_systate (ss_loc s) 0 (ss_poisoned s) (ss_bad s).
(** The thread holds no lock, and does not wait. *)
Definition alone (s : sst unit) : Prop := ss_readers s = 0 /\ ss_locked s = [] /\ ss_waits s = false.
Section Steps.
  Context {PE : Type}.
  Variable E : lenv PE.
  (** Steps of a thread that is alone. *)
  Inductive gets_to : prog (PE := PE) -> systate -> prog (PE := PE) -> systate -> Prop :=
  | gt_here p g : gets_to p g p g
  | gt_step p g p1 g1 p2 g2 : prog_step E p g = Some (g1, p1) -> gets_to p1 g1 p2 g2 -> gets_to p g p2 g2.
End Steps.
Arguments gt_here {PE E} p g.
Arguments gt_step {PE E} p g p1 g1 p2 g2 _ _.
