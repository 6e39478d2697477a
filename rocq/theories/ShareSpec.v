(** [Send] and [Sync]: the rules of Rust (auto traits) and of the standard library. *)
From Coq Require Import String List.
From Verif Require Import ShareModel.
Import ListNotations.
Open Scope string_scope.

Section Share.
  Variable table : list (string * rty).                      (* the declarations *)
  Variables ext_send ext_sync : string -> Prop.              (* types of other libraries *)

  (** A type is not [Send] (not [Sync]) if and only if there is a reason; so the traits hold of recursive types unless something
      is against it. The trait objects of the library have neither bound (provider/core/src/provider.rs 34,
      provider/core/src/error.rs 20, utility/src/traits.rs 8-14). *)
  Inductive not_send : rty -> Prop :=
  | ns_ext s : ~ ext_send s -> not_send (TExt s)
  | ns_name n t : In (n, t) table -> not_send t -> not_send (TName n)
  | ns_all l t : In t l -> not_send t -> not_send (TAll l)
  | ns_rc t : not_send (TRc t)
  | ns_arc1 t : not_send t -> not_send (TArc t)
  | ns_arc2 t : not_sync t -> not_send (TArc t)
  | ns_refcell t : not_send t -> not_send (TRefCell t)
  | ns_oncecell t : not_send t -> not_send (TOnceCell t)
  | ns_mutex t : not_send t -> not_send (TMutex t)
  | ns_rwlock t : not_send t -> not_send (TRwLock t)
  | ns_oncelock t : not_send t -> not_send (TOnceLock t)
  | ns_dyn s : not_send (TDyn s)
  with not_sync : rty -> Prop :=
  | ny_ext s : ~ ext_sync s -> not_sync (TExt s)
  | ny_name n t : In (n, t) table -> not_sync t -> not_sync (TName n)
  | ny_all l t : In t l -> not_sync t -> not_sync (TAll l)
  | ny_rc t : not_sync (TRc t)
  | ny_arc1 t : not_send t -> not_sync (TArc t)
  | ny_arc2 t : not_sync t -> not_sync (TArc t)
  | ny_refcell t : not_sync (TRefCell t)
  | ny_oncecell t : not_sync (TOnceCell t)
  | ny_mutex t : not_send t -> not_sync (TMutex t)
  | ny_rwlock1 t : not_send t -> not_sync (TRwLock t)
  | ny_rwlock2 t : not_sync t -> not_sync (TRwLock t)
  | ny_oncelock1 t : not_send t -> not_sync (TOnceLock t)
  | ny_oncelock2 t : not_sync t -> not_sync (TOnceLock t)
  | ny_dyn s : not_sync (TDyn s).

  (** Values of the type can be given to another thread, and references to them shared. *)
  Definition can_send (n : string) : Prop := ~ not_send (TName n).
  Definition can_share (n : string) : Prop := ~ not_sync (TName n).
End Share.

(** "`sync`: Allow for rust's concurrency capabilities to be used." *)
Definition concurrent (table : list (string * rty)) (ext : string -> Prop) (n : string) : Prop :=
  can_send table ext ext n /\ can_share table ext ext n.
