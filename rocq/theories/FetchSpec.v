(** How often strings are fetched from the database (C110). *)
From Verif Require Import Base ValueModel FormatterModel RegistryModel LocaliserModel LocaliserSpec MemorySpec CallsModel CallsSpec LocCallsModel ProviderModel ProviderSpec
  QueryModel QuerySpec SystemModel AskModel AskSpec.

(** Calls that ask for strings succeed, with caching on. *)
Fixpoint goes_well {PE} (E : lenv PE) (st : lstate) (h : list lcall) : Prop :=
  match h with
  | [] => True
  | x :: r => (call_requests st x = [] \/ caches st x = true /\ exists y, snd (lstep E st x) = Some (Ok y)) /\ goes_well E (fst (lstep E st x)) r
  end.
(** What is asked for: component, identifier and language. *)
Definition what (q : request) : ustr * ustr * ustr := (rq_component q, rq_identifier q, rq_tag q).

(** The queries made by a localiser with the sqlite3 provider in the course of calls. *)
Definition queries_of (E : penv) (D : database) (p : sprovider) (L : lenv perror) (st : lstate) (h : list lcall) : list qcall :=
  fst (fst (xlrun L (without_effects (le_reg L)) (query_provider E D p) (qstate_new, st) (map (fun x => (fun s => s, x)) h))).
