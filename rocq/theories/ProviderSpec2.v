(** What the errors of a provider say (crates/provider/core/src/error.rs 22-35 and 204-235), in terms of the content of the
    files; and what they amount to for a call. *)
From Verif Require Import Base RegistryModel ProviderModel ProviderSpec.

(** The file has a row of the component [c] with the language tag [t]. *)
Definition row_tag (d : db) (c t : ustr) : Prop :=
  (exists r, In r (db_pattern d) /\ pr_component r = c /\ pr_tag r = t) \/
  (exists r, In r (db_contributor d) /\ co_component r = c /\ co_tag r = t) \/
  (exists r, In r (db_component d) /\ ir_identifier r = c /\ ir_tag r = t).
Definition no_default (p : sprovider) (c : ustr) : Prop := forall d, source p c d -> no_default_in d c.

Definition provider_says (E : penv) (p : sprovider) (e : perror) : Prop :=
  match e with
  | PComponentNotFound c => ~ known p c
  | PRegistry _ => pe_canon E (us "und") = None \/ exists c d t, source p c d /\ row_tag d c t /\ pe_canon E t = None
  | PDefaultLanguage c => known p c /\ no_default p c
  | PInvalidDefaultLanguage c => known p c /\ exists t, default_of E p c t /\ ~ has_language E p c t
  | PSqlite => exists f q ps, pe_ok E f q ps = false
  end.

(** The component is only in the all in one file, which has no string [i] of it. *)
Definition absent_in_aio (p : sprovider) (c i : ustr) : Prop :=
  known p c /\ (forall d, ~ in_own p c d) /\ forall d, in_aio p c d -> ~ has d c i (fun _ => True).
Definition string_call (k : pcall) (c i : ustr) : Prop :=
  exists t, k = CallString c i t \/ k = CallExact c i t \/ k = CallStrings c i t.
Definition provider_reports (E : penv) (p : sprovider) (k : pcall) (e : perror) : Prop :=
  match e with
  | PComponentNotFound c =>
      ((exists i, string_call k c i \/ k = CallIdentifier c i) \/ k = CallComponent c) /\
      (~ known p c \/ exists i, k = CallIdentifier c i /\ absent_in_aio p c i)
  | PRegistry _ => provider_says E p e /\ forall c i, string_call k c i ->
      exists d r, source p c d /\ In r (db_pattern d) /\ pr_component r = c /\ pr_identifier r = i /\ pe_canon E (pr_tag r) = None
  | PDefaultLanguage _ | PInvalidDefaultLanguage _ => provider_says E p e /\ forall c i, ~ string_call k c i
  | PSqlite => provider_says E p e
  end.
