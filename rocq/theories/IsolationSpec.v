(** What a panic of one call may do to the others (C63). *)
From Verif Require Import Base LexerModel TreeModel ValueModel CommandModel FormatterModel RegistryModel LocaliserModel LocaliserSpec SyncModel SyncSpec.

Section Spec.
  Context {PE : Type}.
  Variable E : lenv PE.
  (** A string that cannot be formatted without panic, alone and without a cache, for some values. *)
  Definition dangerous (q : request) : Prop :=
    rq_literal q = false /\
    exists vals, uncached_result E (seen [] false) (CallFormat (rq_component q) (rq_identifier q) vals (rq_tag q) (Some (rq_fallback q)) None) = Some Panic.
  (** A call of the threads that panics alone, for settings made by some thread, and that formats the string of this key in this language. *)
  Definition culprit (st : lstate) (calls : list (list lcall)) (t key : ustr) : Prop :=
    exists l c t' fb' q, In l calls /\ In c l /\ In t' (tags_seen st calls) /\ In fb' (fallbacks_seen st calls) /\
      uncached_result E (seen t' fb') c = Some Panic /\ In q (call_requests (seen t' fb') c) /\ rq_literal q = false /\
      rq_tag q = t /\ combined (rq_component q) (rq_identifier q) = key.
  (** The call formats a string, in a language, that is dangerous and that a culprit formats as well. *)
  Definition disturbed (st : lstate) (calls : list (list lcall)) (c : lcall) : Prop :=
    exists t fb q, In t (tags_seen st calls) /\ In fb (fallbacks_seen st calls) /\ In q (call_requests (seen t fb) c) /\ rq_literal q = false /\
      (exists q', In q' (sync_requests st calls) /\ dangerous q' /\ rq_tag q' = rq_tag q /\
        combined (rq_component q') (rq_identifier q') = combined (rq_component q) (rq_identifier q)) /\
      culprit st calls (rq_tag q) (combined (rq_component q) (rq_identifier q)).
End Spec.
