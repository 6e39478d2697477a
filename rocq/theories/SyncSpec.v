(** What threads that use one localiser are meant to get. *)
From Verif Require Import Base LexerModel TreeModel ValueModel CommandModel FormatterModel RegistryModel LocaliserModel LocaliserSpec SyncModel.

Section Spec.
  Context {PE : Type}.
  Variable E : lenv PE.

  (** The calls that have returned, with their results. *)
  Definition returned (x : sys (PE := PE)) (c : lcall) (r : option (outcome (localiser_error PE) (ustr * ustr))) : Prop :=
    exists th, In th (sys_threads x) /\ In (c, r) (th_done th).
  Definition finished (x : sys (PE := PE)) : Prop := forall th, In th (sys_threads x) -> th_now th = None /\ th_todo th = [].

  (** The settings a call may see: those at the start, or set by some thread. *)
  Definition listed {A} (o : option A) : list A := match o with Some a => [a] | None => [] end.
  Definition tags_seen (st : lstate) (calls : list (list lcall)) : list ustr :=
    ls_tag st :: flat_map (fun c => listed (set_tag c)) (List.concat calls).
  Definition fallbacks_seen (st : lstate) (calls : list (list lcall)) : list bool :=
    ls_fallback st :: flat_map (fun c => listed (set_fallback c)) (List.concat calls).
  Definition seen (t : ustr) (fb : bool) : lstate := mk_lstate [] fb false t None.
  (** The requests for strings the calls of all threads may make. *)
  Definition sync_requests (st : lstate) (calls : list (list lcall)) : list request :=
    flat_map (fun t => flat_map (fun fb => flat_map (call_requests (seen t fb)) (List.concat calls)) (fallbacks_seen st calls)) (tags_seen st calls).

  (** The result a call has without a cache, for settings it may see. *)
  Definition result_alone (st : lstate) (calls : list (list lcall)) (c : lcall) (r : option (outcome (localiser_error PE) (ustr * ustr))) : Prop :=
    exists t fb, In t (tags_seen st calls) /\ In fb (fallbacks_seen st calls) /\ r = uncached_result E (seen t fb) c.

  (** The cache has an entry for every language asked for. *)
  Definition prepared (rs : list request) (st : lstate) : Prop := forall q, In q rs -> mget (rq_tag q) (ls_cache st) <> None.

  (** The results of calls made one after the other, up to the first panic. *)
  Fixpoint results (st : lstate) (cs : list lcall) : list (lcall * option (outcome (localiser_error PE) (ustr * ustr))) :=
    match cs with
    | [] => []
    | c :: r =>
        let (st', o) := lstep E st c in
        (c, o) :: match o with Some Panic => [] | _ => results st' r end
    end.

  (** The number of critical sections of a call, at most. *)
  Definition sections (c : lcall) : nat := 5 + 3 * List.length (call_requests (seen [] false) c).
  (** The steps made in a schedule. *)
  Fixpoint steps_made (x : sys (PE := PE)) (sch : list nat) : nat :=
    match sch with
    | [] => 0
    | i :: r => match sys_step E x i with Some x' => S (steps_made x' r) | None => steps_made x r end
    end.
End Spec.
