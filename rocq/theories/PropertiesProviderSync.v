(** Property C70: threads that use one sqlite3 provider (feature [sync]). *)
From Verif Require Import Base BaseFacts RegistryModel ProviderModel ProviderSpec ProviderProofs ProviderProofs8 ProviderSyncModel ProviderSyncSpec
  ProviderSyncProofs PropertiesProvider.

(** In whatever order the calls start and make their steps, and whatever calls SQLite fails in, a call that ends returns what it
    returns for a new provider that nobody else uses, or the error of SQLite. *)
Theorem C70_answers : forall E es p evs i c r, made es p -> ended E p evs i c r ->
  r = result E p [] c \/ (r = Err PSqlite /\ sqlite_failed evs i).
Proof. intros E es p evs i c r Hm He. apply made_ok in Hm. exact (answer_once E p Hm evs i c r He). Qed.
Print Assumptions C70_answers.

(** Every call ends after a number of steps that depends on the call and the files only: no thread waits for another one for ever. *)
Theorem C70_ends : forall E es p c, made es p -> exists n, forall evs evs' i, started E p evs i c -> n <= number_of_steps i evs' ->
  exists r, ended E p (evs ++ evs') i c r.
Proof.
  intros E es p c Hm. apply made_ok in Hm. destruct (call_ends E p Hm c) as (n & Hn). exists n. intros evs evs' i (m & Hs) Hl.
  apply (Hn evs evs' i m Hs).
  replace (steps_of i evs') with (number_of_steps i evs'); [exact Hl|]. unfold number_of_steps.
  clear. induction evs' as [|[c|j ok] evs' IH]; cbn [filter steps_of]; [reflexivity|exact IH|]. destruct (Nat.eqb j i); cbn [List.length]; rewrite IH; reflexivity.
Qed.
Print Assumptions C70_ends.

(** No call panics, and the lock is never poisoned. *)
Theorem C70_no_panic : forall E es p evs i c r, made es p -> order_ok E -> ended E p evs i c r ->
  r <> Panic /\ sh_poisoned (pf_shared (pevents E p evs)) = false.
Proof.
  intros E es p evs i c r Hm Ho He. split.
  - destruct (C70_answers E es p evs i c r Hm He) as [->|(-> & _)]; [apply (C40_no_panic E es p [] c Hm Ho) | discriminate].
  - apply made_ok in Hm. exact (so_poisoned _ _ _ _ _ _ (proj1 (events_ok E p Hm evs))).
Qed.
Print Assumptions C70_no_panic.

(** *** Example: two threads build the details at the same time, in one of them SQLite fails once; a third one asks for a string. *)
Definition three : list pevent := [EStart (CallComponent (us "app")); EStart CallRepository; EStart (CallString (us "app") (us "greet") (us "fr"))].
Definition turns (n : nat) (l : list pevent) : list pevent := List.concat (repeat l n).
Definition events_ex : list pevent := three ++ turns 6 [EStep 0 true; EStep 2 true; EStep 1 true] ++ [EStep 1 false] ++ turns 200 [EStep 0 true; EStep 1 true; EStep 2 true].
Example C70_example : made dir_ex (prov dir_ex) /\
  (exists d, ended env_stored (prov dir_ex) events_ex 0 (CallComponent (us "app")) (Ok (AnComponent d)) /\ cd_default d = us "en") /\
  ended env_stored (prov dir_ex) events_ex 1 CallRepository (Err PSqlite) /\
  ended env_stored (prov dir_ex) events_ex 2 (CallString (us "app") (us "greet") (us "fr")) (Ok (AnString (Some (us "Salut", us "fr")))) /\
  exists d, ended env_stored (prov dir_ex) (events_ex ++ EStart CallRepository :: turns 200 [EStep 3 true]) 3 CallRepository (Ok (AnRepository d)).
Proof.
  split; [apply prov_made; vm_compute; reflexivity|]. split; [eexists; split; [vm_compute; reflexivity|vm_compute; reflexivity]|].
  split; [vm_compute; reflexivity|]. split; [vm_compute; reflexivity|]. eexists. vm_compute. reflexivity.
Qed.
