(** C91 for threads. *)
From Verif Require Import Base BaseFacts LexerModel TreeModel ValueModel CommandModel FormatterModel FormatterSpec FmtExample
  RegistryModel LocaliserModel LocaliserSpec LocaliserProofs SyncModel SyncSpec MemorySpec MemoryProofs MemoryThreads PropertiesLocaliser PropertiesMemory.

(** Under every schedule, the strings in the cache of a localiser that threads share are no more than the distinct requests that calls can
    make: those of earlier calls, and those of the calls of the threads with the settings that some thread sets. *)
Theorem C91_threads : forall PE (E : lenv PE) fallback caching tag h calls sch rs l,
  let st := lrun E (localiser_new E fallback caching tag) h in
  (forall q, In q (history_requests E (localiser_new E fallback caching tag) h) \/ In q (sync_requests st calls) -> In q rs) ->
  in_use (sy_ls (sys_state (sys_run E (SyncModel.sys_start st calls) sch))) l -> List.length l <= List.length rs.
Proof. intros PE E. exact (threads_size E). Qed.
Print Assumptions C91_threads.

(** Two threads that ask for the same two strings, several times. *)
Example C91_threads_example : let x := CallFormat (us "app") (us "greet") bob (us "en") (Some true) (Some true) in
  let y := CallLiteral (us "app") (us "bye") (us "fr") (Some true) (Some true) in let calls := [[x; y; x]; [y; x; y]] in
  let rs := [mk_request (us "app") (us "greet") (us "en") true false; mk_request (us "app") (us "bye") (us "fr") true true] in
  incl (sync_requests start_ex calls) rs /\
  in_use (sy_ls (sys_state (sys_run loc_ex (SyncModel.sys_start start_ex calls) (List.concat (repeat [0; 1; 1; 0] 20))))) [(us "en", us "app/greet"); (us "fr", us "app/bye")] /\
  forall sch l, in_use (sy_ls (sys_state (sys_run loc_ex (SyncModel.sys_start start_ex calls) sch))) l -> List.length l <= List.length rs.
Proof.
  cbn zeta. match goal with |- ?A /\ _ => assert (H0 : A) end; [intros q Hq; vm_compute in Hq; vm_compute; tauto|]. split; [exact H0|]. split; [split|].
  - repeat constructor; cbn; intuition discriminate.
  - intros p [<-|[<-|[]]]; vm_compute; discriminate.
  - intros sch l Hl. refine (C91_threads _ loc_ex true true (us "en") [] _ sch _ l _ Hl). intros q [[]|Hq]. exact (H0 q Hq).
Qed.
