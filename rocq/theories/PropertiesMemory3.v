(** C91 for threads that use one registry or one sqlite3 provider. *)
From Verif Require Import Base BaseFacts RegistryModel RegistrySpec RegistryProofs PropertiesRegistry RegThreadsModel RegThreadsSpec RegThreadsProofs PropertiesRegThreads
  ProviderModel ProviderSpec ProviderProofs ProviderProofs8 ProviderSyncModel ProviderSyncSpec ProviderSyncProofs PropertiesProvider PropertiesProviderSync MemoryThreads2.

(** Under every schedule and whatever programs the threads run, a registry has no more tags, and no more deprecated spellings, than there
    are distinct strings that were asked for before or by a thread. *)
Theorem C91_registry_threads : forall L, locid_ok L -> forall h rs r ps sch D, reachable L h rs r ->
  let w := world_run L (world_start r ps) sch in
  incl h D -> (forall i s, In (i, SAsk s) (w_log w) -> In s D) ->
  List.length (list_tags (w_reg w)) <= List.length D /\ List.length (list_deprecated (w_reg w)) <= List.length D.
Proof. intros L HL h. exact (registry_size L HL h). Qed.
Print Assumptions C91_registry_threads.
(** Three threads ask for two strings that are not canonical, many times: one tag, two deprecated spellings. *)
Fixpoint many (n : nat) (p : rprog) : rprog := match n with 0 => p | S n => ask (us "EN-US") (ask (us "en_us") (many n p)) end.
Example C91_registry_threads_example : let w := run_ex [many 5 REnd; many 7 REnd; many 3 REnd] (List.concat (repeat [0; 1; 2; 2; 0; 1; 1] 60)) in
  map r_tag (list_tags (w_reg w)) = [us "en-US"] /\ List.length (list_deprecated (w_reg w)) = 2 /\
  List.length (filter (fun x => match snd x with SAsk _ => true | _ => false end) (w_log w)) = 30.
Proof. vm_compute. auto. Qed.

(** It has no more locales than there are distinct tags whose locale was asked for. *)
Theorem C91_locales_threads : forall L h rs r ps sch D, reachable L h rs r -> let w := world_run L (world_start r ps) sch in
  incl (map r_tag rs) D -> (forall i t o, In (i, SIcu t o) (w_log w) -> In (r_tag t) D) -> List.length (lr_icu (w_reg w)) <= List.length D.
Proof. exact locales_size. Qed.
Print Assumptions C91_locales_threads.
Example C91_locales_threads_example :
  let w := run_ex [ask_locale (us "EN-US") (ask_locale (us "de") REnd); ask_locale (us "en_us") (ask_locale (us "DE") REnd)] (List.concat (repeat [0; 1] 40)) in
  mkeys (lr_icu (w_reg w)) = [us "en-US"; us "de"] /\
  List.length (filter (fun x => match snd x with SIcu _ _ => true | _ => false end) (w_log w)) = 4.
Proof. vm_compute. auto. Qed.

(** Under every schedule, and whatever calls SQLite fails in, a provider has at most 18 queries. *)
Theorem C91_provider_threads : forall E es p evs, made es p -> List.length (sh_queries (pf_shared (pevents E p evs))) <= 18.
Proof. intros E es p evs Hm. apply made_ok in Hm. exact (queries_threads E p evs Hm). Qed.
Print Assumptions C91_provider_threads.
Example C91_provider_threads_example : let n := List.length (sh_queries (pf_shared (pevents env_stored (prov dir_ex) events_ex))) in 5 <= n /\ n <= 18.
Proof. vm_compute. split; repeat constructor. Qed.
