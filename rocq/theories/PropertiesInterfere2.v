(** C115 for threads that use one localiser over the sqlite3 provider (feature [sync] of both). *)
From Verif Require Import Base LexerModel LexerSpec IcuExample TreeModel TreeSpec ValueModel CommandModel FormatterModel FormatterSpec FmtExample
  RegistryModel ProviderModel ProviderSpec LocaliserModel LocaliserSpec LocaliserProofs SystemModel SystemSpec SystemProofs SettleSpec
  InterfereSpec InterfereProofs InterfereProofs3 PropertiesProvider PropertiesLocaliser PropertiesSystem ProviderSyncModel SyncModel WholeModel WholeSpec
  PropertiesWhole PropertiesInterfere.

(** Whatever the steps of all calls, those of the provider included: what the threads got back is also what they can get back if
    other threads, and earlier calls, were given other values. So from its results a thread cannot tell which values the others
    give. *)
Theorem C115_whole_partial : forall E es p ic fe reg locale script fuel fallback caching tag h h' calls calls' evs,
  let L := system E p ic fe reg locale script fuel in let st := localiser_new L fallback caching tag in
  database_fine E es p -> stored_hash_ok ic p -> commands_calm reg ->
  differ_in_values L st st h h' -> Forall2 (Forall2 pair_like) calls calls' -> ~ sqlite_fails evs ->
  let x := whole_run E p L (whole_start (lrun L st h) calls) evs in
  exists evs', ~ sqlite_fails evs' /\ let y := whole_run E p L (whole_start (lrun L st h') calls') evs' in
    List.length (wh_threads x) = List.length (wh_threads y) /\
    forall i a b, nth_error (wh_threads x) i = Some a -> nth_error (wh_threads y) i = Some b ->
      Forall2 (fun u v => fst u = fst v -> snd u = snd v) (ft_done a) (ft_done b) /\ (nth_error calls i = nth_error calls' i -> ft_done a = ft_done b).
Proof.
  intros E es p ic fe reg locale script fuel fb ca tag h h' calls calls' evs L st Hdb Hh Hr Hd Hp Hn x.
  destruct (C111_exactly E es p ic fe reg locale script fuel (lrun L st h) calls evs (df_made _ _ _ Hdb) Hn) as (sch & _ & Hx).
  destruct (C111_every E es p ic fe reg locale script fuel (lrun L st h') calls' sch (df_made _ _ _ Hdb)) as (evs' & Hn' & _ & Hy).
  exists evs'. split; [exact Hn'|]. cbv zeta.
  destruct (C115_threads_partial perror L fb ca tag h h' calls calls' sch (sqlite_hash E es p Hdb ic fe reg locale script fuel Hh) Hr Hd Hp) as (Hl & Hall).
  change (map th_done (sys_threads (sys_run L (SyncModel.sys_start (lrun L st h) calls) sch)) = map ft_done (wh_threads x)) in Hx.
  change (map th_done (sys_threads (sys_run L (SyncModel.sys_start (lrun L st h') calls') sch)) = map ft_done (wh_threads (whole_run E p L (whole_start (lrun L st h') calls') evs'))) in Hy.
  fold st in Hl, Hall. clearbody x.
  revert Hy Hl Hall Hx. generalize (whole_run E p L (whole_start (lrun L st h') calls') evs') as y.
  generalize (sys_run L (SyncModel.sys_start (lrun L st h) calls) sch) as sx. generalize (sys_run L (SyncModel.sys_start (lrun L st h') calls') sch) as sy.
  intros sy sx y Hy Hl Hall Hx.
  split. { rewrite <- (map_length ft_done (wh_threads x)), <- Hx, <- (map_length ft_done (wh_threads y)), <- Hy, !map_length. exact Hl. }
  intros i a b Ha Hb. assert (Ka : exists a', nth_error (sys_threads sx) i = Some a' /\ th_done a' = ft_done a).
  { pose proof (map_nth_error ft_done i _ Ha) as K. rewrite <- Hx, nth_error_map in K. destruct (nth_error (sys_threads sx) i) as [a'|]; [|discriminate K]. exists a'. split; [reflexivity|]. cbn in K. congruence. }
  assert (Kb : exists b', nth_error (sys_threads sy) i = Some b' /\ th_done b' = ft_done b).
  { pose proof (map_nth_error ft_done i _ Hb) as K. rewrite <- Hy, nth_error_map in K. destruct (nth_error (sys_threads sy) i) as [b'|]; [|discriminate K]. exists b'. split; [reflexivity|]. cbn in K. congruence. }
  destruct Ka as (a' & Ha' & <-), Kb as (b' & Hb' & <-). exact (Hall i a' b' Ha' Hb').
Qed.
Print Assumptions C115_whole_partial.

(** Two threads over the database of the example of C66, with the same steps; the first thread greets somebody else. *)
Definition greets_to (n : string) : lcall := CallFormatDefaults (us "app") (us "greet") [(us "name", VString (us n))].
Example C115_whole_example :
  let run n := whole_ex [[byes; greets_to n]; [byes; to_za; greets]] (WOther (EStart CallRepository) :: steps 0 20 ++ turns 32) in
  run "Bob"%string = [[(byes, Some (Ok (us "Bye", us "en"))); (greets, Some (Ok (us "Hello Bob!", us "en")))];
    [(byes, Some (Ok (us "Bye", us "en"))); (to_za, None); (greets, Some (Ok (us "Howzit Bob", us "en-ZA")))]] /\
  run "Alice"%string = [[(byes, Some (Ok (us "Bye", us "en"))); (greets_to "Alice", Some (Ok (us "Hello Alice!", us "en")))];
    [(byes, Some (Ok (us "Bye", us "en"))); (to_za, None); (greets, Some (Ok (us "Howzit Bob", us "en-ZA")))]].
Proof. split; vm_compute; reflexivity. Qed.
