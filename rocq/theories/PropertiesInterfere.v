(** C115: what was given to one call does not reach the texts of other calls. *)
From Verif Require Import Base LexerModel LexerSpec IcuExample TreeModel TreeSpec ValueModel CommandModel FormatterModel FormatterSpec FmtExample
  RegistryModel ProviderModel LocaliserModel LocaliserSpec LocaliserProofs SystemModel SystemSpec SystemProofs SettleSpec SyncModel
  InterfereSpec InterfereSpec2 InterfereProofs InterfereProofs2 InterfereProofs3
  PropertiesFormatter PropertiesLocaliser PropertiesSystem.

(** A localiser for examples. *)
Definition strings_leak : list (ustr * ustr) :=
  [(us "stale", stale); (us "greet", us "Hello {name}!"); (us "out", us "<{x}>"); (us "dogs", us "{n plural one#one other#other}#{one # dog}{other # dogs}")].
Definition loc_leak : lenv unit := mk_lenv icu_ex env_ex reg_ex (fun t => t)
  (mk_provider (fun _ i t => Ok (match mget i strings_leak with Some s => Some (s, t) | None => None end)) (fun _ => Ok (us "en"))) (fun _ => None) 8.
Definition start_leak : lstate := localiser_new loc_leak true true (us "en").
Definition outs (h k : list lcall) := outcomes loc_leak (lrun loc_leak start_leak h) k.
Definition count (i : ustr) (n : N) : lcall := CallFormatDefaults (us "app") i [(us "n", VUnsigned n); (us "s", VString (us "one"))].

(** The claim as it stands is false: a number sign in a branch of a select shows the number of an earlier call, which may be
    that of another user. *)
Theorem C115_number_refuted :
  differ_in_values loc_leak start_leak start_leak [count (us "stale") 1] [count (us "stale") 9] /\
  outs [count (us "stale") 1] [count (us "stale") 5] = [Some (Ok (us "o x 1 y", us "en"))] /\
  outs [count (us "stale") 9] [count (us "stale") 5] = [Some (Ok (us "o x  y", us "en"))].
Proof.
  split; [|split; vm_compute; reflexivity]. apply dv_call; [apply ov_format_defaults | right; left; split; exact Logic.I | apply dv_nil].
Qed.
Print Assumptions C115_number_refuted.

(** What holds: if number signs stand in branches of plural placeholders only, then two histories that differ only in the values
    given to the calls cannot be told apart by any later calls: these give the same texts, errors and panics. There is no other
    condition on the strings or the calls: it holds also where the cache is not transparent (C28). *)
Theorem C115_values_partial : forall PE (E : lenv PE) fallback caching tag h h' k, provider_hash_ok E ->
  let st := localiser_new E fallback caching tag in
  differ_in_values E st st h h' -> outcomes E (lrun E st h) k = outcomes E (lrun E st h') k.
Proof. intros PE E fb ca tag h h' k Hh. exact (values_stay E Hh fb ca tag h h' k). Qed.
Print Assumptions C115_values_partial.

(** For the sqlite3 provider. *)
Theorem C115_system_partial : forall E es p ic fe reg locale script fuel fallback caching tag h h' k,
  let L := system E p ic fe reg locale script fuel in let st := localiser_new L fallback caching tag in
  database_fine E es p -> stored_hash_ok ic p -> differ_in_values L st st h h' -> outcomes L (lrun L st h) k = outcomes L (lrun L st h') k.
Proof.
  intros E es p ic fe reg locale script fuel fb ca tag h h' k L st Hdb Hh. apply C115_values_partial.
  exact (sqlite_hash E es p Hdb ic fe reg locale script fuel Hh).
Qed.
Print Assumptions C115_system_partial.

(** For all strings, if no data stands in data: what is seen of earlier values is at most numerals. Later calls fail with the same
    errors, and their texts are the same up to numerals of the language. So no text that was given to a call is ever shown to
    another. *)
Theorem C115_numerals_partial : forall PE (E : lenv PE) fallback caching tag h h' k, let st := localiser_new E fallback caching tag in
  Forall2 other_values h h' -> Forall call_flat (h ++ h' ++ k) ->
  Forall2 (same_up_to_numerals E) (outcomes E (lrun E st h) k) (outcomes E (lrun E st h') k).
Proof. exact @numerals_only. Qed.
Print Assumptions C115_numerals_partial.

(** So without the characters of numerals the texts are the same. *)
Theorem C115_words_partial : forall PE (E : lenv PE) fallback caching tag h h' k n w t w' t' (f : N -> bool), let st := localiser_new E fallback caching tag in
  Forall2 other_values h h' -> Forall call_flat (h ++ h' ++ k) ->
  nth_error (outcomes E (lrun E st h) k) n = Some (Some (Ok (w, t))) -> nth_error (outcomes E (lrun E st h') k) n = Some (Some (Ok (w', t'))) ->
  (forall x c, numeral (le_fmt E) (le_locale E t) x -> In c x -> f c = false) -> t' = t /\ filter f w = filter f w'.
Proof.
  intros PE E fb ca tag h h' k n w t w' t' f st Hd Hf H1 H2 Hn. pose proof (C115_numerals_partial PE E fb ca tag h h' k Hd Hf) as G. fold st in G.
  assert (K : same_up_to_numerals E (Some (Ok (w, t))) (Some (Ok (w', t')))).
  { revert n H1 H2. induction G as [|r r' l l' Hr _ IH]; intros [|n] H1 H2; try discriminate H1; cbn in H1, H2; [congruence|exact (IH n H1 H2)]. }
  split; [destruct K as (K & _); congruence|]. exact (same_words E f w w' t t' K Hn).
Qed.
Print Assumptions C115_words_partial.

(** Two histories with other values, one of them with nested data; the localiser has formatters in its cache after both, and
    these are not the same. *)
Definition greeting (n : ustr) : ldata := LData (us "app") (us "greet") (Some [(us "name", VString n)]).
Definition wrapped (d : ldata) : lcall := CallDataDefaults (LData (us "app") (us "out") (Some [(us "x", VData d)])).
Example C115_example :
  let h := [count (us "dogs") 1; wrapped (greeting (us "Ann"))] in let h' := [count (us "dogs") 9; wrapped (greeting (us "Bob"))] in
  let k := [count (us "dogs") 5; CallDataDefaults (greeting (us "Cy")); CallLiteralDefaults (us "app") (us "out")] in
  differ_in_values loc_leak start_leak start_leak h h' /\
  outcomes loc_leak start_leak h <> outcomes loc_leak start_leak h' /\ lrun loc_leak start_leak h <> lrun loc_leak start_leak h' /\
  outs h k = [Some (Ok (us "5 dogs", us "en")); Some (Ok (us "Hello Cy!", us "en")); Some (Err (LCacheEntry (us "app") (us "out")))] /\ outs h' k = outs h k.
Proof.
  cbv zeta. split; [|split; [|split; [|split; vm_compute; reflexivity]]].
  - apply dv_call; [apply ov_format_defaults | right; left; split; exact Logic.I |].
    apply dv_call; [| right; right; split; eexists; vm_compute; reflexivity | apply dv_nil].
    apply ov_data_defaults. apply sh_format. apply ss_data; [|apply ss_nil]. apply sh_format.
    apply ss_left; [discriminate|]. apply ss_right; [discriminate|]. apply ss_nil.
  - intros H. vm_compute in H. discriminate H.
  - intros H. vm_compute in H. discriminate H.
Qed.
(** Why nested data must give a text in both histories: a value that is missing keeps the outer string from being asked for. *)
Example C115_nested_example : let bad := LData (us "app") (us "greet") (Some []) in let k := [CallLiteralDefaults (us "app") (us "out")] in
  outs [wrapped (greeting (us "Ann"))] k = [Some (Err (LCacheEntry (us "app") (us "out")))] /\
  outs [wrapped bad] k = [Some (Ok (us "<{x}>", us "en"))] /\ ~ comes_out loc_leak start_leak (wrapped bad).
Proof. cbv zeta. split; [vm_compute; reflexivity|]. split; [vm_compute; reflexivity|]. intros [x H]. vm_compute in H. discriminate H. Qed.
(** Up to numerals the results of C115_number_refuted are the same; texts that differ otherwise are not. *)
Example C115_numerals_example :
  Forall2 (same_up_to_numerals loc_leak) (outs [count (us "stale") 1] [count (us "stale") 5]) (outs [count (us "stale") 9] [count (us "stale") 5]) /\
  ~ same_up_to_numerals loc_leak (Some (Ok (us "a", us "en"))) (Some (Ok (us "a", us "fr"))).
Proof.
  split; [|intros (H & _); discriminate H]. unfold outs. apply C115_numerals_partial.
  - constructor; [apply ov_format_defaults | constructor].
  - repeat constructor.
Qed.

(** ** Threads that share a localiser, with the feature sync *)

(** False if a command panics: the formatter is poisoned then, so that other threads panic which give other values. *)
Definition loc_poison : lenv unit := mk_lenv icu_ex env_ex reg_ex (fun t => t)
  (mk_provider (fun _ _ t => Ok (Some (us "{#english_a_or_an # v} {v}", t))) (fun _ => Ok (us "en"))) (fun _ => None) 8.
Definition say (v : ustr) : lcall := CallFormat (us "app") (us "item") [(us "v", VString v)] (us "en") None None.
Theorem C115_panic_refuted : let st := localiser_new loc_poison true true (us "en") in
  let done v := map th_done (sys_threads (sys_run loc_poison (SyncModel.sys_start st [[say (us "apple"); say v]; [say (us "apple")]]) (repeat 0 20 ++ repeat 1 10))) in
  nth_error (done (us "pear")) 1 = Some [(say (us "apple"), Some (Ok (us "an apple", us "en")))] /\
  nth_error (done []) 1 = Some [(say (us "apple"), Some Panic)].
Proof. cbv zeta. split; vm_compute; reflexivity. Qed.
Print Assumptions C115_panic_refuted.

(** If commands do not panic, and number signs stand in branches of plural placeholders only: under every schedule each thread gets
    the same results whatever values the other threads give, and whatever values were given before; and each call that is the
    same in both cases gets the same result. *)
Theorem C115_threads_partial : forall PE (E : lenv PE) fallback caching tag h h' calls calls' sch, provider_hash_ok E -> commands_calm (le_reg E) ->
  let st := localiser_new E fallback caching tag in
  differ_in_values E st st h h' -> Forall2 (Forall2 pair_like) calls calls' ->
  let x := sys_run E (SyncModel.sys_start (lrun E st h) calls) sch in let y := sys_run E (SyncModel.sys_start (lrun E st h') calls') sch in
  List.length (sys_threads x) = List.length (sys_threads y) /\
  forall i a b, nth_error (sys_threads x) i = Some a -> nth_error (sys_threads y) i = Some b ->
    Forall2 (fun u v => fst u = fst v -> snd u = snd v) (th_done a) (th_done b) /\ (nth_error calls i = nth_error calls' i -> th_done a = th_done b).
Proof. intros PE E fb ca tag h h' calls calls' sch Hh Hr. exact (threads_blind E Hh Hr fb ca tag h h' calls calls' sch). Qed.
Print Assumptions C115_threads_partial.

(** Two threads, one with other values; the schedule changes between them in the middle of calls. *)
Example C115_threads_example :
  let run n := map th_done (sys_threads (sys_run loc_leak (SyncModel.sys_start start_leak [[count (us "dogs") n; count (us "dogs") n]; [count (us "dogs") 5; count (us "dogs") 1]])
    (repeat 0 12 ++ repeat 1 4 ++ repeat 0 3 ++ repeat 1 20 ++ repeat 0 20))) in
  Forall2 (Forall2 pair_like) [[count (us "dogs") 7; count (us "dogs") 7]; [count (us "dogs") 5; count (us "dogs") 1]]
    [[count (us "dogs") 9; count (us "dogs") 9]; [count (us "dogs") 5; count (us "dogs") 1]] /\
  nth_error (run 7%N) 1 = Some [(count (us "dogs") 5, Some (Ok (us "5 dogs", us "en"))); (count (us "dogs") 1, Some (Ok (us "1 dog", us "en")))] /\
  nth_error (run 9%N) 1 = nth_error (run 7%N) 1 /\ nth_error (run 9%N) 0 <> nth_error (run 7%N) 0.
Proof.
  cbv zeta. split; [|split; [vm_compute; reflexivity|split; [vm_compute; reflexivity|intros H; vm_compute in H; discriminate H]]].
  assert (Hl : forall n m, pair_like (count (us "dogs") n) (count (us "dogs") m)) by (intros n m; right; split; [apply ov_format_defaults|split; exact Logic.I]).
  repeat (constructor; [repeat (constructor; [apply Hl|]); constructor|]). constructor.
Qed.
