(** C110: how often a localiser fetches strings from the database (crates/localiser/src/localiser.rs over crates/provider/sqlite3/src/provider.rs). *)
From Verif Require Import Base BaseFacts LexerModel LexerSpec IcuExample TreeModel TreeSpec DocSpec DocCheck ValueModel CommandModel IsoModel FormatterModel FmtExample
  RegistryModel ProviderModel ProviderSpec LocaliserModel LocaliserSpec LocaliserProofs SystemModel SystemSpec PropertiesProvider PropertiesLocaliser PropertiesSystem MemorySpec
  CallsModel CallsSpec LocCallsModel QueryModel QuerySpec PropertiesQuery AskModel AskSpec AskProofs AskProofs2 PropertiesAsk FetchSpec FetchProofs.

(** A call for a string makes queries exactly if the string is not remembered for the language asked for. *)
Theorem C110_when : forall E D p L st h x q files, provider_ok p ->
  let a := xlrun L (without_effects (le_reg L)) (query_provider E D p) (qstate_new, st) (map (fun y => (fun s => s, y)) h) in
  asks_one (snd a) x = Some q -> mget (rq_component q) (sp_components p) = Some files -> fst files = true \/ snd files = true ->
  pe_canon E (rq_tag q) = Some (rq_tag q) -> rq_tag q <> [] ->
  (remembered (snd a) q <-> queries_of E D p L st (h ++ [x]) = queries_of E D p L st h).
Proof. intros E D p L st h x q files Hp. exact (fetch_when E D p L Hp st h x q files). Qed.
Print Assumptions C110_when.

(** Full claim: with caching on the number of queries is bounded by the number of distinct strings that are asked for and given. False:
    a string that is found in another language than the one asked for, say in English for South African English, is fetched each time. *)
Theorem C110_once_refuted : exists x, asks_one sys_start x = Some (mk_request (us "app") (us "bye") (us "en-ZA") true true) /\
  forall k, let h := repeat x k in goes_well sys_ex sys_start h /\ (forall q, In q (history_requests sys_ex sys_start h) -> what q = (us "app", us "bye", us "en-ZA")) /\
    k <= List.length (queries_of env_sys (reader env_sys prov_sys) prov_sys sys_ex sys_start h).
Proof.
  set (x := CallLiteral (us "app") (us "bye") (us "en-ZA") None None). exists x. split; [vm_compute; reflexivity|].
  set (st1 := fst (lstep sys_ex sys_start x)).
  assert (H0 : snd (lstep sys_ex sys_start x) = Some (Ok (us "Bye", us "en"))) by (vm_compute; reflexivity).
  assert (H1 : lstep sys_ex st1 x = (st1, Some (Ok (us "Bye", us "en")))) by (vm_compute; reflexivity).
  assert (Hst : forall k st, st = sys_start \/ st = st1 -> goes_well sys_ex st (repeat x k) /\
    (forall q, In q (history_requests sys_ex st (repeat x k)) -> what q = (us "app", us "bye", us "en-ZA")) /\ (lrun sys_ex st (repeat x k) = sys_start \/ lrun sys_ex st (repeat x k) = st1)).
  { induction k as [|k IH]; intros st Hst; [split; [exact Logic.I|split; [intros q []|exact Hst]]|].
    assert (Hc : caches st x = true) by (destruct Hst as [-> | ->]; vm_compute; reflexivity).
    assert (Hn : fst (lstep sys_ex st x) = st1 /\ snd (lstep sys_ex st x) = Some (Ok (us "Bye", us "en"))) by (destruct Hst as [-> | ->]; [split; [reflexivity|exact H0]|rewrite H1; split; reflexivity]).
    destruct Hn as (Hn & Hr). destruct (IH st1 (or_intror eq_refl)) as (G1 & G2 & G3). cbn [repeat goes_well history_requests]. rewrite Hn. split; [|split].
    - split; [right; split; [exact Hc|exists (us "Bye", us "en"); exact Hr]|exact G1].
    - intros q Hq. apply in_app_or in Hq as [[<-|[]]|Hq]; [reflexivity|exact (G2 q Hq)].
    - unfold lrun in *. cbn [fold_left]. rewrite Hn. exact G3. }
  intros k h. destruct (Hst k sys_start (or_introl eq_refl)) as (G1 & G2 & _). split; [exact G1|]. split; [exact G2|]. unfold h. clear h G1 G2.
  assert (Hp : provider_ok prov_sys) by (apply (prov_ok dir_sys); vm_compute; reflexivity).
  induction k as [|k IH]; [cbn; lia|]. change (repeat x (S k)) with (x :: repeat x k). rewrite repeat_cons.
  destruct (run_last env_sys (reader env_sys prov_sys) prov_sys sys_ex sys_start (repeat x k) x) as (E1 & R). rewrite E1.
  pose proof (C98_system env_sys (reader env_sys prov_sys) prov_sys icu_ex env_ex [(us "file_path", file_path)] (fun t => t) (fun _ => None) 8 true true (us "en") (repeat x k) x Hp
    (reader_reads env_sys prov_sys)) as (Hsys & _). change (system env_sys prov_sys icu_ex env_ex [(us "file_path", file_path)] (fun t => t) (fun _ => None) 8) with sys_ex in Hsys.
  change (localiser_new sys_ex true true (us "en")) with sys_start in Hsys. change (without_effects [(us "file_path", file_path)]) with (without_effects (W := qstate) (le_reg sys_ex)) in Hsys.
  set (a := xlrun _ _ _ _ _) in *.
  destruct (call_some env_sys (reader env_sys prov_sys) prov_sys sys_ex Hp (snd a) x (mk_request (us "app") (us "bye") (us "en-ZA") true true) (fst a) (false, true) R) as (u & us' & Hu).
  - rewrite Hsys. destruct (proj2 (proj2 (Hst k sys_start (or_introl eq_refl)))) as [-> | ->]; vm_compute; reflexivity.
  - vm_compute. reflexivity.
  - right. reflexivity.
  - vm_compute. reflexivity.
  - discriminate.
  - rewrite Hsys. destruct (proj2 (proj2 (Hst k sys_start (or_introl eq_refl)))) as [-> | ->]; intros F; apply F; vm_compute; reflexivity.
  - rewrite Hu, app_length. cbn [List.length]. change (fst (fst a)) with (queries_of env_sys (reader env_sys prov_sys) prov_sys sys_ex sys_start (repeat x k)). lia.
Qed.
Print Assumptions C110_once_refuted.

(** What holds for a database that does not change, when all calls succeed with caching on, and strings are found in the language asked
    for or are patterns: the queries are bounded by what is asked for, however often. With fallback the details of the components are
    read once more. [m] bounds the number of hyphens in the language tags. *)
Theorem C110_once_partial : forall E D p ic fe reg locale script fuel m fb st h K, provider_ok p -> reads_files E p D -> icu_ok ic ->
  let L := system E p ic fe reg locale script fuel in
  goes_well L st h -> settled L (history_requests L st h) ->
  (forall q, In q (history_requests L st h) -> In (what q) K /\ (rq_fallback q = true -> fb = true) /\ hyphens (rq_tag q) <= m /\
     forall d, pv_default (le_provider L) (rq_component q) = Ok d -> hyphens d <= m) ->
  let qs := queries_of E D p L st h in
  List.length qs <= (if fb then 4 else 2) * S m * List.length K + if fb then 4 * List.length (sp_components p) + 4 * language_rows D [] qs else 0.
Proof.
  intros E D p ic fe reg locale script fuel m fb st h K Hp HD Hic L Hg Hs Hq. apply (fetches E D p ic fe reg locale script fuel Hp HD Hic m fb h st K Hg Hs).
  intros q Hi. destruct (Hq q Hi) as (H1 & H2 & H3 & H4). split; [split; [exact H2|split; [exact H3|exact H4]]|exact H1].
Qed.
Print Assumptions C110_once_partial.

(** Two strings, one of them a pattern that is found in English only, formatted with all kinds of values: nine queries for any number of
    calls, of which the theorem allows twenty. *)
Definition many_calls (k : nat) : list lcall :=
  repeat (CallFormat (us "app") (us "greet") bob (us "fr") None None) (S k) ++ repeat (CallLiteral (us "app") (us "bye") (us "en") None None) (S k).
Example C110_example :
  map (fun k => List.length (queries_of env_sys (reader env_sys prov_sys) prov_sys sys_ex sys_start (many_calls k))) [0; 1; 5] = [9; 9; 9] /\
  goes_well sys_ex sys_start (many_calls 1) /\ settled sys_ex (history_requests sys_ex sys_start (many_calls 1)) /\ language_rows (reader env_sys prov_sys) [] (queries_of env_sys (reader env_sys prov_sys) prov_sys sys_ex sys_start (many_calls 1)) = 2 /\
  map (fun k => List.length (queries_of env_sys (reader env_sys prov_sys) prov_sys sys_ex sys_start (repeat (CallLiteral (us "app") (us "bye") (us "en-ZA") None None) k))) [0; 1; 5] = [0; 2; 10].
Proof.
  split; [vm_compute; reflexivity|]. split; [|split; [|split; vm_compute; reflexivity]].
  2:{ assert (Hq : forall q, In q (history_requests sys_ex sys_start (many_calls 1)) ->
        q = mk_request (us "app") (us "greet") (us "fr") true false \/ q = mk_request (us "app") (us "bye") (us "en") true true).
      { intros q Hq. vm_compute in Hq. repeat (destruct Hq as [<-|Hq]; [vm_compute; auto|]). destruct Hq. }
      intros q s t' Hi Hf. destruct (Hq q Hi) as [-> | ->]; destruct Hf as [Hf|d Hn _ Hd Hf]; cbn [rq_component rq_identifier rq_tag rq_literal] in *.
      - vm_compute in Hf. discriminate Hf.
      - vm_compute in Hd. injection Hd as <-. vm_compute in Hf. injection Hf as <- <-. right. split; [reflexivity|]. intros Hs. apply (Hs (ch "{")); vm_compute; tauto.
      - vm_compute in Hf. injection Hf as <- <-. left. reflexivity.
      - vm_compute in Hn. discriminate Hn. }
  assert (H : forall h st, forallb (fun b => b) (snd (fold_left (fun a x => (fst (lstep sys_ex (fst a) x), snd a ++ [caches (fst a) x && match snd (lstep sys_ex (fst a) x) with Some (Ok _) => true | _ => false end])) h (st, []))) = true -> goes_well sys_ex st h).
  { assert (K : forall h st l, forallb (fun b => b) (snd (fold_left (fun a x => (fst (lstep sys_ex (fst a) x), snd a ++ [caches (fst a) x && match snd (lstep sys_ex (fst a) x) with Some (Ok _) => true | _ => false end])) h (st, l))) = true ->
      forallb (fun b => b) l = true /\ goes_well sys_ex st h); [|intros h st F; exact (proj2 (K h st [] F))].
    induction h as [|x h IH]; intros st l F; [split; [exact F|exact Logic.I]|]. cbn [fold_left fst snd] in F. apply IH in F as (F1 & F2). rewrite forallb_app in F1.
    apply Bool.andb_true_iff in F1 as (F1 & F3). cbn [forallb] in F3. rewrite Bool.andb_true_r in F3. apply Bool.andb_true_iff in F3 as (F3 & F4). split; [exact F1|]. split; [|exact F2].
    right. split; [exact F3|]. destruct (snd (lstep sys_ex st x)) as [[y|e| |]|]; try discriminate F4. now exists y. }
  apply H. vm_compute. reflexivity.
Qed.
