(** Property C97: which queries the calls of the sqlite3 provider send to SQLite. *)
From Verif Require Import Base BaseFacts RegistryModel ProviderModel ProviderSpec ProviderProofs ProviderProofs2 ProviderProofs3 ProviderProofs4
  PropertiesProvider MemorySpec QueryModel QuerySpec QueryProofs QueryProofs2 QueryProofs3 QueryProofs4 QueryProofs5 QueryProofs6.

(** With files that do not change, a call answers what it answers in [ProviderModel], and leaves the same state. *)
Theorem C97_static : forall E p D, reads_files E p D -> forall hist x,
  let s := q_prun E D p qstate_new hist in
  snd (q_pcall E D p x s) = result E p hist x /\ snd (fst (q_pcall E D p x s)) = fst (pcall_run E p x (prun E p pstate_new hist)).
Proof.
  intros E p D HD hist x s. pose proof (erases_call E p D HD x s) as H. unfold s in H at 3. rewrite (erases_run E p D HD hist qstate_new) in H.
  unfold result. change (snd qstate_new) with pstate_new in H. rewrite <- H. split; reflexivity.
Qed.
Print Assumptions C97_static.

(** A lookup asks for the language tag and its ancestors, the longest first, in the all in one file and then in the file of the
    component; it asks nothing more once SQLite has answered with a row, or failed, and it answers what SQLite answered last. The
    content of the files may change at any time. *)
Theorem C97_lookup : forall E D p, provider_ok p -> forall hist x one exact c i t answer files,
  lookup_of x = Some (one, exact, (c, i, t), answer) -> mget c (sp_components p) = Some files ->
  let s := q_prun E D p qstate_new hist in let r := q_pcall E D p x s in
  exists levels qs last, are_levels t levels /\ List.length levels <= S (hyphens t) /\ new_queries s r qs /\
    until_answered D (fst s) (lookup_plan one exact files c i levels) qs last /\ concludes E last answer (snd r).
Proof. exact lookup. Qed.
Print Assumptions C97_lookup.

(** A lookup in a component that is not known asks nothing. *)
Theorem C97_unknown : forall E D p x one exact c i t answer, lookup_of x = Some (one, exact, (c, i, t), answer) ->
  mget c (sp_components p) = None -> forall s, q_pcall E D p x s = (s, Err (PComponentNotFound c)).
Proof. intros E D p x one exact c i t answer. exact (lookup_unknown E D p x one exact c i t answer). Qed.
Print Assumptions C97_unknown.

(** Every query is about a component and a file in which the component is; a lookup makes at most two queries for each level,
    and all other calls at most four for each component and for each language of a component, and two for an identifier. *)
Theorem C97_bound : forall E D p, provider_ok p -> forall hist x, let s := q_prun E D p qstate_new hist in
  exists qs, new_queries s (q_pcall E D p x s) qs /\ Forall (to_the_point p) qs /\
    List.length qs <= most_queries (List.length (sp_components p)) (language_rows D (fst s) qs) x.
Proof. exact bound. Qed.
Print Assumptions C97_bound.

(** After a call for details has succeeded, calls for the details of components and of the repository ask nothing, and leave the
    state as it is: what they answer is what was read then, whatever the files now contain. *)
Theorem C97_details_once : forall E D p, provider_ok p -> forall hist x a hist' x', asks_details x ->
  snd (q_pcall E D p x (q_prun E D p qstate_new hist)) = Ok a -> asks_overview x' ->
  let s := q_prun E D p qstate_new (hist ++ x :: hist') in fst (q_pcall E D p x' s) = s.
Proof. exact details_once. Qed.
Print Assumptions C97_details_once.

(** Exactly what details need. The first call for details that succeeds asks for the languages, default language, contributors and
    numbers of strings of all components, as said by [details_asks]; an identifier is then asked for in one file, and in the file
    of the component only if there is no row. Later calls ask for identifiers only. *)
Theorem C97_details : forall E D p, provider_ok p -> forall hist x a, Forall (fun y => ~ asks_details y) hist -> asks_details x ->
  let s := q_prun E D p qstate_new hist in snd (q_pcall E D p x s) = Ok a ->
  exists q1 q2, new_queries s (q_pcall E D p x s) (q1 ++ q2) /\ details_asks E D (fst s) (sp_components p) q1 /\ then_asks D p (fst s ++ q1) x q2.
Proof. exact details_first. Qed.
Print Assumptions C97_details.
Theorem C97_details_later : forall E D p, provider_ok p -> forall hist x a hist' x' b, asks_details x ->
  snd (q_pcall E D p x (q_prun E D p qstate_new hist)) = Ok a -> asks_details x' ->
  let s := q_prun E D p qstate_new (hist ++ x :: hist') in snd (q_pcall E D p x' s) = Ok b ->
  exists qs, new_queries s (q_pcall E D p x' s) qs /\ then_asks D p (fst s) x' qs.
Proof. exact details_later. Qed.
Print Assumptions C97_details_later.

(** No query twice in the same call. False: if an identifier of a component that is only in its own file is not known, the same
    query is sent to this file twice, as the connection of the all in one file is then that of the component; and so are the
    queries of a language that the all in one file gives in two spellings. *)
Definition reader (E : penv) (p : sprovider) : database := fun _ q =>
  match mget (qc_file q) (sp_connections p) with
  | Some (d, _) => match select E (qc_file q) d (qc_sql q) (qc_params q) with Ok rows => Some rows | _ => None end
  | None => None
  end.
Lemma reader_reads E p : reads_files E p (reader E p).
Proof. intros h f d v q ps H. unfold reader. cbn [qc_file qc_sql qc_params]. now rewrite H. Qed.
Lemma prov_ok es : (match provider_try_new (fun _ => true) es with Ok _ => true | _ => false end) = true ->
  provider_ok (prov es) /\ own_names (prov es).
Proof.
  unfold prov. destruct (provider_try_new (fun _ => true) es) as [p|e| |] eqn:Ee; try discriminate. intros _.
  split; [exact (try_new_ok _ _ _ Ee) | exact (opened_own _ _ _ Ee)].
Qed.
Lemma twice_not {A} (l : list A) n m x : n < m -> nth_error l n = Some x -> nth_error l m = Some x -> ~ NoDup l.
Proof.
  intros Hn H1 H2 Hd. pose proof (proj1 (NoDup_nth_error l) Hd n m) as H. assert (n = m); [|lia].
  apply H; [apply nth_error_Some; congruence | congruence].
Qed.
Definition alone_ex : entry := file "app" [row "app" "greet" "en" "Hello"] [wrote "app" "en" "Ann"] [main "app" "en"].
Definition spelt_ex : entry := file "__all_in_one__" [row "app" "greet" "en" "Hello"; row "app" "greet" "EN" "HELLO"]
  [wrote "app" "en" "Ann"; wrote "app" "EN" "Bo"] [main "app" "en"].
Theorem C97_twice_refuted :
  (exists E p D x q r, provider_ok p /\ own_names p /\ reads_files E p D /\ spelt_once E D /\
     new_queries qstate_new (q_pcall E D p x qstate_new) (q ++ r) /\ ~ NoDup r /\ snd (q_pcall E D p x qstate_new) = Ok (AnIdentifier (mk_idetails [] (us "en")))) /\
  (exists E p D x a q, provider_ok p /\ own_names p /\ reads_files E p D /\ looks_once p x /\
     new_queries qstate_new (q_pcall E D p x qstate_new) q /\ ~ NoDup q /\ snd (q_pcall E D p x qstate_new) = Ok a).
Proof.
  split.
  - set (p := prov [alone_ex]). destruct (prov_ok [alone_ex]) as (H1 & H2); [vm_compute; reflexivity|].
    set (x := CallIdentifier (us "app") (us "none")). set (D := reader env_stored p).
    set (qs := fst (fst (q_pcall env_stored D p x qstate_new))).
    exists env_stored, p, D, x, (firstn 4 qs), (skipn 4 qs). split; [exact H1|]. split; [exact H2|]. split; [apply reader_reads|]. split.
    { intros h ps rows n m r r' y y' H. exfalso. revert H. unfold D, reader. cbn [qc_file].
      assert (He : mget aio (sp_connections p) = None) by (vm_compute; reflexivity). rewrite He. discriminate. }
    split; [unfold new_queries; rewrite firstn_skipn; reflexivity|]. split; [|vm_compute; reflexivity].
    apply (twice_not _ 0 1 (mk_qcall (us "app") SqlIdentifier [us "none"; us "app"])); [lia|vm_compute; reflexivity|vm_compute; reflexivity].
  - set (p := prov [spelt_ex]). destruct (prov_ok [spelt_ex]) as (H1 & H2); [vm_compute; reflexivity|].
    set (D := reader env_stored p). set (qs := fst (fst (q_pcall env_stored D p CallRepository qstate_new))).
    exists env_stored, p, D, CallRepository.
    exists (match snd (q_pcall env_stored D p CallRepository qstate_new) with Ok a => a | _ => AnString None end), qs.
    split; [exact H1|]. split; [exact H2|]. split; [apply reader_reads|]. split; [exact Logic.I|]. split; [reflexivity|].
    split; [|vm_compute; reflexivity].
    apply (twice_not _ 2 4 (mk_qcall aio SqlContributors [us "en"; us "app"])); [lia|vm_compute; reflexivity|vm_compute; reflexivity].
Qed.
Print Assumptions C97_twice_refuted.

(** No query twice, if the all in one file spells its languages in one way, and an identifier asked for is of a component in it. *)
Theorem C97_twice_partial : forall E D p, provider_ok p -> forall hist x, own_names p -> spelt_once E D -> looks_once p x ->
  let s := q_prun E D p qstate_new hist in exists qs, new_queries s (q_pcall E D p x s) qs /\ NoDup qs.
Proof. exact once. Qed.
Print Assumptions C97_twice_partial.
(** The hypothesis on the names of files holds of every provider that was opened. *)
Theorem C97_opened : forall ok es p, provider_try_new ok es = Ok p -> provider_ok p /\ own_names p.
Proof. intros ok es p H. split; [exact (try_new_ok _ _ _ H) | exact (opened_own _ _ _ H)]. Qed.
Print Assumptions C97_opened.

(** That on spellings holds if the table of contributors of the all in one file has no two spellings of a language. *)
Theorem C97_spelt : forall E p D d v, order_ok E -> reads_files E p D -> mget aio (sp_connections p) = Some (d, v) ->
  (forall r r', In r (db_contributor d) -> In r' (db_contributor d) -> co_component r = co_component r' ->
     pe_canon E (co_tag r) <> None -> pe_canon E (co_tag r) = pe_canon E (co_tag r') -> co_tag r = co_tag r') -> spelt_once E D.
Proof. exact spelt_file. Qed.
Print Assumptions C97_spelt.

(** ** Examples *)
(** The queries of a call after others. *)
Definition queries (D : database) (p : sprovider) (hist : list pcall) (x : pcall) : list qcall :=
  let s := q_prun env_stored D p qstate_new hist in skipn (List.length (fst s)) (fst (fst (q_pcall env_stored D p x s))).
Definition read_dir : database := reader env_stored (prov dir_ex).
Lemma dir_ok : provider_ok (prov dir_ex) /\ own_names (prov dir_ex).
Proof. apply prov_ok. vm_compute. reflexivity. Qed.
(** de-AT is asked for, then de, in the all in one file; there are none, so both are asked for in the file of the component. *)
Example C97_lookup_example : queries read_dir (prov dir_ex) [] (CallString (us "app") (us "greet") (us "de-AT")) =
  [level_query true false aio (us "app") (us "greet") (us "de-AT"); level_query true false aio (us "app") (us "greet") (us "de");
   level_query true false (us "app") (us "app") (us "greet") (us "de-AT"); level_query true false (us "app") (us "app") (us "greet") (us "de")] /\
  snd (q_pcall env_stored read_dir (prov dir_ex) (CallString (us "app") (us "greet") (us "de-AT")) qstate_new) = Ok (AnString (Some (us "Hallo", us "de"))).
Proof. vm_compute. split; reflexivity. Qed.
(** A string of the all in one file takes one query. *)
Example C97_first_example : queries read_dir (prov dir_ex) [CallString (us "app") (us "greet") (us "de")] (CallExact (us "app") (us "greet") (us "fr")) =
  [level_query true true aio (us "app") (us "greet") (us "fr")].
Proof. vm_compute. reflexivity. Qed.
(** A database that is changed after four queries: lookups see it, details do not. *)
Definition changing : database := fun h q =>
  if Nat.leb 4 (List.length h) then (match qc_sql q with SqlPattern _ _ => Some [[CellText (us "new"); CellText (us "fr")]] | _ => None end) else read_dir h q.
Example C97_changing_example :
  let h := [CallString (us "app") (us "greet") (us "de-AT")] in
  snd (q_pcall env_stored changing (prov dir_ex) (CallString (us "app") (us "greet") (us "de-AT")) (q_prun env_stored changing (prov dir_ex) qstate_new h)) =
    Ok (AnString (Some (us "new", us "fr"))) /\
  snd (q_pcall env_stored changing (prov dir_ex) CallRepository (q_prun env_stored changing (prov dir_ex) qstate_new h)) = Err PSqlite.
Proof. vm_compute. split; reflexivity. Qed.
(** Details of the whole directory: 27 queries, the first time, and no query later. SQLite gives 6 languages of 2 components, so the bound is 32. *)
Example C97_details_example :
  List.length (queries read_dir (prov dir_ex) [] CallRepository) = 27 /\ queries read_dir (prov dir_ex) [CallComponent (us "lib")] CallRepository = [] /\
  language_rows read_dir [] (queries read_dir (prov dir_ex) [] CallRepository) = 6.
Proof. vm_compute. repeat split; reflexivity. Qed.
(** Those of one component with two files: the default language is asked for once, and en, of both files, is counted in both. *)
Definition small_dir : list entry := [file "app" [row "app" "greet" "en" "Hi"; row "app" "greet" "de" "Hallo"] [wrote "app" "en" "Bo"; wrote "app" "de" "Cy"] [main "app" "en"];
  file "__all_in_one__" [row "app" "greet" "en" "Hello"] [wrote "app" "en" "Ann"] [main "app" "en"]].
Example C97_asks_example : queries (reader env_stored (prov small_dir)) (prov small_dir) [] (CallIdentifier (us "app") (us "none")) =
  (let q f k ps := mk_qcall f k (map us ps ++ [us "app"]) in
   [q aio SqlLanguages []; q (us "app") SqlLanguages []; q aio SqlDefault [];
    q aio SqlContributors ["en"]; q (us "app") SqlContributors ["en"]; q aio SqlCount ["en"]; q (us "app") SqlCount ["en"];
    q aio SqlContributors ["de"]; q (us "app") SqlContributors ["de"]; q aio SqlCount ["de"]; q (us "app") SqlCount ["de"];
    q aio SqlIdentifier ["none"]; q (us "app") SqlIdentifier ["none"]])%string.
Proof. vm_compute. reflexivity. Qed.
(** The hypotheses of [C97_twice_partial] hold of this directory, also for the details of an identifier. *)
Example C97_twice_example : spelt_once env_stored read_dir /\ looks_once (prov dir_ex) (CallIdentifier (us "app") (us "none")) /\
  queries read_dir (prov dir_ex) [CallRepository] (CallIdentifier (us "app") (us "none")) =
    [mk_qcall aio SqlIdentifier [us "none"; us "app"]; mk_qcall (us "app") SqlIdentifier [us "none"; us "app"]].
Proof.
  split; [|split; [intros files H; vm_compute in H; injection H as <-; reflexivity | vm_compute; reflexivity]].
  destruct (mget aio (sp_connections (prov dir_ex))) as [(d & v)|] eqn:Ea; [|vm_compute in Ea; discriminate Ea].
  refine (C97_spelt env_stored (prov dir_ex) read_dir d v (proj1 (stored_fine (prov dir_ex))) (reader_reads _ _) Ea _).
  vm_compute in Ea. injection Ea as <- _. intros r r' Hr Hr' _ _.
  cbn in Hr, Hr'. repeat (destruct Hr as [<-|Hr]; [repeat (destruct Hr' as [<-|Hr']; [vm_compute; first [reflexivity | discriminate]|]); destruct Hr'|]). destruct Hr.
Qed.
