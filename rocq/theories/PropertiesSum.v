(** C114: the details of the repository are the sum of those of the components, whatever SQLite answers (crates/provider/sqlite3/src/provider.rs). *)
From Verif Require Import Base BaseFacts RegistryModel ProviderModel ProviderSpec ProviderProofs PropertiesProvider QueryModel QuerySpec PropertiesQuery
  FreshSpec PropertiesFresh TornSpec PropertiesTorn SumSpec SumProofs.

(** The details of the repository, given after any calls and answers of SQLite, are the sum of the details that all later calls give for
    the components: also if the files change while the details are read. The all in one file must not write a language in two ways. *)
Theorem C114_sums : forall E D p, provider_ok p -> spelt_once E D -> forall hist rd,
  snd (q_pcall E D p CallRepository (q_prun E D p qstate_new hist)) = Ok (AnRepository rd) ->
  exists cds, sums cds rd /\ forall hist' c, snd (q_pcall E D p (CallComponent c) (q_prun E D p qstate_new (hist ++ CallRepository :: hist'))) =
    match mget c cds with Some cd => Ok (AnComponent cd) | None => Err (PComponentNotFound c) end.
Proof. intros E D p Hp H1 hist rd. exact (repository_sums E D p Hp H1 hist rd). Qed.
Print Assumptions C114_sums.

(** Two components, whose files change while the details are read: the numbers are of no one time, but agree with each other. *)
Definition duo_dir : list entry := [file "app" [] [] [main "app" "en"]; file "application" [] [] [main "application" "en"]].
Definition duo (rows : list prow) (names : list crow) : contents := fun f => if ueqb f (us "app") then mk_db schema_ex rows names [main "app" "en"]
  else mk_db schema_ex rows names [main "application" "en"].
Definition duo_old : contents := duo [row "app" "greet" "en" "Hello"; row "application" "title" "en" "Tool"; row "application" "title" "fr" "Outil"]
  [wrote "app" "en" "Ann"; wrote "application" "en" "Bea"; wrote "application" "fr" "Cy"].
Definition duo_new : contents := duo [row "app" "greet" "en" "Hi"; row "app" "bye" "en" "Bye"; row "application" "title" "en" "Tool"; row "application" "title" "fr" "Outil"; row "application" "help" "fr" "Aide"]
  [wrote "app" "en" "Ann"; wrote "application" "en" "Dee"; wrote "application" "fr" "Cy"].
Definition summary_of (x : pout panswer) : option (N * list (ustr * N) * list ustr) :=
  match x with
  | Ok (AnRepository rd) => Some (rd_total rd, map (fun y => (fst y, lg_count (snd y))) (rd_languages rd), rd_contributors rd)
  | Ok (AnComponent cd) => Some (cd_total cd, map (fun y => (fst y, lg_count (snd y))) (cd_languages cd), flat_map (fun y => lg_contributors (snd y)) (cd_languages cd))
  | _ => None
  end.
Lemma duo_ok : provider_ok (prov duo_dir).
Proof. apply (prov_ok duo_dir). vm_compute. reflexivity. Qed.
(** No query goes to an all in one file here; the answers to such queries name at most one language. *)
Definition only_own (D : database) : database := fun h q => if ueqb (qc_file q) aio then None else D h q.
Lemma only_own_once E D : spelt_once E (only_own D).
Proof. intros h ps rows n m r r' x x' H. cbn in H. discriminate H. Qed.

Example C114_example :
  let E := env_stored in let p := prov duo_dir in let D := only_own (reading E (flip 8 duo_old duo_new)) in let s := q_prun E D p qstate_new [CallRepository] in
  provider_ok p /\ spelt_once E D /\
  summary_of (snd (q_pcall E D p CallRepository qstate_new)) = Some (4%N, [(us "en", 2%N); (us "fr", 2%N)], [us "Ann"; us "Bea"; us "Cy"]) /\
  summary_of (snd (q_pcall E D p (CallComponent (us "app")) s)) = Some (1%N, [(us "en", 1%N)], [us "Ann"]) /\
  summary_of (snd (q_pcall E D p (CallComponent (us "application")) s)) = Some (3%N, [(us "en", 1%N); (us "fr", 2%N)], [us "Bea"; us "Cy"]) /\
  summary_of (anew E p duo_old CallRepository) = Some (3%N, [(us "en", 2%N); (us "fr", 1%N)], [us "Ann"; us "Bea"; us "Cy"]) /\
  summary_of (anew E p duo_new CallRepository) = Some (5%N, [(us "en", 3%N); (us "fr", 2%N)], [us "Ann"; us "Dee"; us "Cy"]).
Proof. cbv zeta. split; [exact duo_ok|]. split; [apply only_own_once|]. repeat split; vm_compute; reflexivity. Qed.

(** A language that the all in one file writes in two ways is counted twice, but listed once. *)
Example C114_spelling_example :
  let E := env_stored in
  let dir := [file "__all_in_one__" [row "app" "greet" "en" "Hello"] [wrote "app" "en" "Ann"; wrote "app" "EN" "Bo"] [main "app" "en"]] in
  let p := prov dir in let D := reading E (fun _ _ => mk_db schema_ex [row "app" "greet" "en" "Hello"] [wrote "app" "en" "Ann"; wrote "app" "EN" "Bo"] [main "app" "en"]) in
  ~ spelt_once E D /\
  summary_of (snd (q_pcall E D p CallRepository qstate_new)) = Some (2%N, [(us "en", 2%N)], [us "Ann"]) /\
  summary_of (snd (q_pcall E D p (CallComponent (us "app")) qstate_new)) = Some (2%N, [(us "en", 1%N)], [us "Ann"]).
Proof.
  cbv zeta. split; [|split; vm_compute; reflexivity]. intros H.
  specialize (H [] [us "app"] [[CellText (us "en")]; [CellText (us "EN")]] 0 1 (us "en") (us "EN") [] []).
  discriminate (H ltac:(vm_compute; reflexivity) ltac:(reflexivity) ltac:(reflexivity) ltac:(vm_compute; discriminate) ltac:(vm_compute; reflexivity)).
Qed.
