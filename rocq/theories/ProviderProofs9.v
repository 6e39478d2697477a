(** Proofs about the sqlite3 provider: what its errors mean. *)
From Verif Require Import Base BaseFacts RegistryModel ProviderModel ProviderSpec ProviderSpec2 ProviderProofs ProviderProofs2 ProviderProofs3 ProviderProofs4
  ProviderProofs5 ProviderProofs6 ProviderProofs7 ProviderProofs8.

Section Blame.
  Variable E : penv.
  Variable p : sprovider.
  Hypothesis Hp : provider_ok p.
  Hypothesis Ho : order_ok E.

  (** An error satisfies [R]. *)
  Definition faults {A} (x : pout A) (R : perror -> Prop) : Prop := forall e, x = Err e -> R e.
  Definition blame {A} (m : PM A) (R : perror -> Prop) : Prop := steady E p m /\ faults (value m) R.
  Lemma faults_Ok {A} (a : A) R : faults (Ok a) R.
  Proof. intros e H. discriminate H. Qed.
  Lemma faults_bind {A B} (x : pout A) (f : A -> pout B) R : faults x R -> (forall a, x = Ok a -> faults (f a) R) -> faults (bind x f) R.
  Proof. intros Hx Hf e H. destruct x as [a|e'| |]; cbn [bind] in H; [exact (Hf a eq_refl e H) | apply Hx; congruence | discriminate H | discriminate H]. Qed.
  Lemma blame_ret {A} (x : pout A) R : faults x R -> blame (pret x) R.
  Proof. intros H. split; [apply steady_ret | exact H]. Qed.
  Lemma blame_skip {A} (a : A) R : blame (skip a) R.
  Proof. apply blame_ret, faults_Ok. Qed.
  Lemma blame_panic {A} R : blame (pret (@Panic perror A)) R.
  Proof. apply blame_ret. intros e H. discriminate H. Qed.
  Lemma blame_bind {A B} (m : PM A) (f : A -> PM B) R : blame m R -> (forall a, value m = Ok a -> blame (f a) R) -> blame (pbind m f) R.
  Proof.
    intros (H1 & H2) Hf. assert (Hs : forall a, value m = Ok a -> steady E p (f a)) by (intros a Ha; apply (Hf a Ha)).
    split; [apply steady_bind; assumption|]. rewrite (value_bind E p) by assumption. apply faults_bind; [exact H2|]. intros a Ha. apply (Hf a Ha).
  Qed.
  Lemma blame_weaken {A} (m : PM A) (R S : perror -> Prop) : blame m R -> (forall e, R e -> S e) -> blame m S.
  Proof. intros (H1 & H2) H. split; [exact H1|]. intros e He. exact (H e (H2 e He)). Qed.

  (** A query fails, or a tag satisfying [T] is not valid. *)
  Definition query_fault (T : ustr -> Prop) (e : perror) : Prop :=
    match e with
    | PSqlite => exists f q ps, pe_ok E f q ps = false
    | PRegistry _ => exists t, T t /\ pe_canon E t = None
    | _ => False
    end.
  Lemma tags_faults {A} (f : A -> ustr) rows (T : ustr -> Prop) : (forall r, In r rows -> T (f r)) ->
    faults (map_rows (fun row => let! raw := get_text row 0 in registry_tag E raw) (map (fun r => [CellText (f r)]) rows)) (query_fault T).
  Proof.
    induction rows as [|r rows IH]; intros H; [apply faults_Ok|]. cbn [map map_rows get_text nth_error bind].
    apply faults_bind; [|intros t _; apply faults_bind; [apply IH; intros r' Hr'; apply H; right; exact Hr' | intros; apply faults_Ok]].
    unfold registry_tag. destruct (pe_canon E (f r)) as [t|] eqn:Et; [apply faults_Ok|]. intros e He. injection He as <-. exists (f r). split; [apply H; left; reflexivity | exact Et].
  Qed.
  Lemma string_faults rows (T : ustr -> Prop) : (forall r, In r rows -> T (pr_tag r)) ->
    faults (map_rows (fun row => let! s := get_text row 0 in let! raw := get_text row 1 in let! t := registry_tag E raw in Ok (s, t))
      (map (fun r => [CellText (pr_string r); CellText (pr_tag r)]) rows)) (query_fault T).
  Proof.
    induction rows as [|r rows IH]; intros H; [apply faults_Ok|]. cbn [map map_rows get_text nth_error bind].
    apply faults_bind; [|intros t _; apply faults_bind; [apply IH; intros r' Hr'; apply H; right; exact Hr' | intros; apply faults_Ok]].
    apply faults_bind; [|intros; apply faults_Ok].
    unfold registry_tag. destruct (pe_canon E (pr_tag r)) as [t|] eqn:Et; [apply faults_Ok|]. intros e He. injection He as <-. exists (pr_tag r). split; [apply H; left; reflexivity | exact Et].
  Qed.
  Ltac selected := unfold select; match goal with |- context [negb (pe_ok E ?f ?q ?ps)] => destruct (pe_ok E f q ps) eqn:Eok end; cbn [negb bind];
    [| let e := fresh in let H := fresh in intros e H; injection H as <-; cbn; eauto].

  Lemma languages_blame c all d : at_ p c all d -> blame (languages E p c all) (query_fault (row_tag d c)).
  Proof.
    intros Hat. split; [apply languages_steady; exact Hp|]. rewrite languages_value, (at_connection p c all d _ Hat) by exact Hp. selected.
    apply (tags_faults (fun t => t)). intros t Ht. apply (order_In E Ho) in Ht. apply distinct_In, in_map_iff in Ht. destruct Ht as (r & <- & Hr).
    apply filter_In in Hr. destruct Hr as (Hr & Hc). apply ueqb_eq in Hc. right. left. exists r. auto.
  Qed.
  Lemma default_blame c all d : at_ p c all d -> blame (default_language E p c all) (query_fault (row_tag d c)).
  Proof.
    intros Hat. split; [apply default_language_steady; exact Hp|]. rewrite default_language_value, (at_connection p c all d _ Hat) by exact Hp. selected.
    apply faults_bind; [|intros; apply faults_Ok]. apply (tags_faults ir_tag). intros r Hr. apply (order_defaults_In E Ho) in Hr.
    apply filter_In in Hr. destruct Hr as (Hr & Hc). apply ueqb_eq in Hc. right. right. exists r. auto.
  Qed.
  Lemma identifier_languages_blame c i all d : at_ p c all d -> blame (identifier_languages E p c i all) (query_fault (row_tag d c)).
  Proof.
    intros Hat. split; [apply identifier_languages_steady; exact Hp|]. rewrite identifier_languages_value, (at_connection p c all d _ Hat) by exact Hp. selected.
    apply (tags_faults pr_tag). intros r Hr. apply (order_patterns_In E Ho), filter_In in Hr. destruct Hr as (Hr & Hc).
    apply andb_prop in Hc. destruct Hc as (_ & Hc). apply ueqb_eq in Hc. left. exists r. auto.
  Qed.
  Lemma contributors_blame c t all d : at_ p c all d -> blame (contributors E p c t all) (query_fault (row_tag d c)).
  Proof.
    intros Hat. split; [apply contributors_steady; exact Hp|]. rewrite contributors_value, (at_connection p c all d _ Hat) by exact Hp. selected.
    rewrite (map_rows_texts (fun x => x)). apply faults_Ok.
  Qed.
  Lemma count_blame c t all d : at_ p c all d -> blame (count E p c t all) (query_fault (row_tag d c)).
  Proof.
    intros Hat. split; [apply count_steady; exact Hp|]. rewrite count_value, (at_connection p c all d _ Hat) by exact Hp. selected.
    cbn [map_rows get_int nth_error bind]. apply faults_Ok.
  Qed.

  (** Strings. *)
  Definition string_tag (d : db) (c i t : ustr) : Prop := exists r, In r (db_pattern d) /\ pr_component r = c /\ pr_identifier r = i /\ pr_tag r = t.
  Lemma ask_faults file d one exact c i a : faults (ask E file d (SqlPattern one exact) c i exact a) (query_fault (string_tag d c i)).
  Proof.
    unfold ask. selected. apply string_faults. intros r Hr.
    assert (Hr' : In r (pe_patterns E file (SqlPattern one exact) [i; asked exact a; c] (filter (fun r0 => ueqb (pr_identifier r0) i &&
      (if exact then ueqb (pr_tag r0) (asked exact a) else like (asked exact a) (pr_tag r0)) && ueqb (pr_component r0) c) (db_pattern d)))).
    { destruct one; [|exact Hr]. revert Hr. match goal with |- In r (firstn 1 ?l) -> _ => destruct l; cbn; [intros [] | intros [<-|[]]; left; reflexivity] end. }
    apply (order_patterns_In E Ho), filter_In in Hr'. destruct Hr' as (Hi & Hc). apply andb_prop in Hc. destruct Hc as (Hc & H3). apply andb_prop in Hc. destruct Hc as (H1 & _).
    apply ueqb_eq in H1, H3. exists r. auto.
  Qed.
  Lemma find_faults file d one exact c i t : faults (find_loop E (S (List.length t)) file d (SqlPattern one exact) c i exact t) (query_fault (string_tag d c i)).
  Proof.
    destruct (find_search E file d (SqlPattern one exact) c i exact (List.length t) t (S (List.length t))) as (ls & _ & Hs); [lia | lia|].
    apply search_first in Hs. destruct Hs as [(-> & _)|(u & a & v & _ & -> & _)]; [apply faults_Ok | apply ask_faults].
  Qed.
  Lemma find_strings_blame c i t all one exact d : at_ p c all d -> blame (find_strings E p c i t all one exact) (query_fault (string_tag d c i)).
  Proof.
    intros Hat. split; [apply find_strings_steady; exact Hp|]. rewrite find_strings_value, (at_connection p c all d _ Hat) by exact Hp. apply find_faults.
  Qed.
  Definition lookup_fault (c i : ustr) (e : perror) : Prop :=
    (e = PComponentNotFound c /\ ~ known p c) \/ exists d, source p c d /\ query_fault (string_tag d c i) e.

  Section Component.
    Variables (c : ustr) (fa fo : bool).
    Hypothesis Hc : mget c (sp_components p) = Some (fa, fo).

    Lemma blame_aio {A} (m : PM A) (a : A) R : (forall d, in_aio p c d -> blame m R) -> blame (if fa then m else skip a) R.
    Proof. intros H. case_eq fa; intros Hfa; [|apply blame_skip]. destruct (aio_at p Hp c fa fo Hc Hfa) as (d & Hda & _). exact (H d Hda). Qed.
    Lemma blame_own {A} (m : PM A) (a : A) R : (forall d, in_own p c d -> blame m R) -> blame (if fo then m else skip a) R.
    Proof. intros H. case_eq fo; intros Hfo; [|apply blame_skip]. destruct (own_at p Hp c fa fo Hc Hfo) as (d & Hda & _). exact (H d Hda). Qed.

    (** Faults of the details. *)
    Definition step_fault (e : perror) : Prop :=
      match e with
      | PComponentNotFound _ => False
      | PRegistry _ => pe_canon E (us "und") = None \/ exists d t, source p c d /\ row_tag d c t /\ pe_canon E t = None
      | PDefaultLanguage c' => c' = c /\ no_default p c
      | PInvalidDefaultLanguage c' => c' = c /\ exists t, default_of E p c t /\ ~ has_language E p c t
      | PSqlite => exists f q ps, pe_ok E f q ps = false
      end.
    Lemma step_query d e : source p c d -> query_fault (row_tag d c) e -> step_fault e.
    Proof. intros Hd H. destruct e; cbn [query_fault step_fault] in *; try contradiction; [|exact H]. destruct H as (t & H1 & H2). right. exists d, t. auto. Qed.
    Lemma step_aio {A} (m : PM A) (a : A) : (forall d, in_aio p c d -> blame m (query_fault (row_tag d c))) -> blame (if fa then m else skip a) step_fault.
    Proof. intros H. apply blame_aio. intros d Hd. apply (blame_weaken _ _ _ (H d Hd)). intros e. apply step_query. left. exact Hd. Qed.
    Lemma step_own {A} (m : PM A) (a : A) : (forall d, in_own p c d -> blame m (query_fault (row_tag d c))) -> blame (if fo then m else skip a) step_fault.
    Proof. intros H. apply blame_own. intros d Hd. apply (blame_weaken _ _ _ (H d Hd)). intros e. apply step_query. right. exact Hd. Qed.

    Lemma language_step_blame t acc : blame (language_step E p c (fa, fo) t acc) step_fault.
    Proof.
      destruct acc as (cd & rd). unfold language_step. destruct (mget t (cd_languages cd)); [|apply blame_panic]. cbn [fst snd].
      apply blame_bind; [apply step_aio; intros d; exact (contributors_blame c t true d)|]. intros c1 _.
      apply blame_bind; [apply step_own; intros d; exact (contributors_blame c t false d)|]. intros c2 _.
      apply blame_bind; [apply step_aio; intros d; exact (count_blame c t true d)|]. intros n1 _.
      apply blame_bind; [apply step_own; intros d; exact (count_blame c t false d)|]. intros n2 _.
      destruct (mget t (rd_languages rd)); [apply blame_skip | apply blame_panic].
    Qed.
    Lemma language_loop_blame ls : forall acc, blame (language_loop E p c (fa, fo) ls acc) step_fault.
    Proof.
      induction ls as [|t ls IH]; intros acc; cbn [language_loop]; [apply blame_skip|].
      apply blame_bind; [apply language_step_blame | intros acc' _; apply IH].
    Qed.

    Lemma component_step_blame acc : blame (component_step E p c (fa, fo) acc) step_fault.
    Proof.
      destruct acc as (cds & rd0). unfold component_step. cbn [fst snd].
      apply blame_bind.
      { apply blame_ret. unfold registry_tag. destruct (pe_canon E (us "und")) eqn:Eu; [apply faults_Ok|]. intros e He. injection He as <-. left. exact Eu. }
      intros _ _. apply blame_bind; [apply step_aio; intros d; exact (languages_blame c true d)|]. intros l1 H1.
      destruct (proj2 (languages_post E p Hp Ho c fa fo Hc) l1 H1) as (Hl1 & Hl1' & _).
      apply blame_bind; [apply step_own; intros d; exact (languages_blame c false d)|]. intros l2 H2.
      pose proof (proj2 (languages_own_post E p Hp Ho c fa fo Hc) l2 H2) as Hl2. cbv beta in Hl2.
      set (cm1 := if fa then add_aio_languages l1 [] else []).
      assert (Hcm1 : no_data_map cm1 /\ NoDup (mkeys cm1) /\ forall t, In t (mkeys cm1) <-> In t l1).
      { subst cm1. case_eq fa; intros Hfa.
        - destruct (add_aio_languages_facts l1 []) as (H3 & H4 & H5); [intros t x H; discriminate H | constructor|].
          split; [exact H3|]. split; [exact H4|]. intros t. rewrite H5. cbn. tauto.
        - rewrite (Hl1' Hfa). split; [intros t x H; discriminate H|]. split; [constructor | cbn; tauto]. }
      destruct Hcm1 as (Hm1 & Hm2 & Hm3). pose proof (add_own_languages_facts l2 l1 cm1 Hm1 Hm2 Hm3) as Hadd.
      destruct (add_own_languages l2 (l1, cm1)) as (ls & cm2). destruct Hadd as (Ha1 & Ha2 & Ha3 & Ha4 & Ha5).
      apply blame_bind; [apply step_aio; intros d; exact (default_blame c true d)|]. intros d1 Hd1.
      apply (proj2 (default_post E p Hp Ho c fa fo Hc) d1) in Hd1. cbv beta in Hd1.
      assert (Hown : blame (if fo then default_language E p c false else skip None) step_fault) by (apply step_own; intros d; exact (default_blame c false d)).
      apply blame_bind; [destruct d1; [apply blame_skip | exact Hown]|]. intros d2 Hd2.
      destruct d2 as [t|].
      - assert (Hdef : default_of E p c t).
        { destruct d1 as [t1|]; [injection Hd2 as ->; left; exact Hd1|]. apply (proj2 (default_own_post E p Hp Ho c fa fo Hc) (Some t)) in Hd2. right. split; [exact Hd1 | exact Hd2]. }
        destruct (mhas t cm2) eqn:Eh; cbn [negb].
        + apply blame_bind; [apply language_loop_blame|]. intros (cd & rd) _. destruct (mget (cd_default cd) (cd_languages cd)); [apply blame_skip | apply blame_panic].
        + apply blame_ret. intros e He. injection He as <-. split; [reflexivity|]. exists t. split; [exact Hdef|]. intros Hl.
          assert (Hh : mhas t cm2 = true); [|congruence].
          apply mhas_true, mget_keys, Ha3, Ha4. destruct (proj1 (has_language_split E p c t) Hl) as [H|H]; [left; apply Hl1; exact H | right; apply Hl2; exact H].
      - apply blame_ret. intros e He. injection He as <-. split; [reflexivity|].
        destruct d1 as [t1|]; [discriminate Hd2|]. intros d [Hd|Hd]; [exact (Hd1 d Hd)|].
        assert (Hfo : fo = true) by (destruct Hd as (f & v & Hd & _); congruence). rewrite Hfo in Hd2. exact (default_spec E p Hp Ho c false d None Hd Hd2).
    Qed.

    Lemma one_string_blame exact i t : blame (one_string E p exact c i t) (lookup_fault c i).
    Proof.
      unfold one_string. rewrite Hc. cbn [fst snd].
      assert (Ha : forall all d, at_ p c all d -> blame (let* l := find_strings E p c i t all true exact in skip (last (map Some l) None)) (lookup_fault c i)).
      { intros all d Hat. apply blame_bind; [|intros; apply blame_skip]. apply (blame_weaken _ _ _ (find_strings_blame c i t all true exact d Hat)).
        intros e He. right. exists d. split; [destruct all; [left | right]; exact Hat | exact He]. }
      apply blame_bind; [apply blame_aio; intros d; exact (Ha true d)|]. intros [r|] _; [apply blame_skip|]. apply blame_own. intros d. exact (Ha false d).
    Qed.
    Lemma strings_blame i t : blame (strings E p c i t) (lookup_fault c i).
    Proof.
      unfold strings. rewrite Hc. cbn [fst snd].
      assert (Ha : forall all d, at_ p c all d -> blame (find_strings E p c i t all false false) (lookup_fault c i)).
      { intros all d Hat. apply (blame_weaken _ _ _ (find_strings_blame c i t all false false d Hat)).
        intros e He. right. exists d. split; [destruct all; [left | right]; exact Hat | exact He]. }
      apply blame_bind; [apply blame_aio; intros d; exact (Ha true d)|]. intros [|r l] _; [|apply blame_skip]. apply blame_own. intros d. exact (Ha false d).
    Qed.
  End Component.

  Lemma unknown_none c : mget c (sp_components p) = None -> ~ known p c.
  Proof. intros H Hk. apply mget_keys in Hk. destruct Hk as (x & Hx). congruence. Qed.
  Lemma one_string_blame' exact c i t : blame (one_string E p exact c i t) (lookup_fault c i).
  Proof.
    destruct (mget c (sp_components p)) as [(fa & fo)|] eqn:Hc; [exact (one_string_blame c fa fo Hc exact i t)|].
    unfold one_string. rewrite Hc. apply blame_ret. intros e He. injection He as <-. left. split; [reflexivity | exact (unknown_none c Hc)].
  Qed.
  Lemma strings_blame' c i t : blame (strings E p c i t) (lookup_fault c i).
  Proof.
    destruct (mget c (sp_components p)) as [(fa & fo)|] eqn:Hc; [exact (strings_blame c fa fo Hc i t)|].
    unfold strings. rewrite Hc. apply blame_ret. intros e He. injection He as <-. left. split; [reflexivity | exact (unknown_none c Hc)].
  Qed.

  Definition details_fault (e : perror) : Prop := (forall c, e <> PComponentNotFound c) /\ provider_says E p e.
  Lemma component_loop_blame cs : (forall c f, In (c, f) cs -> mget c (sp_components p) = Some f) -> forall acc, blame (component_loop E p cs acc) details_fault.
  Proof.
    induction cs as [|(c & fa & fo) cs IH]; intros Hcs acc; cbn [component_loop]; [apply blame_skip|].
    assert (Hc : mget c (sp_components p) = Some (fa, fo)) by (apply Hcs; left; reflexivity).
    assert (Hk : known p c) by (apply mget_keys; eauto).
    apply blame_bind.
    - apply (blame_weaken _ _ _ (component_step_blame c fa fo Hc acc)). intros e He. destruct e as [c'|x|c'|c'|]; cbn [step_fault] in He.
      + destruct He.
      + split; [discriminate|]. destruct He as [He|(d & t & H1 & H2 & H3)]; [left; exact He | right; exists c, d, t; auto].
      + destruct He as (-> & He). split; [discriminate|]. split; assumption.
      + destruct He as (-> & He). split; [discriminate|]. split; assumption.
      + split; [discriminate | exact He].
    - intros acc' _. apply IH. intros c' f H. apply Hcs. right. exact H.
  Qed.
  Lemma build_details_blame : blame (build_details E p) details_fault.
  Proof.
    unfold build_details. apply blame_bind.
    - apply component_loop_blame. intros c f. apply components_self. exact Hp.
    - intros (cds & rd) _. destruct (rd_default rd) as [t|]; [|apply blame_skip].
      destruct (mget t (rd_languages rd)); [apply blame_skip | apply blame_panic].
  Qed.
  Lemma get_details_blame : blame (get_details E p) details_fault.
  Proof. split; [apply get_details_steady; exact Hp|]. rewrite get_details_value. apply build_details_blame. Qed.
  Lemma details_known acc c : value (get_details E p) = Ok acc -> (mget c (fst acc) = None <-> ~ known p c).
  Proof.
    intros H. rewrite get_details_value in H. destruct (details_value E p Hp Ho _ H) as (L & HL).
    destruct (cds_keys E p Hp L _ _ HL) as (Hkeys & _). unfold known. rewrite <- Hkeys, <- mget_keys. split.
    - intros Hn (x & Hx). congruence.
    - intros Hn. destruct (mget c (fst acc)) as [x|]; [|reflexivity]. destruct Hn. eauto.
  Qed.
  Lemma component_details_blame c : blame (component_details E p c) (fun e => details_fault e \/ (e = PComponentNotFound c /\ ~ known p c)).
  Proof.
    unfold component_details. apply blame_bind; [apply (blame_weaken _ _ _ get_details_blame); auto|]. intros (cds & rd) Hv.
    pose proof (details_known _ c Hv) as Hk. cbn [fst] in Hk. destruct (mget c cds) as [cd|]; [apply blame_skip|].
    apply blame_ret. intros e He. injection He as <-. right. split; [reflexivity | apply Hk; reflexivity].
  Qed.
  Lemma repository_details_blame : blame (repository_details E p) details_fault.
  Proof. unfold repository_details. apply blame_bind; [apply get_details_blame|]. intros (cds & rd) _. apply blame_skip. Qed.
  Lemma source_says c d e : source p c d -> query_fault (row_tag d c) e -> details_fault e.
  Proof.
    intros Hs H. destruct e; cbn [query_fault] in H; try contradiction; (split; [discriminate|]); [|exact H]. destruct H as (t & H1 & H2). right. exists c, d, t. auto.
  Qed.
  Lemma identifier_details_blame c i : blame (identifier_details E p c i) (fun e => details_fault e \/
    (e = PComponentNotFound c /\ (~ known p c \/ absent_in_aio p c i))).
  Proof.
    unfold identifier_details. apply blame_bind; [apply (blame_weaken _ _ _ get_details_blame); auto|]. intros (cds & rd) Hv.
    pose proof (details_known _ c Hv) as Hk. cbn [fst] in Hk. destruct (mget c cds) as [cd|].
    2:{ apply blame_ret. intros e He. injection He as <-. right. split; [reflexivity | left; apply Hk; reflexivity]. }
    destruct (mget c (sp_components p)) as [(fa & fo)|] eqn:Hc.
    2:{ exfalso. pose proof (proj2 Hk (unknown_none c Hc)) as Hx. discriminate Hx. }
    assert (Hsame : fa = false -> forall i, value (identifier_languages E p c i true) = value (identifier_languages E p c i false)).
    { intros -> j. rewrite !identifier_languages_value by exact Hp. unfold on_connection, connection. rewrite Hc. reflexivity. }
    assert (Hlang : forall all : bool, (if all then fa else fo) = true -> blame (identifier_languages E p c i all) (fun e => details_fault e \/
      (e = PComponentNotFound c /\ (~ known p c \/ absent_in_aio p c i)))).
    { intros all H. assert (exists d, at_ p c all d) as (d & Hd).
      { destruct all; [destruct (aio_at p Hp c fa fo Hc H) as (d & Hd & _) | destruct (own_at p Hp c fa fo Hc H) as (d & Hd & _)]; exists d; exact Hd. }
      refine (blame_weaken _ _ _ (identifier_languages_blame c i all d Hd) _). intros e He. left. apply (source_says c d); [destruct all; [left | right]; exact Hd | exact He]. }
    apply blame_bind.
    - destruct fa.
      + apply (Hlang true). reflexivity.
      + destruct fo.
        * destruct (Hlang false eq_refl) as (H1 & H2). split; [apply identifier_languages_steady; exact Hp|]. rewrite (Hsame eq_refl). exact H2.
        * split; [apply identifier_languages_steady; exact Hp|]. rewrite identifier_languages_value by exact Hp. unfold on_connection, connection. rewrite Hc. cbn.
          intros e He. injection He as <-. right. split; [reflexivity|]. right. split; [apply mget_keys; eauto|]. split.
          -- intros d (f & v & Hx & _). congruence.
          -- intros d (f & v & Hx & _). congruence.
    - intros l Hl. apply blame_bind; [|intros; apply blame_skip]. destruct l as [|x l]; [|apply blame_skip].
      destruct fo; [apply (Hlang false); reflexivity|].
      split; [apply identifier_languages_steady; exact Hp|]. rewrite identifier_languages_value by exact Hp. unfold on_connection, connection. rewrite Hc. cbn.
      intros e He. injection He as <-. right. split; [reflexivity|]. right. split; [apply mget_keys; eauto|]. split.
      + intros d (f & v & Hx & _). congruence.
      + intros d Hd (r & Hr & H1 & H2 & _). exact (proj2 (identifier_languages_spec E p Hp Ho c i true d [] Hd Hl) eq_refl r Hr H1 H2).
  Qed.

  Lemma lookup_reports k c i e : string_call k c i -> lookup_fault c i e -> provider_reports E p k e.
  Proof.
    intros Hk H. assert (Hone : forall c' i', string_call k c' i' -> c' = c /\ i' = i).
    { destruct Hk as (t & Hk). intros c' i' (t' & Hk'). destruct Hk as [->|[->| ->]]; destruct Hk' as [H'|[H'|H']]; try discriminate H'; injection H' as -> -> _; auto. }
    destruct H as [(-> & Hn)|(d & Hd & H)]; [cbn; split; [left; exists i; auto | left; exact Hn]|].
    destruct e as [c'|x|c'|c'|]; cbn [query_fault] in H; try contradiction; cbn [provider_reports].
    - destruct H as (t & (r & H1 & H2 & H3 & <-) & H4). split.
      + right. exists c, d, (pr_tag r). split; [exact Hd|]. split; [left; exists r; auto | exact H4].
      + intros c' i' Hc'. destruct (Hone c' i' Hc') as (-> & ->). exists d, r. auto.
    - exact H.
  Qed.
  Lemma details_reports k e : (forall c i, ~ string_call k c i) -> details_fault e -> provider_reports E p k e.
  Proof.
    intros Hk (Hn & H). destruct e as [c'|x|c'|c'|]; cbn [provider_reports].
    - destruct (Hn c' eq_refl).
    - split; [exact H|]. intros c i Hc. destruct (Hk c i Hc).
    - split; [exact H | exact Hk].
    - split; [exact H | exact Hk].
    - exact H.
  Qed.
  Lemma call_reports h k e : result E p h k = Err e -> provider_reports E p k e.
  Proof.
    assert (Hget : forall A (x : pout A) (f : A -> panswer), (let! o := x in Ok (f o)) = Err e -> x = Err e).
    { intros A x f H. destruct x; cbn [bind] in H; congruence. }
    destruct k as [c i t|c i t|c i t|c i|c|]; [rewrite (result_string E p Hp) | rewrite (result_exact E p Hp) | rewrite (result_strings E p Hp)
      | rewrite (result_identifier E p Hp) | rewrite (result_component E p Hp) | rewrite (result_repository E p Hp)]; intros H; apply Hget in H.
    - apply (lookup_reports _ c i); [exists t; auto|]. exact (proj2 (one_string_blame' false c i t) e H).
    - apply (lookup_reports _ c i); [exists t; auto|]. exact (proj2 (one_string_blame' true c i t) e H).
    - apply (lookup_reports _ c i); [exists t; auto|]. exact (proj2 (strings_blame' c i t) e H).
    - destruct (proj2 (identifier_details_blame c i) e H) as [Hd|(-> & Hd)].
      + apply details_reports; [|exact Hd]. intros c' i' (t' & [Hx|[Hx|Hx]]); discriminate Hx.
      + split; [left; exists i; auto|]. destruct Hd as [Hd|Hd]; [left; exact Hd | right; exists i; auto].
    - destruct (proj2 (component_details_blame c) e H) as [Hd|(-> & Hd)].
      + apply details_reports; [|exact Hd]. intros c' i' (t' & [Hx|[Hx|Hx]]); discriminate Hx.
      + split; [right; reflexivity | left; exact Hd].
    - apply details_reports; [|exact (proj2 repository_details_blame e H)]. intros c' i' (t' & [Hx|[Hx|Hx]]); discriminate Hx.
  Qed.
End Blame.
