(** Properties C58 and C60: the localisation files that come with the library. *)
From Verif Require Import Base BaseFacts LexerModel LexerSpec TreeModel TreeSpec DocSpec ValueModel CommandModel FormatterModel FormatterSpec FmtExample
  DocCheck FormatterAbs FormatterProofs4 FormatterProofs5 RegistryModel ProviderModel ProviderSpec LocaliserModel LocaliserSpec LocaliserProofs SystemModel IcuExample PropertiesProvider
  L10nData ErrorModel ErrorSpec ErrorProofs ErrorProofs2 PropertiesErrors.
Local Opaque us.

(** ** C58: the provider can be opened on any of the files that come with the library, and gives the details of all components. *)
Lemma shipped_opens f : In f all_files -> exists n d v, en_stem f = Some n /\ en_db f = Some d /\ verify_schema (db_schema d) = Ok v /\
  (n = aio -> db_component d <> []) /\ (n <> aio \/ n = aio).
Proof.
  intros H. assert (Hs : verify_schema (match en_db f with Some d => db_schema d | None => db_schema lexer_db end) = Ok (us "1.0") /\
    match en_stem f, en_db f with Some n, Some d => ueqb n aio = true -> db_component d <> [] | _, _ => False end).
  { cbn [In all_files] in H. destruct H as [<-|[<-|[<-|[<-|[<-|[<-|[]]]]]]]; (split; [vm_compute; reflexivity|]); cbn [en_stem en_db lexer_file localiser_file provider_file sqlite3_file application_file aio_file];
      intros K; vm_compute in K; try discriminate K; vm_compute; discriminate. }
  destruct Hs as (Hs & Hc). destruct (en_stem f) as [n|]; [|destruct Hc]. destruct (en_db f) as [d|]; [|destruct Hc]. exists n, d, (us "1.0"). repeat split; auto.
  - intros ->. apply Hc. reflexivity.
  - destruct (ueqb_spec n aio); auto.
Qed.
Lemma add_aio_nonempty l : forall m, l <> [] \/ m <> [] -> add_aio l m <> [].
Proof.
  induction l as [|r l IH]; intros m [H|H]; cbn [add_aio]; try congruence; apply IH; right; unfold minsert; destruct m as [|(k & v) m]; try discriminate;
    cbn; try destruct (ueqb _ _); discriminate.
Qed.
Lemma minsert_nonempty {V} k (v : V) m : minsert k v m <> [].
Proof. destruct m as [|(k' & v') m]; cbn; [discriminate|]. destruct (ueqb _ _); discriminate. Qed.
Theorem C58_opens : forall es, es <> [] -> (forall f, In f es -> In f all_files) -> exists p, made es p.
Proof.
  intros es Hne Hes.
  assert (G : forall es, (forall f, In f es -> In f all_files) -> forall p, (es <> [] \/ sp_components p <> []) ->
    exists p', add_entries (fun _ => true) es p = Ok p' /\ sp_components p' <> []).
  { clear. induction es as [|f es IH]; intros Hes p Hp; cbn [add_entries].
    - exists p. split; [reflexivity|]. destruct Hp as [Hp|Hp]; [congruence|exact Hp].
    - destruct (shipped_opens f (Hes f (or_introl eq_refl))) as (n & d & v & -> & -> & Hv & Hc & _). rewrite Hv. cbn [map_err bind].
      assert (Hr : forall f', In f' es -> In f' all_files) by (intros f' H; apply Hes; now right).
      destruct (ueqb_spec n aio) as [Hn|_]; cbn [negb]; apply (IH Hr); right; cbn [sp_components].
      + apply add_aio_nonempty. left. exact (Hc Hn).
      + apply minsert_nonempty. }
  destruct (G es Hes (mk_sprovider [] []) (or_introl Hne)) as (p' & Hp & Hc). exists p', (fun _ => true), (sp_components p').
  split; [|apply Permutation_refl]. unfold provider_try_new. rewrite Hp. cbn [bind]. destruct p' as [cs cn]. cbn [sp_components sp_connections] in *. now destruct cs.
Qed.
Print Assumptions C58_opens.

(** A component without default language, anywhere in the directory: there are no details of any component. *)
Lemma details_of_all E es p c0 h : made es p -> order_ok E -> known p c0 -> (forall t, ~ default_of E p c0 t) ->
  forall x, result E p h CallRepository <> Ok x.
Proof.
  intros Hm Ho Hk Hd x H. pose proof (ProviderProofs8.made_ok es p Hm) as Hp.
  rewrite (ProviderProofs8.result_repository E p Hp) in H. apply bind_Ok in H as (rd & Hrd & [= <-]).
  assert (Hr : result E p [] CallRepository = Ok (AnRepository rd)) by (rewrite (ProviderProofs8.result_repository E p Hp), Hrd; reflexivity).
  destruct (C39_repository_partial E es p [] rd Hm Ho Hr) as (cds & Hkeys & Hc & _). unfold known in Hk. rewrite <- Hkeys in Hk.
  apply in_map_iff in Hk as ((c' & cd') & He & Hl). cbn [fst] in He. subst c'.
  destruct (C38_component_partial E es p [] c0 cd' Hm Ho (Hc _ _ [] Hl)) as (_ & _ & _ & Hdef & _). exact (Hd _ Hdef).
Qed.
Theorem C58_one_breaks_all : forall E es p c0, made es p -> order_ok E -> known p c0 -> (forall t, ~ default_of E p c0 t) ->
  forall h c i x, result E p h CallRepository <> Ok x /\ result E p h (CallComponent c) <> Ok x /\ result E p h (CallIdentifier c i) <> Ok x.
Proof.
  intros E es p c0 Hm Ho Hk Hd h c i x. pose proof (ProviderProofs8.made_ok es p Hm) as Hp.
  assert (Hg : forall rd, snd (get_details E p pstate_new) <> Ok rd).
  { intros (cds & rd) Hg. apply (details_of_all E es p c0 [] Hm Ho Hk Hd (AnRepository rd)). rewrite (ProviderProofs8.result_repository E p Hp).
    unfold ProviderProofs.value, repository_details, pbind. destruct (get_details E p pstate_new) as (st & r). cbn [snd] in Hg. subst r. reflexivity. }
  split; [exact (details_of_all E es p c0 h Hm Ho Hk Hd x)|]. split.
  - rewrite (ProviderProofs8.result_component E p Hp). unfold ProviderProofs.value, component_details, pbind.
    destruct (get_details E p pstate_new) as (st & [r|e| |]); cbn [snd] in *; try discriminate. destruct (Hg r eq_refl).
  - rewrite (ProviderProofs8.result_identifier E p Hp). unfold ProviderProofs.value, identifier_details, pbind.
    destruct (get_details E p pstate_new) as (st & [r|e| |]); cbn [snd] in *; try discriminate. destruct (Hg r eq_refl).
Qed.
Print Assumptions C58_one_breaks_all.

(** The file of the lexer has its rows under another name, so no details can be had with it in the directory. *)
Lemma shipped_file es n d : (forall f, In f es -> In f all_files) -> has_file es n d -> In (mk_entry (Some n) (Some d)) all_files /\ In (mk_entry (Some n) (Some d)) es.
Proof. intros H ([s b] & Hf & Hs & Hb). cbn [en_stem en_db] in Hs, Hb. subst. auto. Qed.
Theorem C58_lexer_partial : forall E es p h c i x, (forall f, In f es -> In f all_files) -> NoDup (map en_stem es) -> made es p -> order_ok E ->
  In lexer_file es -> result E p h CallRepository <> Ok x /\ result E p h (CallComponent c) <> Ok x /\ result E p h (CallIdentifier c i) <> Ok x.
Proof.
  intros E es p h c i x Hes Hn Hm Ho Hl. destruct (C49_components es p Hm Hn) as (_ & Hk & Haio & Hown).
  apply (C58_one_breaks_all E es p (us "i18n_lexer") Hm Ho).
  - apply Hk. left. split; [vm_compute; discriminate|]. exists lexer_db, lexer_file. auto.
  - intros t Ht. assert (Hx : exists d, source p (us "i18n_lexer") d /\ default_in E d (us "i18n_lexer") t).
    { destruct Ht as [(d & H1 & H2)|(_ & d & H1 & H2)]; exists d; (split; [|exact H2]); [left|right]; exact H1. }
    destruct Hx as (d & Hs & r & Hr & Hi & _). assert (Hd : In (mk_entry (Some (us "i18n_lexer")) (Some d)) all_files \/ (has_file es aio d /\ lists_component d (us "i18n_lexer"))).
    { destruct Hs as [Hs|Hs]; [right; apply Haio; exact Hs|left]. apply Hown in Hs as (_ & Hs). exact (proj1 (shipped_file es _ d Hes Hs)). }
    destruct Hd as [Hd|(Hd & r' & Hr' & Hi')].
    + assert (d = lexer_db) as ->. { cbn [In all_files] in Hd.
        destruct Hd as [H|[H|[H|[H|[H|[H|[]]]]]]]; try (exfalso; apply (f_equal en_stem) in H; vm_compute in H; discriminate H).
        apply (f_equal en_db) in H. cbn [en_db lexer_file] in H. congruence. }
      pose proof (proj1 (forallb_forall _ _) (proj2 lexer_wrong) r Hr) as K. cbv beta in K. rewrite Hi in K. vm_compute in K. discriminate.
    + apply (shipped_file es _ _ Hes) in Hd as (Hd & _). assert (d = aio_db) as ->.
      { cbn [In all_files] in Hd.
        destruct Hd as [H|[H|[H|[H|[H|[H|[]]]]]]]; try (exfalso; apply (f_equal en_stem) in H; vm_compute in H; discriminate H).
        apply (f_equal en_db) in H. cbn [en_db aio_file] in H. congruence. }
      cbn [In aio_db db_component aio_components] in Hr'. destruct Hr' as [<-|[]]. vm_compute in Hi'. discriminate Hi'.
Qed.
Print Assumptions C58_lexer_partial.

(** False, then, for the files as they come. *)
Theorem C58_details_refuted : exists E es p, (forall f, In f es -> In f all_files) /\ made es p /\ env_fine E p /\
  result E p [] (CallComponent (us "i18n_localiser")) = Err (PDefaultLanguage (us "i18n_lexer")) /\
  result E p [] (CallString (us "i18n_lexer") (us "empty_string") (us "en-ZA")) = Ok (AnString None).
Proof.
  exists env_stored, dir_four, (prov dir_four). split; [intros f Hf; cbn [In dir_four all_files] in *; intuition|]. split; [apply prov_made; vm_compute; reflexivity|].
  split; [apply stored_fine|]. split; vm_compute; reflexivity.
Qed.
Print Assumptions C58_details_refuted.

(** Without the file of the lexer, every component has its default language, and there are the details of all. *)
Definition fine_files : list entry := [localiser_file; provider_file; sqlite3_file; application_file; aio_file].
Definition file_default (n : ustr) : ustr := if ueqb n (us "application") then us "en-US" else us "en-ZA".
Lemma fine_file n d : In (mk_entry (Some n) (Some d)) fine_files ->
  let c := if ueqb n aio then us "application" else n in
  db_component d = [mk_irow c (file_default c)] /\ exists r, In r (db_contributor d) /\ co_component r = c /\ co_tag r = file_default c.
Proof.
  intros H. cbn [In fine_files] in H. unfold localiser_file, provider_file, sqlite3_file, application_file, aio_file in H.
  destruct H as [H|[H|[H|[H|[H|[]]]]]]; injection H as <- <-; (split; [vm_compute; reflexivity|]); eexists; (split; [left; reflexivity|]); split; vm_compute; reflexivity.
Qed.
Lemma fine_tags n d : In (mk_entry (Some n) (Some d)) fine_files -> let ok t := In t [us "en-ZA"; us "en-US"; us "it"] in
  (forall r, In r (db_pattern d) -> ok (pr_tag r)) /\ (forall r, In r (db_contributor d) -> ok (co_tag r)) /\ (forall r, In r (db_component d) -> ok (ir_tag r)).
Proof.
  intros H ok. assert (Hb : forall t, existsb (ueqb t) [us "en-ZA"; us "en-US"; us "it"] = true -> ok t).
  { intros t Ht. apply existsb_exists in Ht as (x & Hx & Ht). apply ueqb_eq in Ht. now subst. }
  assert (Hx : forallb (fun r => existsb (ueqb (pr_tag r)) [us "en-ZA"; us "en-US"; us "it"]) (db_pattern d) = true /\
    forallb (fun r => existsb (ueqb (co_tag r)) [us "en-ZA"; us "en-US"; us "it"]) (db_contributor d) = true /\
    forallb (fun r => existsb (ueqb (ir_tag r)) [us "en-ZA"; us "en-US"; us "it"]) (db_component d) = true).
  { cbn [In fine_files] in H. unfold localiser_file, provider_file, sqlite3_file, application_file, aio_file in H.
    destruct H as [H|[H|[H|[H|[H|[]]]]]]; injection H as _ <-; (split; [|split]); vm_compute; reflexivity. }
  destruct Hx as (H1 & H2 & H3). rewrite forallb_forall in H1, H2, H3. repeat split; intros r Hr; apply Hb; auto.
Qed.
Theorem C58_details_partial : forall E es p h, (forall f, In f es -> In f fine_files) -> NoDup (map en_stem es) -> made es p -> order_ok E -> sql_fine E ->
  (forall t, In t [us "en-ZA"; us "en-US"; us "it"; us "und"] -> pe_canon E t = Some t) ->
  defaults_fine E p /\ (exists rd, result E p h CallRepository = Ok (AnRepository rd)) /\
  forall c, known p c -> exists cd, result E p h (CallComponent c) = Ok (AnComponent cd) /\ cd_default cd = file_default c.
Proof.
  intros E es p h Hes Hn Hm Ho Hsql Hcan. destruct (C49_components es p Hm Hn) as (_ & Hk & Haio & Hown). change (us "__all_in_one__") with aio in Hk, Haio, Hown.
  assert (Hfile : forall n d, has_file es n d -> In (mk_entry (Some n) (Some d)) fine_files).
  { intros n d ([s b] & Hf & Hs & Hb). cbn [en_stem en_db] in Hs, Hb. subst. auto. }
  assert (Hcd : forall c, pe_canon E (file_default c) = Some (file_default c)).
  { intros c. apply Hcan. unfold file_default. destruct (ueqb c _); cbn [In]; auto. }
  assert (Hsrc : forall c d, source p c d -> db_component d = [mk_irow c (file_default c)] /\ exists r, In r (db_contributor d) /\ co_component r = c /\ co_tag r = file_default c).
  { intros c d [H|H].
    - apply Haio in H as (H & r & Hr & Hc). pose proof (fine_file aio d (Hfile _ _ H)) as K. rewrite ueqb_refl in K. destruct K as (K1 & K2).
      rewrite K1 in Hr. destruct Hr as [<-|[]]. cbn [ir_identifier] in Hc. rewrite <- Hc. auto.
    - apply Hown in H as (Hc & H). pose proof (fine_file c d (Hfile _ _ H)) as K. destruct (ueqb_spec c aio) as [->|_]; [congruence|exact K]. }
  assert (Hex : forall c, known p c -> exists d, source p c d).
  { intros c H. apply Hk in H as [(H1 & d & H2)|(d & H1 & H2)]; exists d; [right; apply Hown|left; apply Haio]; auto. }
  assert (Hdef : forall c t, default_of E p c t -> t = file_default c).
  { intros c t H. assert (Hx : exists d, source p c d /\ default_in E d c t).
    { destruct H as [(d & H1 & H2)|(_ & d & H1 & H2)]; exists d; (split; [|exact H2]); [left|right]; exact H1. }
    destruct Hx as (d & Hs & r & Hr & _ & Ht). rewrite (proj1 (Hsrc c d Hs)) in Hr. destruct Hr as [<-|[]]. cbn [ir_tag] in Ht. rewrite Hcd in Ht. congruence. }
  assert (Hhas : forall c, known p c -> has_language E p c (file_default c)).
  { intros c H. destruct (Hex c H) as (d & Hs). destruct (Hsrc c d Hs) as (_ & r & Hr & Hc & Ht). exists d, r. rewrite Ht. auto. }
  assert (Hdf : defaults_fine E p).
  { split; [rewrite Hcan; [discriminate|cbn [In]; auto]|]. intros c H. split; [|intros t Ht; rewrite (Hdef c t Ht); auto].
    exists (file_default c). assert (Hin : forall d, source p c d -> default_in E d c (file_default c)).
    { intros d Hs. exists (mk_irow c (file_default c)). rewrite (proj1 (Hsrc c d Hs)). split; [now left|]. split; [reflexivity|]. exact (Hcd c). }
    apply Hk in H as [(H1 & d & H2)|(d & H1 & H2)].
    - assert (Ha : (exists d, in_aio p c d) \/ forall d, ~ in_aio p c d).
      { destruct (mget c (sp_components p)) as [[[] f]|] eqn:Ec; [|right; intros d' (f' & v & Hf & _); congruence ..].
        destruct (mget aio (sp_connections p)) as [(d' & v)|] eqn:Ea; [left; exists d', f, v; auto|right; intros d' (f' & v & _ & Hf); congruence]. }
      destruct Ha as [(d' & Ha)|Ha]; [left; exists d'; split; [exact Ha|apply Hin; now left]|right]. split; [intros d' H; destruct (Ha d' H)|].
      exists d. split; [apply Hown; auto|]. apply Hin. right. apply Hown. auto.
    - left. exists d. split; [apply Haio; auto|]. apply Hin. left. apply Haio. auto. }
  assert (He : env_fine E p).
  { split; [exact Ho|]. split; [exact Hsql|]. intros n d v Hd. destruct (ProviderProofs8.made_reads es p Hn Hm) as [_ R2 _ _ _]. apply R2 in Hd as (_ & Hd).
    pose proof (fine_tags n d (Hfile _ _ Hd)) as K. assert (Hc : forall t, In t [us "en-ZA"; us "en-US"; us "it"] -> pe_canon E t <> None).
    { intros t Ht. rewrite Hcan; [discriminate|]. cbn [In] in *. intuition. }
    destruct K as (K1 & K2 & K3). split; [|split]; intros r Hr; apply Hc; auto. }
  split; [exact Hdf|]. destruct (C39_succeeds E es p h Hm He Hdf) as (H1 & H2). split; [exact H1|]. intros c Hc. destruct (H2 c Hc) as (cd & Hcd'). exists cd.
  split; [exact Hcd'|]. destruct (C38_component_partial E es p h c cd Hm Ho Hcd') as (_ & _ & _ & Hd & _). exact (Hdef c _ Hd).
Qed.
Print Assumptions C58_details_partial.
Example C58_example : made dir_three (prov dir_three) /\ (forall f, In f dir_three -> In f fine_files) /\
  match result env_stored (prov dir_three) [] (CallComponent (us "i18n_localiser")) with
  | Ok (AnComponent cd) => cd_default cd = us "en-ZA"
  | _ => False
  end.
Proof.
  split; [apply prov_made; vm_compute; reflexivity|]. split; [intros f Hf; cbn [In dir_three fine_files] in *; intuition|]. vm_compute. reflexivity.
Qed.

(** ** C60: the strings that come with the library are patterns, translated, with the same placeholders. *)
Definition builds (fe : fmtenv) (reg : cregistry) (locale s : ustr) : bool :=
  (negb (has_syntax s) || match ref_content s with Some a => match content_check fe reg locale a with Ok _ => true | _ => false end | None => false end)%bool.
Lemma usable_iff ic fe reg tag locale s : icu_ok ic -> reads ic s -> usable ic fe reg tag locale s <-> builds fe reg locale s = true.
Proof.
  intros Hic Hr. unfold usable, builds. destruct (has_syntax s) eqn:Hn; cbn [negb orb].
  - assert (Hns : ~ no_syntax s) by (intros H; apply has_syntax_iff in H; congruence).
    assert (Hs : s <> []) by (intros ->; discriminate Hn).
    assert (Hgr : exists c, In c s /\ In c l10n_grammar).
    { apply existsb_exists in Hn as (c & H1 & H2). apply existsb_exists in H2 as (x & H2 & H3). apply N.eqb_eq in H3 as ->. eauto. }
    split.
    + intros [H|(fm & H)]; [contradiction|]. destruct (built_content _ _ _ _ _ _ _ _ H) as (a & Ha).
      pose proof (proj1 (build_iff ic fe reg tag locale Hic s a Ha Hs) (ex_intro _ fm H)) as (_ & Hb). apply (ref_content_iff _ _ _ Hr Hs) in Ha. rewrite Ha.
      apply (content_check_iff fe reg locale) in Hb. now rewrite Hb.
    + destruct (ref_content s) as [a|] eqn:Ea; [|discriminate]. destruct (content_check fe reg locale a) as [[]|e| |] eqn:Hck; try discriminate. intros _. right.
      apply (build_iff ic fe reg tag locale Hic s a); [|exact Hs|].
      * now apply (ref_content_iff _ _ _ Hr Hs).
      * split; [exact Hgr|]. now apply (content_check_iff fe reg locale).
  - split; [reflexivity|]. intros _. left. now apply has_syntax_iff.
Qed.
Definition is_in (l : list (ustr * ustr)) (x : ustr * ustr) : bool := existsb (fun y => (ueqb (fst x) (fst y) && ueqb (snd x) (snd y))%bool) l.
Lemma is_in_iff l x : is_in l x = true <-> In x l.
Proof.
  unfold is_in. rewrite existsb_exists. split.
  - intros ((a & b) & Hy & H). apply andb_prop in H as (H1 & H2). apply ueqb_eq in H1, H2. destruct x; cbn [fst snd] in *; subst; exact Hy.
  - intros H. exists x. split; [exact H|]. now rewrite !ueqb_refl.
Qed.
Definition all_rows : list prow := flat_map (fun f => match en_db f with Some d => db_pattern d | None => [] end) all_files.
Lemma all_rows_in f r : In f all_files -> file_row f r -> In r all_rows.
Proof. intros Hf (d & Hd & Hr). apply in_flat_map. exists f. split; [exact Hf|]. now rewrite Hd. Qed.
Lemma rows_build fe reg locale : forallb (fun r => Bool.eqb (builds fe reg locale (pr_string r)) (negb (is_in unreadable (pr_component r, pr_identifier r)))) all_rows = true.
Proof. vm_compute. reflexivity. Qed.
(** False: some strings are no patterns. *)
Theorem C60_readable_refuted : exists f r, In f all_files /\ file_row f r /\ ~ usable icu_ex env_ex reg_ex (us "en") (us "en") (pr_string r) /\
  pr_string r = u8 "No ‘{`.sqlite3`}’ files was found in ‘{path}’.".
Proof.
  set (s := u8 "No ‘{`.sqlite3`}’ files was found in ‘{path}’.").
  destruct (find (fun r => ueqb (pr_string r) s) sqlite3_patterns) as [r|] eqn:Ef; [|vm_compute in Ef; discriminate Ef]. apply find_some in Ef as (H1 & H2). apply ueqb_eq in H2.
  exists sqlite3_file, r. split; [cbn [In all_files]; auto|]. split; [exists sqlite3_db; auto|]. split; [|exact H2]. rewrite H2. intros H.
  apply (usable_iff _ _ _ _ _ _ icu_ex_ok) in H; [vm_compute in H; discriminate H|]. intros c _. split; reflexivity.
Qed.
Print Assumptions C60_readable_refuted.
(** What holds: exactly the listed ones are not. *)
Theorem C60_readable_partial : forall ic fe reg tag locale f r, icu_ok ic -> In f all_files -> file_row f r -> reads ic (pr_string r) ->
  usable ic fe reg tag locale (pr_string r) <-> ~ In (pr_component r, pr_identifier r) unreadable.
Proof.
  intros ic fe reg tag locale f r Hic Hf Hr Hrd. rewrite (usable_iff ic fe reg tag locale _ Hic Hrd), <- is_in_iff.
  pose proof (proj1 (forallb_forall _ _) (rows_build fe reg locale) r (all_rows_in f r Hf Hr)) as H. cbv beta in H. apply Bool.eqb_prop in H. rewrite H.
  destruct (is_in _ _); cbn [negb]; split; congruence.
Qed.
Print Assumptions C60_readable_partial.

(** Translations. *)
Definition row_key (r : prow) : ustr * ustr := (pr_component r, pr_identifier r).
Definition same_key (r r' : prow) : bool := (ueqb (pr_component r) (pr_component r') && ueqb (pr_identifier r) (pr_identifier r'))%bool.
Definition translated_row (rows : list prow) (r : prow) : bool :=
  existsb (fun r' => (same_key r r' && ueqb (pr_tag r') (us "it"))%bool) rows.
Theorem C60_translated_partial : forall f r, In f all_files -> file_row f r ->
  (exists r', file_row f r' /\ pr_component r' = pr_component r /\ pr_identifier r' = pr_identifier r /\ pr_tag r' = us "it") <->
  ~ In (pr_identifier r) untranslated.
Proof.
  intros f r Hf (d & Hd & Hr).
  assert (Hc : forallb (fun f => match en_db f with
      | Some d => forallb (fun r => Bool.eqb (translated_row (db_pattern d) r) (negb (existsb (ueqb (pr_identifier r)) untranslated))) (db_pattern d)
      | None => true end) all_files = true) by (vm_compute; reflexivity).
  pose proof (proj1 (forallb_forall _ _) Hc f Hf) as H. cbv beta in H. rewrite Hd in H. apply (proj1 (forallb_forall _ _) H r) in Hr as K. apply Bool.eqb_prop in K.
  assert (Hu : existsb (ueqb (pr_identifier r)) untranslated = true <-> In (pr_identifier r) untranslated).
  { rewrite existsb_exists. split; [intros (x & Hx & Hy); apply ueqb_eq in Hy; now subst|]. intros Hx. exists (pr_identifier r). split; [exact Hx|apply ueqb_refl]. }
  rewrite <- Hu. transitivity (translated_row (db_pattern d) r = true); [|rewrite K; destruct (existsb _ _); cbn [negb]; split; congruence].
  unfold translated_row, same_key. rewrite existsb_exists. split.
  - intros (r' & (d' & Hd' & Hr') & H1 & H2 & H3). assert (d' = d) by congruence. subst d'. exists r'. split; [exact Hr'|]. rewrite H1, H2, H3, !ueqb_refl. reflexivity.
  - intros (r' & Hr' & H'). apply andb_prop in H' as (H1 & H3). apply andb_prop in H1 as (H1 & H2). apply ueqb_eq in H1, H2, H3. exists r'. split; [exists d; auto|auto].
Qed.
Print Assumptions C60_translated_partial.

(** False in general: the strings of the unformatted error have no Italian translation. *)
Theorem C60_translated_refuted : exists f r, In f all_files /\ file_row f r /\
  ~ exists r', file_row f r' /\ pr_component r' = pr_component r /\ pr_identifier r' = pr_identifier r /\ pr_tag r' = us "it".
Proof.
  destruct (find (fun r => existsb (ueqb (pr_identifier r)) untranslated) localiser_patterns) as [r|] eqn:Ef; [|vm_compute in Ef; discriminate Ef]. apply find_some in Ef as (H1 & H2).
  assert (Hf : In localiser_file all_files) by (cbn [In all_files]; auto). assert (Hr : file_row localiser_file r) by (exists localiser_db; auto).
  exists localiser_file, r. split; [exact Hf|]. split; [exact Hr|]. intros H. apply (C60_translated_partial _ _ Hf Hr) in H. apply H. apply existsb_exists in H2 as (x & Hx & E).
  apply ueqb_eq in E. now subst.
Qed.
Print Assumptions C60_translated_refuted.

(** Translations have the same placeholders. *)
Definition ref_placeholders (s : ustr) : list ustr := match ref_content s with Some a => placeholder_names a | None => [] end.
Lemma has_placeholder_iff ic s ph : reads ic s -> s <> [] -> has_placeholder ic s ph <-> In ph (ref_placeholders s).
Proof.
  intros Hr Hs. unfold has_placeholder, ref_placeholders. split.
  - intros (a & Ha & H). apply (ref_content_iff _ _ _ Hr Hs) in Ha. now rewrite Ha.
  - destruct (ref_content s) as [a|] eqn:Ea; [|intros []]. intros H. exists a. split; [now apply (ref_content_iff _ _ _ Hr Hs)|exact H].
Qed.
Definition within_b (l m : list ustr) : bool := forallb (fun x => existsb (ueqb x) m) l.
Lemma within_b_iff l m : within_b l m = true -> forall x, In x l -> In x m.
Proof.
  intros H x Hx. apply (proj1 (forallb_forall _ _) H) in Hx. apply existsb_exists in Hx as (y & Hy & E). apply ueqb_eq in E. now subst.
Qed.
Theorem C60_placeholders_partial : forall ic f r r' ph, In f all_files -> file_row f r -> file_row f r' -> reads ic (pr_string r) -> reads ic (pr_string r') ->
  pr_component r = pr_component r' -> pr_identifier r = pr_identifier r' -> pr_identifier r <> us "multi_number_sign" ->
  has_placeholder ic (pr_string r) ph -> has_placeholder ic (pr_string r') ph.
Proof.
  intros ic f r r' ph Hf (d & Hd & Hr) (d' & Hd' & Hr') H1 H2 H3 H4 H5. assert (d' = d) by congruence. subst d'.
  assert (Hc : forallb (fun f => match en_db f with
      | Some d => forallb (fun r => forallb (fun r' => if same_key r r' then (ueqb (pr_identifier r) (us "multi_number_sign") ||
                    within_b (ref_placeholders (pr_string r)) (ref_placeholders (pr_string r')))%bool else true) (db_pattern d)) (db_pattern d)
      | None => true end) all_files = true) by (vm_compute; reflexivity).
  assert (Hne : forallb (fun r => match pr_string r with [] => false | _ => true end) all_rows = true) by (vm_compute; reflexivity).
  assert (Hs : forall r, In r (db_pattern d) -> pr_string r <> []).
  { intros x Hx E. pose proof (proj1 (forallb_forall _ _) Hne x (all_rows_in f x Hf (ex_intro _ d (conj Hd Hx)))) as K. cbv beta in K. rewrite E in K. discriminate. }
  pose proof (proj1 (forallb_forall _ _) Hc f Hf) as H. cbv beta in H. rewrite Hd in H. apply (proj1 (forallb_forall _ _) H r) in Hr as K. cbv beta in K.
  apply (proj1 (forallb_forall _ _) K r') in Hr' as K'. cbv beta in K'. unfold same_key in K'. rewrite H3, H4, !ueqb_refl in K'. cbn [andb] in K'.
  destruct (ueqb_spec (pr_identifier r') (us "multi_number_sign")) as [E|_]; [congruence|]. cbn [orb] in K'.
  rewrite (has_placeholder_iff ic _ ph H1 (Hs r Hr)), (has_placeholder_iff ic _ ph H2 (Hs r' Hr')). exact (within_b_iff _ _ K' ph).
Qed.
Print Assumptions C60_placeholders_partial.
(** False for one string: {position} in English, {posizione} in Italian. *)
Theorem C60_placeholders_refuted : exists f r r' ph, In f all_files /\ file_row f r /\ file_row f r' /\ pr_component r = pr_component r' /\ pr_identifier r = pr_identifier r' /\
  has_placeholder icu_ex (pr_string r) ph /\ ~ has_placeholder icu_ex (pr_string r') ph.
Proof.
  assert (Hx : forall tag r, find (fun r => (ueqb (pr_identifier r) (us "multi_number_sign") && ueqb (pr_tag r) tag)%bool) localiser_patterns = Some r -> file_row localiser_file r).
  { intros tag r H. apply find_some in H as (H & _). exists localiser_db. auto. }
  destruct (find (fun r => (ueqb (pr_identifier r) (us "multi_number_sign") && ueqb (pr_tag r) (us "en-ZA"))%bool) localiser_patterns) as [r|] eqn:E1; [|vm_compute in E1; discriminate E1].
  destruct (find (fun r => (ueqb (pr_identifier r) (us "multi_number_sign") && ueqb (pr_tag r) (us "it"))%bool) localiser_patterns) as [r'|] eqn:E2; [|vm_compute in E2; discriminate E2].
  exists localiser_file, r, r', (us "position"). split; [cbn [In all_files]; auto|]. split; [exact (Hx _ _ E1)|]. split; [exact (Hx _ _ E2)|].
  vm_compute in E1, E2. injection E1 as <-. injection E2 as <-. split; [reflexivity|]. split; [reflexivity|].
  assert (Hr : forall s, reads icu_ex s) by (intros s c _; split; reflexivity). split.
  - apply has_placeholder_iff; [apply Hr|discriminate|]. vm_compute. auto.
  - intros H. apply has_placeholder_iff in H; [|apply Hr|discriminate]. vm_compute in H. intuition discriminate.
Qed.
Print Assumptions C60_placeholders_refuted.
Example C60_example : usable icu_ex env_ex reg_ex (us "en") (us "en") (u8 "Fallback was used: {fallback select true#true false#false}.#{true True}{false False}") /\
  has_placeholder icu_ex (u8 "The component ‘{component}’ could not found.") (us "component").
Proof.
  assert (Hr : forall s, reads icu_ex s) by (intros s c _; split; reflexivity). split.
  - apply usable_iff; [exact icu_ex_ok|apply Hr|vm_compute; reflexivity].
  - apply has_placeholder_iff; [apply Hr|discriminate|]. vm_compute. auto.
Qed.
