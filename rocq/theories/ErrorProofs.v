(** Lemmas for [PropertiesErrors]: reading the shipped strings, and the provider over the shipped files. *)
From Verif Require Import Base BaseFacts LexerModel LexerSpec LexerProofs TreeModel TreeSpec TreeArena TreeMachine TreeGrammar TreeGrammar2 TreeProofs3 TreeProofs4 DocSpec
  ValueModel CommandModel IsoModel FormatterModel FormatterAbs FormatterSim FormatterSpec FormatterProofs4 FormatterProofs5
  RegistryModel ProviderModel ProviderSpec ProviderProofs ProviderProofs8 LocaliserModel LocaliserSpec LocaliserProofs SystemModel SystemProofs IcuExample L10nData ErrorModel ErrorSpec PropertiesProvider.

(** ** The content of a string, computed *)
Definition ref_content (s : ustr) : option sast :=
  match tokenise icu_ex s localiser_grammar with
  | Ok ts => match aparse ts with Ok a => Some (sast_of ts a) | _ => None end
  | _ => None
  end.

Lemma class_reads ic s g c k : reads ic s -> In c s -> class_of ic g c k <-> class_of icu_ex g c k.
Proof.
  intros H Hc. destruct (H c Hc) as (H1 & H2). split; intros K; inversion K; subst; constructor; cbn [white_space syntax icu_ex] in *; congruence.
Qed.
Lemma good_reads ic g x : reads ic (snd x) -> good_segment ic g x <-> good_segment icu_ex g x.
Proof.
  intros H. unfold good_segment. split; intros (H1 & H2 & H3); (split; [exact H1|split; [|exact H3]]); rewrite Forall_forall in *; intros c Hc;
    apply (class_reads ic (snd x) g c (fst x) H Hc); auto.
Qed.
Lemma segmentation_reads ic g s l : reads ic s -> segmentation ic g s l <-> segmentation icu_ex g s l.
Proof.
  intros H. assert (G : List.concat (map snd l) = s -> Forall (good_segment ic g) l <-> Forall (good_segment icu_ex g) l).
  { intros Hl. assert (Hx : forall x, In x l -> reads ic (snd x)).
    { intros x Hx c Hc. apply H. rewrite <- Hl. apply in_concat. exists (snd x). split; [now apply in_map|exact Hc]. }
    rewrite !Forall_forall. split; intros K x Hi; apply (good_reads ic g x (Hx x Hi)); auto. }
  unfold segmentation. split; intros (H1 & H2 & H3); (split; [exact H1|split; [now apply (G H1)|exact H3]]).
Qed.
Lemma content_reads ic g s a : reads ic s -> content_of ic g s a <-> content_of icu_ex g s a.
Proof.
  intros H. unfold content_of. split; intros (c & H1 & H2 & H3); exists c; (split; [exact H1|split; [now apply (segmentation_reads ic g s _ H)|exact H3]]).
Qed.
Lemma ref_content_iff ic s a : reads ic s -> s <> [] -> content_of ic localiser_grammar s a <-> ref_content s = Some a.
Proof.
  intros H Hs. rewrite (content_reads ic _ s a H). unfold ref_content.
  assert (Hg : localiser_grammar <> []) by discriminate.
  pose proof (tokenise_runs icu_ex s localiser_grammar Hs Hg) as Et. rewrite Et. set (ts := decorate _ _ _ _ _) in *.
  destruct (tokenise_segmentation _ _ _ _ Et) as (Hseg & _). split.
  - intros (c & H1 & H2 & ->). pose proof (tokenise_unique _ _ _ _ _ Et H2) as H3. destruct (aparse_complete ts c H1 (eq_sym H3)) as (a & -> & H4).
    now rewrite H4.
  - destruct (aparse ts) as [a'|e| |] eqn:Ea; try discriminate. intros [= <-]. destruct (aparse_sound ts a' Ea) as (c & H1 & H2 & H3).
    exists c. split; [exact H1|]. split; [|exact H3]. unfold segs in H2. rewrite <- H2. exact Hseg.
Qed.

(** ** The text of a string, computed *)
Definition has_syntax (s : ustr) : bool := existsb (fun c => existsb (N.eqb c) localiser_grammar) s.
Lemma has_syntax_iff s : has_syntax s = false <-> no_syntax s.
Proof.
  unfold has_syntax, no_syntax. split.
  - intros H c H1 H2. assert (G : existsb (fun c => existsb (N.eqb c) localiser_grammar) s = true); [|congruence].
    apply existsb_exists. exists c. split; [exact H1|]. apply existsb_exists. exists c. split; [exact H2|apply N.eqb_refl].
  - intros H. destruct (existsb _ s) eqn:Ex; [|reflexivity]. exfalso. apply existsb_exists in Ex as (c & H1 & H2).
    apply existsb_exists in H2 as (x & H2 & H3). apply N.eqb_eq in H3 as ->. exact (H x H1 H2).
Qed.

Section Text.
  Variables (fe : fmtenv) (reg : cregistry) (locale : ustr) (fuel : nat).
  Definition ref_text (vals : amap pvalue) (s : ustr) : option ustr :=
    if has_syntax s then
      match ref_content s with
      | Some a => match content_check fe reg locale a with
                  | Ok _ => match snd (astring fe reg locale vals fuel (strings_of a) (us "_") (fun _ => [])) with
                            | Ok w => Some w
                            | _ => None
                            end
                  | _ => None
                  end
      | None => None
      end
    else Some s.
End Text.

Section Localiser.
  Context {PE : Type}.
  Variable L : lenv PE.
  Hypothesis Hicu : icu_ok (le_icu L).

  Lemma ref_text_gives vals s t w : reads (le_icu L) s ->
    string_gives L vals s t w <-> ref_text (le_fmt L) (le_reg L) (le_locale L t) (le_fuel L) vals s = Some w.
  Proof.
    intros Hr. unfold ref_text. destruct (has_syntax s) eqn:Hn.
    - assert (Hns : ~ no_syntax s) by (intros H; apply has_syntax_iff in H; congruence).
      assert (Hs : s <> []) by (intros ->; discriminate Hn).
      assert (Hgr : exists c, In c s /\ In c l10n_grammar).
      { apply existsb_exists in Hn as (c & H1 & H2). apply existsb_exists in H2 as (x & H2 & H3). apply N.eqb_eq in H3 as ->. eauto. }
      split.
      + intros [Hc|fm w' _ Hb Hw]; [contradiction|]. destruct (built_content _ _ _ _ _ _ _ _ Hb) as (a & Ha).
        destruct (try_new_inv _ _ _ _ _ _ _ a fm Ha Hb) as (Hck & Hrep & _). apply (ref_content_iff _ _ _ Hr Hs) in Ha. rewrite Ha, Hck.
        pose proof (sim_pattern _ _ _ fm a vals Hrep (le_fuel L) (us "_") (fm_numbers fm) (fun _ => []) (R_init _ _ _ _ _ Hrep)) as (_ & Hsim).
        assert (Hw' : snd (format_pattern (le_fmt L) (le_reg L) fm vals (le_fuel L) (us "_") (fm_numbers fm)) = Ok w').
        { unfold format in Hw. destruct (format_pattern _ _ _ _ _ _ _). exact Hw. }
        apply (same_ok _ _ w' Hsim) in Hw'. now rewrite Hw'.
      + destruct (ref_content s) as [a|] eqn:Ea; [|discriminate]. destruct (content_check _ _ _ a) as [[]|e| |] eqn:Hck; try discriminate.
        destruct (snd (astring _ _ _ _ _ _ _ _)) as [w'|e| |] eqn:Hw; try discriminate. intros [= <-].
        apply (ref_content_iff _ _ _ Hr Hs) in Ea. pose proof (proj1 (content_check_iff _ _ _ _) Hck) as Hbd.
        destruct (proj2 (build_iff (le_icu L) (le_fmt L) (le_reg L) t (le_locale L t) Hicu s a Ea Hs) (conj Hgr Hbd)) as (fm & Hb).
        destruct (try_new_inv _ _ _ _ _ _ _ a fm Ea Hb) as (_ & Hrep & _).
        pose proof (sim_pattern _ _ _ fm a vals Hrep (le_fuel L) (us "_") (fm_numbers fm) (fun _ => []) (R_init _ _ _ _ _ Hrep)) as (_ & Hsim).
        apply (same_ok _ _ w' Hsim) in Hw. apply sg_format with fm; [exact Hns|exact Hb|]. unfold format. destruct (format_pattern _ _ _ _ _ _ _). exact Hw.
    - apply has_syntax_iff in Hn. split.
      + intros [_|fm w' Hc _ _]; [reflexivity|contradiction].
      + intros [= <-]. now apply sg_plain.
  Qed.
  Lemma ref_text_pure vals s t w t' : reads (le_icu L) s -> pure_text L vals s t = Ok (w, t') <->
    t' = t /\ ref_text (le_fmt L) (le_reg L) (le_locale L t) (le_fuel L) vals s = Some w.
  Proof. intros Hr. rewrite (pure_text_iff L Hicu). rewrite (ref_text_gives vals s t w Hr). reflexivity. Qed.
End Localiser.

(** ** The provider over the shipped files *)
Definition en : ustr := us "en-ZA".
Definition it : ustr := us "it".
Definition stem_db (c : ustr) : option db :=
  if ueqb c (us "i18n_localiser") then Some localiser_db else
  if ueqb c (us "i18n_provider") then Some provider_db else
  if ueqb c (us "i18n_provider_sqlite3") then Some sqlite3_db else None.
Definition row (language c i : ustr) : option ustr :=
  match stem_db c with
  | Some d => option_map pr_string
      (find (fun r => (ueqb (pr_component r) c && ueqb (pr_identifier r) i && ueqb (pr_tag r) language)%bool) (db_pattern d))
  | None => None
  end.
Definition rows_checked (c : ustr) (d : db) : bool :=
  forallb (fun r => (ueqb (pr_component r) c && (ueqb (pr_tag r) en || ueqb (pr_tag r) it) &&
    match row (pr_tag r) c (pr_identifier r) with Some s => ueqb s (pr_string r) | None => false end)%bool) (db_pattern d) &&
  forallb (fun r => (ueqb (ir_identifier r) c && ueqb (ir_tag r) en)%bool) (db_component d).
Lemma rows_ok : forallb (fun c => match stem_db c with Some d => rows_checked c d | None => false end) shipped_components = true.
Proof. vm_compute. reflexivity. Qed.
Lemma row_sound language c i s : row language c i = Some s ->
  exists d r, stem_db c = Some d /\ In r (db_pattern d) /\ pr_component r = c /\ pr_identifier r = i /\ pr_tag r = language /\ pr_string r = s.
Proof.
  unfold row. destruct (stem_db c) as [d|]; [|discriminate]. destruct (find _ _) as [r|] eqn:Ef; [|discriminate]. intros [= <-]. apply find_some in Ef as (H1 & H2).
  apply andb_prop in H2 as (H2 & H4). apply andb_prop in H2 as (H2 & H3). apply ueqb_eq in H2, H3, H4. exists d, r. auto 8.
Qed.
Lemma stem_known c : In c shipped_components <-> exists d, stem_db c = Some d.
Proof.
  unfold stem_db, shipped_components. split.
  - intros [<-|[<-|[<-|[]]]]; eexists; vm_compute; reflexivity.
  - destruct (ueqb_spec c (us "i18n_localiser")) as [->|]; [intros _; now left|].
    destruct (ueqb_spec c (us "i18n_provider")) as [->|]; [intros _; right; now left|].
    destruct (ueqb_spec c (us "i18n_provider_sqlite3")) as [->|]; [intros _; right; right; now left|]. intros (d & [=]).
Qed.
Lemma stored_facts c d : stem_db c = Some d ->
  (forall r, In r (db_pattern d) -> pr_component r = c /\ (pr_tag r = en \/ pr_tag r = it) /\ row (pr_tag r) c (pr_identifier r) = Some (pr_string r)) /\
  (forall r, In r (db_component d) -> ir_identifier r = c /\ ir_tag r = en).
Proof.
  intros Hd. pose proof (proj1 (forallb_forall _ _) rows_ok c (proj2 (stem_known c) (ex_intro _ d Hd))) as H. cbv beta in H. rewrite Hd in H.
  apply andb_prop in H as (H1 & H2). rewrite forallb_forall in H1, H2. split; intros r Hr.
  - specialize (H1 r Hr). apply andb_prop in H1 as (H1 & H3). apply andb_prop in H1 as (H1 & H4). apply ueqb_eq in H1. split; [exact H1|].
    split; [apply orb_prop in H4 as [H4|H4]; apply ueqb_eq in H4; auto|]. destruct (row _ _ _) as [s|]; [|discriminate]. apply ueqb_eq in H3. now subst.
  - specialize (H2 r Hr). apply andb_prop in H2 as (H2 & H3). apply ueqb_eq in H2, H3. auto.
Qed.

(** *** Languages *)
Lemma comes_first t x l : comes_to t (x :: l) -> exists c r, t = c :: r /\ lower c = lower x.
Proof.
  intros (a & Ha & Hn & u & v & Hl & Hm). destruct a as [|c a]; [congruence|]. destruct u as [|c' u]; [discriminate|]. cbn in Hl, Hm.
  injection Hl as <- _. injection Hm as Hc _. exists c. destruct Ha as [<-|(r & ->)]; cbn; eauto.
Qed.
Lemma comes_one t : comes_to t en -> comes_to t it -> False.
Proof.
  intros H1 H2. apply comes_first in H1 as (c & r & -> & H1). apply comes_first in H2 as (c' & r' & [= <- <-] & H2). rewrite H1 in H2.
  vm_compute in H2. discriminate.
Qed.
Lemma comes_self t : t <> [] -> comes_to t t.
Proof. intros H. exists t. split; [now left|]. split; [exact H|]. exists t, []. now rewrite app_nil_r. Qed.

Lemma NoDup_key {A B} (f : A -> B) l : NoDup (map f l) -> forall x y, In x l -> In y l -> f x = f y -> x = y.
Proof.
  induction l as [|a l IH]; cbn; [intros _ x y []|]. intros H. inversion H as [|? ? Hn Hl]; subst. intros x y [->|Hx] [->|Hy] E; auto.
  - exfalso. apply Hn. rewrite E. now apply in_map.
  - exfalso. apply Hn. rewrite <- E. now apply in_map.
Qed.

Section Library.
  Variables (E : penv) (es : list entry) (p : sprovider).
  Hypothesis Hlib : library E es p.

  Lemma lib_source c d : In c shipped_components -> source p c d <-> stem_db c = Some d.
  Proof.
    intros Hc. destruct (C49_components es p (lb_made _ _ _ Hlib) (lb_names _ _ _ Hlib)) as (_ & _ & Haio & Hown). unfold source.
    assert (Hf : exists f d0, In f es /\ en_stem f = Some c /\ en_db f = Some d0 /\ stem_db c = Some d0).
    { destruct Hc as [<-|[<-|[<-|[]]]].
      - exists localiser_file, localiser_db. split; [apply (lb_files _ _ _ Hlib); now left|]. split; [|split]; reflexivity.
      - exists provider_file, provider_db. split; [apply (lb_files _ _ _ Hlib); right; now left|]. split; [|split]; reflexivity.
      - exists sqlite3_file, sqlite3_db. split; [apply (lb_files _ _ _ Hlib); right; right; now left|]. split; [|split]; reflexivity. }
    destruct Hf as (f & d0 & Hf & Hs & Hd & Ht). split.
    - intros [H|H].
      + apply Haio in H as (H1 & H2). exfalso. refine (lb_aio _ _ _ Hlib d c H1 _ H2). right; right; right. exact Hc.
      + apply Hown in H as (_ & f' & H1 & H2 & H3). assert (f' = f) as -> by (apply (NoDup_key en_stem es (lb_names _ _ _ Hlib)); congruence). congruence.
    - intros H. right. apply Hown. split; [|exists f; split; [exact Hf|]; split; congruence].
      destruct Hc as [<-|[<-|[<-|[]]]]; vm_compute; discriminate.
  Qed.
  Lemma lib_known c : In c shipped_components -> known p c.
  Proof.
    intros Hc. destruct (proj1 (stem_known c) Hc) as (d & Hd). apply (lib_source c d Hc) in Hd.
    destruct Hd as [(f & v & H & _)|(f & v & H & _)]; unfold known; apply mget_keys; eauto.
  Qed.
  Lemma lib_canon r c d : stem_db c = Some d -> In r (db_pattern d) -> pe_canon E (pr_tag r) = Some (pr_tag r).
  Proof. intros H Hr. destruct (proj1 (stored_facts c d H) r Hr) as (_ & [-> | ->] & _); apply (lb_canon _ _ _ Hlib). Qed.

  Lemma lib_lookup c i t : In c shipped_components -> asked E t -> exists o, pv_string (sqlite_provider E p) c i t = Ok o /\
    match o with
    | Some (s, t') => comes_to t t' /\ (t' = en \/ t' = it) /\ row t' c i = Some s
    | None => forall language, comes_to t language -> row language c i = None
    end.
  Proof.
    intros Hc (Hcan & Hw). destruct (C34_specific_partial E es p [] c i t (lb_made _ _ _ Hlib) (lb_env _ _ _ Hlib) (lib_known c Hc) Hw) as (o & Ho & H & _).
    exists o. split.
    { cbn [pv_string sqlite_provider]. rewrite Hcan, ueqb_refl. rewrite (result_string E p (made_ok _ _ (lb_made _ _ _ Hlib))) in Ho.
      apply bind_Ok in Ho as (o' & Ho & [= ->]). exact Ho. }
    destruct o as [[s t']|].
    - destruct H as (d & a & r & Ha & (Hr & Hrc & Hri & Hrt) & (H1 & H2)). cbn in H1, H2. subst s.
      assert (Hd : stem_db c = Some d).
      { apply (lib_source c d Hc). destruct Ha as [(Ha & _)|(_ & Ha & _)]; [left|right]; exact Ha. }
      destruct (proj1 (stored_facts c d Hd) r Hr) as (_ & Ht & Hrow). rewrite (lib_canon r c d Hd Hr) in H2. injection H2 as <-.
      split; [|split; [exact Ht|now rewrite <- Hri]]. exists a. destruct Ha as [(_ & Ha)|(_ & _ & Ha)]; destruct Ha as (Ha & Hne & _); auto.
    - intros language (a & Ha & Hne & Hs). destruct (row language c i) as [s|] eqn:Er; [|reflexivity]. exfalso.
      apply row_sound in Er as (d & r & Hd & Hr & Hrc & Hri & Hrt & _). refine (H d (proj2 (lib_source c d Hc) Hd) a Ha Hne _).
      exists r. split; [exact Hr|]. cbn [fit]. rewrite Hrt. auto.
  Qed.
  Lemma lib_string c i t s t' : In c shipped_components -> asked E t -> pv_string (sqlite_provider E p) c i t = Ok (Some (s, t')) <->
    comes_to t t' /\ row t' c i = Some s.
  Proof.
    intros Hc Ht. destruct (lib_lookup c i t Hc Ht) as (o & -> & H). destruct o as [[s0 t0]|].
    - destruct H as (H1 & H2 & H3). split; [intros [= <- <-]; auto|]. intros (H4 & H5).
      assert (t' = en \/ t' = it).
      { apply row_sound in H5 as (d & r & Hd & Hr & Hrc & Hri & <- & _). exact (proj1 (proj2 (proj1 (stored_facts c d Hd) r Hr))). }
      destruct H2 as [->| ->], H as [->| ->]; try congruence; exfalso; apply (comes_one t); assumption.
    - split; [discriminate|]. intros (H1 & H2). rewrite (H t' H1) in H2. discriminate.
  Qed.
  Lemma lib_no_string c i t : In c shipped_components -> asked E t -> pv_string (sqlite_provider E p) c i t = Ok None <->
    forall language, comes_to t language -> row language c i = None.
  Proof.
    intros Hc Ht. destruct (lib_lookup c i t Hc Ht) as (o & -> & H). destruct o as [[s0 t0]|]; [|split; auto].
    destruct H as (H1 & H2 & H3). split; [discriminate|]. intros H. rewrite (H t0 H1) in H3. discriminate.
  Qed.
  Lemma lib_default c d : In c shipped_components -> pv_default (sqlite_provider E p) c = Ok d -> d = en.
  Proof.
    intros Hc H. cbn [pv_default sqlite_provider] in H. apply bind_Ok in H as (cd & H & [= <-]).
    assert (Hr : result E p [] (CallComponent c) = Ok (AnComponent cd)).
    { rewrite (result_component E p (made_ok _ _ (lb_made _ _ _ Hlib))). unfold value. now rewrite H. }
    destruct (C38_component_partial E es p [] c cd (lb_made _ _ _ Hlib) (proj1 (lb_env _ _ _ Hlib)) Hr) as (_ & _ & _ & Hd & _).
    assert (Hx : exists d, source p c d /\ default_in E d c (cd_default cd)).
    { destruct Hd as [(d & H1 & H2)|(_ & d & H1 & H2)]; exists d; (split; [|exact H2]); [left|right]; exact H1. }
    destruct Hx as (d & Hs & r & Hr1 & _ & Hr2). apply (lib_source c d Hc) in Hs. destruct (proj2 (stored_facts c d Hs) r Hr1) as (_ & Ht).
    rewrite Ht in Hr2. pose proof (proj1 (lb_canon _ _ _ Hlib)) as Hen. fold en in Hen. congruence.
  Qed.
  Lemma lib_defaults c : defaults_fine E p -> In c shipped_components -> pv_default (sqlite_provider E p) c = Ok en.
  Proof.
    intros Hd Hc. destruct (C39_succeeds E es p [] (lb_made _ _ _ Hlib) (lb_env _ _ _ Hlib) Hd) as (_ & H). destruct (H c (lib_known c Hc)) as (cd & Hcd).
    rewrite (result_component E p (made_ok _ _ (lb_made _ _ _ Hlib))) in Hcd. apply bind_Ok in Hcd as (cd' & Hcd & [= ->]).
    assert (Hx : pv_default (sqlite_provider E p) c = Ok (cd_default cd)).
    { cbn [pv_default sqlite_provider]. unfold value in Hcd. now rewrite Hcd. }
    rewrite Hx. f_equal. exact (lib_default c _ Hc Hx).
  Qed.
  Lemma asked_en : asked E en.
  Proof. split; [apply (lb_canon _ _ _ Hlib)|]. split; vm_compute; intuition discriminate. Qed.

  (** *** The other components of errors *)
  Lemma lib_unknown c i t x : In c [us "i18n_pattern"; us "i18n_icu"] -> pv_string (sqlite_provider E p) c i t <> Ok (Some x).
  Proof.
    intros Hc. destruct (C49_components es p (lb_made _ _ _ Hlib) (lb_names _ _ _ Hlib)) as (_ & Hk & _).
    assert (Hn : ~ known p c).
    { rewrite Hk. intros [(_ & d & f & H1 & H2 & _)|(d & H1 & H2)].
      - destruct (lb_others _ _ _ Hlib f H1) as (H3 & H4). destruct Hc as [<-|[<-|[]]]; contradiction.
      - refine (lb_aio _ _ _ Hlib d c H1 _ H2). right. destruct Hc as [<-|[<-|[]]]; [now left|right; now left]. }
    cbn [pv_string sqlite_provider]. destruct (pe_canon E t) as [t0|]; [|discriminate]. destruct (ueqb_spec t t0) as [<-|]; [|discriminate].
    destruct (C37_unknown E es p [] c i t (lb_made _ _ _ Hlib) Hn) as (_ & H & _). rewrite (result_string E p (made_ok _ _ (lb_made _ _ _ Hlib))) in H.
    unfold value in H. intros Hx. rewrite Hx in H. discriminate H.
  Qed.
  Definition lexer_wrong : forallb (fun r => negb (ueqb (pr_component r) (us "i18n_lexer"))) lexer_patterns = true /\
    forallb (fun r => negb (ueqb (ir_identifier r) (us "i18n_lexer"))) lexer_components = true.
  Proof. split; vm_compute; reflexivity. Qed.
  Lemma lexer_source d : source p (us "i18n_lexer") d -> d = lexer_db.
  Proof.
    destruct (C49_components es p (lb_made _ _ _ Hlib) (lb_names _ _ _ Hlib)) as (_ & _ & Haio & Hown). intros [H|H].
    - apply Haio in H as (H1 & H2). exfalso. refine (lb_aio _ _ _ Hlib d _ H1 _ H2). now left.
    - apply Hown in H as (_ & f & H1 & H2 & H3). rewrite (lb_lexer _ _ _ Hlib f H1 H2) in H3. now injection H3 as <-.
  Qed.
  Lemma lib_lexer i t x : asked E t -> pv_string (sqlite_provider E p) (us "i18n_lexer") i t <> Ok (Some x).
  Proof.
    intros (Hcan & Hw) Hx. set (c := us "i18n_lexer") in *.
    assert (Hr : result E p [] (CallString c i t) = Ok (AnString (Some x))).
    { rewrite (result_string E p (made_ok _ _ (lb_made _ _ _ Hlib))). cbn [pv_string sqlite_provider] in Hx. rewrite Hcan, ueqb_refl in Hx. unfold value. now rewrite Hx. }
    assert (Hk : known p c).
    { unfold known. destruct (mget c (sp_components p)) as [f|] eqn:Ec; [apply mget_keys; eauto|]. exfalso.
      destruct (C37_unknown E es p [] c i t (lb_made _ _ _ Hlib)) as (_ & H & _); [|congruence]. intros H. apply mget_keys in H as (v & H). congruence. }
    destruct (C34_specific_partial E es p [] c i t (lb_made _ _ _ Hlib) (lb_env _ _ _ Hlib) Hk Hw) as (o & Ho & H & _). rewrite Hr in Ho. injection Ho as <-.
    destruct H as (d & a & r & Ha & (Hin & Hrc & _) & _). assert (Hd : d = lexer_db).
    { apply lexer_source. destruct Ha as [(Ha & _)|(_ & Ha & _)]; [left|right]; exact Ha. }
    subst d. pose proof (proj1 (forallb_forall _ _) (proj1 lexer_wrong) r Hin) as K. cbv beta in K. rewrite Hrc in K. vm_compute in K. discriminate.
  Qed.
  Lemma lexer_default d : pv_default (sqlite_provider E p) (us "i18n_lexer") <> Ok d.
  Proof.
    intros H. cbn [pv_default sqlite_provider] in H. apply bind_Ok in H as (cd & H & _). set (c := us "i18n_lexer") in *.
    assert (Hr : result E p [] (CallComponent c) = Ok (AnComponent cd)).
    { rewrite (result_component E p (made_ok _ _ (lb_made _ _ _ Hlib))). unfold value. now rewrite H. }
    destruct (C38_component_partial E es p [] c cd (lb_made _ _ _ Hlib) (proj1 (lb_env _ _ _ Hlib)) Hr) as (_ & _ & _ & Hd & _).
    assert (Hx : exists d, source p c d /\ default_in E d c (cd_default cd)).
    { destruct Hd as [(d' & H1 & H2)|(_ & d' & H1 & H2)]; exists d'; (split; [|exact H2]); [left|right]; exact H1. }
    destruct Hx as (d' & Hs & r & Hr1 & Hr2 & _). apply lexer_source in Hs as ->.
    pose proof (proj1 (forallb_forall _ _) (proj2 lexer_wrong) r Hr1) as K. cbv beta in K. rewrite Hr2 in K. vm_compute in K. discriminate.
  Qed.

  (** *** Strings found *)
  Variables (ic : icu) (fe : fmtenv) (reg : cregistry) (locale : ustr -> ustr) (script : ustr -> option ustr) (fuel : nat).
  Let L := system E p ic fe reg locale script fuel.
  Definition look (l : language) (c i : ustr) : option (ustr * ustr) :=
    match l with
    | English => option_map (fun s => (s, en)) (row en c i)
    | Italian => match row it c i with Some s => Some (s, it) | None => option_map (fun s => (s, en)) (row en c i) end
    end.
  Definition only_italian (c i : ustr) : option (ustr * ustr) := option_map (fun s => (s, it)) (row it c i).

  Definition mentioned (c : ustr) : Prop := In c (us "i18n_lexer" :: us "i18n_pattern" :: us "i18n_icu" :: shipped_components).
  Definition finds (t : ustr) (fb : bool) (look : ustr -> ustr -> option (ustr * ustr)) : Prop :=
    forall c i s t', mentioned c -> find_string L c i t fb = Ok (s, t') <-> look c i = Some (s, t').

  Lemma row_other language c i : ~ In c shipped_components -> row language c i = None.
  Proof. intros H. unfold row. destruct (stem_db c) as [d|] eqn:Ed; [|reflexivity]. exfalso. apply H. apply stem_known. eauto. Qed.
  Lemma other_missing c i t fb x : asked E t -> In c [us "i18n_lexer"; us "i18n_pattern"; us "i18n_icu"] -> find_string L c i t fb <> Ok x.
  Proof.
    intros Ht Hc H. destruct x as (s & t'). apply find_string_iff in H. destruct Hc as [<-|Hc].
    - destruct H as [H|d _ _ H _]; [exact (lib_lexer i t _ Ht H)|exact (lexer_default d H)].
    - destruct H as [H|d _ _ _ H]; exact (lib_unknown c i _ _ Hc H).
  Qed.
  Lemma mentioned_cases c : mentioned c -> In c shipped_components \/ (In c [us "i18n_lexer"; us "i18n_pattern"; us "i18n_icu"] /\ ~ In c shipped_components).
  Proof.
    intros [<-|[<-|[<-|H]]]; [right|right|right|now left]; (split; [cbn; auto|]); vm_compute; intuition discriminate.
  Qed.
  Ltac finds_start Ht := intros c i s t' Hc; apply mentioned_cases in Hc as [Hc|(Hc & Hn)];
    [|unfold look, only_italian; rewrite ?(row_other en), ?(row_other it) by exact Hn; split; [intros H; exfalso; exact (other_missing c i _ _ _ Ht Hc H)|discriminate]].

  Lemma finds_english t fb : asked E t -> comes_to t en -> finds t fb (look English).
  Proof.
    intros Ht Hen. finds_start Ht. rewrite find_string_iff. cbn [look]. split.
    - intros [H|d H1 H2 H3 H4].
      + apply (lib_string c i t s t' Hc Ht) in H as (H1 & H2). assert (t' = en) as ->; [|now rewrite H2].
        apply row_sound in H2 as (d & r & Hd & Hr & _ & _ & <- & _). destruct (proj1 (proj2 (proj1 (stored_facts c d Hd) r Hr))) as [->|Hit]; [reflexivity|].
        rewrite Hit in H1. destruct (comes_one t Hen H1).
      + apply (lib_default c d Hc) in H3 as ->. apply (lib_no_string c i t Hc Ht) with (language := en) in H1; [|exact Hen].
        apply (lib_string c i en s t' Hc asked_en) in H4 as (H4 & H5). assert (t' = en) as ->; [|congruence].
        apply row_sound in H5 as (d & r & Hd & Hr & _ & _ & <- & _). destruct (proj1 (proj2 (proj1 (stored_facts c d Hd) r Hr))) as [->|Hit]; [reflexivity|].
        rewrite Hit in H4. exfalso. apply (comes_one en); [apply comes_self; discriminate|exact H4].
    - destruct (row en c i) as [s0|] eqn:Er; [|discriminate]. intros [= <- <-]. apply fd_asked. apply (lib_string c i t s0 en Hc Ht). auto.
  Qed.
  Lemma row_language c i s t' : row t' c i = Some s -> t' = en \/ t' = it.
  Proof. intros H. apply row_sound in H as (d & r & Hd & Hr & _ & _ & <- & _). exact (proj1 (proj2 (proj1 (stored_facts c d Hd) r Hr))). Qed.
  Lemma default_found c i s t' : In c shipped_components -> pv_string (sqlite_provider E p) c i en = Ok (Some (s, t')) <-> t' = en /\ row en c i = Some s.
  Proof.
    intros Hc. rewrite (lib_string c i en s t' Hc asked_en). split.
    - intros (H1 & H2). destruct (row_language _ _ _ _ H2) as [->| ->]; [auto|]. exfalso. apply (comes_one en); [apply comes_self; discriminate|exact H1].
    - intros (-> & H). split; [apply comes_self; discriminate|exact H].
  Qed.
  Lemma finds_italian t : asked E t -> comes_to t it -> defaults_fine E p -> finds t true (look Italian).
  Proof.
    intros Ht Hit Hdf. finds_start Ht. rewrite find_string_iff. cbn [look]. split.
    - intros [H|d H1 H2 H3 H4].
      + apply (lib_string c i t s t' Hc Ht) in H as (H1 & H2). assert (t' = it) as ->; [|now rewrite H2].
        destruct (row_language _ _ _ _ H2) as [->| ->]; [|reflexivity]. destruct (comes_one t H1 Hit).
      + apply (lib_default c d Hc) in H3 as ->. rewrite (proj1 (lib_no_string c i t Hc Ht) H1 it Hit). apply (default_found c i s t' Hc) in H4 as (-> & ->). reflexivity.
    - destruct (row it c i) as [s0|] eqn:Er.
      + intros [= <- <-]. apply fd_asked. apply (lib_string c i t s0 it Hc Ht). auto.
      + destruct (row en c i) as [s0|] eqn:Ee; [|discriminate]. intros [= <- <-]. apply fd_default with en; [|reflexivity|exact (lib_defaults c Hdf Hc)|].
        * apply (lib_no_string c i t Hc Ht). intros language Hl. destruct (row language c i) as [s1|] eqn:E1; [|reflexivity].
          destruct (row_language _ _ _ _ E1) as [->| ->]; [destruct (comes_one t Hl Hit)|congruence].
        * apply (default_found c i s0 en Hc). auto.
  Qed.
  Lemma finds_only_italian t : asked E t -> comes_to t it -> finds t false only_italian.
  Proof.
    intros Ht Hit. finds_start Ht. rewrite find_string_iff. unfold only_italian. split.
    - intros [H|d H1 H2 H3 H4]; [|discriminate]. apply (lib_string c i t s t' Hc Ht) in H as (H1 & H2). assert (t' = it) as ->; [|now rewrite H2].
      destruct (row_language _ _ _ _ H2) as [->| ->]; [|reflexivity]. destruct (comes_one t H1 Hit).
    - destruct (row it c i) as [s0|] eqn:Er; [|discriminate]. intros [= <- <-]. apply fd_asked. apply (lib_string c i t s0 it Hc Ht). auto.
  Qed.
  Lemma finds_other t : asked E t -> ~ comes_to t en -> ~ comes_to t it -> defaults_fine E p -> finds t true (look English).
  Proof.
    intros Ht Hen Hit Hdf. finds_start Ht. rewrite find_string_iff. cbn [look]. split.
    - intros [H|d H1 H2 H3 H4].
      + apply (lib_string c i t s t' Hc Ht) in H as (H1 & H2). destruct (row_language _ _ _ _ H2) as [->| ->]; contradiction.
      + apply (lib_default c d Hc) in H3 as ->. apply (default_found c i s t' Hc) in H4 as (-> & ->). reflexivity.
    - destruct (row en c i) as [s0|] eqn:Ee; [|discriminate]. intros [= <- <-]. apply fd_default with en; [|reflexivity|exact (lib_defaults c Hdf Hc)|].
      + apply (lib_no_string c i t Hc Ht). intros language Hl. destruct (row language c i) as [s1|] eqn:E1; [|reflexivity].
        destruct (row_language _ _ _ _ E1) as [->| ->]; contradiction.
      + apply (default_found c i s0 en Hc). auto.
  Qed.
  Lemma finds_nothing t : asked E t -> ~ comes_to t en -> ~ comes_to t it -> finds t false (fun _ _ => None).
  Proof.
    intros Ht Hen Hit. finds_start Ht. rewrite find_string_iff. split; [|discriminate].
    intros [H|d H1 H2 H3 H4]; [|discriminate]. apply (lib_string c i t s t' Hc Ht) in H as (H1 & H2). destruct (row_language _ _ _ _ H2) as [->| ->]; contradiction.
  Qed.

  (** *** With the file of the lexer in the directory *)
  Lemma details_all c cd : result E p [] (CallComponent c) = Ok (AnComponent cd) -> exists rd, result E p [] CallRepository = Ok (AnRepository rd).
  Proof.
    pose proof (made_ok _ _ (lb_made _ _ _ Hlib)) as Hp. rewrite (result_component E p Hp), (result_repository E p Hp).
    unfold value, component_details, repository_details, pbind. destruct (get_details E p pstate_new) as (st & [(cds & rd)|e| |]); cbn; try discriminate. intros _. eauto.
  Qed.
  Lemma lexer_no_details c cd : In lexer_file es -> result E p [] (CallComponent c) <> Ok (AnComponent cd).
  Proof.
    intros Hf H. destruct (details_all c cd H) as (rd & Hrd).
    destruct (C39_repository_partial E es p [] rd (lb_made _ _ _ Hlib) (proj1 (lb_env _ _ _ Hlib)) Hrd) as (cds & Hk & Hc & _).
    destruct (C49_components es p (lb_made _ _ _ Hlib) (lb_names _ _ _ Hlib)) as (_ & Hkn & _).
    assert (Hl : known p (us "i18n_lexer")).
    { apply Hkn. left. split; [vm_compute; discriminate|]. exists lexer_db, lexer_file. split; [exact Hf|]. split; reflexivity. }
    unfold known in Hl. rewrite <- Hk in Hl. apply in_map_iff in Hl as ((c' & cd') & He & Hl). cbn [fst] in He. subst c'.
    pose proof (Hc _ _ [] Hl) as Hcd. refine (lexer_default (cd_default cd') _). rewrite (result_component E p (made_ok _ _ (lb_made _ _ _ Hlib))) in Hcd.
    apply bind_Ok in Hcd as (x & Hcd & [= ->]). cbn [pv_default sqlite_provider]. unfold value in Hcd. now rewrite Hcd.
  Qed.
  Lemma lexer_no_defaults c d : In lexer_file es -> pv_default (sqlite_provider E p) c <> Ok d.
  Proof.
    intros Hf H. cbn [pv_default sqlite_provider] in H. apply bind_Ok in H as (cd & H & _). apply (lexer_no_details c cd Hf).
    rewrite (result_component E p (made_ok _ _ (lb_made _ _ _ Hlib))). unfold value. now rewrite H.
  Qed.
  Lemma finds_no_fallback t look : In lexer_file es -> finds t false look -> finds t true look.
  Proof.
    intros Hf H c i s t' Hc. rewrite <- (H c i s t' Hc), !find_string_iff. split; intros [K|d K1 K2 K3 K4]; try discriminate K2; try (now apply fd_asked).
    destruct (lexer_no_defaults c d Hf K3).
  Qed.
End Library.
