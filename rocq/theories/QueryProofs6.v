(** Proofs for C97: exactly which queries details take. *)
From Coq Require Import Sorted.
From Verif Require Import Base BaseFacts RegistryModel ProviderModel ProviderSpec ProviderProofs ProviderProofs2 MemorySpec QueryModel QuerySpec
  QueryProofs QueryProofs2 QueryProofs3 QueryProofs4 QueryProofs5.

Definition on_ok {A} (x : pout A) (P : A -> Prop) : Prop := forall a, x = Ok a -> P a.

Section Exact.
  Variable E : penv.
  Variable D : database.
  Variable p : sprovider.
  Hypothesis Hp : provider_ok p.

  (** Success of a sequence is success of each part. *)
  Lemma ok_bind {A B} (m : QM A) (f : A -> QM B) (R : list qcall -> list qcall -> A -> Prop) (S : A -> list qcall -> list qcall -> B -> Prop)
    (T : list qcall -> list qcall -> B -> Prop) :
    adds m (fun h qs x => on_ok x (R h qs)) -> (forall a, adds (f a) (fun h qs x => on_ok x (S a h qs))) ->
    (forall h q1 a q2 b, R h q1 a -> S a (h ++ q1) q2 b -> T h (q1 ++ q2) b) -> adds (qbind m f) (fun h qs x => on_ok x (T h qs)).
  Proof.
    intros Hm Hf HT. apply (adds_bind m f _ _ _ Hm Hf).
    - intros h q1 a q2 x H1 H2 b ->. apply (HT h q1 a); [now apply H1 | now apply H2].
    - intros h q1 e _ b H. discriminate H.
    - intros h q1 _ b H. discriminate H.
    - intros h q1 _ b H. discriminate H.
  Qed.
  Lemma ok_ret {A} (x : pout A) (R : list qcall -> list qcall -> A -> Prop) : (forall h a, x = Ok a -> R h [] a) -> adds (qret x) (fun h qs y => on_ok y (R h qs)).
  Proof. intros H. apply adds_ret. intros h a Ha. now apply H. Qed.
  Lemma ok_bad {A} (x : pout A) (R : list qcall -> list qcall -> A -> Prop) : ~ is_ok x -> adds (qret x) (fun h qs y => on_ok y (R h qs)).
  Proof. intros H. apply ok_ret. intros h a ->. destruct H. exact Logic.I. Qed.
  Lemma ok_along {A} (m : QM A) plan : adds m (fun _ qs x => along plan qs x) -> adds m (fun h qs x => on_ok x (fun _ => qs = plan)).
  Proof.
    intros H. eapply adds_more; [exact H|]. intros h qs x (rest & -> & Hr) a ->. now rewrite (Hr Logic.I), app_nil_r.
  Qed.

  Lemma reads_tells rows : forall l, lang_read E rows = Ok l -> tells E rows l.
  Proof.
    induction rows as [|r rows IH]; intros l H; cbn in H; [injection H as <-; constructor|]. fold (lang_read E rows) in H.
    unfold get_text in H. destruct r as [|[raw|k] r]; cbn [nth_error bind] in H; try discriminate H. unfold registry_tag in H.
    destruct (pe_canon E raw) as [t|] eqn:Ec; cbn [bind] in H; try discriminate H.
    destruct (lang_read E rows) as [l'|e| |]; cbn [bind] in H; try discriminate H. injection H as <-. constructor; [eauto | now apply IH].
  Qed.
  Lemma own_new l2 : forall l1 cm, exists l3, fst (add_own_languages l2 (l1, cm)) = l1 ++ l3 /\ NoDup l3 /\ forall t, In t l3 <-> In t l2 /\ ~ In t l1.
  Proof.
    induction l2 as [|t l2 IH]; intros l1 cm; cbn [add_own_languages fold_left].
    - exists []. rewrite app_nil_r. split; [reflexivity|]. split; [constructor|]. intros t. cbn. tauto.
    - cbn [fst snd]. destruct (umem t l1) eqn:Et.
      + destruct (IH l1 cm) as (l3 & H1 & H2 & H3). exists l3. split; [exact H1|]. split; [exact H2|]. intros t'. rewrite H3. apply umem_In in Et.
        cbn [In]. split; [tauto|]. intros ([<-|H] & Hn); [contradiction | auto].
      + destruct (IH (l1 ++ [t]) (minsert t no_data cm)) as (l3 & H1 & H2 & H3). exists (t :: l3). unfold add_own_languages in *.
        assert (Ht : ~ In t l1) by (intros Hi; apply umem_In in Hi; congruence).
        split; [rewrite H1, <- app_assoc; reflexivity|]. split.
        * constructor; [|exact H2]. rewrite H3. intros (_ & H). apply H. apply in_or_app. cbn. auto.
        * intros t'. cbn [In]. rewrite H3, in_app_iff. cbn [In]. destruct (ueqb_spec t t') as [->|Hne]; tauto.
  Qed.

  Section Component.
    Variables (c : ustr) (files : bool * bool).
    Hypothesis Hc : mget c (sp_components p) = Some files.

    Definition got (b : bool) (f : ustr) (h qs : list qcall) (l : list ustr) : Prop :=
      qs = (if b then [mk_qcall f SqlLanguages [c]] else []) /\ if b then asked_languages E D h f c l else l = [].
    Lemma got_single f h qs x : single D f SqlLanguages [c] (lang_read E) h qs x -> on_ok x (got true f h qs).
    Proof.
      intros (-> & H) l ->. split; [reflexivity|]. destruct (D h _) as [rows|] eqn:Ed; [|discriminate H]. exists rows. split; [exact Ed|]. now apply reads_tells.
    Qed.
    Lemma got_aio : adds (if fst files then q_languages E D p c true else qskip []) (fun h qs x => on_ok x (got (fst files) aio h qs)).
    Proof.
      destruct (fst files) eqn:Ef.
      - eapply adds_more; [apply (adds_languages E D p Hp c files Hc true aio); now apply aio_file|]. intros h qs x. apply got_single.
      - apply ok_ret. intros h l [= <-]. now split.
    Qed.
    Lemma got_own : adds (if snd files then q_languages E D p c false else qskip []) (fun h qs x => on_ok x (got (snd files) c h qs)).
    Proof.
      destruct (snd files) eqn:Ef.
      - eapply adds_more; [apply (adds_languages E D p Hp c files Hc false c); now apply own_file|]. intros h qs x. apply got_single.
      - apply ok_ret. intros h l [= <-]. now split.
    Qed.
    Definition got_default (h qs : list qcall) (d : option ustr) : Prop :=
      qs = (if fst files then [mk_qcall aio SqlDefault [c]] else []) /\
      if fst files then exists rows, D h (mk_qcall aio SqlDefault [c]) = Some rows /\ (d = None <-> rows = []) else d = None.
    Lemma last_none {A} (l : list A) : last (map Some l) None = None <-> l = [].
    Proof.
      destruct l as [|a l]; [tauto|]. split; [|discriminate]. revert a. induction l as [|b l IH]; intros a H; [discriminate H|]. now apply IH in H.
    Qed.
    Lemma default_aio : adds (if fst files then q_default_language E D p c true else qskip None) (fun h qs x => on_ok x (got_default h qs)).
    Proof.
      unfold got_default. destruct (fst files) eqn:Ef; [|apply ok_ret; intros h l [= <-]; now split].
      eapply adds_more; [exact (adds_single D p Hp c files true (KPlain SqlDefault true) [c] aio
        (fun rows => let! l := map_rows (fun row => let! raw := get_text row 0 in registry_tag E raw) rows in Ok (last (map Some l) None)) Logic.I Hc (aio_file c files Ef))|].
      cbn [kind_sql]. intros h qs x (-> & H) d ->. split; [reflexivity|]. destruct (D h _) as [rows|] eqn:Ed; [|discriminate H]. exists rows. split; [reflexivity|].
      change (map_rows _ rows) with (lang_read E rows) in H. destruct (lang_read E rows) as [l|e| |] eqn:El; cbn [bind] in H; try discriminate H. injection H as ->.
      rewrite last_none. pose proof (lang_read_length E rows l El) as Hl. destruct rows, l; cbn in Hl; try discriminate Hl; split; auto; discriminate.
    Qed.

    Definition missing (d : option ustr) : bool := match d with None => true | Some _ => false end.
    Definition language_queries (ls : list ustr) : list qcall :=
      List.concat (map (fun t => in_files c files SqlContributors [t; c] ++ in_files c files SqlCount [t; c]) ls).
    Lemma exact_component acc : adds (q_component_step E D p c files acc) (fun h qs x => on_ok x (fun _ => component_asks E D h c files qs)).
    Proof.
      unfold q_component_step. destruct acc as (cds & rd0). set (rcomponents := rd_components rd0 ++ [c]).
      eapply (ok_bind _ _ (fun _ qs _ => qs = []) (fun _ h qs _ => component_asks E D h c files qs)); [apply ok_ret; reflexivity| |
        intros h q1 a q2 b -> H; rewrite app_nil_r in H; exact H]. intros _.
      eapply (ok_bind _ _ _ (fun l1 h qs _ => exists l2 l3 m, (if snd files then asked_languages E D h c c l2 else l2 = []) /\ NoDup l3 /\
         (forall t, In t l3 <-> In t l2 /\ ~ In t l1) /\
         (if fst files then exists rows, D (h ++ if snd files then [mk_qcall c SqlLanguages [c]] else []) (mk_qcall aio SqlDefault [c]) = Some rows /\ (m = true <-> rows = [])
          else m = true) /\
         qs = (if snd files then [mk_qcall c SqlLanguages [c]] else []) ++ (if fst files then [mk_qcall aio SqlDefault [c]] else []) ++
              (if m && snd files then [mk_qcall c SqlDefault [c]] else []) ++ language_queries (l1 ++ l3)) _ got_aio).
      2:{ intros h q1 l1 q2 b (-> & H1) (l2 & l3 & m & H2 & H3 & H4 & H5 & ->). exists l1, l2, l3, m. split; [exact H1|]. split; [exact H2|]. split; [exact H3|].
          split; [exact H4|]. split; [|unfold in_files; rewrite <- !app_assoc; reflexivity]. unfold in_files. rewrite app_assoc. exact H5. }
      intros l1. set (cm1 := if fst files then add_aio_languages l1 [] else []). set (rm1 := fold_left ensure l1 (rd_languages rd0)).
      eapply (ok_bind _ _ _ (fun l2 h qs _ => exists m,
         (if fst files then exists rows, D h (mk_qcall aio SqlDefault [c]) = Some rows /\ (m = true <-> rows = []) else m = true) /\
         qs = (if fst files then [mk_qcall aio SqlDefault [c]] else []) ++
              (if m && snd files then [mk_qcall c SqlDefault [c]] else []) ++ language_queries (fst (add_own_languages l2 (l1, cm1)))) _ got_own).
      2:{ intros h q1 l2 q2 b (-> & H1) (m & H2 & ->). destruct (own_new l2 l1 cm1) as (l3 & H3 & H4 & H5). rewrite H3. exists l2, l3, m. auto. }
      intros l2. destruct (add_own_languages l2 (l1, cm1)) as (ls & cm2). cbn [fst].
      eapply (ok_bind _ _ _ (fun d1 _ qs _ => qs = (if missing d1 && snd files then [mk_qcall c SqlDefault [c]] else []) ++ language_queries ls) _ default_aio).
      2:{ intros h q1 d1 q2 b (-> & H1) ->. exists (missing d1). split; [|reflexivity]. destruct (fst files).
          - destruct H1 as (rows & H1 & H2). exists rows. split; [exact H1|]. rewrite <- H2. destruct d1; cbn; split; congruence.
          - now rewrite H1. }
      intros d1. apply ok_along. apply along_bind.
      { unfold missing. destruct d1 as [t|]; cbn [andb]; [apply along_ret|]. apply adds_if. intros Hf. apply (adds_default E D p Hp c files Hc). now apply own_file. }
      intros [t|]; [|apply adds_ret; intros h; now apply along_start].
      destruct (negb (mhas t cm2)); [apply adds_ret; intros h; now apply along_start|].
      change (language_queries ls) with (List.concat (map (language_plan c files) ls)).
      rewrite <- (app_nil_r (List.concat _)). apply along_bind; [now apply adds_language_loop|]. intros (cd & rd).
      destruct (mget (cd_default cd) (cd_languages cd)); apply along_ret.
    Qed.
  End Component.

  Lemma exact_loop cs : (forall c f, In (c, f) cs -> mget c (sp_components p) = Some f) ->
    forall acc, adds (q_component_loop E D p cs acc) (fun h qs x => on_ok x (fun _ => details_asks E D h cs qs)).
  Proof.
    induction cs as [|(c & f) cs IH]; intros Hcs acc; cbn [q_component_loop]; [apply ok_ret; intros; constructor|].
    eapply (ok_bind _ _ (fun h qs _ => component_asks E D h c f qs) (fun _ h qs _ => details_asks E D h cs qs)).
    - apply exact_component. apply Hcs. now left.
    - intros acc'. apply IH. intros c' f' Hi. apply Hcs. now right.
    - intros h q1 a q2 b H1 H2. now constructor.
  Qed.
  Lemma exact_build : adds (q_build_details E D p) (fun h qs x => on_ok x (fun _ => details_asks E D h (sp_components p) qs)).
  Proof.
    unfold q_build_details. eapply (ok_bind _ _ (fun h qs _ => details_asks E D h (sp_components p) qs) (fun _ _ qs _ => qs = [])).
    - apply exact_loop. intros c f Hi. exact (nodup_get _ c f (proj1 Hp) Hi).
    - intros (cds & rd). destruct (rd_default rd) as [t|]; [|now apply ok_ret]. destruct (mget t (rd_languages rd)); now apply ok_ret.
    - intros h q1 a q2 b H ->. now rewrite app_nil_r.
  Qed.

  Lemma exact_identifier_languages c files i all f : mget c (sp_components p) = Some files -> file_of c files all = Some f ->
    adds (q_identifier_languages E D p c i all) (fun h qs x => on_ok x (fun l => qs = [id_query f c i] /\ exists rows, D h (id_query f c i) = Some rows /\ (l = [] <-> rows = []))).
  Proof.
    intros Hc Hf. eapply adds_more; [exact (adds_single D p Hp c files all (KPlain SqlIdentifier all) [i; c] f
        (fun rows => map_rows (fun row => let! raw := get_text row 0 in registry_tag E raw) rows) Logic.I Hc Hf)|].
    intros h qs x (-> & H) l ->. split; [reflexivity|]. cbn [kind_sql] in H. unfold id_query. destruct (D h _) as [rows|]; [|discriminate H]. exists rows. split; [reflexivity|].
    change (map_rows _ rows) with (lang_read E rows) in H. symmetry in H. pose proof (lang_read_length E rows l H) as Hl.
    destruct rows, l; cbn in Hl; try discriminate Hl; split; auto; discriminate.
  Qed.
  Lemma no_connection c i all h st st' l : mget c (sp_components p) = None -> q_identifier_languages E D p c i all (h, st) <> (st', Ok l).
  Proof. intros Hc H. unfold q_identifier_languages, qbind at 1, qret, connection in H. rewrite Hc in H. discriminate H. Qed.
  Lemma unknown_languages c files i all : mget c (sp_components p) = Some files -> file_of c files all = None ->
    adds (q_identifier_languages E D p c i all) (fun _ _ x => on_ok x (fun _ => False)).
  Proof.
    intros Hc Hf h st Hq. unfold q_identifier_languages, qbind at 1, qret. pose proof (connection_is p Hp c files all Hc) as H. rewrite Hf in H. rewrite H.
    exists [], st, (Err (PComponentNotFound c)). rewrite app_nil_r. repeat split; auto. intros a Ha. discriminate Ha.
  Qed.
  Lemma exact_identifier c files i (g : list ustr -> idetails) : mget c (sp_components p) = Some files ->
    adds (let& l := q_identifier_languages E D p c i true in let& l' := match l with [] => q_identifier_languages E D p c i false | _ => qskip l end in qskip (g l'))
      (fun h qs x => on_ok x (fun _ => identifier_asks D p h c i qs)).
  Proof.
    intros Hc. destruct (file_of c files true) as [f|] eqn:Ef.
    2:{ eapply (ok_bind _ _ (fun _ _ _ => False) (fun _ _ _ _ => True)); [now apply unknown_languages with files| |tauto].
        intros l. eapply (ok_bind _ _ (fun _ _ _ => True) (fun _ _ _ _ => True)); [|intros; apply ok_ret; auto|auto].
        destruct l; [|apply ok_ret; auto]. destruct (file_of c files false) eqn:Ef'.
        - eapply adds_more; [eapply exact_identifier_languages; eassumption|]. intros h qs x _ a _. exact Logic.I.
        - eapply adds_more; [now apply unknown_languages with files|]. intros h qs x _ a _. exact Logic.I. }
    assert (Hf : f = if fst files then aio else c) by (unfold file_of in Ef; cbn [andb] in Ef; destruct (fst files); [congruence|]; destruct (snd files); congruence).
    eapply (ok_bind _ _ _ (fun l _ qs _ => match l with [] => snd files = true /\ qs = [id_query c c i] | _ => qs = [] end) _ (exact_identifier_languages c files i true f Hc Ef)).
    - intros l. eapply (ok_bind _ _ (fun _ qs _ => match l with [] => snd files = true /\ qs = [id_query c c i] | _ => qs = [] end) (fun _ _ qs _ => qs = [])).
      + destruct l; [|now apply ok_ret]. destruct (file_of c files false) as [f'|] eqn:Ef'.
        * unfold file_of in Ef'. cbn [andb] in Ef'. destruct (snd files) eqn:Es; [|discriminate]. injection Ef' as <-.
          eapply adds_more; [apply exact_identifier_languages with files; [exact Hc|]; unfold file_of; cbn [andb]; now rewrite Es|]. intros h qs x H a Ha. split; [reflexivity|]. now apply (H a).
        * eapply adds_more; [now apply unknown_languages with files|]. intros h qs x H a Ha. destruct (H a Ha).
      + intros l'. now apply ok_ret.
      + intros h q1 a q2 b H ->. now rewrite app_nil_r.
    - intros h q1 l q2 b (-> & rows & Hd & Hr) H. exists files. split; [exact Hc|]. cbv zeta. rewrite <- Hf. exists rows. split; [exact Hd|].
      destruct rows as [|r rows], l as [|t l]; cbn [app]; try (destruct Hr as (Hr1 & Hr2); first [discriminate (Hr1 eq_refl) | discriminate (Hr2 eq_refl)]).
      + destruct H as (Hs & ->). auto.
      + now rewrite H.
  Qed.
End Exact.

Section Calls.
  Variable E : penv.
  Variable D : database.
  Variable p : sprovider.
  Hypothesis Hp : provider_ok p.

  (** What a successful call for details does after getting them. *)
  Lemma get_details_exact h st : queries_ok (ps_queries st) -> exists qs st' x, q_get_details E D p (h, st) = ((h ++ qs, st'), x) /\ queries_ok (ps_queries st') /\
    (ps_details st = None -> on_ok x (fun _ => details_asks E D h (sp_components p) qs)) /\ (ps_details st <> None -> qs = []).
  Proof.
    intros Hq. unfold q_get_details. cbn [snd fst]. destruct (ps_details st) as [y|] eqn:Ed.
    - exists [], st, (Ok y). rewrite app_nil_r. repeat split; auto; congruence.
    - destruct (exact_build E D p Hp h st Hq) as (qs & st' & x & -> & H2 & H3 & H4). destruct x as [y|e| |].
      + exists qs, (mk_pstate (ps_queries st') (Some y)), (Ok y). repeat split; auto; congruence.
      + exists qs, st', (Err e). repeat split; auto; congruence.
      + exists qs, st', Panic. repeat split; auto; congruence.
      + exists qs, st', NoFuel. repeat split; auto; congruence.
  Qed.
  Lemma call_exact x h st : asks_details x -> queries_ok (ps_queries st) -> exists q1 q2 st' y, q_pcall E D p x (h, st) = ((h ++ q1 ++ q2, st'), y) /\
    (is_ok y -> (ps_details st = None -> details_asks E D h (sp_components p) q1) /\ (ps_details st <> None -> q1 = []) /\ then_asks D p (h ++ q1) x q2).
  Proof.
    intros Hx Hq. destruct (get_details_exact h st Hq) as (q1 & st1 & z & H1 & H2 & H3 & H4).
    assert (Hbad : forall (r : pout panswer), ~ is_ok r -> exists q1' q2 st' y, ((h ++ q1, st1), r) = ((h ++ q1' ++ q2, st'), y) /\
      (is_ok y -> (ps_details st = None -> details_asks E D h (sp_components p) q1') /\ (ps_details st <> None -> q1' = []) /\ then_asks D p (h ++ q1') x q2)).
    { intros r Hr. exists q1, [], st1, r. rewrite app_nil_r. split; [reflexivity | tauto]. }
    destruct x as [c i t|c i t|c i t|c i|c|]; try contradiction; cbn [q_pcall].
    - unfold q_identifier_details. unfold qbind at 1 2. rewrite H1. destruct z as [(cds & rd)|e| |]; try (apply Hbad; cbn; tauto).
      destruct (mget c cds) as [cd|]; [|apply Hbad; cbn; tauto].
      destruct (mget c (sp_components p)) as [files|] eqn:Ec.
      2:{ unfold qbind at 1, q_identifier_languages, connection. rewrite Ec. apply Hbad. cbn. tauto. }
      destruct (exact_identifier E D p Hp c files i (fun l => mk_idetails l (cd_default cd)) Ec (h ++ q1) st1 H2) as (q2 & st2 & y & H5 & _ & _ & H6).
      rewrite H5. exists q1, q2, st2. destruct y as [d|e| |]; [exists (Ok (AnIdentifier d))|exists (Err e)|exists Panic|exists NoFuel]; rewrite <- app_assoc; (split; [reflexivity|]); cbn; try tauto.
      intros _. split; [intros Hn; exact (H3 Hn _ eq_refl)|]. split; [exact H4 | exact (H6 _ eq_refl)].
    - unfold q_component_details. unfold qbind at 1 2. rewrite H1. destruct z as [(cds & rd)|e| |]; try (apply Hbad; cbn; tauto).
      destruct (mget c cds) as [cd|]; [|apply Hbad; cbn; tauto]. exists q1, [], st1, (Ok (AnComponent cd)). rewrite app_nil_r. split; [reflexivity|].
      intros _. split; [intros Hn; exact (H3 Hn _ eq_refl)|]. split; [exact H4 | reflexivity].
    - unfold q_repository_details. unfold qbind at 1 2. rewrite H1. destruct z as [(cds & rd)|e| |]; try (apply Hbad; cbn; tauto).
      exists q1, [], st1, (Ok (AnRepository rd)). rewrite app_nil_r. split; [reflexivity|].
      intros _. split; [intros Hn; exact (H3 Hn _ eq_refl)|]. split; [exact H4 | reflexivity].
  Qed.
  Lemma no_details hist : Forall (fun x => ~ asks_details x) hist -> forall s, queries_ok (ps_queries (snd s)) -> ps_details (snd s) = None ->
    ps_details (snd (q_prun E D p s hist)) = None.
  Proof.
    induction 1 as [|x hist Hx Hh IH]; intros s Hq Hs; [exact Hs|]. change (q_prun E D p s (x :: hist)) with (q_prun E D p (fst (q_pcall E D p x s)) hist).
    destruct s as (h & st). cbn [snd] in *. destruct (lookup_of x) as [[[[one exact] [[c i] t]] answer]|] eqn:El; [|destruct x; try discriminate El; destruct Hx; exact Logic.I].
    destruct (mget c (sp_components p)) as [files|] eqn:Ec.
    - destruct (lookup_adds E D p Hp x one exact c i t answer files El Ec h st Hq) as (qs & st' & y & -> & H2 & H3 & _). apply IH; cbn [fst snd]; [exact H2 | congruence].
    - rewrite (lookup_unknown E D p x one exact c i t answer El Ec). now apply IH.
  Qed.

  Theorem details_first hist x a : Forall (fun y => ~ asks_details y) hist -> asks_details x ->
    let s := q_prun E D p qstate_new hist in snd (q_pcall E D p x s) = Ok a ->
    exists q1 q2, new_queries s (q_pcall E D p x s) (q1 ++ q2) /\ details_asks E D (fst s) (sp_components p) q1 /\ then_asks D p (fst s ++ q1) x q2.
  Proof.
    intros Hh Hx s Ha. pose proof (run_ok E D p Hp hist _ new_ok) as Hq. fold s in Hq. pose proof (no_details hist Hh qstate_new new_ok eq_refl) as Hn. fold s in Hn.
    clearbody s. destruct s as (h & st). cbn [snd fst] in *. destruct (call_exact x h st Hx Hq) as (q1 & q2 & st' & y & H1 & H2). rewrite H1 in *. cbn [snd] in Ha. subst y.
    destruct (H2 Logic.I) as (H3 & _ & H4). exists q1, q2. split; [reflexivity | auto].
  Qed.
  Theorem details_later hist x a hist' x' b : asks_details x -> snd (q_pcall E D p x (q_prun E D p qstate_new hist)) = Ok a -> asks_details x' ->
    let s := q_prun E D p qstate_new (hist ++ x :: hist') in snd (q_pcall E D p x' s) = Ok b ->
    exists qs, new_queries s (q_pcall E D p x' s) qs /\ then_asks D p (fst s) x' qs.
  Proof.
    intros Hx Ha Hx'. cbv zeta. set (s0 := q_prun E D p qstate_new hist) in *.
    assert (Hq0 : queries_ok (ps_queries (snd s0))) by exact (run_ok E D p Hp hist _ new_ok).
    assert (Hs : q_prun E D p qstate_new (hist ++ x :: hist') = q_prun E D p (fst (q_pcall E D p x s0)) hist') by (unfold q_prun, s0; rewrite fold_left_app; reflexivity).
    rewrite Hs. clear Hs. destruct s0 as (h0 & st0). destruct (call_summary E D p Hp x h0 st0 Hq0) as (qs & st1 & y & H1 & Hsm). rewrite H1 in *. cbn [fst snd] in *. subst y.
    pose proof (sm_ok _ _ _ _ _ _ _ _ _ Hsm) as Hq1. assert (Hd : exists d, ps_details st1 = Some d).
    { pose proof (sm_details _ _ _ _ _ _ _ _ _ Hsm Hx Logic.I) as H. destruct (ps_details st1); [eauto | congruence]. }
    destruct Hd as (d & Hd). pose proof (run_keeps E D p Hp hist' (h0 ++ qs, st1) d Hq1 Hd) as Hd2. pose proof (run_ok E D p Hp hist' (h0 ++ qs, st1) Hq1) as Hq2.
    destruct (q_prun E D p (h0 ++ qs, st1) hist') as (h2 & st2). cbn [snd fst] in *. destruct (call_exact x' h2 st2 Hx' Hq2) as (q1 & q2 & st3 & y3 & H3 & H4).
    rewrite H3. cbn [snd]. intros ->. destruct (H4 Logic.I) as (_ & H5 & H6). rewrite (H5 ltac:(congruence)) in *. cbn [app] in *. rewrite app_nil_r in H6. exists q2. split; [reflexivity | exact H6].
  Qed.
End Calls.
