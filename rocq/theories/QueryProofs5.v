(** Proofs for C97: all calls, and histories of calls. *)
From Coq Require Import Sorted.
From Verif Require Import Base BaseFacts RegistryModel ProviderModel ProviderSpec ProviderProofs ProviderProofs2 ProviderProofs5 MemorySpec QueryModel QuerySpec
  QueryProofs QueryProofs2 QueryProofs3 QueryProofs4.

Section Histories.
  Variable E : penv.
  Variable D : database.
  Variable p : sprovider.
  Hypothesis Hp : provider_ok p.

  (** Lookups *)
  Lemma levels_once t : NoDup (levels (S (List.length t)) t).
  Proof.
    destruct (levels_are (S (List.length t)) t) as ((_ & Hs) & _); [lia|]. induction Hs as [|a l Hs IH Hf]; constructor; [|exact IH].
    intros Hi. rewrite Forall_forall in Hf. specialize (Hf a Hi). unfold longer in Hf. lia.
  Qed.
  Lemma level_query_inj one exact f c i a b : level_query one exact f c i a = level_query one exact f c i b -> a = b.
  Proof. unfold level_query. destruct exact; intros H; injection H as H; [exact H | now apply app_inv_tail in H]. Qed.
  Lemma level_queries_once one exact f c i l : NoDup l -> NoDup (map (level_query one exact f c i) l).
  Proof.
    induction 1 as [|a l Ha H IH]; cbn; constructor; [|exact IH]. intros Hi. apply in_map_iff in Hi. destruct Hi as (b & Hb & Hi). apply level_query_inj in Hb. now subst.
  Qed.
  Lemma lookup_once one exact files c i t : (snd files = true -> c <> aio) -> NoDup (lookup_plan one exact files c i (levels (S (List.length t)) t)).
  Proof.
    intros Ho. unfold lookup_plan. apply NoDup_two.
    - destruct (fst files); [apply level_queries_once, levels_once | constructor].
    - destruct (snd files); [apply level_queries_once, levels_once | constructor].
    - intros q H1 H2. destruct (fst files); [|destruct H1]. destruct (snd files); [|destruct H2]. apply in_map_iff in H1, H2.
      destruct H1 as (a & <- & _), H2 as (b & H2 & _). injection H2 as H2 _. now apply Ho.
  Qed.
  Lemma lookup_length one exact files c i t : List.length (lookup_plan one exact files c i (levels (S (List.length t)) t)) <= 2 * S (hyphens t).
  Proof.
    destruct (levels_are (S (List.length t)) t) as (_ & Hl); [lia|]. unfold lookup_plan. rewrite app_length.
    destruct (fst files), (snd files); rewrite ?map_length; cbn [List.length]; lia.
  Qed.
  Lemma lookup_point one exact files c i l : mget c (sp_components p) = Some files -> Forall (to_the_point p) (lookup_plan one exact files c i l).
  Proof.
    intros Hc. unfold lookup_plan. apply Forall_app. split.
    - destruct (fst files) eqn:Ef; [|constructor]. apply Forall_map, Forall_forall. intros a _. exists c, files. split; [exact Hc|]. split; [reflexivity|]. split; [reflexivity | auto].
    - destruct (snd files) eqn:Ef; [|constructor]. apply Forall_map, Forall_forall. intros a _. exists c, files. split; [exact Hc|]. split; [reflexivity|]. split; [reflexivity | auto].
  Qed.

  (** What is known after a call. *)
  Definition point_many (x : pcall) (h qs : list qcall) : Prop :=
    Forall (to_the_point p) qs /\ List.length qs <= most_queries (List.length (sp_components p)) (language_rows D h qs) x.
  Record summary (x : pcall) (h : list qcall) (st : pstate) (qs : list qcall) (st' : pstate) (y : pout panswer) : Prop := mk_summary {
    sm_ok : queries_ok (ps_queries st');
    sm_keeps : forall d, ps_details st = Some d -> ps_details st' = Some d;
    sm_details : asks_details x -> is_ok y -> ps_details st' <> None;
    sm_none : asks_overview x -> ps_details st <> None -> qs = [] /\ st' = st;
    sm_point : point_many x h qs;
    sm_once : own_names p -> spelt_once E D -> looks_once p x -> NoDup qs
  }.
  Lemma summary_lookup x one exact c i t answer : lookup_of x = Some (one, exact, (c, i, t), answer) -> forall h st, queries_ok (ps_queries st) ->
    exists qs st' y, q_pcall E D p x (h, st) = ((h ++ qs, st'), y) /\ summary x h st qs st' y.
  Proof.
    intros Hx h st Hq. assert (Hn : ~ asks_details x /\ ~ asks_overview x) by (destruct x; try discriminate Hx; cbn; auto). destruct Hn as (Hn1 & Hn2).
    destruct (mget c (sp_components p)) as [files|] eqn:Ec.
    - destruct (lookup_adds E D p Hp x one exact c i t answer files Hx Ec h st Hq) as (qs & st' & y & H1 & H2 & H3 & r & H4 & _).
      exists qs, st', y. split; [exact H1|]. destruct (answered_prefix _ _ _ _ _ H4) as (rest & Hrest). split.
      + exact H2.
      + intros d Hd. congruence.
      + tauto.
      + tauto.
      + split.
        * pose proof (lookup_point one exact files c i (levels (S (List.length t)) t) Ec) as H. rewrite Hrest in H. apply Forall_app in H. tauto.
        * pose proof (lookup_length one exact files c i t) as H. rewrite Hrest, app_length in H.
          destruct x; try discriminate Hx; injection Hx as _ _ _ _ <- _; cbn [most_queries]; lia.
      + intros Ho _ _. apply NoDup_prefix with rest. rewrite <- Hrest. apply lookup_once. intros Hf. apply (Ho c (fst files)). rewrite Ec. destruct files. cbn in *. now subst.
    - exists [], st, (Err (PComponentNotFound c)). rewrite (lookup_unknown E D p x one exact c i t answer Hx Ec), app_nil_r. split; [reflexivity|]. split.
      + exact Hq.
      + auto.
      + tauto.
      + tauto.
      + split; [constructor | cbn; lia].
      + constructor.
  Qed.

  (** Details *)
  Lemma get_details_adds h st : queries_ok (ps_queries st) -> exists qs st' x, q_get_details E D p (h, st) = ((h ++ qs, st'), x) /\ queries_ok (ps_queries st') /\
    match ps_details st with
    | Some y => qs = [] /\ st' = st /\ x = Ok y
    | None => loop_R E D p (sp_components p) h qs /\ match x with Ok y => ps_details st' = Some y | _ => ps_details st' = None end
    end.
  Proof.
    intros Hq. unfold q_get_details. cbn [snd fst]. destruct (ps_details st) as [y|] eqn:Ed.
    - exists [], st, (Ok y). rewrite app_nil_r. auto.
    - destruct (adds_build E D p Hp h st Hq) as (qs & st' & x & -> & H2 & H3 & H4). destruct x as [y|e| |].
      + exists qs, (mk_pstate (ps_queries st') (Some y)), (Ok y). auto.
      + exists qs, st', (Err e). rewrite H3. auto.
      + exists qs, st', Panic. rewrite H3. auto.
      + exists qs, st', NoFuel. rewrite H3. auto.
  Qed.
  Lemma about_point q : about_some (sp_components p) q -> to_the_point p q.
  Proof.
    intros (c & files & Hi & H). exists c, files. split; [|exact H]. exact (nodup_get _ c files (proj1 Hp) Hi).
  Qed.
  Lemma summary_overview x (f : amap cdetails * rdetails -> pout panswer) : asks_overview x ->
    (forall s, q_pcall E D p x s = qbind (q_get_details E D p) (fun d => qret (f d)) s) -> forall h st, queries_ok (ps_queries st) ->
    exists qs st' y, q_pcall E D p x (h, st) = ((h ++ qs, st'), y) /\ summary x h st qs st' y.
  Proof.
    intros Ho Hx h st Hq. rewrite Hx. unfold qbind. destruct (get_details_adds h st Hq) as (qs & st' & z & -> & H2 & H3).
    assert (Hl : loop_R E D p (sp_components p) h qs).
    { destruct (ps_details st); [|tauto]. destruct H3 as (-> & _). split; [constructor|]. split; [cbn; lia | constructor]. }
    assert (Hd : forall d, ps_details st = Some d -> ps_details st' = Some d).
    { intros d Hd. rewrite Hd in H3. destruct H3 as (_ & -> & _). exact Hd. }
    assert (Hz : is_ok z -> ps_details st' <> None).
    { destruct (ps_details st) eqn:Ed; [|destruct H3 as (_ & H3)]; destruct z; cbn; try tauto; intros _; [|congruence]. destruct H3 as (_ & -> & _). congruence. }
    assert (Hn : ps_details st <> None -> qs = [] /\ st' = st) by (destruct (ps_details st); [tauto | congruence]).
    assert (Hp' : point_many x h qs).
    { destruct Hl as (Hl1 & Hl2 & _). split; [eapply Forall_impl; [exact about_point | exact Hl1]|]. destruct x; cbn in Ho; try contradiction; exact Hl2. }
    assert (Ho' : own_names p -> spelt_once E D -> looks_once p x -> NoDup qs) by (destruct Hl as (_ & _ & Hl3); intros H4 H5 _; apply Hl3; auto; exact (proj1 Hp)).
    assert (Hs : forall y, (is_ok y -> is_ok z) -> summary x h st qs st' y) by (intros y Hy; split; auto).
    destruct z as [d|e| |].
    - exists qs, st', (f d). split; [reflexivity|]. apply Hs. cbn. auto.
    - exists qs, st', (Err e). split; [reflexivity|]. now apply Hs.
    - exists qs, st', Panic. split; [reflexivity|]. now apply Hs.
    - exists qs, st', NoFuel. split; [reflexivity|]. now apply Hs.
  Qed.
  Lemma bind_ret_bind {A B C} (m : QM A) (g : A -> pout B) (f : B -> pout C) s :
    qbind (qbind m (fun a => qret (g a))) (fun b => qret (f b)) s = qbind m (fun a => qret (bind (g a) f)) s.
  Proof. unfold qbind, qret. destruct (m s) as (s' & [a|e| |]); try reflexivity. destruct (g a); reflexivity. Qed.

  (** Identifiers *)
  Definition id_query (f c i : ustr) : qcall := mk_qcall f SqlIdentifier [i; c].
  Lemma adds_identifier c files i all : mget c (sp_components p) = Some files ->
    adds (q_identifier_languages E D p c i all) (fun _ qs x => match file_of c files all with Some f => qs = [id_query f c i] | None => qs = [] end).
  Proof.
    intros Hc. destruct (file_of c files all) as [f|] eqn:Ef.
    - eapply adds_more; [exact (adds_single D p Hp c files all (KPlain SqlIdentifier all) [i; c] f
        (fun rows => map_rows (fun row => let! raw := get_text row 0 in registry_tag E raw) rows) Logic.I Hc Ef)|]. now intros h qs x (H & _).
    - intros h st Hq. unfold q_identifier_languages, qbind at 1, qret. pose proof (connection_is p Hp c files all Hc) as H. rewrite Ef in H. rewrite H.
      exists [], st, (Err (PComponentNotFound c)). rewrite app_nil_r. auto.
  Qed.
  Definition id_R (c : ustr) (files : bool * bool) (i : ustr) (qs : list qcall) : Prop :=
    (exists f, file_of c files true = Some f /\ qs = [id_query f c i]) \/ qs = [] \/
    (exists f f', file_of c files true = Some f /\ file_of c files false = Some f' /\ qs = [id_query f c i; id_query f' c i]).
  Lemma adds_identifier_both c files i cd : mget c (sp_components p) = Some files ->
    adds (let& l := q_identifier_languages E D p c i true in let& l' := match l with [] => q_identifier_languages E D p c i false | _ => qskip l end in
          qskip (mk_idetails l' (cd_default cd))) (fun _ qs _ => id_R c files i qs).
  Proof.
    intros Hc. apply (adds_bind _ _ _ (fun _ _ qs _ => match file_of c files false with Some f => qs = [id_query f c i] \/ qs = [] | None => qs = [] end) _
      (adds_identifier c files i true Hc)).
    - intros l. apply (adds_bind _ _ (fun _ qs _ => match file_of c files false with Some f => qs = [id_query f c i] \/ qs = [] | None => qs = [] end) (fun _ _ qs _ => qs = [])).
      + destruct l; [eapply adds_more; [exact (adds_identifier c files i false Hc)|]|apply adds_ret].
        * intros h qs x H. destruct (file_of c files false); auto.
        * intros h. destruct (file_of c files false); auto.
      + intros l'. now apply adds_ret.
      + intros h q1 a q2 x H ->. now rewrite app_nil_r.
      + auto.
      + auto.
      + auto.
    - intros h q1 a q2 x H1 H2. unfold id_R. destruct (file_of c files true) as [f|] eqn:Et; subst; destruct (file_of c files false) as [f'|] eqn:Ef; cbn [app].
      + destruct H2 as [-> | ->]; [right; right; eauto | left; eauto].
      + subst. left. eauto.
      + unfold file_of in *. destruct (fst files), (snd files); discriminate.
      + subst. auto.
    - intros h q1 e H. unfold id_R. destruct (file_of c files true); subst; eauto.
    - intros h q1 H. unfold id_R. destruct (file_of c files true); subst; eauto.
    - intros h q1 H. unfold id_R. destruct (file_of c files true); subst; eauto.
  Qed.
  Lemma id_point c files i qs : mget c (sp_components p) = Some files -> id_R c files i qs -> Forall (to_the_point p) qs /\ List.length qs <= 2.
  Proof.
    intros Hc H.
    assert (Hf : forall all f, file_of c files all = Some f -> to_the_point p (id_query f c i)).
    { intros all f Hf. exists c, files. split; [exact Hc|]. split; [reflexivity|]. split; [reflexivity|]. unfold file_of in Hf. cbn [id_query qc_file].
      destruct (fst files), (snd files), all; cbn in Hf; try discriminate; injection Hf as <-; auto. }
    destruct H as [(f & H1 & ->)|[->|(f & f' & H1 & H2 & ->)]]; cbn [List.length]; (split; [|lia]); repeat apply Forall_cons; try apply Forall_nil; eauto.
  Qed.
  Lemma id_once c files i qs : mget c (sp_components p) = Some files -> id_R c files i qs -> own_names p -> fst files = true -> NoDup qs.
  Proof.
    intros Hc H Ho Hf. destruct H as [(f & H1 & ->)|[->|(f & f' & H1 & H2 & ->)]]; [repeat constructor; auto|constructor|].
    unfold file_of in *. rewrite Hf in H1. cbn in H1, H2. injection H1 as <-. destruct files as (fa & fo). cbn in *. destruct fo; [|discriminate]. injection H2 as <-.
    constructor; [|repeat constructor; auto]. intros [H|[]]. injection H as H. exact (Ho c fa Hc H).
  Qed.
  Lemma id_sql c files i qs q : id_R c files i qs -> In q qs -> qc_sql q = SqlIdentifier.
  Proof. intros [(f & H1 & ->)|[->|(f & f' & H1 & H2 & ->)]] H; cbn in H; intuition (subst; reflexivity). Qed.
  Definition detail_sql (q : qcall) : Prop := qc_sql q <> SqlIdentifier.
  (** The queries for the details are not for identifiers. *)
  Lemma plan_detail c files b ls : Forall detail_sql (component_plan c files b ls).
  Proof.
    assert (H2 : forall q ps, q <> SqlIdentifier -> Forall detail_sql (two c files q ps)).
    { intros q ps Hq. apply Forall_forall. intros x Hx. apply two_In in Hx. unfold detail_sql. destruct Hx. congruence. }
    unfold component_plan. apply Forall_app. split; [apply H2; discriminate|]. apply Forall_app. split.
    - unfold default_plan. destruct (fst files), b, (snd files); repeat apply Forall_cons; try apply Forall_nil; discriminate.
    - apply Forall_concat, Forall_map, Forall_forall. intros t _. unfold language_plan. apply Forall_app. split; apply H2; discriminate.
  Qed.
  Lemma build_detail h st qs st' x : q_build_details E D p (h, st) = ((h ++ qs, st'), x) -> queries_ok (ps_queries st) -> Forall detail_sql qs.
  Proof.
    assert (Hl : forall cs, (forall c f, In (c, f) cs -> mget c (sp_components p) = Some f) -> forall acc, adds (q_component_loop E D p cs acc) (fun _ qs _ => Forall detail_sql qs)).
    { assert (Hd : forall c f, mget c (sp_components p) = Some f -> forall acc, adds (q_component_step E D p c f acc) (fun _ qs _ => Forall detail_sql qs)).
      { intros c f Hc acc. eapply adds_more; [exact (adds_component E D p Hp c f Hc acc)|]. intros h' qs' x' (b & ls & (rest & Hr & _) & _).
        pose proof (plan_detail c f b ls) as H. rewrite Hr in H. apply Forall_app in H. tauto. }
      induction cs as [|(c & f) cs IH]; intros Hcs acc; cbn [q_component_loop]; [apply adds_ret; constructor|].
      apply (adds_bind _ _ _ (fun _ _ qs _ => Forall detail_sql qs) _ (Hd c f (Hcs c f (or_introl eq_refl)) acc)); auto.
      - intros acc'. apply IH. intros c' f' Hi. apply Hcs. now right.
      - intros h' q1 a q2 x' H1 H2. apply Forall_app. auto. }
    assert (Hb : adds (q_build_details E D p) (fun _ qs _ => Forall detail_sql qs)).
    { unfold q_build_details.
      apply (adds_bind _ _ _ (fun _ _ qs _ => qs = []) _ (Hl (sp_components p) (fun c f Hi => nodup_get _ c f (proj1 Hp) Hi) _)); auto.
      - intros (cds & rd). destruct (rd_default rd) as [t|]; [|now apply adds_ret]. destruct (mget t (rd_languages rd)); now apply adds_ret.
      - intros h' q1 a q2 x' H ->. now rewrite app_nil_r. }
    intros H Hq. destruct (Hb h st Hq) as (qs' & st2 & x2 & H1 & _ & _ & H2). rewrite H1 in H. injection H as H _ _. apply app_inv_head in H. now subst.
  Qed.
  Lemma get_details_sql h st qs st' x : q_get_details E D p (h, st) = ((h ++ qs, st'), x) -> queries_ok (ps_queries st) -> Forall detail_sql qs.
  Proof.
    intros H Hq. unfold q_get_details in H. cbn [fst snd] in H. destruct (ps_details st).
    - injection H as H _ _. rewrite <- (app_nil_r h) in H at 1. apply app_inv_head in H. subst. constructor.
    - destruct (adds_build E D p Hp h st Hq) as (qs' & st2 & x2 & H1 & _ & _ & _). rewrite H1 in H.
      assert (qs = qs') by (destruct x2; injection H as H _ _; apply app_inv_head in H; congruence). subst. exact (build_detail h st qs' st2 x2 H1 Hq).
  Qed.
  (** The details are only of components that there are. *)
  Lemma summary_identifier c i h st : queries_ok (ps_queries st) ->
    exists qs st' y, q_pcall E D p (CallIdentifier c i) (h, st) = ((h ++ qs, st'), y) /\ summary (CallIdentifier c i) h st qs st' y.
  Proof.
    intros Hq. cbn [q_pcall]. unfold q_identifier_details. destruct (get_details_adds h st Hq) as (qs & st' & z & H1 & H2 & H3).
    pose proof (get_details_sql h st qs st' z H1 Hq) as Hsql.
    assert (Hl : loop_R E D p (sp_components p) h qs).
    { destruct (ps_details st); [|tauto]. destruct H3 as (-> & _). split; [constructor|]. split; [cbn; lia | constructor]. }
    assert (Hd : forall d, ps_details st = Some d -> ps_details st' = Some d).
    { intros d Hd. rewrite Hd in H3. destruct H3 as (_ & -> & _). exact Hd. }
    assert (Hz : is_ok z -> ps_details st' <> None).
    { destruct (ps_details st) eqn:Ed; [|destruct H3 as (_ & H3)]; destruct z; cbn; try tauto; intros _; [|congruence]. destruct H3 as (_ & -> & _). congruence. }
    destruct Hl as (Hl1 & Hl2 & Hl3).
    assert (Hstop : forall y, (is_ok y -> is_ok z) -> summary (CallIdentifier c i) h st qs st' y).
    { intros y Hy. split; auto.
      - cbn. tauto.
      - split; [eapply Forall_impl; [exact about_point | exact Hl1]|]. cbn [most_queries]. lia.
      - intros Ho Hs _. apply Hl3; auto. exact (proj1 Hp). }
    unfold qbind at 1 2. rewrite H1. destruct z as [(cds & rd)|e| |]; [|exists qs, st', (Err e); split; [reflexivity | now apply Hstop]
      |exists qs, st', Panic; split; [reflexivity | now apply Hstop] |exists qs, st', NoFuel; split; [reflexivity | now apply Hstop]].
    destruct (mget c cds) as [cd|]; [|exists qs, st', (Err (PComponentNotFound c)); split; [reflexivity | now apply Hstop]].
    destruct (mget c (sp_components p)) as [files|] eqn:Ec.
    2:{ unfold qbind at 1, q_identifier_languages, connection. rewrite Ec. exists qs, st', (Err (PComponentNotFound c)). split; [reflexivity | now apply Hstop]. }
    destruct (adds_identifier_both c files i cd Ec (h ++ qs) st' H2) as (q2 & st2 & y & H4 & H5 & H6 & H7). rewrite H4.
    destruct (id_point c files i q2 Ec H7) as (Hp2 & Hlen).
    assert (Hrow : language_rows D (h ++ qs) q2 = 0).
    { clear - H7. assert (Hs : forall q, In q q2 -> qc_sql q = SqlIdentifier) by (intros q; now apply id_sql with c files i). clear H7. revert Hs. generalize (h ++ qs).
      induction q2 as [|q q2 IH]; intros l Hs; [reflexivity|]. cbn [language_rows]. rewrite (Hs q (or_introl eq_refl)). rewrite IH; [reflexivity|]. intros q' Hq'. apply Hs. now right. }
    assert (Hs : forall y', summary (CallIdentifier c i) h st (qs ++ q2) st2 y').
    { intros y'. split; auto.
      - intros d Hd'. rewrite H6. auto.
      - intros _ _. rewrite H6. now apply Hz.
      - cbn. tauto.
      - split; [apply Forall_app; split; [eapply Forall_impl; [exact about_point | exact Hl1] | exact Hp2]|]. cbn [most_queries]. rewrite rows_app, app_length. lia.
      - intros Ho Hsp Hx. cbn in Hx. apply NoDup_two; [apply Hl3; auto; exact (proj1 Hp) | exact (id_once c files i q2 Ec H7 Ho (Hx files Ec))|].
        intros q Hq1 Hq2. rewrite Forall_forall in Hsql. apply (Hsql q Hq1). exact (id_sql c files i q2 q H7 Hq2). }
    rewrite <- app_assoc. destruct y as [d|e| |]; [exists (qs ++ q2), st2, (Ok (AnIdentifier d)) | exists (qs ++ q2), st2, (Err e)
      | exists (qs ++ q2), st2, Panic | exists (qs ++ q2), st2, NoFuel]; (split; [reflexivity | apply Hs]).
  Qed.

  Theorem call_summary x h st : queries_ok (ps_queries st) -> exists qs st' y, q_pcall E D p x (h, st) = ((h ++ qs, st'), y) /\ summary x h st qs st' y.
  Proof.
    intros Hq. destruct x as [c i t|c i t|c i t|c i|c|].
    - exact (summary_lookup (CallString c i t) true false c i t _ eq_refl h st Hq).
    - exact (summary_lookup (CallExact c i t) true true c i t _ eq_refl h st Hq).
    - exact (summary_lookup (CallStrings c i t) false false c i t _ eq_refl h st Hq).
    - exact (summary_identifier c i h st Hq).
    - apply (summary_overview (CallComponent c) (fun d => match mget c (fst d) with None => Err (PComponentNotFound c) | Some cd => Ok (AnComponent cd) end)); [exact Logic.I| |exact Hq].
      intros s. cbn [q_pcall]. unfold q_component_details, qbind, qret, qskip. destruct (q_get_details E D p s) as (s' & [(cds & rd)|e| |]); try reflexivity.
      cbn [fst]. destruct (mget c cds); reflexivity.
    - apply (summary_overview CallRepository (fun d => Ok (AnRepository (snd d)))); [exact Logic.I| |exact Hq].
      intros s. cbn [q_pcall]. unfold q_repository_details, qbind, qret, qskip. destruct (q_get_details E D p s) as (s' & [(cds & rd)|e| |]); reflexivity.
  Qed.
  Lemma run_ok hist : forall s, queries_ok (ps_queries (snd s)) -> queries_ok (ps_queries (snd (q_prun E D p s hist))).
  Proof.
    induction hist as [|x hist IH]; intros s Hq; [exact Hq|]. apply IH. destruct s as (h & st). destruct (call_summary x h st Hq) as (qs & st' & y & -> & Hs).
    exact (sm_ok _ _ _ _ _ _ Hs).
  Qed.
  Lemma new_ok : queries_ok (ps_queries (snd qstate_new)).
  Proof. intros key q H. discriminate H. Qed.
  Lemma run_keeps hist : forall s d, queries_ok (ps_queries (snd s)) -> ps_details (snd s) = Some d -> ps_details (snd (q_prun E D p s hist)) = Some d.
  Proof.
    induction hist as [|x hist IH]; intros s d Hq Hd; [exact Hd|]. destruct s as (h & st). destruct (call_summary x h st Hq) as (qs & st' & y & H1 & Hs).
    change (q_prun E D p (h, st) (x :: hist)) with (q_prun E D p (fst (q_pcall E D p x (h, st))) hist). rewrite H1. apply IH.
    - exact (sm_ok _ _ _ _ _ _ Hs).
    - exact (sm_keeps _ _ _ _ _ _ Hs d Hd).
  Qed.

  (** The theorems. *)
  Theorem lookup hist x one exact c i t answer files : lookup_of x = Some (one, exact, (c, i, t), answer) -> mget c (sp_components p) = Some files ->
    let s := q_prun E D p qstate_new hist in let r := q_pcall E D p x s in
    exists levels qs last, are_levels t levels /\ List.length levels <= S (hyphens t) /\ new_queries s r qs /\
      until_answered D (fst s) (lookup_plan one exact files c i levels) qs last /\ concludes E last answer (snd r).
  Proof.
    intros Hx Hc s r. destruct s as (h & st) eqn:Es.
    assert (Hq : queries_ok (ps_queries st)) by (change st with (snd (h, st)); rewrite <- Es; exact (run_ok hist _ new_ok)).
    destruct (lookup_adds E D p Hp x one exact c i t answer files Hx Hc h st Hq) as (qs & st' & y & H1 & _ & _ & l & H2 & H3).
    exists (levels (S (List.length t)) t), qs, l. destruct (levels_are (S (List.length t)) t) as (H4 & H5); [lia|]. subst r. unfold new_queries. rewrite H1. auto.
  Qed.
  Theorem bound hist x : let s := q_prun E D p qstate_new hist in exists qs, new_queries s (q_pcall E D p x s) qs /\ Forall (to_the_point p) qs /\
    List.length qs <= most_queries (List.length (sp_components p)) (language_rows D (fst s) qs) x.
  Proof.
    intros s. destruct s as (h & st) eqn:Es. assert (Hq : queries_ok (ps_queries st)) by (change st with (snd (h, st)); rewrite <- Es; exact (run_ok hist _ new_ok)).
    destruct (call_summary x h st Hq) as (qs & st' & y & H1 & Hs). exists qs. unfold new_queries. rewrite H1. split; [reflexivity|]. exact (sm_point _ _ _ _ _ _ Hs).
  Qed.
  Theorem once hist x : own_names p -> spelt_once E D -> looks_once p x -> let s := q_prun E D p qstate_new hist in
    exists qs, new_queries s (q_pcall E D p x s) qs /\ NoDup qs.
  Proof.
    intros Ho Hs Hx s. destruct s as (h & st) eqn:Es. assert (Hq : queries_ok (ps_queries st)) by (change st with (snd (h, st)); rewrite <- Es; exact (run_ok hist _ new_ok)).
    destruct (call_summary x h st Hq) as (qs & st' & y & H1 & Hsm). exists qs. unfold new_queries. rewrite H1. split; [reflexivity|]. exact (sm_once _ _ _ _ _ _ Hsm Ho Hs Hx).
  Qed.
  Theorem details_once hist x a hist' x' : asks_details x -> snd (q_pcall E D p x (q_prun E D p qstate_new hist)) = Ok a -> asks_overview x' ->
    let s := q_prun E D p qstate_new (hist ++ x :: hist') in fst (q_pcall E D p x' s) = s.
  Proof.
    intros Hx Ha Hx'. cbv zeta. set (s0 := q_prun E D p qstate_new hist) in *.
    assert (Hq0 : queries_ok (ps_queries (snd s0))) by exact (run_ok hist _ new_ok).
    assert (Hs : q_prun E D p qstate_new (hist ++ x :: hist') = q_prun E D p (fst (q_pcall E D p x s0)) hist') by (unfold q_prun, s0; rewrite fold_left_app; reflexivity).
    rewrite Hs. clear Hs. destruct s0 as (h0 & st0). destruct (call_summary x h0 st0 Hq0) as (qs & st1 & y & H1 & Hsm). rewrite H1 in *. cbn [fst snd] in *. subst y.
    pose proof (sm_ok _ _ _ _ _ _ Hsm) as Hq1. assert (Hd : exists d, ps_details st1 = Some d).
    { pose proof (sm_details _ _ _ _ _ _ Hsm Hx Logic.I) as H. destruct (ps_details st1); [eauto | congruence]. }
    destruct Hd as (d & Hd). pose proof (run_keeps hist' (h0 ++ qs, st1) d Hq1 Hd) as Hd2. pose proof (run_ok hist' (h0 ++ qs, st1) Hq1) as Hq2.
    destruct (q_prun E D p (h0 ++ qs, st1) hist') as (h2 & st2). cbn [snd] in *. destruct (call_summary x' h2 st2 Hq2) as (qs3 & st3 & y3 & H3 & Hsm3).
    rewrite H3. cbn [fst]. destruct (sm_none _ _ _ _ _ _ Hsm3 Hx') as (-> & ->); [congruence|]. now rewrite app_nil_r.
  Qed.
End Histories.

(** A provider that was opened has no component file with the name of the all in one file. *)
Lemma add_aio_own rows : forall m, (forall c f, mget c m = Some (f, true) -> c <> aio) -> forall c f, mget c (add_aio rows m) = Some (f, true) -> c <> aio.
Proof.
  induction rows as [|r rows IH]; intros m Hm c f H; [exact (Hm c f H)|]. cbn [add_aio] in H. refine (IH _ _ c f H). clear c f H. intros c f H.
  rewrite mget_minsert in H. destruct (ueqb_spec c (ir_identifier r)) as [->|Hn]; [|exact (Hm c f H)].
  destruct (mget (ir_identifier r) m) as [(a & b)|] eqn:Eg; [|discriminate]. cbn [snd] in H. injection H as _ ->. exact (Hm _ _ Eg).
Qed.
Theorem opened_own ok es p : provider_try_new ok es = Ok p -> own_names p.
Proof.
  unfold provider_try_new. destruct (add_entries ok es _) as [p'|e| |] eqn:Ea; cbn [bind]; try discriminate. intros H.
  assert (p' = p) by (destruct (sp_components p'); [discriminate | now injection H]). subst p'. clear H.
  assert (Hg : forall es p0, own_names p0 -> add_entries ok es p0 = Ok p -> own_names p).
  { clear. induction es as [|e es IH]; intros p0 H0 H; cbn [add_entries] in H; [now injection H as <-|]. destruct (en_stem e) as [name|]; [|discriminate].
    destruct (en_db e) as [d|]; [|exact (IH p0 H0 H)]. destruct (verify_schema (db_schema d)) as [v|x| |]; cbn [map_err bind] in H; try discriminate.
    destruct (ueqb_spec name aio) as [->|Hn].
    - destruct (negb (ok d)); [discriminate|]. refine (IH _ _ H). intros c f Hc. cbn [sp_components] in Hc. exact (add_aio_own (db_component d) _ H0 c f Hc).
    - refine (IH _ _ H). intros c f Hc. cbn [sp_components] in Hc. rewrite mget_minsert in Hc. destruct (ueqb_spec c name) as [->|Hne]; [exact Hn | exact (H0 c f Hc)]. }
  apply (Hg es _) in Ea; [exact Ea|]. intros c f Hc. discriminate Hc.
Qed.

(** When SQLite gives a language in one spelling. *)
Theorem spelt_file E p D d v : order_ok E -> reads_files E p D -> mget aio (sp_connections p) = Some (d, v) ->
  (forall r r', In r (db_contributor d) -> In r' (db_contributor d) -> co_component r = co_component r' ->
     pe_canon E (co_tag r) <> None -> pe_canon E (co_tag r) = pe_canon E (co_tag r') -> co_tag r = co_tag r') -> spelt_once E D.
Proof.
  intros Ho HD Ha Hs h ps rows n m t t' x x' H Hn Hm Hc He. rewrite (HD h aio d v SqlLanguages ps Ha) in H. unfold select in H.
  destruct (negb _); [discriminate|]. destruct ps as [|c [|c' ps]]; try discriminate. injection H as <-.
  set (l := pe_texts _ _ _ _ _) in *. assert (Hin : forall y, In y l -> exists r, In r (db_contributor d) /\ co_component r = c /\ co_tag r = y).
  { intros y Hy. apply (Permutation_in y (proj1 (proj2 Ho) _ _ _ _)) in Hy. apply distinct_In, in_map_iff in Hy. destruct Hy as (r & <- & Hr).
    apply filter_In in Hr. destruct Hr as (Hr & Hr2). destruct (ueqb_spec (co_component r) c); [eauto | discriminate]. }
  assert (Hd : NoDup l) by (apply (Permutation_NoDup (Permutation_sym (proj1 (proj2 Ho) _ _ _ _))), distinct_NoDup).
  rewrite nth_error_map in Hn, Hm. destruct (nth_error l n) as [y|] eqn:En; [|discriminate]. destruct (nth_error l m) as [y'|] eqn:Em; [|discriminate].
  cbn in Hn, Hm. injection Hn as Hy _. injection Hm as Hy' _. subst y y'.
  destruct (Hin t (nth_error_In _ _ En)) as (r & H1 & H2 & H3). destruct (Hin t' (nth_error_In _ _ Em)) as (r' & H4 & H5 & H6).
  assert (t = t') by (rewrite <- H3, <- H6 in *; apply Hs; auto; congruence). subst t'.
  apply (proj1 (NoDup_nth_error l) Hd n m); [apply nth_error_Some; congruence | congruence].
Qed.
