(** Proofs for C112: what the provider knows, and what it answers. *)
From Verif Require Import Base BaseFacts RegistryModel ProviderModel ProviderSpec ProviderProofs ProviderProofs2 QueryModel QuerySpec QueryProofs FreshSpec FreshProofs.

(** ** Methods that do not look at the details *)
Definition blind {A} (m : PM A) : Prop := forall q o, m (mk_pstate q o) = (mk_pstate (ps_queries (fst (m (mk_pstate q None)))) o, snd (m (mk_pstate q None))).
Lemma blind_ret {A} (x : pout A) : blind (pret x).
Proof. intros q o. reflexivity. Qed.
Lemma blind_bind {A B} (m : PM A) (f : A -> PM B) : blind m -> (forall a, blind (f a)) -> blind (pbind m f).
Proof.
  intros Hm Hf q o. unfold pbind. rewrite (Hm q o), (Hm q None). cbn [fst snd ps_queries]. set (q1 := ps_queries (fst (m (mk_pstate q None)))).
  destruct (snd (m (mk_pstate q None))) as [a|e| |]; try reflexivity. exact (Hf a q1 o).
Qed.
Lemma blind_query key v k : blind (get_query key v k).
Proof. intros q o. unfold get_query. cbn [ps_queries ps_details]. destruct (mget key q); [reflexivity|]. destruct (make_query v k); reflexivity. Qed.
Section Blind.
  Variables (E : penv) (p : sprovider).
  Lemma blind_find_strings c i t all one exact : blind (find_strings E p c i t all one exact).
  Proof. unfold find_strings. apply blind_bind; [apply blind_ret|]. intros (f & d & v). apply blind_bind; [apply blind_query|]. intros q. apply blind_ret. Qed.
  Lemma blind_identifier_languages c i all : blind (identifier_languages E p c i all).
  Proof. unfold identifier_languages. apply blind_bind; [apply blind_ret|]. intros (f & d & v). apply blind_bind; [apply blind_query|]. intros q. apply blind_ret. Qed.
  Lemma blind_languages c all : blind (languages E p c all).
  Proof. unfold languages. apply blind_bind; [apply blind_ret|]. intros (f & d & v). apply blind_bind; [apply blind_query|]. intros q. apply blind_ret. Qed.
  Lemma blind_contributors c t all : blind (contributors E p c t all).
  Proof. unfold contributors. apply blind_bind; [apply blind_ret|]. intros (f & d & v). apply blind_bind; [apply blind_query|]. intros q. apply blind_ret. Qed.
  Lemma blind_count c t all : blind (count E p c t all).
  Proof. unfold count. apply blind_bind; [apply blind_ret|]. intros (f & d & v). apply blind_bind; [apply blind_query|]. intros q. apply blind_ret. Qed.
  Lemma blind_default_language c all : blind (default_language E p c all).
  Proof. unfold default_language. apply blind_bind; [apply blind_ret|]. intros (f & d & v). apply blind_bind; [apply blind_query|]. intros q. apply blind_ret. Qed.
  Ltac bl := repeat (first [apply blind_ret | apply blind_find_strings | apply blind_identifier_languages | apply blind_languages | apply blind_contributors
    | apply blind_count | apply blind_default_language | apply blind_bind; [|intros ?]
    | match goal with |- context [if ?b then _ else _] => destruct b | |- context [match ?o with _ => _ end] => destruct o end]).
  Lemma blind_language_step c f t acc : blind (language_step E p c f t acc).
  Proof. unfold language_step. bl. Qed.
  Lemma blind_language_loop c f ls : forall acc, blind (language_loop E p c f ls acc).
  Proof. induction ls as [|t ls IH]; intros acc; cbn; [apply blind_ret|]. apply blind_bind; [apply blind_language_step | intros; apply IH]. Qed.
  Lemma blind_component_step c f acc : blind (component_step E p c f acc).
  Proof.
    unfold component_step. destruct acc as (cds & rd). apply blind_bind; [apply blind_ret|]. intros _.
    apply blind_bind; [bl|]. intros l1. apply blind_bind; [bl|]. intros l2. destruct (add_own_languages l2 _) as (ls & cm2).
    apply blind_bind; [bl|]. intros d1. apply blind_bind; [bl|]. intros [t|]; [|apply blind_ret]. destruct (negb _); [apply blind_ret|].
    apply blind_bind; [apply blind_language_loop|]. intros (cd & rd'). bl.
  Qed.
  Lemma blind_component_loop cs : forall acc, blind (component_loop E p cs acc).
  Proof. induction cs as [|(c & f) cs IH]; intros acc; cbn; [apply blind_ret|]. apply blind_bind; [apply blind_component_step | intros; apply IH]. Qed.
  Lemma blind_build : blind (build_details E p).
  Proof. unfold build_details. apply blind_bind; [apply blind_component_loop|]. intros (cds & rd). bl. Qed.
  Lemma blind_one_string exact c i t : blind (one_string E p exact c i t).
  Proof. unfold one_string. bl. Qed.
  Lemma blind_strings c i t : blind (strings E p c i t).
  Proof. unfold strings. bl. Qed.
  Lemma blind_lookup x : (exists l, lookup_of x = Some l) -> blind (pcall_run E p x).
  Proof.
    intros (l & Hl). destruct x; try discriminate Hl; cbn [pcall_run]; (apply blind_bind; [|intros; apply blind_ret]);
      [apply blind_one_string | apply blind_one_string | apply blind_strings].
  Qed.
  (** The languages of an identifier. *)
  Definition languages_of (c i : ustr) : PM (list ustr) :=
    pbind (identifier_languages E p c i true) (fun l => match l with [] => identifier_languages E p c i false | _ => skip l end).
  Lemma blind_languages_of c i : blind (languages_of c i).
  Proof. unfold languages_of. bl. Qed.
  Lemma identifier_split c i st : identifier_details E p c i st =
    pbind (get_details E p) (fun '(cds, _) => match mget c cds with None => pret (Err (PComponentNotFound c)) | Some cd =>
      pbind (languages_of c i) (fun l => skip (mk_idetails l (cd_default cd))) end) st.
  Proof.
    unfold identifier_details. unfold pbind at 1. unfold pbind at 3. destruct (get_details E p st) as (st1 & [(cds & rd)|e| |]); try reflexivity. destruct (mget c cds); [|reflexivity].
    unfold languages_of, pbind. destruct (identifier_languages E p c i true st1) as (st2 & [l|e| |]); reflexivity.
  Qed.
End Blind.

Section Known.
  Variable E : penv.
  Variable p : sprovider.
  Hypothesis Hp : provider_ok p.
  (** The details of the files with this content. *)
  Definition built (w : contents) : pout (amap cdetails * rdetails) := value (build_details E (files_at w p)).
  Definition inv (k : option contents) (st : pstate) : Prop := queries_ok (ps_queries st) /\
    match k with None => ps_details st = None | Some v => exists d, ps_details st = Some d /\ built v = Ok d end.
  Lemma ok_at w q : queries_ok q -> state_ok E (files_at w p) (mk_pstate q None).
  Proof. intros H. split; [exact H|]. intros x Hx. discriminate Hx. Qed.

  (** Lookups *)
  Lemma step_lookup k w x st : (exists l, lookup_of x = Some l) -> inv k st ->
    snd (pcall_run E (files_at w p) x st) = anew E p w x /\ inv k (fst (pcall_run E (files_at w p) x st)).
  Proof.
    intros Hx (Hq & Hk). destruct st as (q & o). cbn [ps_queries ps_details] in *. rewrite (blind_lookup E (files_at w p) x Hx q o). cbn [fst snd].
    destruct (call_steady E (files_at w p) (at_ok p w Hp) x _ (ok_at w q Hq)) as (H1 & H2 & _). split; [exact H1|]. split; [exact H2|exact Hk].
  Qed.

  (** Details *)
  Definition overview (x : pcall) (d : amap cdetails * rdetails) : pout panswer :=
    match x with
    | CallComponent c => match mget c (fst d) with None => Err (PComponentNotFound c) | Some cd => Ok (AnComponent cd) end
    | _ => Ok (AnRepository (snd d))
    end.
  Definition is_overview (x : pcall) : Prop := match x with CallComponent _ | CallRepository => True | _ => False end.
  Lemma overview_run P x st : is_overview x -> pcall_run E P x st = pbind (get_details E P) (fun d => pret (overview x d)) st.
  Proof.
    intros Hx. destruct x; try contradiction; cbn [pcall_run overview].
    - unfold component_details, pbind. destruct (get_details E P st) as (s1 & [(cds & rd)|e| |]); try reflexivity. cbn [fst]. destruct (mget component cds); reflexivity.
    - unfold repository_details, pbind. destruct (get_details E P st) as (s1 & [(cds & rd)|e| |]); reflexivity.
  Qed.
  Lemma anew_overview w x : is_overview x -> anew E p w x = bind (built w) (overview x).
  Proof.
    intros Hx. unfold anew, result, prun. cbn [fold_left]. rewrite (overview_run _ _ _ Hx). unfold pbind, built. rewrite <- get_details_value. unfold value.
    destruct (get_details E (files_at w p) pstate_new) as (s1 & [d|e| |]); reflexivity.
  Qed.
  Lemma anew_details w : (exists a, anew E p w CallRepository = Ok a) <-> exists d, built w = Ok d.
  Proof.
    rewrite (anew_overview w CallRepository Logic.I). destruct (built w) as [d|e| |]; cbn; split; intros (a & H); try discriminate; eauto.
  Qed.
  (** What is known after details were asked for. *)
  Definition learnt (k : option contents) (w : contents) : option contents :=
    match k with Some v => Some v | None => match built w with Ok _ => Some w | _ => None end end.
  Lemma step_details k w st : inv k st ->
    snd (get_details E (files_at w p) st) = built (or_now k w) /\ inv (learnt k w) (fst (get_details E (files_at w p) st)).
  Proof.
    intros (Hq & Hk). destruct k as [v|]; cbn [or_now learnt].
    - destruct Hk as (d & Hd & Hb). unfold get_details. rewrite Hd. cbn [fst snd]. split; [now rewrite Hb|]. split; [exact Hq|]. now exists d.
    - unfold get_details. rewrite Hk. assert (Hs : state_ok E (files_at w p) st) by (split; [exact Hq|intros x Hx; congruence]).
      destruct (build_details_steady E (files_at w p) (at_ok p w Hp) st Hs) as (H1 & H2 & H3). unfold built. rewrite <- H1.
      assert (Hn : ps_details (fst (build_details E (files_at w p) st)) = ps_details st).
      { destruct st as (q & o). rewrite (blind_build E (files_at w p) q o). reflexivity. }
      destruct (build_details E (files_at w p) st) as (st1 & [d|e| |]); cbn [fst snd] in *; (split; [reflexivity|]); (split; [exact H2|]); try congruence.
      cbn [ps_details]. exists d. split; [reflexivity|]. first [exact (eq_sym H1) | reflexivity].
  Qed.
  Lemma learnt_since k w x : ~ (exists l, lookup_of x = Some l) -> since E p k (w, x) = learnt k w.
  Proof.
    intros Hx. unfold since, learnt. cbn [fst snd]. destruct k as [v|]; [reflexivity|].
    pose proof (anew_details w) as Ha. destruct x; try (exfalso; apply Hx; eexists; reflexivity);
      (destruct (anew E p w CallRepository) as [a|e| |], (built w) as [d|e'| |]; try reflexivity;
       first [ destruct (proj1 Ha (ex_intro _ _ eq_refl)) as (z & Hz); discriminate Hz | destruct (proj2 Ha (ex_intro _ _ eq_refl)) as (z & Hz); discriminate Hz ]).
  Qed.
  Lemma since_lookup k w x : (exists l, lookup_of x = Some l) -> since E p k (w, x) = k.
  Proof. intros (l & Hl). destruct k; [reflexivity|]. destruct x; try discriminate Hl; reflexivity. Qed.

  Lemma step_overview k w x st : is_overview x -> inv k st ->
    snd (pcall_run E (files_at w p) x st) = anew E p (or_now k w) x /\ inv (learnt k w) (fst (pcall_run E (files_at w p) x st)).
  Proof.
    intros Hx Hi. rewrite (anew_overview _ _ Hx), (overview_run _ _ _ Hx). destruct (step_details k w st Hi) as (H1 & H2). unfold pbind. rewrite <- H1.
    destruct (get_details E (files_at w p) st) as (s1 & [d|e| |]); (split; [reflexivity|exact H2]).
  Qed.

  (** The languages of an identifier depend on the strings only. *)
  Lemma languages_at w c i q o : queries_ok q -> exists q', languages_of E (files_at w p) c i (mk_pstate q o) = (mk_pstate q' o, value (languages_of E (files_at w p) c i)) /\ queries_ok q'.
  Proof.
    intros Hq. rewrite (blind_languages_of E (files_at w p) c i q o).
    assert (Hs : steady E (files_at w p) (languages_of E (files_at w p) c i)).
    { unfold languages_of. apply steady_bind; [apply identifier_languages_steady; now apply at_ok|]. intros [|y ys] _; [apply identifier_languages_steady; now apply at_ok|apply steady_ret]. }
    destruct (Hs _ (ok_at w q Hq)) as (H1 & H2 & _). rewrite H1. eauto.
  Qed.
  Lemma select_strings f d d' ps : db_pattern d = db_pattern d' -> select E f d SqlIdentifier ps = select E f d' SqlIdentifier ps.
  Proof. intros Hd. unfold select. rewrite Hd. reflexivity. Qed.
  Lemma identifier_strings w u c i all : (forall f, db_pattern (u f) = db_pattern (w f)) ->
    value (identifier_languages E (files_at u p) c i all) = value (identifier_languages E (files_at w p) c i all).
  Proof.
    intros Hu. rewrite !(identifier_languages_value E _ (at_ok p _ Hp)). unfold on_connection, connection. rewrite !mget_at. cbn [files_at sp_components].
    destruct (mget c (sp_components p)) as [fs|]; [|reflexivity]. destruct (all && fst fs); [|destruct (snd fs); [|reflexivity]].
    - destruct (mget aio (sp_connections p)) as [(d & v)|]; [|reflexivity]. cbn [bind]. now rewrite (select_strings aio (u aio) (w aio) _ (Hu aio)).
    - destruct (mget c (sp_connections p)) as [(d & v)|]; [|reflexivity]. cbn [bind]. now rewrite (select_strings c (u c) (w c) _ (Hu c)).
  Qed.
  Lemma languages_strings w u c i : (forall f, db_pattern (u f) = db_pattern (w f)) ->
    value (languages_of E (files_at u p) c i) = value (languages_of E (files_at w p) c i).
  Proof.
    intros Hu. unfold languages_of.
    assert (Hs : forall v a, steady E (files_at v p) (match a with [] => identifier_languages E (files_at v p) c i false | _ => skip a end)).
    { intros v [|y ys]; [apply identifier_languages_steady; now apply at_ok|apply steady_ret]. }
    pose proof (fun v => identifier_languages_steady E (files_at v p) (at_ok p v Hp) c i true) as Hi.
    rewrite (value_bind E (files_at u p) _ _ (Hi u) (fun a _ => Hs u a)), (value_bind E (files_at w p) _ _ (Hi w) (fun a _ => Hs w a)).
    rewrite (identifier_strings w u c i true Hu). destruct (value (identifier_languages E (files_at w p) c i true)) as [[|y ys]|e| |]; cbn [bind]; try reflexivity.
    now apply identifier_strings.
  Qed.
  Definition about (c i : ustr) (w : contents) (d : amap cdetails * rdetails) : pout panswer :=
    match mget c (fst d) with
    | None => Err (PComponentNotFound c)
    | Some cd => bind (value (languages_of E (files_at w p) c i)) (fun l => Ok (AnIdentifier (mk_idetails l (cd_default cd))))
    end.
  Lemma step_identifier k w c i st : inv k st ->
    snd (pcall_run E (files_at w p) (CallIdentifier c i) st) = bind (built (or_now k w)) (about c i w) /\
    inv (learnt k w) (fst (pcall_run E (files_at w p) (CallIdentifier c i) st)).
  Proof.
    intros Hi. cbn [pcall_run]. destruct (step_details k w st Hi) as (H1 & H2).
    assert (He : pbind (identifier_details E (files_at w p) c i) (fun d => skip (AnIdentifier d)) st =
      pbind (get_details E (files_at w p)) (fun d => match mget c (fst d) with None => pret (Err (PComponentNotFound c)) | Some cd =>
        pbind (languages_of E (files_at w p) c i) (fun l => skip (AnIdentifier (mk_idetails l (cd_default cd)))) end) st).
    { unfold pbind at 1. rewrite identifier_split. unfold pbind at 1 3. destruct (get_details E (files_at w p) st) as (s1 & [(cds & rd)|e| |]); try reflexivity. cbn [fst].
      destruct (mget c cds); [|reflexivity]. unfold pbind. destruct (languages_of E (files_at w p) c i s1) as (s2 & [l|e| |]); reflexivity. }
    rewrite He. clear He. unfold pbind at 1 3.
    rewrite <- H1. destruct (get_details E (files_at w p) st) as (s1 & [(cds & rd)|e| |]); cbn [fst snd bind] in *; try (split; [reflexivity|exact H2]).
    unfold about. cbn [fst]. destruct (mget c cds) as [cd|]; [|split; [reflexivity|exact H2]]. destruct s1 as (q & o). destruct H2 as (Hq & Hk). cbn [ps_queries ps_details] in *.
    destruct (languages_at w c i q o Hq) as (q' & Hl & Hq'). unfold pbind. rewrite Hl.
    destruct (value (languages_of E (files_at w p) c i)) as [l|e| |]; cbn [fst snd bind]; (split; [reflexivity|]); (split; [exact Hq'|exact Hk]).
  Qed.
  Lemma anew_identifier w c i : anew E p w (CallIdentifier c i) = bind (built w) (about c i w).
  Proof.
    unfold anew, result, prun. cbn [fold_left]. apply (step_identifier None w c i pstate_new). split; [intros key q H; discriminate H|reflexivity].
  Qed.

  Theorem step_expected k w x st : inv k st -> expected E p k w x (snd (pcall_run E (files_at w p) x st)) /\
    inv (since E p k (w, x)) (fst (pcall_run E (files_at w p) x st)).
  Proof.
    intros Hi. destruct x as [c i t|c i t|c i t|c i|c|].
    1-3: rewrite since_lookup by (eexists; reflexivity); apply step_lookup; [eexists; reflexivity|exact Hi].
    all: rewrite learnt_since by (intros (l & Hl); discriminate Hl).
    - destruct (step_identifier k w c i st Hi) as (H1 & H2). split; [|exact H2]. rewrite H1. cbn [expected]. destruct k as [v|]; [|symmetry; apply anew_identifier].
      cbn [or_now]. rewrite (anew_overview v (CallComponent c) Logic.I). destruct Hi as (_ & d & _ & Hb). rewrite Hb. cbn [bind overview]. unfold about.
      destruct (mget c (fst d)) as [cd|]; [|reflexivity]. intros u Hu (a & Ha). rewrite anew_identifier. rewrite (anew_overview u (CallComponent c) Logic.I) in Ha.
      destruct (built u) as [du|e| |]; try discriminate Ha. cbn [bind overview] in *. unfold about. destruct (mget c (fst du)) as [cdu|]; [|discriminate Ha].
      rewrite (languages_strings w u c i Hu). destruct (value (languages_of E (files_at w p) c i)); reflexivity.
    - now apply step_overview.
    - now apply step_overview.
  Qed.

  Variable D : database.
  Theorem run_expected h : forall k s, inv k (snd s) -> sees E D p s h -> inv (fold_left (since E p) h k) (snd (q_prun E D p s (map snd h))).
  Proof.
    induction h as [|(w & x) h IH]; intros k s Hi Hs; [exact Hi|]. destruct Hs as (Hx & Hs). pose proof (call_at E p D w x s Hx) as Hc.
    destruct (step_expected k w x (snd s) Hi) as (_ & H2). rewrite <- Hc in H2. exact (IH _ _ H2 Hs).
  Qed.
  Lemma sees_app h h' : forall s, sees E D p s (h ++ h') <-> sees E D p s h /\ sees E D p (q_prun E D p s (map snd h)) h'.
  Proof. induction h as [|(w & x) h IH]; intros s; cbn; [tauto|]. rewrite IH. unfold q_prun. tauto. Qed.
  Theorem history_expected h w x : sees E D p qstate_new (h ++ [(w, x)]) ->
    expected E p (known_of E p h) w x (snd (q_pcall E D p x (q_prun E D p qstate_new (map snd h)))).
  Proof.
    intros H. apply sees_app in H as (H1 & H2 & _). assert (Hi : inv None (snd qstate_new)) by (split; [intros key q H; discriminate H|reflexivity]).
    pose proof (run_expected h None qstate_new Hi H1) as Hr. destruct (step_expected _ w x _ Hr) as (H3 & _). rewrite <- (call_at E p D w x _ H2) in H3. exact H3.
  Qed.
End Known.
