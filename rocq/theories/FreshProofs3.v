(** Proofs for C112: the localiser. *)
From Verif Require Import Base BaseFacts ValueModel CommandModel FormatterModel LocaliserModel RegistryModel CallsModel LocCallsModel ProviderModel ProviderSpec ProviderProofs
  ProviderProofs2 QueryModel QuerySpec QueryProofs CallsProofs2 LocCallsProofs2 AskModel AskSpec AskProofs2 SystemModel FreshSpec FreshProofs FreshProofs2.

Section Track.
  Variables (E : penv) (p : sprovider) (D : database) (w : contents) (L : lenv perror).
  Notation reg := (without_effects (W := qstate) (le_reg L)).
  Notation P := (query_provider E D p).
  Notation P' := (query_provider E (fixed_at E w) (files_at w p)).
  Notation tracks := (tracks E D w).
  Lemma tracks_here {T} (x : T) : tracks (fun s => (s, x)) (fun s => (s, x)).
  Proof. intros s. exists []. split; [now rewrite app_nil_r|reflexivity]. Qed.
  Lemma tracks_then {T U} (m m' : qstate -> qstate * T) (f f' : T -> qstate -> qstate * U) : tracks m m' -> (forall a, tracks (f a) (f' a)) ->
    tracks (fun s => let (s1, a) := m s in f a s1) (fun s => let (s1, a) := m' s in f' a s1).
  Proof.
    intros Hm Hf s. destruct (Hm s) as (q1 & H1 & K1). destruct (m s) as (s1 & a) eqn:Em; cbn [fst] in H1.
    destruct (Hf a s1) as (q2 & H2 & K2). exists (q1 ++ q2). split; [rewrite H2, H1; now rewrite app_assoc|]. intros H. apply content_app in H as (Ha & Hb).
    rewrite (K1 Ha). apply K2. now rewrite H1.
  Qed.
  Lemma tracks_ext {T} (m n m' n' : qstate -> qstate * T) : (forall s, m s = n s) -> (forall s, m' s = n' s) -> tracks m m' -> tracks n n'.
  Proof. intros H1 H2 H s. rewrite <- H1, <- H2. apply H. Qed.
  Lemma tracks_string c i t : tracks (wp_string P c i t) (wp_string P' c i t).
  Proof.
    cbn [query_provider wp_string]. destruct (pe_canon E t) as [t'|]; [|apply tracks_here]. destruct (ueqb t t'); [|apply tracks_here]. apply tracks_one_string.
  Qed.
  Lemma tracks_default c : tracks (wp_default P c) (wp_default P' c).
  Proof.
    cbn [query_provider wp_default]. apply tracks_then with (f := fun x s => (s, let! cd := x in Ok (cd_default cd))) (f' := fun x s => (s, let! cd := x in Ok (cd_default cd)));
      [|intros; apply tracks_here].
    unfold q_component_details. apply tracks_bind; [apply tracks_get_details|]. intros (cds & rd). destruct (mget c cds); apply tracks_ret.
  Qed.
  Lemma tracks_find c i t fb : tracks (xfind_string P c i t fb) (xfind_string P' c i t fb).
  Proof.
    intros s. unfold xfind_string. destruct (tracks_string c i t s) as (q1 & H1 & K1). destruct (wp_string P c i t s) as (s1 & o) eqn:E1. cbn [fst] in H1.
    destruct o as [[r|]|e| |]; try (exists q1; split; [exact H1|]; intros H; now rewrite (K1 H)).
    destruct (negb fb); [exists q1; split; [exact H1|]; intros H; now rewrite (K1 H)|].
    destruct (tracks_default c s1) as (q2 & H2 & K2). destruct (wp_default P c s1) as (s2 & o2) eqn:E2. cbn [fst] in H2.
    destruct o2 as [d|e| |]; try (exists (q1 ++ q2); split; [cbn [fst]; rewrite H2, H1; now rewrite app_assoc|]; intros H; apply content_app in H as (Ha & Hb); rewrite (K1 Ha);
      rewrite H1 in K2; now rewrite (K2 Hb)).
    destruct (tracks_string c i d s2) as (q3 & H3 & K3). destruct (wp_string P c i d s2) as (s3 & o3) eqn:E3. cbn [fst] in H3. exists (q1 ++ q2 ++ q3). split.
    - assert (Hq : fst s3 = fst s ++ q1 ++ q2 ++ q3) by (rewrite H3, H2, H1; now rewrite <- !app_assoc). destruct o3 as [[r|]|e| |]; exact Hq.
    - intros H. apply content_app in H as (Ha & H). apply content_app in H as (Hb & Hc). rewrite (K1 Ha). rewrite <- H1 in Hb, Hc. rewrite (K2 Hb). rewrite <- H2 in Hc.
      now rewrite (K3 Hc).
  Qed.
  Lemma tracks_literal st c i t fb ca : tracks (xactual_literal P st c i t fb ca) (xactual_literal P' st c i t fb ca).
  Proof.
    unfold xactual_literal. destruct (cached st t (combined c i)) as [[x t'|fm]|]; try apply tracks_here.
    set (f := fun (r : lout (PE := perror) (ustr * ustr)) (s1 : qstate) => (s1, match r with
      | Ok (x, t') => return_string st (mhas t (ls_cache st)) ca (combined c i) x t'
      | Err e => (st, Err e) | Panic => (st, Panic) | NoFuel => (st, NoFuel) end)).
    apply (tracks_ext (fun s => let (s1, r) := xfind_string P c i t fb s in f r s1) _ (fun s => let (s1, r) := xfind_string P' c i t fb s in f r s1) _).
    - intros s. destruct (xfind_string P c i t fb s) as (s1 & [(x & t')|e| |]); reflexivity.
    - intros s. destruct (xfind_string P' c i t fb s) as (s1 & [(x & t')|e| |]); reflexivity.
    - apply tracks_then; [apply tracks_find|]. intros a. apply tracks_here.
  Qed.
  Definition formatted (st : lstate) (c i : ustr) (vals : amap pvalue) (t : ustr) (ca : bool) (r : lout (PE := perror) (ustr * ustr)) : lstate * lout (PE := perror) (ustr * ustr) :=
    match r with
    | Ok (x, t') =>
        match x with
        | [] => return_string st (mhas t (ls_cache st)) ca (combined c i) x t'
        | _ :: _ => match formatter_try_new (le_icu L) localiser_grammar (le_fmt L) (le_reg L) t' (le_locale L t') x with
                    | Err FNoGrammar => return_string st (mhas t (ls_cache st)) ca (combined c i) x t'
                    | Err e => (st, Err (LFormatter e))
                    | Panic => (st, Panic)
                    | NoFuel => (st, NoFuel)
                    | Ok fm => let '(fm', r) := run_formatter L fm vals in (if ca then put_formatter st t (combined c i) fm' else st, r)
                    end
        end
    | Err e => (st, Err e)
    | Panic => (st, Panic)
    | NoFuel => (st, NoFuel)
    end.
  Lemma tracks_format st c i vals t fb ca : tracks (xactual_format L reg P st c i vals t fb ca) (xactual_format L reg P' st c i vals t fb ca).
  Proof.
    destruct (cached st t (combined c i)) as [[x t'|fm]|] eqn:Ec.
    - intros s. exists []. unfold xactual_format. rewrite Ec. split; [now rewrite app_nil_r|reflexivity].
    - intros s. exists []. unfold xactual_format. rewrite Ec, run_without. destruct (run_formatter L fm vals). split; [now rewrite app_nil_r|reflexivity].
    - assert (He : forall Q s, xactual_format L reg Q st c i vals t fb ca s = let (s1, r) := xfind_string Q c i t fb s in (s1, formatted st c i vals t ca r)).
      { intros Q s. unfold xactual_format. rewrite Ec. destruct (xfind_string Q c i t fb s) as (s1 & [(x & t')|e| |]); try reflexivity. cbn [formatted]. destruct x as [|y x]; [reflexivity|].
        rewrite build_without. destruct (formatter_try_new _ _ _ _ _ _ _) as [fm|e| |]; try reflexivity; [|now destruct e]. rewrite run_without. now destruct (run_formatter L fm vals). }
      apply (tracks_ext (fun s => let (s1, r) := xfind_string P c i t fb s in (s1, formatted st c i vals t ca r)) _ (fun s => let (s1, r) := xfind_string P' c i t fb s in (s1, formatted st c i vals t ca r)) _);
        [intros s; now rewrite He|intros s; now rewrite He|].
      apply tracks_then with (f := fun r s1 => (s1, formatted st c i vals t ca r)) (f' := fun r s1 => (s1, formatted st c i vals t ca r)); [apply tracks_find|]. intros a. apply tracks_here.
  Qed.
  Lemma tracks_data t fb ca : forall d st, tracks (xactual_format_data L reg P d t fb ca st) (xactual_format_data L reg P' d t fb ca st).
  Proof.
    fix IH 1. intros [c i [vs|]] st; [|apply tracks_literal]. cbn [xactual_format_data]. revert st. generalize (@nil (ustr * pvalue)).
    induction vs as [|[ph v] vs IHvs]; intros new st; [apply tracks_format|]. destruct v; try apply IHvs. intros s. destruct (IH d st s) as (q1 & H1 & K1).
    destruct (xactual_format_data L reg P d t fb ca st s) as (s1 & st1 & [(x & t')|e| |]) eqn:E1; cbn [fst] in H1;
      try (exists q1; split; [exact H1|]; intros H; now rewrite (K1 H)).
    destruct (IHvs (minsert ph (VLocalised x t') new) st1 s1) as (q2 & H2 & K2). exists (q1 ++ q2). split; [etransitivity; [exact H2|]; rewrite H1; now rewrite <- app_assoc|].
    intros H. apply content_app in H as (Ha & Hb). rewrite (K1 Ha). apply K2. now rewrite H1.
  Qed.
  Theorem tracks_step st x : tracks (xlstep L reg P st x) (xlstep L reg P' st x).
  Proof.
    assert (Hs : forall m m' : qstate -> wlout (PE := perror) (W := qstate), tracks m m' ->
      tracks (fun s => (fst (m s), (fst (snd (m s)), Some (snd (snd (m s)))))) (fun s => (fst (m' s), (fst (snd (m' s)), Some (snd (snd (m' s))))))).
    { intros m m' H s. destruct (H s) as (qs & H1 & H2). exists qs. split; [exact H1|]. intros Hc. now rewrite (H2 Hc). }
    destruct x; cbn [xlstep]; [apply Hs, tracks_format|apply Hs, tracks_format|apply Hs, tracks_literal|apply Hs, tracks_literal|apply Hs, tracks_data|apply Hs, tracks_data|apply tracks_here].
  Qed.
End Track.

Section Times.
  Variables (E : penv) (p : sprovider) (L : lenv perror).
  Hypothesis Hp : provider_ok p.
  (** What is known has one default language. *)
  Definition knows (k : option contents) (w : contents) (s : qstate) : Prop := exists k', inv E p k' (snd s) /\ (k' = k \/ (k = None /\ k' = Some w)).
  Lemma knows_now k w k' : k' = k \/ (k = None /\ k' = Some w) -> or_now k' w = or_now k w.
  Proof. intros [->|(-> & ->)]; reflexivity. Qed.
  Lemma learnt_knows k w k' : k' = k \/ (k = None /\ k' = Some w) -> learnt E p k' w = k \/ (k = None /\ learnt E p k' w = Some w).
  Proof. intros [->|(-> & ->)]; [|right; split; reflexivity]. destruct k as [v|]; [now left|]. cbn [learnt]. destruct (built E p w); auto. Qed.
  Lemma times_answer k w : answers_as (query_provider E (fixed_at E w) (files_at w p)) (knows k w) (two_times E p (or_now k w) w).
  Proof.
    pose proof (fixed_reads E p w) as HD. split.
    - intros c i t s (k' & Hi & Hk). cbn [query_provider two_times sqlite_provider wp_string pv_string]. destruct (pe_canon E t) as [t'|]; [|split; [now exists k'|reflexivity]].
      destruct (ueqb t t'); [|split; [now exists k'|reflexivity]].
      pose proof (erases_call E (files_at w p) _ HD (CallString c i t) s) as He. destruct (step_lookup E p Hp k' w (CallString c i t) (snd s)) as (H1 & H2); [now eexists|exact Hi|].
      rewrite <- He in H1, H2. cbn [fst snd] in H1, H2. unfold anew, result, prun in H1. cbn [fold_left] in H1. cbn [q_pcall pcall_run] in H1, H2. unfold qbind, pbind, string_ in *.
      destruct (q_one_string E _ _ false c i t s) as (s' & [o|e| |]); destruct (one_string E (files_at w p) false c i t pstate_new) as (s1 & [o'|e'| |]); cbn in *; try discriminate;
        (split; [now exists k'|]); try reflexivity; now injection H1 as <-.
    - intros c s (k' & Hi & Hk). cbn [query_provider two_times sqlite_provider wp_default pv_default].
      pose proof (erases_call E (files_at w p) _ HD (CallComponent c) s) as He. destruct (step_overview E p Hp k' w (CallComponent c) (snd s)) as (H1 & H2); [exact Logic.I|exact Hi|].
      rewrite (knows_now k w k' Hk) in H1. pose proof (learnt_knows k w k' Hk) as Hl.
      rewrite <- He in H1, H2. cbn [fst snd] in H1, H2. unfold anew, result, prun in H1. cbn [fold_left] in H1. cbn [q_pcall pcall_run] in H1, H2. unfold qbind, pbind in *.
      destruct (q_component_details E _ _ c s) as (s' & [o|e| |]); destruct (component_details E (files_at (or_now k w) p) c pstate_new) as (s1 & [o'|e'| |]); cbn in *; try discriminate;
        (split; [now exists (learnt E p k' w)|]); try reflexivity; now injection H1 as <-.
  Qed.
  Lemma over_step (P : wprovider perror qstate) pv st x s : xlstep (over L pv) (without_effects (le_reg (over L pv))) P st x s = xlstep L (without_effects (le_reg L)) P st x s.
  Proof. reflexivity. Qed.
  Variable D : database.
  Lemma step_times k w st x s : inv E p k (snd s) ->
    let y := xlstep L (without_effects (le_reg L)) (query_provider E D p) st x s in
    (exists qs, fst (fst y) = fst s ++ qs /\ from_content E D w (fst s) qs) ->
    snd y = lstep (over L (two_times E p (or_now k w) w)) st x /\ knows k w (fst y).
  Proof.
    intros Hi y (qs & H1 & H2). destruct (tracks_step E p D w L st x s) as (qs' & H3 & H4). fold y in H3. rewrite H1 in H3. apply app_inv_head in H3 as <-. specialize (H4 H2).
    destruct (step_fixed (over L (two_times E p (or_now k w) w)) _ _ (times_answer k w) st x s) as (s' & H5 & H6); [exists k; auto|]. rewrite over_step in H5. rewrite H4 in H5.
    unfold y. rewrite H5. split; [reflexivity|exact H6].
  Qed.
  Theorem run_times h : forall k s st rs, inv E p k (snd s) -> lsees E D p L s st h rs -> in_time E p L k st h rs.
  Proof.
    induction h as [|(w & x) h IH]; intros k s st [|r rs] Hi Hs; try contradiction; [constructor|]. destruct Hs as (H1 & -> & H2).
    destruct (step_times k w st x s Hi H1) as (H3 & k' & H4 & H5). rewrite H3 in *. apply it_call with k'; [exact H5|]. exact (IH k' _ _ _ H4 H2).
  Qed.
End Times.

(** ** Without caching *)
Section Without.
  Variables (E : penv) (p : sprovider) (L : lenv perror).
  Lemma step_same pv pv' st x : (forall c i t, pv_string pv c i t = pv_string pv' c i t) -> (forall c, pv_default pv c = pv_default pv' c) ->
    lstep (over L pv) st x = lstep (over L pv') st x.
  Proof.
    intros H1 H2.
    assert (Ha : answers_as (effectless (W := unit) pv) (fun _ => True) (le_provider (over L pv))) by (split; intros; split; reflexivity).
    assert (Hb : answers_as (effectless (W := unit) pv) (fun _ => True) (le_provider (over L pv'))) by (split; intros; split; try reflexivity; [apply H1|apply H2]).
    destruct (step_fixed _ _ _ Ha st x tt Logic.I) as (u & Hu & _). destruct (step_fixed _ _ _ Hb st x tt Logic.I) as (u' & Hu' & _).
    change (xlstep (over L pv') (without_effects (le_reg (over L pv'))) (effectless pv) st x tt) with (xlstep (over L pv) (without_effects (le_reg (over L pv))) (effectless pv) st x tt) in Hu'.
    rewrite Hu in Hu'. now injection Hu'.
  Qed.
  Lemma step_settings pv st x : forgetful st -> no_caching x -> fst (lstep (over L pv) st x) = settings_after L st x.
  Proof.
    intros Hs Hx.
    assert (Ha : answers_as (effectless (W := unit) pv) (fun _ => True) (le_provider (over L pv))) by (split; intros; split; reflexivity).
    destruct (step_fixed _ _ _ Ha st x tt Logic.I) as (u & Hu & _). apply (f_equal (fun y => fst (snd y))) in Hu. cbn [fst snd] in Hu. rewrite <- Hu. clear Hu u.
    pose proof Hs as (_ & Hca). assert (Hc : forall ca, ca <> Some true -> unwrap_or ca (ls_caching st) = false) by (intros [[|]|] H; try reflexivity; [congruence|exact Hca]).
    destruct x; cbn [xlstep settings_after no_caching] in *; cbn [fst snd]; try rewrite (Hc _ Hx); try rewrite Hca.
    - now apply format_forgetful.
    - now apply format_forgetful.
    - now apply literal_forgetful.
    - now apply literal_forgetful.
    - now apply data_forgetful.
    - now apply data_forgetful.
    - reflexivity.
  Qed.
  Lemma settings_forgetful st x : forgetful st -> no_caching x -> forgetful (settings_after L st x).
  Proof. intros (H1 & H2) Hx. destruct x; try (split; assumption). split; [exact H1|]. cbn in *. destruct caching as [[|]|]; try reflexivity; [congruence|exact H2]. Qed.

  Lemma string_mk (f : ustr -> ustr -> ustr -> outcome perror (option (ustr * ustr))) g c i t : pv_string (mk_provider f g) c i t = f c i t.
  Proof. reflexivity. Qed.
  Lemma default_mk (f : ustr -> ustr -> ustr -> outcome perror (option (ustr * ustr))) g c : pv_default (mk_provider f g) c = g c.
  Proof. reflexivity. Qed.
  Variable Q : contents -> Prop.
  Hypothesis HQ : forall w w' c, Q w -> Q w' -> pv_default (sqlite_provider E (files_at w p)) c = pv_default (sqlite_provider E (files_at w' p)) c.
  Lemma now_same k w st x : (forall v, k = Some v -> Q v) -> Q w ->
    lstep (over L (two_times E p (or_now k w) w)) st x = lstep (over L (sqlite_provider E (files_at w p))) st x.
  Proof.
    intros Hv Hw. apply step_same; [intros c i t; unfold two_times; now rewrite string_mk|]. intros c. unfold two_times. rewrite default_mk.
    destruct k as [u|]; [|reflexivity]. apply HQ; [now apply Hv|exact Hw].
  Qed.
  Theorem texts_now k st h rs : in_time E p L k st h rs -> (forall w x, In (w, x) h -> no_caching x /\ Q w) -> (forall v, k = Some v -> Q v) -> forgetful st ->
    forall n w x, nth_error h n = Some (w, x) ->
    nth_error rs n = Some (snd (lstep (over L (sqlite_provider E (files_at w p))) (fold_left (settings_after L) (map snd (firstn n h)) st) x)).
  Proof.
    induction 1 as [k st|k k' st w x h rs Hk y H IH]; intros Hh Hv Hs n v z Hn; [destruct n; discriminate Hn|].
    destruct (Hh w x (or_introl eq_refl)) as (Hx & Hw). destruct n as [|n]; cbn [nth_error firstn map fold_left] in *.
    - injection Hn as <- <-. exact (f_equal (fun z => Some (snd z)) (now_same k w st x Hv Hw)).
    - unfold y in IH. rewrite (step_settings _ st x Hs Hx) in IH. cbn [snd]. apply IH; [intros; apply Hh; now right| |now apply settings_forgetful|exact Hn].
      intros u Hu. destruct Hk as [->|(_ & ->)]; [now apply Hv|]. injection Hu as <-. exact Hw.
  Qed.
End Without.
