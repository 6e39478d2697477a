(** Proofs about the sqlite3 provider: sums, identifier details, histories. *)
From Verif Require Import Base BaseFacts RegistryModel ProviderModel ProviderSpec ProviderProofs ProviderProofs2 ProviderProofs3 ProviderProofs4
  ProviderProofs5 ProviderProofs6.

Lemma In_mget {V} (m : amap V) k v : NoDup (mkeys m) -> In (k, v) m -> mget k m = Some v.
Proof.
  induction m as [|(k', v') m IH]; [intros _ []|]. cbn [mkeys map fst mget]. intros Hnd [H|H].
  - injection H as -> ->. rewrite ueqb_refl. reflexivity.
  - inversion Hnd as [|x l Hx Hl]; subst. destruct (ueqb_spec k k') as [->|_]; [|exact (IH Hl H)].
    exfalso; apply Hx. exact (in_map fst m (k', v) H).
Qed.
Lemma map_by_key {A B C} (f : ustr * A -> C) (g : ustr * B -> C) (L : list (ustr * A)) (m : list (ustr * B)) :
  map fst L = map fst m -> (forall c a b, In (c, a) L -> In (c, b) m -> f (c, a) = g (c, b)) -> map f L = map g m.
Proof.
  revert m; induction L as [|(c & a) L IH]; intros [|(c' & b) m] Hk Hf; cbn [map fst] in *; try discriminate; [reflexivity|].
  injection Hk as <- Hk. f_equal; [apply Hf; left; reflexivity|]. apply IH; [exact Hk|]. intros k x y Hx Hy. apply Hf; right; assumption.
Qed.
Lemma filter_absent (t : ustr) ls : ~ In t ls -> filter (ueqb t) ls = [].
Proof.
  induction ls as [|z ls IH]; [reflexivity|]. intros H. cbn [filter]. destruct (ueqb_spec t z) as [->|_]; [exfalso; apply H; left; reflexivity|].
  apply IH. intros Hi; apply H; right; exact Hi.
Qed.
Lemma filter_once (t : ustr) ls : NoDup ls -> In t ls -> filter (ueqb t) ls = [t].
Proof.
  induction ls as [|z ls IH]; [intros _ []|]. intros Hn Hi. inversion Hn as [|x l Hx Hl]; subst. cbn [filter].
  destruct (ueqb_spec t z) as [->|Hne]; [rewrite (filter_absent z ls Hx); reflexivity|].
  destruct Hi as [->|Hi]; [contradiction | exact (IH Hl Hi)].
Qed.

(** ** Sums *)
Lemma sumN_add {A} (f g : A -> N) l : sumN (map (fun x => (f x + g x)%N) l) = (sumN (map f l) + sumN (map g l))%N.
Proof. unfold sumN. induction l as [|x l IH]; cbn [map fold_right]; [reflexivity|]. rewrite IH. lia. Qed.
Lemma sumN_indicator (t : ustr) ls : NoDup ls -> In t ls -> sumN (map (fun x => if ueqb t x then 1%N else 0%N) ls) = 1%N.
Proof.
  assert (Hz : forall ls, ~ In t ls -> sumN (map (fun x => if ueqb t x then 1%N else 0%N) ls) = 0%N).
  { induction ls0 as [|z l IH]; [reflexivity|]. intros H. unfold sumN in *. cbn [map fold_right].
    destruct (ueqb_spec t z) as [->|_]; [exfalso; apply H; left; reflexivity|]. rewrite IH; [reflexivity|]. intros Hi; apply H; right; exact Hi. }
  induction ls as [|z ls IH]; [intros _ []|]. intros Hn Hi. inversion Hn as [|x l Hx Hl]; subst. unfold sumN in *. cbn [map fold_right].
  destruct (ueqb_spec t z) as [->|Hne]; [rewrite (Hz ls Hx); reflexivity|]. destruct Hi as [->|Hi]; [contradiction|]. rewrite (IH Hl Hi). reflexivity.
Qed.
Lemma stored_in_sum d c ls : NoDup ls -> (forall r, In r (db_pattern d) -> pr_component r = c -> In (pr_tag r) ls) ->
  sumN (map (stored_in d c) ls) = rows_in d c.
Proof.
  unfold stored_in, rows_in. intros Hn. generalize (db_pattern d). intros rows. induction rows as [|r rows IH]; intros Hr; cbn [filter].
  - cbn. clear. induction ls as [|z ls IH]; [reflexivity|]. unfold sumN in *. cbn [map fold_right]. rewrite IH. reflexivity.
  - assert (Hr' : forall r', In r' rows -> pr_component r' = c -> In (pr_tag r') ls) by (intros r' H; apply Hr; right; exact H).
    specialize (IH Hr'). destruct (ueqb_spec (pr_component r) c) as [Hc|Hc].
    + rewrite <- (sumN_indicator (pr_tag r) ls Hn (Hr r (or_introl eq_refl) Hc)) || idtac.
      cbn [List.length]. rewrite Nat2N.inj_succ, <- IH, <- N.add_1_l.
      rewrite <- (sumN_indicator (pr_tag r) ls Hn (Hr r (or_introl eq_refl) Hc)), <- sumN_add. f_equal. apply map_ext. intros t.
      destruct (ueqb (pr_tag r) t); cbn [andb List.length]; lia.
    + rewrite <- IH. f_equal. apply map_ext. intros t. rewrite andb_false_r. reflexivity.
Qed.

Lemma aio_db_in p c d : aio_db p c = Some d -> in_aio p c d.
Proof.
  unfold aio_db, in_aio. destruct (mget c (sp_components p)) as [([] & f)|]; try discriminate. destruct (mget aio (sp_connections p)) as [(d' & v)|]; [|discriminate].
  intros H; injection H as <-. eauto.
Qed.
Lemma own_db_in p c d : own_db p c = Some d -> in_own p c d.
Proof.
  unfold own_db, in_own. destruct (mget c (sp_components p)) as [(f & [])|]; try discriminate.
  destruct (mget c (sp_connections p)) as [(d' & v)|]; [|discriminate]. intros H; injection H as <-; eauto.
Qed.
Lemma stored_sum p c ls : NoDup ls -> (forall d r, source p c d -> In r (db_pattern d) -> pr_component r = c -> In (pr_tag r) ls) ->
  sumN (map (stored p c) ls) = rows_of p c.
Proof.
  intros Hn Hr. unfold stored, rows_of. rewrite sumN_add. f_equal.
  - destruct (aio_db p c) as [d|] eqn:Ed.
    + apply stored_in_sum; [exact Hn|]. intros r. apply Hr. left. apply aio_db_in. exact Ed.
    + clear. induction ls as [|z ls IH]; [reflexivity|]. unfold sumN in *. cbn [map fold_right]. rewrite IH. reflexivity.
  - destruct (own_db p c) as [d|] eqn:Ed.
    + apply stored_in_sum; [exact Hn|]. intros r. apply Hr. right. apply own_db_in. exact Ed.
    + clear. induction ls as [|z ls IH]; [reflexivity|]. unfold sumN in *. cbn [map fold_right]. rewrite IH. reflexivity.
Qed.

Section Final.
  Variable E : penv.
  Variable p : sprovider.
  Hypothesis Hp : provider_ok p.
  Hypothesis Ho : order_ok E.

  Lemma component_sum c fa ls cd : component_right E p c fa ls cd -> NoDup ls ->
    cd_total cd = sumN (map (fun x => lg_count (snd x)) (cd_languages cd)).
  Proof.
    intros [C1 C2 C3 C4 C5 C6 C7 C8] Hn. rewrite C8.
    assert (Hm : map (fun x => lg_count (snd x)) (cd_languages cd) = map (stored p c) (mkeys (cd_languages cd))).
    { unfold mkeys. rewrite map_map. apply map_ext_in. intros (t & x) Hi. cbn [fst snd]. apply (In_mget _ _ _ C4) in Hi. apply (C5 t x Hi). }
    rewrite Hm. apply sumN_perm, Permutation_map, NoDup_Permutation; [exact Hn | exact C4|]. intros t. rewrite C1, C3. reflexivity.
  Qed.

  (** Details, in terms of values. *)
  Lemma details_value acc : value (build_details E p) = Ok acc -> exists L, details_right E p L (fst acc) (snd acc).
  Proof. apply (build_details_post E p Hp Ho). Qed.
  Lemma component_details_value c cd : value (component_details E p c) = Ok cd ->
    exists L cds rd, value (build_details E p) = Ok (cds, rd) /\ details_right E p L cds rd /\ mget c cds = Some cd.
  Proof.
    unfold component_details. rewrite (value_bind E p).
    - rewrite get_details_value. intros H. apply bind_Ok in H. destruct H as ((cds & rd) & Hv & H).
      destruct (details_value _ Hv) as (L & HL). exists L, cds, rd. split; [exact Hv|]. split; [exact HL|].
      destruct (mget c cds) as [cd'|]; [|discriminate H]. injection H as <-. reflexivity.
    - apply get_details_steady; exact Hp.
    - intros (cds & rd) _. destruct (mget c cds); apply steady_ret.
  Qed.
  Lemma repository_details_value rd : value (repository_details E p) = Ok rd ->
    exists L cds, value (build_details E p) = Ok (cds, rd) /\ details_right E p L cds rd.
  Proof.
    unfold repository_details. rewrite (value_bind E p).
    - rewrite get_details_value. intros H. apply bind_Ok in H. destruct H as ((cds & rd') & Hv & H). injection H as <-.
      destruct (details_value _ Hv) as (L & HL). exists L, cds. split; [exact Hv | exact HL].
    - apply get_details_steady; exact Hp.
    - intros (cds & rd') _. apply steady_ret.
  Qed.
  Lemma component_details_right c cd : value (component_details E p c) = Ok cd -> exists fa fo ls,
    mget c (sp_components p) = Some (fa, fo) /\ component_right E p c fa ls cd.
  Proof.
    intros H. destruct (component_details_value c cd H) as (L & cds & rd & _ & [[R1 R2 R3 R4 R5 R6 R7 R8 R9 R10] D2 D3] & Hcd).
    assert (Hk : In c (map fst L)) by (rewrite <- R1; apply mget_keys; eauto).
    apply in_map_iff in Hk. destruct Hk as ((c' & ls) & Hc & Hin). cbn [fst] in Hc. subst c'.
    destruct (R2 c ls Hin) as (cd' & Hcd' & fa & fo & Hc & Hr). assert (cd' = cd) by congruence. subst cd'. exists fa, fo, ls. auto.
  Qed.

  Lemma cds_keys L cds rd : details_right E p L cds rd -> mkeys cds = mkeys (sp_components p) /\ NoDup (mkeys cds).
  Proof. intros [[R1 _ _ _ _ _ _ _ _ _] D2 _]. rewrite R1, D2. split; [reflexivity | exact (proj1 Hp)]. Qed.

  (** The count of a language in the repository is the sum of those in the components. *)
  Lemma repository_count L cds rd t x : details_right E p L cds rd -> (forall c, known p c -> one_spelling E p c) ->
    mget t (rd_languages rd) = Some x ->
    lg_count x = sumN (map (fun y => match mget t (cd_languages (snd y)) with Some z => lg_count z | None => 0%N end) cds).
  Proof.
    intros HD Hone Hx. pose proof (cds_keys L cds rd HD) as (Hk & Hnd). destruct HD as [[R1 R2 R3 R4 R5 R6 R7 R8 R9 R10] D2 D3].
    rewrite (proj1 (R5 t x Hx)). f_equal. apply map_by_key; [symmetry; exact R1|]. intros c ls cd Hin Hcd. cbn [fst snd].
    destruct (R2 c ls Hin) as (cd' & Hcd' & fa & fo & Hc & [C1 C2 C3 C4 C5 C6 C7 C8]). rewrite (In_mget cds c cd Hnd Hcd) in Hcd'. injection Hcd' as <-.
    assert (Hn : NoDup ls). { apply C2. left. apply Hone. unfold known. apply mget_keys. eauto. }
    destruct (mget t (cd_languages cd)) as [y|] eqn:Ey.
    - assert (Hi : In t ls) by (apply C1, C3, mget_keys; eauto). rewrite (filter_once t ls Hn Hi). cbn [map sumN fold_right].
      rewrite (proj1 (proj1 (C5 t y Ey))). lia.
    - rewrite filter_absent; [reflexivity|]. intros Hi. apply mget_None_keys in Ey. apply Ey, C3, C1, Hi.
  Qed.

  (** ** Languages of an identifier *)
  Lemma identifier_languages_spec c i all d l : at_ p c all d -> value (identifier_languages E p c i all) = Ok l ->
    (forall t, In t l <-> id_speaks E d c i t) /\ (l = [] -> forall r, In r (db_pattern d) -> pr_component r = c -> pr_identifier r <> i).
  Proof.
    intros Hat H. rewrite identifier_languages_value, (at_connection p c all d _ Hat) in H by exact Hp. unfold select in H.
    destruct (pe_ok E _ _ _); cbn [negb bind] in H; [|discriminate H]. apply (map_rows_tags E pr_tag) in H.
    assert (Hrow : forall r, In r (pe_patterns E (if all then aio else c) SqlIdentifier [i; c]
      (filter (fun r => ueqb (pr_identifier r) i && ueqb (pr_component r) c) (db_pattern d))) <->
      In r (db_pattern d) /\ pr_component r = c /\ pr_identifier r = i).
    { intros r. rewrite (order_patterns_In E Ho), filter_In, andb_true_iff, !ueqb_eq. tauto. }
    split.
    - intros t. split.
      + intros Ht. destruct (Forall2_In_r _ _ _ t H Ht) as (r & Hr & Hcan). apply Hrow in Hr. exists r. destruct Hr as (H1 & H2 & H3). auto.
      + intros (r & Hr & Hc & Hi & Hcan). assert (Hr' := proj2 (Hrow r) (conj Hr (conj Hc Hi))).
        destruct (Forall2_In_l _ _ _ _ H Hr') as (y & Hy & Hcan'). congruence.
    - intros -> r Hr Hc Hi. assert (Hr' := proj2 (Hrow r) (conj Hr (conj Hc Hi))). inversion H as [Hnil|]. rewrite <- Hnil in Hr'. destruct Hr'.
  Qed.
  Lemma identifier_value c i o : value (identifier_details E p c i) = Ok o -> exists cd l,
    value (component_details E p c) = Ok cd /\ id_default o = cd_default cd /\ value (identifier_languages E p c i true) = Ok l /\
    (l <> [] /\ id_languages o = l \/ l = [] /\ value (identifier_languages E p c i false) = Ok (id_languages o)).
  Proof.
    assert (Hst : forall cd, steady E p (pbind (identifier_languages E p c i true) (fun l =>
      pbind (match l with [] => identifier_languages E p c i false | _ => skip l end) (fun l' => skip (mk_idetails l' (cd_default cd)))))).
    { intros cd. apply steady_bind; [apply identifier_languages_steady; exact Hp|]. intros l _. apply steady_bind; [|intros; apply steady_ret].
      destruct l; [apply identifier_languages_steady; exact Hp | apply steady_ret]. }
    assert (Hst' : forall x : amap cdetails * rdetails, steady E p (match mget c (fst x) with
      | None => pret (Err (PComponentNotFound c))
      | Some cd => pbind (identifier_languages E p c i true) (fun l =>
          pbind (match l with [] => identifier_languages E p c i false | _ => skip l end) (fun l' => skip (mk_idetails l' (cd_default cd)))) end)).
    { intros (cds & rd). cbn [fst]. destruct (mget c cds); [apply Hst | apply steady_ret]. }
    unfold identifier_details, component_details. rewrite (value_bind E p); [|apply get_details_steady; exact Hp | intros (cds & rd) _; exact (Hst' (cds, rd))].
    rewrite (value_bind E p); [|apply get_details_steady; exact Hp | intros (cds & rd) _; destruct (mget c cds); apply steady_ret].
    intros H. apply bind_Ok in H. destruct H as ((cds & rd) & Hv & H). rewrite Hv. cbn [bind].
    destruct (mget c cds) as [cd|]; [|discriminate H]. exists cd.
    rewrite (value_bind E p) in H; [|apply identifier_languages_steady; exact Hp|].
    2:{ intros l _. apply steady_bind; [|intros; apply steady_ret]. destruct l; [apply identifier_languages_steady; exact Hp | apply steady_ret]. }
    apply bind_Ok in H. destruct H as (l & Hl & H). exists l. split; [reflexivity|].
    rewrite (value_bind E p) in H; [|destruct l; [apply identifier_languages_steady; exact Hp | apply steady_ret] | intros; apply steady_ret].
    apply bind_Ok in H. destruct H as (l' & Hl' & H). injection H as <-. cbn [id_default id_languages]. split; [reflexivity|]. split; [exact Hl|].
    destruct l as [|x l]; [right; auto|]. left. injection Hl' as <-. split; [discriminate | reflexivity].
  Qed.
  Lemma identifier_right c i o : value (identifier_details E p c i) = Ok o ->
    (exists cd, value (component_details E p c) = Ok cd /\ id_default o = cd_default cd) /\
    ((exists d, in_aio p c d /\ has d c i (fun _ => True) /\ forall t, In t (id_languages o) <-> id_speaks E d c i t) \/
     ((forall d, in_aio p c d -> ~ has d c i (fun _ => True)) /\ exists d, in_own p c d /\ forall t, In t (id_languages o) <-> id_speaks E d c i t)).
  Proof.
    intros H. destruct (identifier_value c i o H) as (cd & l & Hcd & Hdef & Hl & Hcase). split; [eauto|].
    destruct (component_details_right c cd Hcd) as (fa & fo & ls & Hc & _).
    assert (Hhas : forall d, in_aio p c d -> (forall t, In t l <-> id_speaks E d c i t) -> l <> [] -> has d c i (fun _ => True)).
    { intros d _ Hd Hn. destruct l as [|t l]; [contradiction|]. destruct (proj1 (Hd t) (or_introl eq_refl)) as (r & H1 & H2 & H3 & _). exists r. repeat split; assumption. }
    destruct fa.
    - destruct (aio_at p Hp c true fo Hc eq_refl) as (d & Hd & _). destruct (identifier_languages_spec c i true d l Hd Hl) as (H1 & H2).
      destruct Hcase as [(Hn & Hil)|(Hn & Hown)].
      + left. exists d. split; [exact Hd|]. split; [exact (Hhas d Hd H1 Hn)|]. rewrite Hil. exact H1.
      + right. split.
        * intros d' Hd' (r & Hr & Hrc & Hri & _). rewrite (in_aio_unique p c d' d Hd' Hd) in Hr. exact (H2 Hn r Hr Hrc Hri).
        * destruct fo.
          -- destruct (own_at p Hp c true true Hc eq_refl) as (d' & Hd' & _). exists d'. split; [exact Hd'|].
             exact (proj1 (identifier_languages_spec c i false d' _ Hd' Hown)).
          -- rewrite identifier_languages_value in Hown by exact Hp. unfold on_connection, connection in Hown. rewrite Hc in Hown. discriminate Hown.
    - right. split; [intros d Hd; destruct (proj2 (no_aio p c false fo Hc eq_refl) d Hd)|].
      destruct fo.
      + destruct (own_at p Hp c false true Hc eq_refl) as (d & Hd & _). exists d. split; [exact Hd|].
        assert (Hsame : value (identifier_languages E p c i true) = value (identifier_languages E p c i false)).
        { rewrite !identifier_languages_value by exact Hp. unfold on_connection, connection. rewrite Hc. reflexivity. }
        destruct Hcase as [(_ & ->)|(_ & Hown)].
        * rewrite Hsame in Hl. exact (proj1 (identifier_languages_spec c i false d l Hd Hl)).
        * exact (proj1 (identifier_languages_spec c i false d _ Hd Hown)).
      + rewrite identifier_languages_value in Hl by exact Hp. unfold on_connection, connection in Hl. rewrite Hc in Hl. discriminate Hl.
  Qed.

  (** ** No call panics *)
  Lemma get_details_quiet : quiet_m E p (get_details E p).
  Proof. split; [apply get_details_steady; exact Hp|]. rewrite get_details_value. apply (build_details_post E p Hp Ho). Qed.
  Lemma call_quiet c : quiet_m E p (pcall_run E p c).
  Proof.
    destruct c; cbn [pcall_run]; (apply quiet_m_bind; [|intros; apply quiet_m_ret, quiet_Ok]).
    - apply one_string_quiet; exact Hp.
    - apply one_string_quiet; exact Hp.
    - apply strings_quiet; exact Hp.
    - apply quiet_m_bind; [apply get_details_quiet|]. intros (cds & rd) _. destruct (mget component cds); [|apply quiet_m_ret, quiet_Err].
      apply quiet_m_bind; [apply identifier_languages_quiet; assumption|]. intros l _. apply quiet_m_bind; [|intros; apply quiet_m_ret, quiet_Ok].
      destruct l; [apply identifier_languages_quiet; assumption | apply quiet_m_ret, quiet_Ok].
    - apply quiet_m_bind; [apply get_details_quiet|]. intros (cds & rd) _. destruct (mget component cds); [apply quiet_m_ret, quiet_Ok | apply quiet_m_ret, quiet_Err].
    - apply quiet_m_bind; [apply get_details_quiet|]. intros (cds & rd) _. apply quiet_m_ret, quiet_Ok.
  Qed.
  Lemma history_quiet c h : quiet (snd (pcall_run E p c (prun E p pstate_new h))).
  Proof.
    destruct (call_quiet c) as (Hs & Hq). rewrite (proj1 (Hs _ (prun_ok E p Hp h pstate_new (state_new_ok E p)))). exact Hq.
  Qed.

  (** ** In index order the language asked for comes first *)
  Hypothesis He : env_fine E p.
  Lemma tag_le_prefix t y : tag_le (t ++ y) t = true -> y = [].
  Proof.
    induction t as [|x t IH]; cbn [app tag_le].
    - destruct y; [reflexivity | discriminate].
    - rewrite N.ltb_irrefl, N.eqb_refl. cbn [orb andb]. exact IH.
  Qed.
  Lemma requested_first c i t : known p c -> no_wildcard t -> t <> [] -> one_source p c -> index_order E ->
    (forall d r, source p c d -> hit d c i (starts_with t) r -> exists y, pr_tag r = t ++ y) ->
    (exists d, source p c d /\ has d c i (eq t)) ->
    exists d r x, source p c d /\ hit d c i (eq t) r /\ answer_of E r x /\ value (string_ E p c i t) = Ok (Some x).
  Proof.
    intros Hk Hw Ht H1 Hidx Hcase (d0 & Hs0 & r0 & Hr0).
    destruct (one_string_answer E p Hp He false c i t Hk Hw) as (o & Hv & H).
    assert (Hhit : hit d0 c i (starts_with t) r0).
    { destruct Hr0 as (A1 & A2 & A3 & A4). split; [exact A1|]. split; [exact A2|]. split; [exact A3|]. rewrite <- A4. apply starts_with_refl. }
    destruct o as [x|].
    - destruct H as (d & a & r & Ha & Hr & Hx & Hmin). destruct (answering_source p c i t false d a Ha) as (Hs & (Hanc & Hnil & _ & Hlong)).
      rewrite (H1 d0 d Hs0 Hs) in Hhit, Hr0.
      assert (a = t). { apply (ancestor_same_length a t t); [exact Hanc | left; reflexivity|].
        apply Nat.le_antisymm; [exact (ancestor_length a t Hanc)|]. apply Hlong; [left; reflexivity | exists r0; exact Hhit]. }
      subst a. specialize (Hmin Hidx r0 Hhit). destruct (Hcase d r Hs Hr) as (y & Hy).
      rewrite Hy, <- (proj2 (proj2 (proj2 Hr0))) in Hmin. apply tag_le_prefix in Hmin. subst y. rewrite app_nil_r in Hy.
      exists d, r, x. split; [exact Hs|]. split; [|split; [exact Hx | exact Hv]]. destruct Hr as (B1 & B2 & B3 & _). repeat split; auto.
    - exfalso. apply (H d0 Hs0 t); [left; reflexivity | exact Ht | exists r0; exact Hhit].
  Qed.
End Final.
