(** Proofs about [RowsSpec]. *)
From Verif Require Import Base BaseFacts ValueModel ProviderModel ProviderSpec ProviderProofs ProviderProofs7 ProviderProofs8 LocaliserModel LocaliserSpec SystemModel RowsSpec.

(** ** The provider *)
Lemma filter_filter {A} (f g : A -> bool) l : filter f (filter g l) = filter (fun x => g x && f x) l.
Proof. induction l as [|x l IH]; cbn [filter]; [reflexivity|]. destruct (g x); cbn [filter andb]; [destruct (f x); now rewrite IH | exact IH]. Qed.
Lemma pattern_rows c i (f : prow -> bool) d d' : rows_of c i d = rows_of c i d' ->
  filter (fun r => ueqb (pr_identifier r) i && f r && ueqb (pr_component r) c) (db_pattern d) =
  filter (fun r => ueqb (pr_identifier r) i && f r && ueqb (pr_component r) c) (db_pattern d').
Proof.
  intros H. assert (G : forall l : list prow, filter (fun r => ueqb (pr_identifier r) i && f r && ueqb (pr_component r) c) l =
    filter f (filter (fun r => ueqb (pr_component r) c && ueqb (pr_identifier r) i) l)).
  { intros l. rewrite filter_filter. apply filter_ext. intros r. destruct (ueqb (pr_identifier r) i), (f r), (ueqb (pr_component r) c); reflexivity. }
  rewrite !G. unfold rows_of in H. now rewrite H.
Qed.
Lemma select_rows E c i t file q d d' : rows_of c i d = rows_of c i d' -> select E file d q [i; t; c] = select E file d' q [i; t; c].
Proof.
  intros H. unfold select. destruct (negb _); [reflexivity|]. destruct q; try reflexivity. cbv zeta. now rewrite (pattern_rows c i (fun r => if exact then ueqb (pr_tag r) t else like t (pr_tag r)) d d' H).
Qed.
Lemma obind_ext {Er A B} (x : outcome Er A) (f g : A -> outcome Er B) : (forall a, f a = g a) -> (let! a := x in f a) = (let! a := x in g a).
Proof. intros H. destruct x; cbn; [apply H | reflexivity..]. Qed.
Lemma find_loop_rows E c i file q exact d d' : rows_of c i d = rows_of c i d' -> forall fuel t,
  find_loop E fuel file d q c i exact t = find_loop E fuel file d' q c i exact t.
Proof.
  intros H fuel. induction fuel as [|fuel IH]; intros t; [reflexivity|]. cbn [find_loop]. destruct t as [|x t]; [reflexivity|].
  rewrite (select_rows E c i _ file q d d' H). apply obind_ext. intros rows. apply obind_ext. intros [|y l]; [apply IH | reflexivity].
Qed.

Section Rows.
  Variable E : penv.
  Variables p p' : sprovider.
  Hypothesis Hp : provider_ok p.
  Hypothesis Hp' : provider_ok p'.
  Variables c i : ustr.
  Hypothesis Hs : same_string p p' c i.

  (** Flags of the component. *)
  Lemma same_flags : mget c (sp_components p) = mget c (sp_components p').
  Proof.
    destruct Hs as (Hk & Ha & Ho). unfold known in Hk. unfold aio_db, own_db in Ha, Ho.
    destruct Hp as (_ & H). specialize (H c). destruct Hp' as (_ & H'). specialize (H' c).
    destruct (mget c (sp_components p)) as [[a o]|] eqn:E1, (mget c (sp_components p')) as [[a' o']|] eqn:E2.
    - destruct (H _ eq_refl) as (H1 & H2). destruct (H' _ eq_refl) as (H1' & H2'). cbn [fst snd] in *. f_equal.
      assert (a = a'). { destruct a, a'; try reflexivity; [destruct (H1 eq_refl) as (d & Hd); rewrite Hd in Ha | destruct (H1' eq_refl) as (d & Hd); rewrite Hd in Ha]; discriminate Ha. }
      assert (o = o'). { destruct o, o'; try reflexivity; [destruct (H2 eq_refl) as (d & Hd); rewrite Hd in Ho | destruct (H2' eq_refl) as (d & Hd); rewrite Hd in Ho]; destruct a, a'; discriminate Ho. }
      now subst.
    - exfalso. apply mget_None_keys in E2. apply E2, Hk, mget_keys. now exists (a, o).
    - exfalso. apply mget_None_keys in E1. apply E1, Hk, mget_keys. now exists (a', o').
    - reflexivity.
  Qed.

  Lemma connection_rows all : match connection p c all, connection p' c all with
    | Ok (f, (d, v)), Ok (f', (d', v')) => f = f' /\ v = v' /\ rows_of c i d = rows_of c i d'
    | Err e, Err e' => e = e'
    | Panic, Panic => True
    | _, _ => False
    end.
  Proof.
    pose proof same_flags as Hf. destruct Hs as (_ & Ha & Ho). unfold aio_db, own_db in Ha, Ho. unfold connection. rewrite <- Hf in *.
    destruct Hp as (_ & H). specialize (H c). destruct Hp' as (_ & H'). specialize (H' c). rewrite <- Hf in H'.
    destruct (mget c (sp_components p)) as [[a o]|]; [|reflexivity]. destruct (H _ eq_refl) as (H1 & H2). destruct (H' _ eq_refl) as (H1' & H2'). cbn [fst snd] in *.
    destruct (all && a) eqn:Ea.
    - destruct a; [|destruct all; discriminate Ea]. destruct (H1 eq_refl) as (d & Hd). destruct (H1' eq_refl) as (d' & Hd'). rewrite Hd, Hd' in *. cbn in Ha.
      injection Ha as Ha. auto.
    - destruct o; [|reflexivity]. destruct (H2 eq_refl) as (d & Hd). destruct (H2' eq_refl) as (d' & Hd'). rewrite Hd, Hd' in *. destruct a; cbn in Ho; injection Ho as Ho; auto.
  Qed.
  Lemma find_strings_rows t all one exact st : find_strings E p c i t all one exact st = find_strings E p' c i t all one exact st.
  Proof.
    unfold find_strings, pbind, pret. pose proof (connection_rows all) as H.
    destruct (connection p c all) as [(f & d & v)|e| |], (connection p' c all) as [(f' & d' & v')|e'| |]; try contradiction; [|congruence|reflexivity].
    destruct H as (<- & <- & Hr). destruct (get_query _ _ _ _) as [st' [q|e| |]]; try reflexivity. now rewrite (find_loop_rows E c i f q exact d d' Hr).
  Qed.
  Lemma one_string_rows exact t st : one_string E p exact c i t st = one_string E p' exact c i t st.
  Proof.
    unfold one_string. rewrite same_flags. destruct (mget c (sp_components p')) as [[a o]|]; [|reflexivity]. cbn [fst snd]. unfold pbind. destruct a.
    - rewrite find_strings_rows. destruct (find_strings E p' c i t true true exact st) as [st' [l|e| |]]; try reflexivity. cbn [skip pret].
      unfold skip, pret. destruct (last _ _); [reflexivity|]. destruct o; [|reflexivity]. now rewrite find_strings_rows.
    - unfold skip, pret. destruct o; [|reflexivity]. now rewrite find_strings_rows.
  Qed.
  Lemma strings_rows t st : strings E p c i t st = strings E p' c i t st.
  Proof.
    unfold strings. rewrite same_flags. destruct (mget c (sp_components p')) as [[a o]|]; [|reflexivity]. cbn [fst snd]. unfold pbind. destruct a.
    - rewrite find_strings_rows. destruct (find_strings E p' c i t true false false st) as [st' [l|e| |]]; try reflexivity.
      destruct l; [|reflexivity]. destruct o; [|reflexivity]. now rewrite find_strings_rows.
    - unfold skip, pret. destruct o; [|reflexivity]. now rewrite find_strings_rows.
  Qed.
  Lemma identifier_rows all : value (identifier_languages E p c i all) = value (identifier_languages E p' c i all).
  Proof.
    rewrite !identifier_languages_value by assumption. unfold on_connection. pose proof (connection_rows all) as H.
    destruct (connection p c all) as [(f & d & v)|e| |], (connection p' c all) as [(f' & d' & v')|e'| |]; try contradiction; [|now rewrite H|reflexivity].
    destruct H as (<- & <- & Hr). cbn [bind]. unfold select. destruct (negb _); [reflexivity|].
    assert (G : forall l : list prow, filter (fun r => ueqb (pr_identifier r) i && ueqb (pr_component r) c) l =
      filter (fun r => ueqb (pr_component r) c && ueqb (pr_identifier r) i) l) by (intros l; apply filter_ext; intros r; apply Bool.andb_comm).
    rewrite !G. unfold rows_of in Hr. now rewrite Hr.
  Qed.
  Lemma sqlite_rows t : pv_string (sqlite_provider E p) c i t = pv_string (sqlite_provider E p') c i t.
  Proof. cbn [pv_string sqlite_provider]. destruct (pe_canon E t); [|reflexivity]. destruct (ueqb _ _); [|reflexivity]. unfold string_. now rewrite one_string_rows. Qed.
End Rows.

(** ** The localiser *)
Section Localiser.
  Context {PE : Type}.
  Variable L : lenv PE.
  Variable P' : provider PE.
  Let L' := with_provider L P'.
  Let P := le_provider L.

  Lemma find_string_same c i t fb lit : same_answers P P' [mk_request c i t fb lit] -> find_string L c i t fb = find_string L' c i t fb.
  Proof.
    intros H. destruct (H _ (or_introl eq_refl)) as (Hq & Hd). cbn [rq_component rq_identifier rq_tag rq_fallback] in *. unfold find_string. cbn [le_provider L' with_provider].
    rewrite <- Hq. fold P. destruct (pv_string P c i t) as [[r|]|e| |] eqn:Es; cbn [bind map_err]; try reflexivity. destruct fb; [|reflexivity]. cbn [negb].
    rewrite <- (Hd eq_refl eq_refl). destruct (pv_default P c) as [d|e| |]; cbn [bind map_err]; try reflexivity. now rewrite <- Hq.
  Qed.
  Lemma run_formatter_same fm vals : run_formatter L fm vals = run_formatter L' fm vals.
  Proof. reflexivity. Qed.
  Lemma actual_format_same st c i vals t fb ca lit : same_answers P P' [mk_request c i t fb lit] ->
    actual_format L st c i vals t fb ca = actual_format L' st c i vals t fb ca.
  Proof. intros H. unfold actual_format. rewrite (find_string_same c i t fb lit H). reflexivity. Qed.
  Lemma actual_literal_same st c i t fb ca lit : same_answers P P' [mk_request c i t fb lit] ->
    actual_literal L st c i t fb ca = actual_literal L' st c i t fb ca.
  Proof. intros H. unfold actual_literal. rewrite (find_string_same c i t fb lit H). reflexivity. Qed.
  Lemma same_answers_app rs rs' : same_answers P P' (rs ++ rs') -> same_answers P P' rs /\ same_answers P P' rs'.
  Proof. intros H. split; intros q Hq; apply H, in_or_app; auto. Qed.
  Lemma actual_data_same t fb ca : forall d st, same_answers P P' (data_requests t fb d) ->
    actual_format_data L d t fb ca st = actual_format_data L' d t fb ca st.
  Proof.
    fix IH 1. intros [c i [vs|]] st H; cbn [data_requests actual_format_data] in *; [|exact (actual_literal_same st c i t fb ca true H)].
    apply same_answers_app in H as (Hv & Hq). revert st Hv. generalize (@nil (ustr * pvalue)) as new. induction vs as [|(ph & v) vs IHv]; intros new st Hv; [now apply actual_format_same with false|].
    apply same_answers_app in Hv as (Hv1 & Hv2). destruct v; try (exact (IHv _ st Hv2)).
    rewrite (IH _ st Hv1). destruct (actual_format_data L' _ t fb ca st) as [st' [(s & t')|e| |]]; try reflexivity. exact (IHv _ st' Hv2).
  Qed.
  Lemma lstep_same st c : same_answers P P' (call_requests st c) -> lstep L st c = lstep L' st c.
  Proof.
    intros H. destruct c; cbn [call_requests] in H; unfold lstep; cbv zeta; cbn [fst snd].
    - unfold loc_format. now rewrite (actual_format_same st component identifier vals tag _ _ _ H).
    - unfold loc_format_with_defaults. now rewrite (actual_format_same st component identifier vals _ _ _ _ H).
    - unfold loc_literal. now rewrite (actual_literal_same st component identifier tag _ _ _ H).
    - unfold loc_literal_with_defaults. now rewrite (actual_literal_same st component identifier _ _ _ _ H).
    - unfold loc_format_data. now rewrite (actual_data_same tag _ _ d st H).
    - unfold loc_format_data_with_defaults. now rewrite (actual_data_same _ _ _ d st H).
    - reflexivity.
  Qed.
  Lemma history_same h : forall st, same_answers P P' (history_requests L st h) ->
    results L st h = results L' st h /\ lrun L st h = lrun L' st h /\ history_requests L st h = history_requests L' st h.
  Proof.
    induction h as [|c h IH]; intros st H; [repeat split|]. cbn [history_requests] in H. apply same_answers_app in H as (Hc & Hh).
    unfold lrun in *. cbn [results fold_left history_requests]. rewrite <- (lstep_same st c Hc). destruct (IH _ Hh) as (H1 & H2 & H3). rewrite H1, H2, H3. repeat split.
  Qed.
End Localiser.
