(** Proofs about the sqlite3 provider: schema verification, [try_new]. *)
From Verif Require Import Base BaseFacts RegistryModel ProviderModel ProviderSpec ProviderProofs.

(** ** Schema *)
Lemma columns_check_ok t col name ty nn pk : columns_check t col name ty nn pk = Ok tt <-> column_fits (name, ty, nn, pk) col.
Proof.
  unfold columns_check, column_fits. destruct (ueqb_spec (cl_name col) name) as [E1|E1]; cbn [negb]; [|split; [discriminate | intros (H & _); contradiction]].
  destruct (ueqb_spec (cl_type col) ty) as [E2|E2]; cbn [negb]; [|split; [discriminate | intros (_ & H & _); contradiction]].
  destruct (N.eqb_spec (cl_notnull col) nn) as [E3|E3]; cbn [negb]; [|split; [discriminate | intros (_ & _ & H & _); contradiction]].
  destruct (N.eqb_spec (cl_pk col) pk) as [E4|E4]; cbn [negb]; [|split; [discriminate | intros (_ & _ & _ & H & _); contradiction]].
  destruct (cl_default col).
  - split; [destruct (ueqb ty (us "INTEGER") || ueqb ty (us "REAL")); discriminate | intros (_ & _ & _ & _ & H); discriminate H].
  - split; auto.
Qed.
Lemma check_rows_ok t rows required : check_rows t rows required = Ok tt <-> table_fits required rows.
Proof.
  revert required; induction rows as [|row rows IH]; intros required.
  - cbn [check_rows]. split; [|reflexivity]. intros _ [|n] req col _ H; discriminate H.
  - destruct required as [|(((name & ty) & nn) & pk) required].
    + cbn [check_rows]. split; [|reflexivity]. intros _ [|n] req col H; discriminate H.
    + cbn [check_rows]. split.
      * intros H. apply bind_Ok in H. destruct H as ([] & Hc & Hr). apply columns_check_ok in Hc. apply IH in Hr. intros [|n] req col Hreq Hcol.
        -- injection Hreq as <-. injection Hcol as <-. exact Hc.
        -- exact (Hr n req col Hreq Hcol).
      * intros H. apply bind_Ok. exists tt. split; [apply columns_check_ok; exact (H 0 _ _ eq_refl eq_refl)|].
        apply IH. intros n req col Hreq Hcol. exact (H (S n) req col Hreq Hcol).
Qed.
Lemma table_exists_ok ts n : table_exists ts n = Ok tt <-> In n ts.
Proof. unfold table_exists. rewrite <- umem_In. destruct (umem n ts); split; congruence. Qed.

Lemma required_columns :
  required_tables = [(us "component", component_columns); (us "contributor", contributor_columns); (us "language", language_columns);
                     (us "languageData", language_data_columns); (us "pattern", pattern_columns)].
Proof. vm_compute. reflexivity. Qed.

Lemma verify_schema_ok s v : verify_schema s = Ok v <-> schema_fits s /\ v = us "1.0".
Proof.
  unfold verify_schema, schema_fits. destruct (sc_readable s); cbn [negb]; [|split; [discriminate | intros ((H & _) & _); discriminate H]].
  destruct (umem (us "metadata") (sc_tables s)) eqn:Em; cbn [negb].
  2:{ apply umem_nIn in Em. split; [discriminate | intros ((_ & H & _) & _); contradiction]. }
  apply umem_In in Em. destruct (ueqb_spec (last (sc_versions s) []) (us "1.0")) as [Ev|Ev].
  2:{ split; [destruct (sc_path s); discriminate | intros ((_ & _ & H & _) & _); contradiction]. }
  split.
  - intros H. repeat (apply bind_Ok in H; destruct H as ([] & ? & H)). injection H as <-.
    repeat match goal with H : table_exists _ _ = Ok tt |- _ => apply table_exists_ok in H | H : check_rows _ _ _ = Ok tt |- _ => apply check_rows_ok in H end.
    split; [|exact Ev]. split; [reflexivity|]. split; [exact Em|]. split; [exact Ev|]. rewrite required_columns.
    intros t cols Hin. destruct Hin as [Hin|[Hin|[Hin|[Hin|[Hin|[]]]]]]; injection Hin as <- <-; split; assumption.
  - intros ((_ & _ & _ & H) & ->). rewrite required_columns in H.
    assert (Ht : forall t cols, In (t, cols) [(us "component", component_columns); (us "contributor", contributor_columns); (us "language", language_columns);
                     (us "languageData", language_data_columns); (us "pattern", pattern_columns)] ->
                  table_exists (sc_tables s) t = Ok tt /\ check_rows t (sc_columns s t) cols = Ok tt).
    { intros t cols Hin. destruct (H t cols Hin) as (H1 & H2). split; [apply table_exists_ok | apply check_rows_ok]; assumption. }
    rewrite (proj1 (Ht (us "contributor") contributor_columns (or_intror (or_introl eq_refl)))). cbn [bind].
    rewrite (proj1 (Ht (us "language") language_columns (or_intror (or_intror (or_introl eq_refl))))). cbn [bind].
    rewrite (proj1 (Ht (us "pattern") pattern_columns (or_intror (or_intror (or_intror (or_intror (or_introl eq_refl))))))). cbn [bind].
    rewrite (proj1 (Ht (us "component") component_columns (or_introl eq_refl))). cbn [bind].
    rewrite (proj1 (Ht (us "languageData") language_data_columns (or_intror (or_intror (or_intror (or_introl eq_refl)))))). cbn [bind].
    rewrite (proj2 (Ht (us "contributor") contributor_columns (or_intror (or_introl eq_refl)))). cbn [bind].
    rewrite (proj2 (Ht (us "language") language_columns (or_intror (or_intror (or_introl eq_refl))))). cbn [bind].
    rewrite (proj2 (Ht (us "pattern") pattern_columns (or_intror (or_intror (or_intror (or_intror (or_introl eq_refl))))))). cbn [bind].
    rewrite (proj2 (Ht (us "component") component_columns (or_introl eq_refl))). cbn [bind].
    rewrite (proj2 (Ht (us "languageData") language_data_columns (or_intror (or_intror (or_intror (or_introl eq_refl)))))). cbn [bind].
    rewrite Ev. reflexivity.
Qed.
Lemma complete_fits s : schema_complete s -> sc_readable s = true -> In (us "metadata") (sc_tables s) -> last (sc_versions s) [] = us "1.0" ->
  schema_fits s.
Proof.
  intros H H1 H2 H3. split; [exact H1|]. split; [exact H2|]. split; [exact H3|]. intros t cols Hin. destruct (H t cols Hin) as (Ht & Hc).
  split; [exact Ht|]. intros n req col Hreq Hcol. destruct (Hc n req Hreq) as (col' & Hcol' & Hf). congruence.
Qed.
(** A schema is complete if it fits and no table has fewer columns than required. *)
Lemma fits_complete s : schema_fits s ->
  (forall t cols, In (t, cols) required_tables -> List.length cols <= List.length (sc_columns s t)) -> schema_complete s.
Proof.
  intros (_ & _ & _ & H) Hl t cols Hin. destruct (H t cols Hin) as (Ht & Hf). split; [exact Ht|]. intros n req Hreq.
  destruct (nth_error (sc_columns s t) n) as [col|] eqn:Ec; [exists col; split; [reflexivity | exact (Hf n req col Hreq Ec)]|].
  apply nth_error_None in Ec. specialize (Hl t cols Hin). assert (n < List.length cols) by (apply nth_error_Some; congruence). lia.
Qed.

(** ** try_new *)
Lemma add_aio_NoDup rows m : NoDup (mkeys m) -> NoDup (mkeys (add_aio rows m)).
Proof. revert m; induction rows as [|r rows IH]; intros m H; cbn [add_aio]; [exact H|]. apply IH. apply minsert_NoDup. exact H. Qed.
Lemma add_aio_get rows m c : mget c (add_aio rows m) =
  if existsb (fun r => ueqb (ir_identifier r) c) rows then Some (true, match mget c m with Some f => snd f | None => false end) else mget c m.
Proof.
  revert m; induction rows as [|r rows IH]; intros m; cbn [add_aio existsb]; [reflexivity|]. rewrite IH, mget_minsert.
  rewrite (ueqb_sym (ir_identifier r) c). destruct (ueqb_spec c (ir_identifier r)) as [->|Hn]; cbn [orb].
  - destruct (existsb _ rows); destruct (mget (ir_identifier r) m); reflexivity.
  - reflexivity.
Qed.
Lemma lists_component_b d c : existsb (fun r => ueqb (ir_identifier r) c) (db_component d) = true <-> lists_component d c.
Proof.
  rewrite existsb_exists. split; intros (r & Hr & H); exists r; (split; [exact Hr|]); apply ueqb_eq; exact H.
Qed.

(** What the maps of the provider say about the files read so far. *)
Record reads (es : list entry) (p : sprovider) : Prop := mk_reads {
  rs_nodup : NoDup (mkeys (sp_components p));
  rs_conn : forall n d v, mget n (sp_connections p) = Some (d, v) <-> v = us "1.0" /\ has_file es n d;
  rs_aio : forall c, (exists f, mget c (sp_components p) = Some (true, f)) <-> exists d, has_file es aio d /\ lists_component d c;
  rs_own : forall c, (exists f, mget c (sp_components p) = Some (f, true)) <-> c <> aio /\ exists d, has_file es c d;
  rs_some : forall c, mget c (sp_components p) <> Some (false, false)
}.
Lemma has_file_app es e n d : has_file (es ++ [e]) n d <-> has_file es n d \/ (en_stem e = Some n /\ en_db e = Some d).
Proof.
  unfold has_file. split.
  - intros (e' & Hin & H). apply in_app_or in Hin. destruct Hin as [Hin|[<-|[]]]; eauto.
  - intros [(e' & Hin & H)|H]; [exists e' | exists e]; (split; [apply in_or_app; cbn; auto | exact H]).
Qed.

Lemma reads_step es e n d p : reads es p -> en_stem e = Some n -> en_db e = Some d -> (forall d', ~ has_file es n d') ->
  reads (es ++ [e])
    (if ueqb n aio then mk_sprovider (add_aio (db_component d) (sp_components p)) (minsert aio (d, us "1.0") (sp_connections p))
     else mk_sprovider (minsert n (match mget n (sp_components p) with None => (false, true) | Some v => (fst v, true) end) (sp_components p))
            (minsert n (d, us "1.0") (sp_connections p))).
Proof.
  intros [R1 R2 R3 R4 R5] Hn Hd Hnew.
  assert (Hfile : forall m x, has_file (es ++ [e]) m x <-> has_file es m x \/ (m = n /\ x = d)).
  { intros m x. rewrite has_file_app, Hn, Hd. split; intros [H|(H1 & H2)]; auto; right; split; congruence. }
  assert (Hconn : forall m x v, mget m (minsert n (d, us "1.0") (sp_connections p)) = Some (x, v) <-> v = us "1.0" /\ has_file (es ++ [e]) m x).
  { intros m x v. rewrite Hfile, mget_minsert. destruct (ueqb_spec m n) as [->|Hne].
    - split; [intros H; injection H as <- <-; auto|]. intros (-> & [H|(_ & ->)]); [destruct (Hnew x H) | reflexivity].
    - rewrite R2. split; intros (H1 & H2); split; auto. destruct H2 as [H2|(H2 & _)]; [exact H2 | contradiction]. }
  destruct (ueqb_spec n aio) as [->|Hna].
  - split; cbn [sp_components sp_connections].
    + apply add_aio_NoDup; exact R1.
    + exact Hconn.
    + intros c. rewrite add_aio_get. destruct (existsb _ (db_component d)) eqn:Eb.
      * apply lists_component_b in Eb. split; [|eauto]. intros _. exists d. split; [apply Hfile; auto | exact Eb].
      * rewrite R3. split; intros (d' & H1 & H2); exists d'; (split; [|exact H2]); [apply Hfile; auto|].
        apply Hfile in H1. destruct H1 as [H1|(_ & ->)]; [exact H1|]. apply lists_component_b in H2. congruence.
    + intros c. rewrite add_aio_get. assert (Hold : (exists f, mget c (sp_components p) = Some (f, true)) <-> c <> aio /\ exists d0, has_file (es ++ [e]) c d0).
      { rewrite R4. split; intros (H1 & d' & H2); (split; [exact H1|]); exists d'; [apply Hfile; auto|].
        apply Hfile in H2. destruct H2 as [H2|(-> & _)]; [auto | contradiction]. }
      rewrite <- Hold. destruct (existsb _ (db_component d)); [|tauto]. destruct (mget c (sp_components p)) as [(fa, fo)|]; cbn [snd].
      * split; intros (f & H); injection H as H1 H2; subst; eauto.
      * split; intros (f & H); discriminate H.
    + intros c. rewrite add_aio_get. destruct (existsb _ (db_component d)); [discriminate | apply R5].
  - split; cbn [sp_components sp_connections].
    + apply minsert_NoDup; exact R1.
    + exact Hconn.
    + intros c. assert (Hold : (exists f, mget c (sp_components p) = Some (true, f)) <-> exists d0, has_file (es ++ [e]) aio d0 /\ lists_component d0 c).
      { rewrite R3. split; intros (d' & H1 & H2); exists d'; (split; [|exact H2]); [apply Hfile; auto|].
        apply Hfile in H1. destruct H1 as [H1|(<- & _)]; [exact H1 | contradiction]. }
      rewrite <- Hold, mget_minsert. destruct (ueqb_spec c n) as [->|Hne]; [|tauto].
      destruct (mget n (sp_components p)) as [(fa, fo)|]; cbn [fst].
      * split; intros (f & H); injection H as H1 H2; subst; eauto.
      * split; intros (f & H); discriminate H.
    + intros c. rewrite mget_minsert. destruct (ueqb_spec c n) as [->|Hne].
      * split; [|intros _; destruct (mget n (sp_components p)); eauto]. intros _. split; [exact Hna|]. exists d. apply Hfile. auto.
      * rewrite R4. split; intros (H1 & d' & H2); (split; [exact H1|]); exists d'; [apply Hfile; auto|].
        apply Hfile in H2. destruct H2 as [H2|(H2 & _)]; [exact H2 | contradiction].
    + intros c. rewrite mget_minsert. destruct (ueqb_spec c n) as [->|Hne]; [|apply R5]. destruct (mget n (sp_components p)); discriminate.
Qed.
Lemma reads_skip es e p : reads es p -> en_db e = None -> reads (es ++ [e]) p.
Proof.
  intros [R1 R2 R3 R4 R5] He.
  assert (Hfile : forall m x, has_file (es ++ [e]) m x <-> has_file es m x).
  { intros m x. rewrite has_file_app, He. split; [intros [H|(_ & H)]; [exact H | discriminate H] | auto]. }
  split; auto.
  - intros n d v. rewrite R2, Hfile. reflexivity.
  - intros c. rewrite R3. split; intros (d & H1 & H2); exists d; (split; [apply Hfile; exact H1 | exact H2]).
  - intros c. rewrite R4. split; intros (H1 & d & H2); (split; [exact H1|]); exists d; apply Hfile; exact H2.
Qed.

Definition stems (es : list entry) : list (option ustr) := map en_stem es.
Lemma stem_fresh es e rest n d : NoDup (stems (es ++ e :: rest)) -> en_stem e = Some n -> ~ has_file es n d.
Proof.
  intros Hnd Hn (e' & Hin & Hs & _). unfold stems in Hnd. rewrite map_app in Hnd. cbn [map] in Hnd.
  apply NoDup_remove_2 in Hnd. apply Hnd. apply in_or_app; left. rewrite Hn, <- Hs. apply in_map. exact Hin.
Qed.

Lemma add_entries_reads ok rest : forall es p p', NoDup (stems (es ++ rest)) -> reads es p -> add_entries ok rest p = Ok p' -> reads (es ++ rest) p'.
Proof.
  induction rest as [|e rest IH]; intros es p p' Hnd Hr H; cbn [add_entries] in H.
  - injection H as <-. rewrite app_nil_r. exact Hr.
  - destruct (en_stem e) as [n|] eqn:En; [|discriminate H].
    replace (es ++ e :: rest) with ((es ++ [e]) ++ rest) in * by (rewrite <- app_assoc; reflexivity).
    destruct (en_db e) as [d|] eqn:Ed.
    + apply bind_Ok in H. destruct H as (v & Hv & H).
      assert (v = us "1.0").
      { destruct (verify_schema (db_schema d)) as [v'| | |] eqn:Es; try discriminate Hv. injection Hv as ->. apply verify_schema_ok in Es. apply Es. }
      subst v. pose proof (reads_step es e n d p Hr En Ed) as Hstep.
      assert (Hnew : forall d', ~ has_file es n d').
      { intros d'. apply (stem_fresh es e rest n d'); [|exact En]. rewrite <- app_assoc in Hnd. exact Hnd. }
      specialize (Hstep Hnew). destruct (ueqb n aio).
      * destruct (ok d); cbn [negb] in H; [|discriminate H]. exact (IH _ _ _ Hnd Hstep H).
      * exact (IH _ _ _ Hnd Hstep H).
    + exact (IH _ _ _ Hnd (reads_skip es e p Hr Ed) H).
Qed.
Lemma reads_new : reads [] (mk_sprovider [] []).
Proof.
  split; cbn [sp_components sp_connections mkeys map mget].
  - constructor.
  - intros n d v. split; [discriminate | intros (_ & e & [] & _)].
  - intros c. split; [intros (f & H); discriminate H | intros (d & (e & [] & _) & _)].
  - intros c. split; [intros (f & H); discriminate H | intros (_ & d & (e & [] & _))].
  - discriminate.
Qed.
Lemma reads_ok es p : reads es p -> provider_ok p.
Proof.
  intros [R1 R2 R3 R4 R5]. split; [exact R1|]. intros c (fa & fo) Hc. cbn [fst snd]. split; intros ->.
  - destruct (proj1 (R3 c) (ex_intro _ fo Hc)) as (d & Hd & _). exists d. apply R2. auto.
  - destruct (proj1 (R4 c) (ex_intro _ fa Hc)) as (_ & d & Hd). exists d. apply R2. auto.
Qed.
Lemma try_new_reads ok es p : NoDup (stems es) -> provider_try_new ok es = Ok p -> reads es p.
Proof.
  intros Hnd H. unfold provider_try_new in H. apply bind_Ok in H. destruct H as (p' & Hp' & H).
  destruct (sp_components p'); [discriminate H|]. injection H as <-. exact (add_entries_reads ok es [] _ _ Hnd reads_new Hp').
Qed.

(** Without the condition on names: the provider is well formed. *)
Lemma shape_step p n d : provider_ok p ->
  provider_ok
    (if ueqb n aio then mk_sprovider (add_aio (db_component d) (sp_components p)) (minsert aio (d, us "1.0") (sp_connections p))
     else mk_sprovider (minsert n (match mget n (sp_components p) with None => (false, true) | Some v => (fst v, true) end) (sp_components p))
            (minsert n (d, us "1.0") (sp_connections p))).
Proof.
  intros (Hnd & Hc).
  assert (Hins : forall m k (x : db), (exists d', mget m (sp_connections p) = Some (d', us "1.0")) ->
    exists d', mget m (minsert k (x, us "1.0") (sp_connections p)) = Some (d', us "1.0")).
  { intros m k x (d' & H). rewrite mget_minsert. destruct (ueqb m k); eauto. }
  destruct (ueqb_spec n aio) as [->|Hna]; (split; [cbn; try apply add_aio_NoDup; try apply minsert_NoDup; exact Hnd|]);
    cbn [sp_components sp_connections]; intros c f.
  - rewrite add_aio_get. destruct (existsb _ (db_component d)).
    + intros H; injection H as <-. cbn [fst snd]. split; [intros _; exists d; apply mget_minsert_eq|].
      destruct (mget c (sp_components p)) as [f|] eqn:Ef; [|discriminate]. intros Hf. apply Hins. apply (Hc c f Ef). exact Hf.
    + intros H. split; intros Hf; apply Hins; apply (Hc c f H); exact Hf.
  - rewrite mget_minsert. destruct (ueqb_spec c n) as [->|Hne].
    + intros H; injection H as <-. split; [|intros _; exists d; apply mget_minsert_eq].
      destruct (mget n (sp_components p)) as [f|] eqn:Ef; cbn [fst]; [|discriminate]. intros Hf. apply Hins. apply (Hc n f Ef). exact Hf.
    + intros H. split; intros Hf; apply Hins; apply (Hc c f H); exact Hf.
Qed.
Lemma add_entries_ok ok es : forall p p', provider_ok p -> add_entries ok es p = Ok p' -> provider_ok p'.
Proof.
  induction es as [|e es IH]; intros p p' Hp H; cbn [add_entries] in H; [injection H as <-; exact Hp|].
  destruct (en_stem e) as [n|]; [|discriminate H]. destruct (en_db e) as [d|]; [|exact (IH _ _ Hp H)].
  apply bind_Ok in H. destruct H as (v & Hv & H).
  assert (v = us "1.0").
  { destruct (verify_schema (db_schema d)) as [v'| | |] eqn:Es; try discriminate Hv. injection Hv as ->. apply verify_schema_ok in Es. apply Es. }
  subst v. pose proof (shape_step p n d Hp) as Hs. destruct (ueqb n aio).
  - destruct (ok d); cbn [negb] in H; [|discriminate H]. exact (IH _ _ Hs H).
  - exact (IH _ _ Hs H).
Qed.
Lemma try_new_ok ok es p : provider_try_new ok es = Ok p -> provider_ok p.
Proof.
  intros H. unfold provider_try_new in H. apply bind_Ok in H. destruct H as (p' & Hp' & H).
  destruct (sp_components p') eqn:Ec; [discriminate H|]. injection H as <-. apply (add_entries_ok ok es (mk_sprovider [] [])); [|exact Hp'].
  split; [constructor | intros c f Hf; discriminate Hf].
Qed.
(** The order of the components does not matter. *)
Lemma perm_get {V} (m m' : amap V) : Permutation m m' -> NoDup (mkeys m) -> forall k, mget k m = mget k m'.
Proof.
  intros Hp Hnd k. assert (Hnd' : NoDup (mkeys m')) by (exact (Permutation_NoDup (Permutation_map fst Hp) Hnd)).
  assert (Hin : forall (a : amap V) v, NoDup (mkeys a) -> In (k, v) a -> mget k a = Some v).
  { clear. intros a v. induction a as [|(k', v') a IH]; [intros _ []|]. cbn [mkeys map fst mget]. intros Hnd H. inversion Hnd as [|x l Hx Hl]; subst.
    destruct H as [H|H]; [injection H as -> ->; rewrite ueqb_refl; reflexivity|].
    destruct (ueqb_spec k k') as [->|Hne]; [|exact (IH Hl H)]. exfalso. apply Hx. exact (in_map fst a (k', v) H). }
  destruct (mget k m) as [v|] eqn:Em.
  - apply mget_In in Em. symmetry. apply Hin; [exact Hnd' | exact (Permutation_in _ Hp Em)].
  - destruct (mget k m') as [v|] eqn:Em'; [|reflexivity]. apply mget_In in Em'.
    rewrite (Hin m v Hnd (Permutation_in _ (Permutation_sym Hp) Em')) in Em. discriminate Em.
Qed.
Lemma reorder_ok p cs : provider_ok p -> Permutation cs (sp_components p) -> provider_ok (mk_sprovider cs (sp_connections p)).
Proof.
  intros (Hnd & H) Hperm. assert (Hnd' : NoDup (mkeys cs)) by exact (Permutation_NoDup (Permutation_sym (Permutation_map fst Hperm)) Hnd).
  split; [exact Hnd'|]. cbn [sp_components sp_connections]. intros c f Hc. rewrite (perm_get _ _ Hperm Hnd') in Hc. exact (H c f Hc).
Qed.
