(** Proofs about the sqlite3 provider: when the details can be built; results of calls. *)
From Verif Require Import Base BaseFacts RegistryModel ProviderModel ProviderSpec ProviderProofs ProviderProofs2 ProviderProofs3 ProviderProofs4
  ProviderProofs5 ProviderProofs6 ProviderProofs7.

Definition no_err {A} (x : pout A) : Prop := forall e, x <> Err e.
Lemma no_err_Ok {A} (a : A) : no_err (Ok a).
Proof. intros e; discriminate. Qed.
Lemma no_err_bind {A B} (x : pout A) (f : A -> pout B) : no_err x -> (forall a, x = Ok a -> no_err (f a)) -> no_err (bind x f).
Proof. intros Hx Hf e. destruct x as [a|e'| |]; cbn [bind]; [apply Hf; reflexivity | intros _; exact (Hx e' eq_refl) | discriminate | discriminate]. Qed.

Section Success.
  Variable E : penv.
  Variable p : sprovider.
  Hypothesis Hp : provider_ok p.
  Hypothesis He : env_fine E p.
  Hypothesis Hd : defaults_fine E p.
  Let Ho := proj1 He.

  Definition smooth {A} (m : PM A) : Prop := steady E p m /\ no_err (value m).
  Lemma smooth_ret {A} (x : pout A) : no_err x -> smooth (pret x).
  Proof. intros H. split; [apply steady_ret | exact H]. Qed.
  Lemma smooth_bind {A B} (m : PM A) (f : A -> PM B) : smooth m -> (forall a, value m = Ok a -> smooth (f a)) -> smooth (pbind m f).
  Proof.
    intros (H1 & H2) Hf. assert (Hs : forall a, value m = Ok a -> steady E p (f a)) by (intros a Ha; apply (Hf a Ha)).
    split; [apply steady_bind; assumption|]. rewrite (value_bind E p) by assumption. apply no_err_bind; [exact H2|]. intros a Ha. apply (Hf a Ha).
  Qed.

  Lemma select_fine {A} f d q ps (g : list (list cell) -> pout A) :
    (q = SqlCount \/ q = SqlContributors \/ q = SqlLanguages \/ q = SqlDefault) -> (List.length ps = match q with SqlCount | SqlContributors => 2 | _ => 1 end) ->
    (forall rows, select E f d q ps = Ok rows -> no_err (g rows)) -> no_err (bind (select E f d q ps) g).
  Proof.
    intros Hq Hl Hg. pose proof (proj1 (proj2 He)) as Hs. apply no_err_bind; [|exact Hg]. unfold select. rewrite Hs. cbn [negb].
    destruct Hq as [->|[->|[->| ->]]]; destruct ps as [|a [|b [|c ps]]]; cbn in Hl; try lia; apply no_err_Ok.
  Qed.
  Lemma tags_smooth {A} (f : A -> ustr) rows : (forall r, In r rows -> pe_canon E (f r) <> None) ->
    no_err (map_rows (fun row => let! raw := get_text row 0 in registry_tag E raw) (map (fun r => [CellText (f r)]) rows)).
  Proof.
    induction rows as [|r rows IH]; intros H; [apply no_err_Ok|]. cbn [map map_rows get_text nth_error bind].
    unfold registry_tag at 1. destruct (pe_canon E (f r)) as [t|] eqn:Et; [|destruct (H r (or_introl eq_refl) Et)]. cbn [bind].
    apply no_err_bind; [apply IH; intros r' Hr'; apply H; right; exact Hr' | intros; apply no_err_Ok].
  Qed.
  Lemma at_tags c all d : at_ p c all d -> tags_fine E d.
  Proof. pose proof (proj2 (proj2 He)) as Ht. destruct all; intros (f & v & _ & H); exact (Ht _ _ _ H). Qed.

  Lemma languages_smooth c all d : at_ p c all d -> smooth (languages E p c all).
  Proof.
    intros Hat. split; [apply languages_steady; exact Hp|]. rewrite languages_value, (at_connection p c all d _ Hat) by exact Hp.
    apply select_fine; [auto | reflexivity|]. intros rows Hr. unfold select in Hr. destruct (negb _); [discriminate Hr|]. injection Hr as <-.
    apply (tags_smooth (fun t => t)). intros t Ht. apply (order_In E Ho) in Ht. apply distinct_In, in_map_iff in Ht. destruct Ht as (r & <- & Hr).
    apply filter_In in Hr. apply (at_tags c all d Hat). apply Hr.
  Qed.
  Lemma default_smooth c all d : at_ p c all d -> smooth (default_language E p c all).
  Proof.
    intros Hat. split; [apply default_language_steady; exact Hp|]. rewrite default_language_value, (at_connection p c all d _ Hat) by exact Hp.
    apply select_fine; [auto | reflexivity|]. intros rows Hr. unfold select in Hr. destruct (negb _); [discriminate Hr|]. injection Hr as <-.
    apply no_err_bind; [|intros; apply no_err_Ok]. apply (tags_smooth ir_tag). intros r Hr. apply (order_defaults_In E Ho) in Hr.
    apply filter_In in Hr. apply (at_tags c all d Hat). apply Hr.
  Qed.
  Lemma contributors_smooth c t all d : at_ p c all d -> smooth (contributors E p c t all).
  Proof.
    intros Hat. split; [apply contributors_steady; exact Hp|]. rewrite contributors_value, (at_connection p c all d _ Hat) by exact Hp.
    apply select_fine; [auto | reflexivity|]. intros rows Hr. unfold select in Hr. destruct (negb _); [discriminate Hr|]. injection Hr as <-.
    rewrite (map_rows_texts (fun x => x)). apply no_err_Ok.
  Qed.
  Lemma count_smooth c t all d : at_ p c all d -> smooth (count E p c t all).
  Proof.
    intros Hat. split; [apply count_steady; exact Hp|]. rewrite count_value, (at_connection p c all d _ Hat) by exact Hp.
    apply select_fine; [auto | reflexivity|]. intros rows Hr. unfold select in Hr. destruct (negb _); [discriminate Hr|]. injection Hr as <-.
    cbn [map_rows get_int nth_error bind]. apply no_err_Ok.
  Qed.

  Section Component.
    Variables (c : ustr) (fa fo : bool).
    Hypothesis Hc : mget c (sp_components p) = Some (fa, fo).

    Lemma if_aio {A} (m : PM A) (a : A) : (forall d, in_aio p c d -> smooth m) -> smooth (if fa then m else skip a).
    Proof. intros H. case_eq fa; intros Hfa; [|apply smooth_ret, no_err_Ok]. destruct (aio_at p Hp c fa fo Hc Hfa) as (d & Hda & _). exact (H d Hda). Qed.
    Lemma if_own {A} (m : PM A) (a : A) : (forall d, in_own p c d -> smooth m) -> smooth (if fo then m else skip a).
    Proof. intros H. case_eq fo; intros Hfo; [|apply smooth_ret, no_err_Ok]. destruct (own_at p Hp c fa fo Hc Hfo) as (d & Hda & _). exact (H d Hda). Qed.

    Lemma language_step_smooth t acc : smooth (language_step E p c (fa, fo) t acc).
    Proof.
      destruct acc as (cd & rd). unfold language_step. destruct (mget t (cd_languages cd)); [|apply smooth_ret; intros e; discriminate]. cbn [fst snd].
      apply smooth_bind; [apply if_aio; intros d; exact (contributors_smooth c t true d)|]. intros c1 _.
      apply smooth_bind; [apply if_own; intros d; exact (contributors_smooth c t false d)|]. intros c2 _.
      apply smooth_bind; [apply if_aio; intros d; exact (count_smooth c t true d)|]. intros n1 _.
      apply smooth_bind; [apply if_own; intros d; exact (count_smooth c t false d)|]. intros n2 _.
      destruct (mget t (rd_languages rd)); [apply smooth_ret, no_err_Ok | apply smooth_ret; intros e; discriminate].
    Qed.
    Lemma language_loop_smooth ls : forall acc, smooth (language_loop E p c (fa, fo) ls acc).
    Proof.
      induction ls as [|t ls IH]; intros acc; cbn [language_loop]; [apply smooth_ret, no_err_Ok|].
      apply smooth_bind; [apply language_step_smooth | intros acc' _; apply IH].
    Qed.

    Lemma component_step_smooth acc : smooth (component_step E p c (fa, fo) acc).
    Proof.
      destruct acc as (cds & rd0). unfold component_step. cbn [fst snd].
      destruct (proj2 Hd c (proj1 (mget_keys c (sp_components p)) (ex_intro _ _ Hc))) as ((t0 & Ht0) & Hdl).
      apply smooth_bind.
      { apply smooth_ret. unfold registry_tag. destruct (pe_canon E (us "und")) eqn:Eu; [apply no_err_Ok | destruct (proj1 Hd Eu)]. }
      intros _ _. apply smooth_bind; [apply if_aio; intros d; exact (languages_smooth c true d)|]. intros l1 H1.
      destruct (proj2 (languages_post E p Hp Ho c fa fo Hc) l1 H1) as (Hl1 & Hl1' & _).
      apply smooth_bind; [apply if_own; intros d; exact (languages_smooth c false d)|]. intros l2 H2.
      pose proof (proj2 (languages_own_post E p Hp Ho c fa fo Hc) l2 H2) as Hl2. cbv beta in Hl2.
      set (cm1 := if fa then add_aio_languages l1 [] else []).
      assert (Hcm1 : no_data_map cm1 /\ NoDup (mkeys cm1) /\ forall t, In t (mkeys cm1) <-> In t l1).
      { subst cm1. case_eq fa; intros Hfa.
        - destruct (add_aio_languages_facts l1 []) as (H3 & H4 & H5); [intros t x H; discriminate H | constructor|].
          split; [exact H3|]. split; [exact H4|]. intros t. rewrite H5. cbn. tauto.
        - rewrite (Hl1' Hfa). split; [intros t x H; discriminate H|]. split; [constructor | cbn; tauto]. }
      destruct Hcm1 as (Hm1 & Hm2 & Hm3). pose proof (add_own_languages_facts l2 l1 cm1 Hm1 Hm2 Hm3) as Hadd.
      destruct (add_own_languages l2 (l1, cm1)) as (ls & cm2). destruct Hadd as (Ha1 & Ha2 & Ha3 & Ha4 & Ha5).
      apply smooth_bind; [apply if_aio; intros d; exact (default_smooth c true d)|]. intros d1 Hd1.
      apply (proj2 (default_post E p Hp Ho c fa fo Hc) d1) in Hd1. cbv beta in Hd1.
      assert (Hown : smooth (if fo then default_language E p c false else skip None)) by (apply if_own; intros d; exact (default_smooth c false d)).
      apply smooth_bind; [destruct d1; [apply smooth_ret, no_err_Ok | exact Hown]|]. intros d2 Hd2.
      assert (Hfound : exists t, d2 = Some t /\ default_of E p c t).
      { destruct d1 as [t|].
        - injection Hd2 as <-. exists t. split; [reflexivity|]. left. exact Hd1.
        - destruct d2 as [t|].
          + apply (proj2 (default_own_post E p Hp Ho c fa fo Hc) (Some t)) in Hd2. exists t. split; [reflexivity|]. right. split; [exact Hd1 | exact Hd2].
          + exfalso. destruct Ht0 as [(d & Hda & r & Hr & Hrc & _)|(_ & d & Hdo & r & Hr & Hrc & _)]; [exact (Hd1 d Hda r Hr Hrc)|].
            assert (Hfo : fo = true) by (destruct Hdo as (f & v & Hdo & _); congruence). rewrite Hfo in Hd2.
            apply (default_spec E p Hp Ho c false d None Hdo) in Hd2. exact (Hd2 r Hr Hrc). }
      destruct Hfound as (t & -> & Hdef).
      assert (Hh : mhas t cm2 = true).
      { apply mhas_true, mget_keys, Ha3, Ha4. destruct (proj1 (has_language_split E p c t) (Hdl t Hdef)) as [H|H]; [left; apply Hl1; exact H | right; apply Hl2; exact H]. }
      rewrite Hh. cbn [negb]. apply smooth_bind; [apply language_loop_smooth|]. intros (cd & rd) _.
      destruct (mget (cd_default cd) (cd_languages cd)); [apply smooth_ret, no_err_Ok | apply smooth_ret; intros e; discriminate].
    Qed.
  End Component.

  Lemma component_loop_smooth cs : (forall c f, In (c, f) cs -> mget c (sp_components p) = Some f) -> forall acc, smooth (component_loop E p cs acc).
  Proof.
    induction cs as [|(c & fa & fo) cs IH]; intros Hcs acc; cbn [component_loop]; [apply smooth_ret, no_err_Ok|].
    apply smooth_bind; [apply component_step_smooth; apply Hcs; left; reflexivity|]. intros acc' _. apply IH. intros c' f H. apply Hcs. right. exact H.
  Qed.
  Lemma build_details_smooth : smooth (build_details E p).
  Proof.
    unfold build_details. apply smooth_bind.
    - apply component_loop_smooth. intros c f. apply components_self. exact Hp.
    - intros (cds & rd) _. destruct (rd_default rd) as [t|]; [|apply smooth_ret, no_err_Ok].
      destruct (mget t (rd_languages rd)); [apply smooth_ret, no_err_Ok | apply smooth_ret; intros e; discriminate].
  Qed.
  Lemma build_details_succeeds : exists acc, value (build_details E p) = Ok acc.
  Proof.
    destruct build_details_smooth as (_ & Hn). destruct (build_details_post E p Hp Ho) as ((_ & Hq) & _).
    destruct (value (build_details E p)) as [acc|e| |] eqn:Ev; [eauto | destruct (Hn e eq_refl) | | ]; destruct Hq; congruence.
  Qed.
  Lemma component_details_succeed c : known p c -> exists cd, value (component_details E p c) = Ok cd.
  Proof.
    intros Hk. destruct build_details_succeeds as ((cds & rd) & Hv). unfold component_details. rewrite (value_bind E p).
    - rewrite get_details_value, Hv. cbn [bind]. destruct (details_value E p Hp Ho _ Hv) as (L & HL). cbn [fst snd] in HL.
      destruct (cds_keys E p Hp L cds rd HL) as (Hkeys & _). unfold known in Hk. rewrite <- Hkeys in Hk. apply mget_keys in Hk.
      destruct Hk as (cd & ->). exists cd. reflexivity.
    - apply get_details_steady; exact Hp.
    - intros (cds' & rd') _. destruct (mget c cds'); apply steady_ret.
  Qed.
  Lemma repository_details_succeed : exists rd, value (repository_details E p) = Ok rd.
  Proof.
    destruct build_details_succeeds as ((cds & rd) & Hv). exists rd. unfold repository_details. rewrite (value_bind E p).
    - rewrite get_details_value, Hv. reflexivity.
    - apply get_details_steady; exact Hp.
    - intros (cds' & rd') _. apply steady_ret.
  Qed.
End Success.

(** Results of calls in terms of values. *)
Lemma made_ok es p : made es p -> provider_ok p.
Proof.
  intros (ok & cs & H & Hperm). apply try_new_ok in H. pose proof (reorder_ok _ (sp_components p) H Hperm) as Hr. destruct p as (cs' & conns). exact Hr.
Qed.
Section Results.
  Variable E : penv.
  Variable p : sprovider.
  Hypothesis Hp : provider_ok p.
  Ltac run := unfold result; rewrite history_steady by exact Hp; unfold pcall_run, pbind, value;
    match goal with |- context [match ?m pstate_new with _ => _ end] => destruct (m pstate_new) as (st & [a|e| |]) end; reflexivity.
  Lemma result_string h c i t : result E p h (CallString c i t) = (let! o := value (string_ E p c i t) in Ok (AnString o)).
  Proof. run. Qed.
  Lemma result_exact h c i t : result E p h (CallExact c i t) = (let! o := value (string_exact_match E p c i t) in Ok (AnString o)).
  Proof. run. Qed.
  Lemma result_strings h c i t : result E p h (CallStrings c i t) = (let! o := value (strings E p c i t) in Ok (AnStrings o)).
  Proof. run. Qed.
  Lemma result_identifier h c i : result E p h (CallIdentifier c i) = (let! o := value (identifier_details E p c i) in Ok (AnIdentifier o)).
  Proof. run. Qed.
  Lemma result_component h c : result E p h (CallComponent c) = (let! o := value (component_details E p c) in Ok (AnComponent o)).
  Proof. run. Qed.
  Lemma result_repository h : result E p h CallRepository = (let! o := value (repository_details E p) in Ok (AnRepository o)).
  Proof. run. Qed.
End Results.

Lemma made_reads es p : NoDup (stems es) -> made es p -> reads es p.
Proof.
  intros Hn (ok & cs & H & Hperm). apply (try_new_reads ok es _ Hn) in H. destruct H as [R1 R2 R3 R4 R5]. cbn [sp_components sp_connections] in *.
  assert (Hnd : NoDup (mkeys (sp_components p))) by exact (Permutation_NoDup (Permutation_sym (Permutation_map fst Hperm)) R1).
  pose proof (perm_get _ _ Hperm Hnd) as Hg. split; auto.
  - intros c. rewrite <- R3. setoid_rewrite Hg. reflexivity.
  - intros c. rewrite <- R4. setoid_rewrite Hg. reflexivity.
  - intros c. rewrite Hg. apply R5.
Qed.

Lemma verify_no_panic s : sc_path s <> None -> verify_schema s <> Panic /\ verify_schema s <> NoFuel.
Proof.
  assert (Hb : forall (x : outcome schema_error unit) (f : unit -> outcome schema_error ustr), (x <> Panic /\ x <> NoFuel) ->
    (forall u, f u <> Panic /\ f u <> NoFuel) -> bind x f <> Panic /\ bind x f <> NoFuel).
  { intros [[]|e| |] f (H1 & H2) Hf; cbn [bind]; [apply Hf | split; discriminate | destruct (H1 eq_refl) | destruct (H2 eq_refl)]. }
  assert (Hc : forall t cols req, check_rows t cols req <> Panic /\ check_rows t cols req <> NoFuel).
  { intros t cols. induction cols as [|col cols IH]; intros req; cbn [check_rows]; [split; discriminate|].
    destruct req as [|[[[name ty] nn] pk] req]; [split; discriminate|].
    assert (columns_check t col name ty nn pk <> Panic /\ columns_check t col name ty nn pk <> NoFuel) as Hcc.
    { unfold columns_check. repeat match goal with |- context [if ?b then _ else _] => destruct b | |- context [match cl_default col with _ => _ end] => destruct (cl_default col) end;
        split; discriminate. }
    destruct (columns_check t col name ty nn pk) as [[]|e| |]; cbn [bind]; [apply IH | split; discriminate | destruct Hcc as (H & _); destruct (H eq_refl)
      | destruct Hcc as (_ & H); destruct (H eq_refl)]. }
  assert (Ht : forall ts t, table_exists ts t <> Panic /\ table_exists ts t <> NoFuel).
  { intros ts t. unfold table_exists. destruct (umem t ts); split; discriminate. }
  intros Hpath. unfold verify_schema. destruct (sc_readable s); cbn [negb]; [|split; discriminate]. destruct (umem _ _); cbn [negb]; [|split; discriminate].
  destruct (ueqb _ _); [|destruct (sc_path s); [split; discriminate | destruct (Hpath eq_refl)]].
  repeat (match goal with |- bind ?x ?f <> _ /\ _ => apply (Hb x f) end; [first [apply Ht | apply Hc]|intros _; cbv beta]). split; discriminate.
Qed.
Lemma try_new_no_panic ok es : names_fine es -> provider_try_new ok es <> Panic /\ provider_try_new ok es <> NoFuel.
Proof.
  assert (H : forall es p, names_fine es -> add_entries ok es p <> Panic /\ add_entries ok es p <> NoFuel).
  { induction es0 as [|e es' IH]; intros p H; cbn [add_entries]; [split; discriminate|].
    destruct (en_stem e) as [n|] eqn:En; [|destruct (proj1 (H e (or_introl eq_refl)) En)].
    assert (Hes : names_fine es') by (intros e' He'; apply H; right; exact He').
    destruct (en_db e) as [d|] eqn:Ed; [|apply IH; exact Hes].
    destruct (verify_no_panic (db_schema d) (proj2 (H e (or_introl eq_refl)) d Ed)) as (H1 & H2). destruct (verify_schema (db_schema d)) as [v|x| |]; cbn [map_err bind];
      [|split; discriminate | destruct (H1 eq_refl) | destruct (H2 eq_refl)].
    destruct (ueqb n aio); [destruct (ok d); cbn [negb]; [apply IH; exact Hes | split; discriminate] | apply IH; exact Hes]. }
  intros He. unfold provider_try_new. destruct (H es (mk_sprovider [] []) He) as (H1 & H2).
  destruct (add_entries ok es (mk_sprovider [] [])) as [p|x| |]; cbn [bind]; [|split; discriminate | destruct (H1 eq_refl) | destruct (H2 eq_refl)].
  destruct (sp_components p); split; discriminate.
Qed.
