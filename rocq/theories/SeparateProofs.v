(** The details of a component are a function of the values of the queries for it. *)
From Verif Require Import Base BaseFacts RegistryModel ProviderModel ProviderSpec ProviderProofs ProviderProofs2 ProviderProofs4 ProviderProofs5 ProviderProofs6 ProviderProofs7
  RowsSpec RowsProofs SeparateSpec.

Lemma filter_narrow {A} (f g : A -> bool) l l' : (forall x, g x = true -> f x = true) -> filter f l = filter f l' -> filter g l = filter g l'.
Proof.
  intros H He. assert (G : forall m, filter g m = filter g (filter f m)).
  { intros m. rewrite filter_filter. apply filter_ext. intros x. destruct (f x) eqn:Ef; [reflexivity|]. destruct (g x) eqn:Eg; [rewrite (H x Eg) in Ef; discriminate Ef | reflexivity]. }
  rewrite (G l), (G l'), He. reflexivity.
Qed.

(** ** One run *)
Section One.
  Variable E : penv.
  Variable p : sprovider.
  Hypothesis Hp : provider_ok p.

  Definition pick {A} (b : bool) (x y : pout A) : pout A := if b then x else y.
  Definition yields {A} (m : PM A) (Q : A -> Prop) : Prop := steady E p m /\ forall a, value m = Ok a -> Q a.
  Lemma yields_self {A} (m : PM A) : steady E p m -> yields m (fun a => value m = Ok a).
  Proof. intros H. split; auto. Qed.
  Lemma yields_ret {A} (x : pout A) (Q : A -> Prop) : (forall a, x = Ok a -> Q a) -> yields (pret x) Q.
  Proof. intros H. split; [apply steady_ret | exact H]. Qed.
  Lemma yields_bind {A B} (m : PM A) (f : A -> PM B) Q R : yields m Q -> (forall a, Q a -> yields (f a) R) -> yields (pbind m f) R.
  Proof.
    intros (Hm & HQ) Hf. split.
    - apply steady_bind; [exact Hm|]. intros a Ha. apply (Hf a (HQ a Ha)).
    - intros b Hb. rewrite (value_bind E p) in Hb; [|apply Hm | intros a Ha; apply (Hf a (HQ a Ha))].
      apply bind_Ok in Hb. destruct Hb as (a & Ha & Hb). apply (Hf a (HQ a Ha)). exact Hb.
  Qed.
  Lemma yields_weaken {A} (m : PM A) (Q R : A -> Prop) : yields m Q -> (forall a, Q a -> R a) -> yields m R.
  Proof. intros (H1 & H2) H. split; auto. Qed.

  Section Component.
    Variable c : ustr.
    Variable files : bool * bool.

    Definition vlang all := value (languages E p c all).
    Definition vcon t all := value (contributors E p c t all).
    Definition vcount t all := value (count E p c t all).
    Definition vdef all := value (default_language E p c all).

    Definition vstep (t : ustr) (cd : cdetails) : pout cdetails :=
      match mget t (cd_languages cd) with
      | None => Panic
      | Some data =>
          let! c1 := pick (fst files) (vcon t true) (Ok (lg_contributors data)) in
          let! c2 := pick (snd files) (vcon t false) (Ok []) in
          let! n1 := pick (fst files) (vcount t true) (Ok (lg_count data)) in
          let! n2 := pick (snd files) (vcount t false) (Ok 0%N) in
          Ok (mk_cdetails (minsert t (mk_lgdata (n1 + n2) (lg_ratio data) (fold_left push_new c2 c1)) (cd_languages cd)) (cd_default cd) (cd_total cd + (n1 + n2)))
      end.
    Fixpoint vloop (ls : list ustr) (cd : cdetails) : pout cdetails :=
      match ls with [] => Ok cd | t :: r => let! cd' := vstep t cd in vloop r cd' end.
    Definition vcomponent : pout cdetails :=
      let! l1 := pick (fst files) (vlang true) (Ok []) in
      let cm1 := if fst files then add_aio_languages l1 [] else [] in
      let! l2 := pick (snd files) (vlang false) (Ok []) in
      let (ls, cm2) := add_own_languages l2 (l1, cm1) in
      let! d1 := pick (fst files) (vdef true) (Ok None) in
      let! d2 := match d1 with None => pick (snd files) (vdef false) (Ok None) | Some _ => Ok d1 end in
      match d2 with
      | None => Panic
      | Some t =>
          let! cd := vloop ls (mk_cdetails cm2 t 0) in
          match mget (cd_default cd) (cd_languages cd) with
          | None => Panic
          | Some data => Ok (mk_cdetails (set_ratios (lg_count data) (cd_languages cd)) (cd_default cd) (cd_total cd))
          end
      end.

    Lemma yields_if {A} (b : bool) (m : PM A) (a : A) : steady E p m -> yields (if b then m else skip a) (fun x => (if b then value m else Ok a) = Ok x).
    Proof. intros H. destruct b; [exact (yields_self m H) | apply yields_ret; auto]. Qed.
    Lemma language_step_yields t cd rd : yields (language_step E p c files t (cd, rd)) (fun x => vstep t cd = Ok (fst x)).
    Proof.
      unfold language_step, vstep. destruct (mget t (cd_languages cd)) as [data|]; [|apply yields_ret; discriminate].
      eapply yields_bind; [apply yields_if, contributors_steady; exact Hp|]. intros c1 H1.
      eapply yields_bind; [apply yields_if, contributors_steady; exact Hp|]. intros c2 H2.
      eapply yields_bind; [apply yields_if, count_steady; exact Hp|]. intros n1 H3.
      eapply yields_bind; [apply yields_if, count_steady; exact Hp|]. intros n2 H4.
      destruct (mget t (rd_languages rd)) as [rl|]; [|apply yields_ret; discriminate]. apply yields_ret. intros x [= <-].
      assert (H1' : (pick (fst files) (vcon t true) (Ok (lg_contributors data))) = Ok c1) by (destruct files as [[|] [|]]; exact H1).
      assert (H2' : (pick (snd files) (vcon t false) (Ok [])) = Ok c2) by (destruct files as [[|] [|]]; exact H2).
      assert (H3' : (pick (fst files) (vcount t true) (Ok (lg_count data))) = Ok n1) by (destruct files as [[|] [|]]; exact H3).
      assert (H4' : (pick (snd files) (vcount t false) (Ok 0%N)) = Ok n2) by (destruct files as [[|] [|]]; exact H4).
      rewrite H1'. cbn [bind]. rewrite H2'. cbn [bind]. rewrite H3'. cbn [bind]. rewrite H4'. reflexivity.
    Qed.
    Lemma language_loop_yields ls : forall cd rd, yields (language_loop E p c files ls (cd, rd)) (fun x => vloop ls cd = Ok (fst x)).
    Proof.
      induction ls as [|t ls IH]; intros cd rd; cbn [language_loop vloop]; [apply yields_ret; intros x [= <-]; reflexivity|].
      eapply yields_bind; [apply language_step_yields|]. intros (cd' & rd') H. rewrite H. cbn [bind fst]. apply IH.
    Qed.
    Lemma component_step_yields cds rd : yields (component_step E p c files (cds, rd)) (fun x => exists cd, vcomponent = Ok cd /\ fst x = minsert c cd cds).
    Proof.
      unfold component_step, vcomponent. cbv zeta. apply yields_bind with (fun _ => True); [apply yields_ret; auto|]. intros und _.
      eapply yields_bind; [apply yields_if, languages_steady; exact Hp|]. intros l1 H1.
      eapply yields_bind; [apply yields_if, languages_steady; exact Hp|]. intros l2 H2.
      assert (H1' : (pick (fst files) (vlang true) (Ok [])) = Ok l1) by (destruct files as [[|] [|]]; exact H1).
      assert (H2' : (pick (snd files) (vlang false) (Ok [])) = Ok l2) by (destruct files as [[|] [|]]; exact H2).
      rewrite H1'. cbn [bind]. rewrite H2'. cbn [bind]. destruct (add_own_languages l2 _) as [ls cm2].
      eapply yields_bind; [apply yields_if, default_language_steady; exact Hp|]. intros d1 H3.
      assert (H3' : (pick (fst files) (vdef true) (Ok None)) = Ok d1) by (destruct files as [[|] [|]]; exact H3). rewrite H3'. cbn [bind].
      apply yields_bind with (fun x => (match d1 with None => pick (snd files) (vdef false) (Ok None) | Some _ => Ok d1 end) = Ok x).
      { destruct d1; [apply yields_ret; auto | apply yields_if, default_language_steady; exact Hp]. }
      intros d2 H4. rewrite H4. cbn [bind]. destruct d2 as [t|]; [|apply yields_ret; discriminate].
      destruct (negb _); [apply yields_ret; discriminate|]. eapply yields_bind; [apply language_loop_yields|]. intros (cd & rd') H5. cbn [fst] in H5. rewrite H5. cbn [bind].
      destruct (mget (cd_default cd) (cd_languages cd)) as [data|]; [|apply yields_ret; discriminate]. apply yields_ret. intros x [= <-]. eauto.
    Qed.
  End Component.

  Lemma component_loop_yields cs : forall cds rd, NoDup (map fst cs) -> (forall c cd, mget c cds = Some cd -> ~ In c (map fst cs)) ->
    yields (component_loop E p cs (cds, rd)) (fun x =>
      (forall c cd, mget c cds = Some cd -> mget c (fst x) = Some cd) /\ (forall c cd, mget c (fst x) = Some cd -> mget c cds <> None \/ In c (map fst cs)) /\
      forall c f, In (c, f) cs -> exists cd, vcomponent c f = Ok cd /\ mget c (fst x) = Some cd).
  Proof.
    induction cs as [|(c & f) cs IH]; intros cds rd Hn Ho; cbn [component_loop].
    - apply yields_ret. intros x [= <-]. split; [auto|]. split; [intros c cd H; left; cbn [fst] in H; congruence | intros c f []].
    - cbn [map fst] in Hn. inversion Hn as [|y l Hc Hn']; subst. eapply yields_bind; [apply component_step_yields|]. intros (cds' & rd') (cd & Hv & Hi). cbn [fst] in Hi. subst cds'.
      eapply yields_weaken.
      + apply (IH _ rd' Hn'). intros c' cd' H. rewrite mget_minsert in H. destruct (ueqb_spec c' c) as [->|Hne]; [exact Hc|].
        intros Hin. apply (Ho c' cd' H). right. exact Hin.
      + intros x (H1 & H3 & H2). split; [|split].
        * intros c' cd' H. apply H1. rewrite mget_minsert. destruct (ueqb_spec c' c) as [->|Hne]; [|exact H]. exfalso. apply (Ho c cd' H). left. reflexivity.
        * intros c' cd' H. destruct (H3 c' cd' H) as [G|G]; [|right; right; exact G]. rewrite mget_minsert in G. destruct (ueqb_spec c' c) as [->|Hne]; [right; left; reflexivity | left; exact G].
        * intros c' f' [[= <- <-]|Hin]; [|exact (H2 c' f' Hin)]. exists cd. split; [exact Hv|]. apply H1. rewrite mget_minsert, ueqb_refl. reflexivity.
  Qed.
  Lemma build_details_yields : yields (build_details E p) (fun x => (forall c f, mget c (sp_components p) = Some f ->
    exists cd, vcomponent c f = Ok cd /\ mget c (fst x) = Some cd) /\ forall c cd, mget c (fst x) = Some cd -> known p c).
  Proof.
    unfold build_details. eapply yields_bind; [apply (component_loop_yields (sp_components p) [])|].
    - exact (proj1 Hp).
    - intros c cd H. discriminate H.
    - intros (cds & rd) (_ & H' & H). cbn [fst] in H, H'.
      assert (G : (forall c f, mget c (sp_components p) = Some f -> exists cd, vcomponent c f = Ok cd /\ mget c cds = Some cd) /\ forall c cd, mget c cds = Some cd -> known p c).
      { split; [intros c f Hc; apply H, mget_In, Hc|]. intros c cd Hc. destruct (H' c cd Hc) as [G|G]; [destruct (G eq_refl) | exact G]. }
      destruct (rd_default rd) as [t|]; [|apply yields_ret; intros x [= <-]; exact G].
      destruct (mget t (rd_languages rd)); [|apply yields_ret; discriminate]. apply yields_ret. intros x [= <-]. exact G.
  Qed.
  Lemma component_is c f cd : mget c (sp_components p) = Some f -> value (component_details E p c) = Ok cd -> vcomponent c f = Ok cd.
  Proof.
    intros Hf. unfold component_details. rewrite (value_bind E p); [|apply get_details_steady; exact Hp | intros (cds & rd) _; destruct (mget c cds); apply steady_ret].
    rewrite get_details_value. intros H. apply bind_Ok in H. destruct H as ((cds & rd) & Hv & H).
    destruct (proj1 (proj2 build_details_yields _ Hv) c f Hf) as (cd' & Hcd & Hg). cbn [fst] in Hg. rewrite Hg in H. injection H as <-. exact Hcd.
  Qed.
End One.

(** ** Two runs *)
Section Two.
  Variable E : penv.
  Variables p p' : sprovider.
  Hypothesis Hp : provider_ok p.
  Hypothesis Hp' : provider_ok p'.
  Variable c : ustr.
  Hypothesis Hs : same_component p p' c.

  Lemma component_string i : same_string p p' c i.
  Proof.
    destruct Hs as (Hk & Ha & Ho). assert (G : forall o o' : option db, option_map (tables_of c) o = option_map (tables_of c) o' -> option_map (rows_of c i) o = option_map (rows_of c i) o').
    { intros [d|] [d'|] H; cbn in *; try discriminate H; [|reflexivity]. f_equal. injection H as H _ _. unfold rows_of. apply filter_narrow with (2 := H).
      intros r Hr. apply andb_prop in Hr. apply Hr. }
    split; [exact Hk|]. split; apply G; assumption.
  Qed.
  Lemma component_flags : mget c (sp_components p) = mget c (sp_components p').
  Proof. exact (same_flags p p' Hp Hp' c [] (component_string [])). Qed.

  Lemma connection_tables all : match connection p c all, connection p' c all with
    | Ok (f, (d, v)), Ok (f', (d', v')) => f = f' /\ v = v' /\ tables_of c d = tables_of c d'
    | Err e, Err e' => e = e'
    | Panic, Panic => True
    | _, _ => False
    end.
  Proof.
    pose proof component_flags as Hf. destruct Hs as (_ & Ha & Ho). unfold aio_db, own_db in Ha, Ho. unfold connection. rewrite <- Hf in *.
    destruct Hp as (_ & H). specialize (H c). destruct Hp' as (_ & H'). specialize (H' c). rewrite <- Hf in H'.
    destruct (mget c (sp_components p)) as [[a o]|]; [|reflexivity]. destruct (H _ eq_refl) as (H1 & H2). destruct (H' _ eq_refl) as (H1' & H2'). cbn [fst snd] in *.
    destruct (all && a) eqn:Ea.
    - destruct a; [|destruct all; discriminate Ea]. destruct (H1 eq_refl) as (d & Hd). destruct (H1' eq_refl) as (d' & Hd'). rewrite Hd, Hd' in *. cbn [option_map fst] in Ha.
      assert (tables_of c d = tables_of c d') by congruence. auto.
    - destruct o; [|reflexivity]. destruct (H2 eq_refl) as (d & Hd). destruct (H2' eq_refl) as (d' & Hd'). rewrite Hd, Hd' in *. destruct a; cbn [option_map fst] in Ho;
        (assert (tables_of c d = tables_of c d') by congruence); auto.
  Qed.
  Lemma on_connection_same {A} all (g : ustr -> db -> pout A) : (forall f d d', tables_of c d = tables_of c d' -> g f d = g f d') ->
    on_connection p c all g = on_connection p' c all g.
  Proof.
    intros Hg. unfold on_connection. pose proof (connection_tables all) as H.
    destruct (connection p c all) as [(f & d & v)|e| |], (connection p' c all) as [(f' & d' & v')|e'| |]; try contradiction; [|now rewrite H|reflexivity].
    destruct H as (<- & _ & Ht). exact (Hg f d d' Ht).
  Qed.
  Ltac tables := intros f d d' Ht; unfold select; destruct (negb _); [reflexivity|]; unfold tables_of in Ht; injection Ht as Ht1 Ht2 Ht3.

  Lemma vlang_same all : vlang E p c all = vlang E p' c all.
  Proof. unfold vlang. rewrite !languages_value by assumption. apply on_connection_same. tables. now rewrite Ht2. Qed.
  Lemma vcon_same t all : vcon E p c t all = vcon E p' c t all.
  Proof.
    unfold vcon. rewrite !contributors_value by assumption. apply on_connection_same. tables.
    assert (G : filter (fun r => ueqb (co_tag r) t && ueqb (co_component r) c) (db_contributor d) = filter (fun r => ueqb (co_tag r) t && ueqb (co_component r) c) (db_contributor d')).
    { apply filter_narrow with (2 := Ht2). intros r Hr. apply andb_prop in Hr. apply Hr. }
    now rewrite G.
  Qed.
  Lemma vcount_same t all : vcount E p c t all = vcount E p' c t all.
  Proof.
    unfold vcount. rewrite !count_value by assumption. apply on_connection_same. tables.
    assert (G : filter (fun r => ueqb (pr_tag r) t && ueqb (pr_component r) c) (db_pattern d) = filter (fun r => ueqb (pr_tag r) t && ueqb (pr_component r) c) (db_pattern d')).
    { apply filter_narrow with (2 := Ht1). intros r Hr. apply andb_prop in Hr. apply Hr. }
    now rewrite G.
  Qed.
  Lemma vdef_same all : vdef E p c all = vdef E p' c all.
  Proof. unfold vdef. rewrite !default_language_value by assumption. apply on_connection_same. tables. now rewrite Ht3. Qed.

  Lemma vstep_same f t cd : vstep E p c f t cd = vstep E p' c f t cd.
  Proof. unfold vstep. destruct (mget t (cd_languages cd)); [|reflexivity]. rewrite !vcon_same, !vcount_same. reflexivity. Qed.
  Lemma vloop_same f ls : forall cd, vloop E p c f ls cd = vloop E p' c f ls cd.
  Proof. induction ls as [|t ls IH]; intros cd; cbn [vloop]; [reflexivity|]. rewrite vstep_same. apply obind_ext. exact IH. Qed.
  Lemma vcomponent_same f : vcomponent E p c f = vcomponent E p' c f.
  Proof.
    unfold vcomponent. rewrite !vlang_same, !vdef_same. apply obind_ext. intros l1. cbv zeta. apply obind_ext. intros l2. destruct (add_own_languages _ _) as [ls cm2].
    apply obind_ext. intros d1. apply obind_ext. intros [t|]; [|reflexivity]. rewrite vloop_same. reflexivity.
  Qed.
  Lemma component_details_same cd cd' : value (component_details E p c) = Ok cd -> value (component_details E p' c) = Ok cd' -> cd = cd'.
  Proof.
    intros H H'. pose proof component_flags as Hf. destruct (mget c (sp_components p)) as [f|] eqn:Ef.
    - pose proof (component_is E p Hp c f cd Ef H) as G. pose proof (component_is E p' Hp' c f cd' (eq_sym Hf) H') as G'. rewrite vcomponent_same in G. congruence.
    - exfalso. revert H. unfold component_details. rewrite (value_bind E p); [|apply get_details_steady; exact Hp | intros (cds & rd) _; destruct (mget c cds); apply steady_ret].
      rewrite get_details_value. intros H. apply bind_Ok in H. destruct H as ((cds & rd) & Hv & H).
      destruct (mget c cds) as [x|] eqn:Ex; [|discriminate H].
      apply mget_None_keys in Ef. apply Ef. exact (proj2 (proj2 (build_details_yields E p Hp) _ Hv) c x Ex).
  Qed.
End Two.
