(** Proofs for C114. *)
From Coq Require Import Permutation.
From Verif Require Import Base BaseFacts RegistryModel ProviderModel ProviderSpec ProviderProofs ProviderProofs2 ProviderProofs5 MemorySpec QueryModel QuerySpec
  QueryProofs QueryProofs2 QueryProofs3 QueryProofs4 QueryProofs5 QueryProofs6 FreshSpec TornSpec TornSpec2 TornProofs3 SumSpec.

(** Only what a computation gives in case of success. *)
Definition gives {A} (m : QM A) (P : A -> Prop) : Prop := adds m (fun _ _ x => on_ok x P).
Lemma gives_bind {A B} (m : QM A) (f : A -> QM B) R P : gives m R -> (forall a, R a -> gives (f a) P) -> gives (qbind m f) P.
Proof. intros Hm Hf. exact (ok_bind2 m f (fun _ _ a => R a) (fun _ _ _ b => P b) (fun _ _ b => P b) Hm (fun a _ _ H => Hf a H) (fun _ _ _ _ _ _ H => H)). Qed.
Lemma gives_ok {A} (a : A) (P : A -> Prop) : P a -> gives (qskip a) P.
Proof. intros H. apply ok_ret. intros h b [= <-]. exact H. Qed.
Lemma gives_bad {A} (x : pout A) (P : A -> Prop) : ~ is_ok x -> gives (qret x) P.
Proof. intros H. now apply (ok_bad x (fun _ _ => P)). Qed.
Lemma gives_any {A} (m : QM A) R : adds m R -> gives m (fun _ => True).
Proof. intros H. eapply adds_more; [exact H|]. intros h qs x _ a _. exact Logic.I. Qed.
Lemma gives_more {A} (m : QM A) (P Q : A -> Prop) : gives m P -> (forall a, P a -> Q a) -> gives m Q.
Proof. intros H HQ. eapply adds_more; [exact H|]. intros h qs x Hx a Ha. apply HQ, (Hx a Ha). Qed.

Lemma sum_app l1 l2 : sumN (l1 ++ l2) = (sumN l1 + sumN l2)%N.
Proof. induction l1 as [|x l1 IH]; [reflexivity|]. cbn [app sumN fold_right]. unfold sumN in IH. rewrite IH. apply N.add_assoc. Qed.
Lemma sum_perm l1 l2 : Permutation l1 l2 -> sumN l1 = sumN l2.
Proof. induction 1 as [|x l l' H IH|x y l|l l' l'' H1 IH1 H2 IH2]; cbn [sumN fold_right] in *; unfold sumN in *; [reflexivity | now rewrite IH | lia | congruence]. Qed.
Lemma sum_ext {A} (f g : A -> N) l : (forall x, In x l -> f x = g x) -> sumN (map f l) = sumN (map g l).
Proof. intros H. f_equal. now apply map_ext_in. Qed.
Lemma sum_keys m : NoDup (mkeys m) -> sumN (map (fun x => lg_count (snd x)) m) = sumN (map (count_of m) (mkeys m)).
Proof.
  intros H. unfold mkeys. rewrite map_map. apply sum_ext. intros (t & x) Hi. cbn [fst snd]. unfold count_of. now rewrite (nodup_get m t x H Hi).
Qed.
Lemma count_of_insert m t x t' : count_of (minsert t x m) t' = if ueqb t' t then lg_count x else count_of m t'.
Proof. unfold count_of. rewrite mget_minsert. now destruct (ueqb t' t). Qed.
Lemma count_ratios n m t : count_of (set_ratios n m) t = count_of m t.
Proof. unfold count_of. rewrite set_ratios_get. now destruct (mget t m). Qed.

Section Sum.
  Variable E : penv.
  Variable D : database.
  Variable p : sprovider.
  Hypothesis Hp : provider_ok p.
  Hypothesis H1 : spelt_once E D.

  Section Component.
    Variables (c : ustr) (files : bool * bool).
    Hypothesis Hc : mget c (sp_components p) = Some files.

    Lemma gives_if {A} (b : bool) (m : QM A) a : (b = true -> gives m (fun _ => True)) -> gives (if b then m else qskip a) (fun x => b = false -> x = a).
    Proof. destruct b; intros H; [eapply gives_more; [now apply H|]; discriminate | apply gives_ok; auto]. Qed.
    Lemma step_sum t cd rd : mget t (cd_languages cd) = Some no_data ->
      gives (q_language_step D p c files t (cd, rd)) (fun acc => exists x rl rc, mget t (rd_languages rd) = Some rl /\ lg_ratio x = None /\
        acc = (mk_cdetails (minsert t x (cd_languages cd)) (cd_default cd) (cd_total cd + lg_count x),
               mk_rdetails (minsert t (set_count rl (lg_count rl + lg_count x)) (rd_languages rd)) (rd_default rd) (rd_total rd + lg_count x) (rd_components rd) rc) /\
        (NoDup (rd_contributors rd) -> NoDup rc) /\ forall n, In n rc <-> In n (rd_contributors rd) \/ In n (lg_contributors x)).
    Proof.
      intros Ht. unfold q_language_step. rewrite Ht. cbn [no_data lg_contributors lg_count lg_ratio].
      eapply gives_bind; [apply gives_if; intros Hf; exact (gives_any _ _ (adds_contributors D p Hp c files Hc t true aio (aio_file c files Hf)))|]. intros c1 Hc1.
      eapply gives_bind; [apply gives_if; intros Hf; exact (gives_any _ _ (adds_contributors D p Hp c files Hc t false c (own_file c files Hf)))|]. intros c2 _.
      eapply gives_bind; [apply gives_if; intros Hf; exact (gives_any _ _ (adds_count D p Hp c files Hc t true aio (aio_file c files Hf)))|]. intros n1 _.
      eapply gives_bind; [apply gives_if; intros Hf; exact (gives_any _ _ (adds_count D p Hp c files Hc t false c (own_file c files Hf)))|]. intros n2 _.
      destruct (mget t (rd_languages rd)) as [rl|]; [|apply gives_bad; cbn; tauto]. apply gives_ok.
      exists (mk_lgdata (n1 + n2) None (fold_left push_new c2 c1)), rl. eexists. split; [reflexivity|]. split; [reflexivity|]. split; [reflexivity|]. cbn [lg_contributors]. split.
      - intros Hn. apply push_all_NoDup. destruct (fst files); [now apply push_all_NoDup | exact Hn].
      - intros n. rewrite !push_all_In. destruct (fst files); [rewrite push_all_In; tauto|]. rewrite (Hc1 eq_refl). cbn [In]. tauto.
    Qed.

    Record looped (ls : list ustr) (cd : cdetails) (rd : rdetails) (cd' : cdetails) (rd' : rdetails) : Prop := mk_looped {
      lo_default : cd_default cd' = cd_default cd;
      lo_keys : mkeys (cd_languages cd') = mkeys (cd_languages cd);
      lo_other : forall t, ~ In t ls -> mget t (cd_languages cd') = mget t (cd_languages cd);
      lo_total : cd_total cd' = (cd_total cd + sumN (map (count_of (cd_languages cd')) ls))%N;
      lo_rtotal : rd_total rd' = (rd_total rd + sumN (map (count_of (cd_languages cd')) ls))%N;
      lo_rdefault : rd_default rd' = rd_default rd;
      lo_rcomponents : rd_components rd' = rd_components rd;
      lo_rkeys : mkeys (rd_languages rd') = mkeys (rd_languages rd);
      lo_rcount : forall t x, mget t (rd_languages rd) = Some x -> exists y, mget t (rd_languages rd') = Some y /\ lg_ratio y = lg_ratio x /\
        lg_count y = (lg_count x + if umem t ls then count_of (cd_languages cd') t else 0)%N;
      lo_nodup : NoDup (rd_contributors rd) -> NoDup (rd_contributors rd');
      lo_contributors : forall n, In n (rd_contributors rd') <-> In n (rd_contributors rd) \/
        exists t x, In t ls /\ mget t (cd_languages cd') = Some x /\ In n (lg_contributors x)
    }.
    Lemma umem_cons t x l : umem t (x :: l) = (ueqb t x || umem t l)%bool.
    Proof. reflexivity. Qed.
    Lemma loop_sum ls : NoDup ls -> forall cd rd, (forall t, In t ls -> mget t (cd_languages cd) = Some no_data) ->
      gives (q_language_loop D p c files ls (cd, rd)) (fun acc => looped ls cd rd (fst acc) (snd acc)).
    Proof.
      induction 1 as [|t ls Ht Hn IH]; intros cd rd Hd; cbn [q_language_loop].
      - apply gives_ok. cbn [fst snd]. constructor; try reflexivity; cbn [map sumN fold_right]; try lia; auto.
        + intros t x Hx. exists x. rewrite N.add_0_r. auto.
        + intros n. split; [auto|]. intros [H|(t & x & [] & _)]. exact H.
      - eapply gives_bind; [apply step_sum; apply Hd; now left|]. intros acc1 (x & rl & rc & Hrl & _ & -> & Hnd & Hrc).
        assert (Hkey : mget t (cd_languages cd) <> None) by (rewrite (Hd t (or_introl eq_refl)); discriminate).
        eapply gives_more; [apply IH|].
        + intros t1 H. cbn [cd_languages]. rewrite mget_minsert. destruct (ueqb_spec t1 t) as [->|Hne]; [contradiction | apply Hd; now right].
        + intros (cd' & rd') [L1 L2 L3 L4 L5 L6 L7 L8 L9 L10 L11]. cbn [fst snd cd_default cd_languages cd_total rd_total rd_default rd_components rd_languages rd_contributors] in *.
          assert (Hx : mget t (cd_languages cd') = Some x) by (rewrite (L3 t Ht), mget_minsert, ueqb_refl; reflexivity).
          assert (Hcx : count_of (cd_languages cd') t = lg_count x) by (unfold count_of; now rewrite Hx).
          constructor; auto.
          * rewrite L2. now apply mkeys_minsert_old.
          * intros t1 Hi. rewrite (L3 t1) by (intros K; apply Hi; now right). rewrite mget_minsert. destruct (ueqb_spec t1 t) as [->|Hne]; [destruct Hi; now left | reflexivity].
          * rewrite L4. cbn [map sumN fold_right]. unfold sumN. rewrite Hcx. lia.
          * rewrite L5. cbn [map sumN fold_right]. unfold sumN. rewrite Hcx. lia.
          * rewrite L8. apply mkeys_minsert_old. congruence.
          * intros t1 x1 Hx1. rewrite umem_cons. destruct (ueqb_spec t1 t) as [->|Hne]; cbn [orb].
            -- rewrite Hrl in Hx1. injection Hx1 as <-. destruct (L9 t (set_count rl (lg_count rl + lg_count x))) as (y & Y1 & Y2 & Y3); [now rewrite mget_minsert, ueqb_refl|].
               exists y. split; [exact Y1|]. split; [exact Y2|]. rewrite Y3, Hcx. replace (umem t ls) with false; [cbn [set_count lg_count]; lia|].
               symmetry. now apply umem_nIn.
            -- apply L9. rewrite mget_minsert. destruct (ueqb_spec t1 t); [contradiction | exact Hx1].
          * intros n. rewrite L11, Hrc. split.
            -- intros [[H|H]|(t1 & x1 & H2 & H3 & H4)]; [now left | right; exists t, x; repeat split; auto; now left | right; exists t1, x1; repeat split; auto; now right].
            -- intros [H|(t1 & x1 & [<-|H2] & H3 & H4)]; [auto | left; right; congruence | right; eauto].
    Qed.

    (** One component. *)
    Record added_one (cd : cdetails) (rd0 rd : rdetails) : Prop := mk_added {
      ad_own : own_sum cd;
      ad_components : rd_components rd = rd_components rd0 ++ [c];
      ad_total : rd_total rd = (rd_total rd0 + cd_total cd)%N;
      ad_default : rd_default rd = if ueqb c (us "application") then Some (cd_default cd) else rd_default rd0;
      ad_keys : NoDup (mkeys (rd_languages rd));
      ad_languages : forall t, In t (mkeys (rd_languages rd)) <-> In t (mkeys (rd_languages rd0)) \/ mhas t (cd_languages cd) = true;
      ad_count : forall t, count_of (rd_languages rd) t = (count_of (rd_languages rd0) t + count_of (cd_languages cd) t)%N;
      ad_ratio : (forall t x, mget t (rd_languages rd0) = Some x -> lg_ratio x = None) -> forall t x, mget t (rd_languages rd) = Some x -> lg_ratio x = None;
      ad_nodup : NoDup (rd_contributors rd0) -> NoDup (rd_contributors rd);
      ad_contributors : forall n, In n (rd_contributors rd) <-> In n (rd_contributors rd0) \/ wrote_some cd n
    }.
    Lemma component_sum cds rd0 : NoDup (mkeys (rd_languages rd0)) ->
      gives (q_component_step E D p c files (cds, rd0)) (fun acc => exists cd, fst acc = minsert c cd cds /\ added_one cd rd0 (snd acc)).
    Proof.
      intros Hk0. unfold q_component_step. set (rcomponents := rd_components rd0 ++ [c]).
      eapply gives_bind; [apply (gives_any _ (fun _ _ _ => True)); apply adds_ret; auto|]. intros _ _.
      assert (HL1 : gives (if fst files then q_languages E D p c true else qskip []) (fun l => NoDup l /\ (fst files = false -> l = []))).
      { destruct (fst files) eqn:Ef; [|apply gives_ok; split; [constructor | auto]]. eapply adds_more; [apply (adds_languages E D p Hp c files Hc true aio); now apply aio_file|].
        intros h qs x Hs l ->. split; [|discriminate]. exact (proj2 (proj2 (single_langs E D c aio (spelt_once E D) h qs (Ok l) (fun H => conj eq_refl H) Hs) l eq_refl) H1). }
      eapply gives_bind; [exact HL1|]. intros l1 (Hnl & Hl1). set (cm1 := if fst files then add_aio_languages l1 [] else []).
      assert (Hcm : no_data_map cm1 /\ NoDup (mkeys cm1) /\ (forall t, In t (mkeys cm1) <-> In t l1)).
      { unfold cm1. destruct (fst files).
        - destruct (add_aio_languages_facts l1 []) as (F1 & F2 & F3); [intros t x Hx; discriminate Hx | constructor|]. split; [exact F1|]. split; [exact F2|].
          intros t. rewrite F3. cbn [mkeys map In]. tauto.
        - rewrite (Hl1 eq_refl). split; [intros t x Hx; discriminate Hx|]. split; [constructor|]. reflexivity. }
      clearbody cm1. destruct Hcm as (C1 & C2 & C3).
      eapply gives_bind; [apply gives_if; intros Hf; exact (gives_any _ _ (adds_languages E D p Hp c files Hc false c (own_file c files Hf)))|]. intros l2 _.
      pose proof (add_own_languages_facts l2 l1 cm1 C1 C2 C3) as F. destruct (add_own_languages l2 (l1, cm1)) as (ls & cm2). destruct F as (F1 & F2 & F3 & F4 & F5). specialize (F5 Hnl).
      destruct (ensure_all_facts l1 (rd_languages rd0) Hk0) as (G1 & G2 & G3 & G4). set (rm1 := fold_left ensure l1 (rd_languages rd0)) in *.
      destruct (ensure_all_facts l2 rm1 G1) as (K1 & K2 & K3 & K4). set (rm2 := fold_left ensure l2 rm1) in *.
      eapply gives_bind; [apply gives_if; intros Hf; exact (gives_any _ _ (adds_default E D p Hp c files Hc true aio (aio_file c files Hf)))|]. intros d1 _.
      eapply (gives_bind _ _ (fun _ => True)); [destruct d1; [now apply gives_ok|]; eapply gives_more; [apply gives_if; intros Hf; exact (gives_any _ _ (adds_default E D p Hp c files Hc false c (own_file c files Hf)))|]; auto|].
      intros [t|] _; [|apply gives_bad; cbn; tauto]. destruct (negb (mhas t cm2)); [apply gives_bad; cbn; tauto|].
      eapply gives_bind.
      { apply loop_sum; [exact F5|]. cbn [cd_languages]. intros t' Hi. apply F3, mget_keys in Hi. destruct Hi as (v & Hv). rewrite Hv. f_equal. exact (F1 t' v Hv). }
      intros (cd & rd) [L1 L2 L3 L4 L5 L6 L7 L8 L9 L10 L11]. cbn [fst snd cd_default cd_languages cd_total rd_total rd_default rd_components rd_languages rd_contributors] in *.
      destruct (mget (cd_default cd) (cd_languages cd)) as [def|]; [|apply gives_bad; cbn; tauto]. apply gives_ok. cbn [fst snd]. eexists. split; [reflexivity|].
      assert (Hperm : Permutation ls (mkeys (cd_languages cd))) by (rewrite L2; apply NoDup_Permutation; auto; intros x; symmetry; apply F3).
      assert (Hin : forall t', In t' ls <-> exists x, mget t' (cd_languages cd) = Some x) by (intros t'; rewrite mget_keys, L2, F3; reflexivity).
      assert (Hrm : forall t', In t' (mkeys rm2) <-> In t' (mkeys (rd_languages rd0)) \/ In t' ls) by (intros t'; rewrite K2, G2, F4; tauto).
      assert (Hc2 : forall t', count_of rm2 t' = count_of (rd_languages rd0) t').
      { intros t'. unfold count_of. destruct (mget t' (rd_languages rd0)) as [x|] eqn:Ex; [now rewrite (K3 _ _ (G3 _ _ Ex))|].
        destruct (mget t' rm2) as [x|] eqn:Ex2; [|reflexivity]. destruct (mget t' rm1) as [x1|] eqn:Ex1; [|now rewrite (K4 _ _ Ex1 Ex2)].
        rewrite (K3 _ _ Ex1) in Ex2. injection Ex2 as <-. now rewrite (G4 _ _ Ex Ex1). }
      constructor; cbn [cd_default cd_languages cd_total].
      - unfold own_sum. cbn [cd_total cd_languages]. rewrite L4, N.add_0_l. rewrite sum_keys by (rewrite set_ratios_keys, L2; exact F2). rewrite set_ratios_keys.
        rewrite (sum_ext (count_of (set_ratios (lg_count def) (cd_languages cd))) (count_of (cd_languages cd))) by (intros; apply count_ratios). apply sum_perm, Permutation_map, Hperm.
      - exact L7.
      - rewrite L5, L4. lia.
      - rewrite L6, L1. reflexivity.
      - rewrite L8. exact K1.
      - intros t'. rewrite L8, Hrm, Hin, mhas_true, set_ratios_get. destruct (mget t' (cd_languages cd)) as [x|]; cbn [option_map]; split; intros [H|(y & H)]; eauto; discriminate H.
      - intros t'. rewrite count_ratios, <- Hc2. destruct (mget t' rm2) as [x|] eqn:Ex.
        + destruct (L9 t' x Ex) as (y & Y1 & _ & Y3). unfold count_of at 1 2. rewrite Ex, Y1, Y3. f_equal. destruct (umem t' ls) eqn:Eu; [reflexivity|].
          apply umem_nIn in Eu. unfold count_of. destruct (mget t' (cd_languages cd)) eqn:Em; [|reflexivity]. destruct Eu. apply Hin. eauto.
        + apply mget_None_keys in Ex. assert (Hni : ~ In t' ls) by (intros H; apply Ex, Hrm; auto). assert (Hn2 : mget t' (rd_languages rd) = None) by (apply mget_None_keys; rewrite L8; exact Ex).
          unfold count_of. apply mget_None_keys in Ex. rewrite Hn2, Ex. destruct (mget t' (cd_languages cd)) eqn:Em; [destruct Hni; apply Hin; eauto | reflexivity].
      - intros Hr t' x Hx. assert (Hi : In t' (mkeys rm2)) by (rewrite <- L8; apply mget_keys; eauto). apply mget_keys in Hi. destruct Hi as (z & Hz).
        destruct (L9 t' z Hz) as (y & Y1 & Y2 & _). rewrite Hx in Y1. injection Y1 as <-. rewrite Y2.
        destruct (mget t' rm1) as [z1|] eqn:Ez1; [|now rewrite (K4 _ _ Ez1 Hz)]. rewrite (K3 _ _ Ez1) in Hz. injection Hz as <-.
        destruct (mget t' (rd_languages rd0)) as [z0|] eqn:Ez0; [|now rewrite (G4 _ _ Ez0 Ez1)]. rewrite (G3 _ _ Ez0) in Ez1. injection Ez1 as <-. exact (Hr _ _ Ez0).
      - exact L10.
      - intros n. rewrite L11. apply or_iff_compat_l. unfold wrote_some. cbn [cd_languages]. split.
        + intros (t' & x & _ & Hx & Hn). exists t'. rewrite set_ratios_get, Hx. cbn [option_map]. eexists. split; [reflexivity | exact Hn].
        + intros (t' & x & Hx & Hn). rewrite set_ratios_get in Hx. destruct (mget t' (cd_languages cd)) as [y|] eqn:Ey; [|discriminate Hx]. injection Hx as <-.
          exists t', y. split; [apply Hin; eauto|]. split; [exact Ey | exact Hn].
    Qed.
  End Component.

  (** All components. *)
  Record so_far (cds : amap cdetails) (rd : rdetails) : Prop := mk_so_far {
    sf_components : rd_components rd = mkeys cds;
    sf_nodup : NoDup (mkeys cds);
    sf_total : rd_total rd = sumN (map (fun y => cd_total (snd y)) cds);
    sf_default : rd_default rd = option_map cd_default (mget (us "application") cds);
    sf_languages : forall t, In t (mkeys (rd_languages rd)) <-> exists c cd, mget c cds = Some cd /\ mhas t (cd_languages cd) = true;
    sf_count : forall t, count_of (rd_languages rd) t = sumN (map (fun y => count_of (cd_languages (snd y)) t) cds);
    sf_contributors : forall n, In n (rd_contributors rd) <-> exists c cd, mget c cds = Some cd /\ wrote_some cd n;
    sf_once : NoDup (rd_contributors rd) /\ NoDup (mkeys (rd_languages rd));
    sf_ratio : forall t x, mget t (rd_languages rd) = Some x -> lg_ratio x = None;
    sf_own : forall c cd, mget c cds = Some cd -> own_sum cd
  }.
  Lemma ex_insert {P : cdetails -> Prop} cds c cd : mget c cds = None -> ((exists c' cd', mget c' (minsert c cd cds) = Some cd' /\ P cd') <-> (exists c' cd', mget c' cds = Some cd' /\ P cd') \/ P cd).
  Proof.
    intros Hc. split.
    - intros (c' & cd' & H & HP). rewrite mget_minsert in H. destruct (ueqb_spec c' c) as [->|Hne]; [injection H as <-; auto | left; eauto].
    - intros [(c' & cd' & H & HP)|HP].
      + exists c', cd'. rewrite mget_minsert. destruct (ueqb_spec c' c) as [->|Hne]; [congruence | auto].
      + exists c, cd. rewrite mget_minsert, ueqb_refl. auto.
  Qed.
  Lemma add_one c cd cds rd0 rd : ~ In c (mkeys cds) -> so_far cds rd0 -> added_one c cd rd0 rd -> so_far (minsert c cd cds) rd.
  Proof.
    intros Hc [S1 S2 S3 S4 S5 S6 S7 (S8 & S8') S9 S10] [A1 A2 A3 A4 A5 A6 A7 A8 A9 A10]. assert (Hn : mget c cds = None) by now apply mget_None_keys.
    assert (Hi : minsert c cd cds = cds ++ [(c, cd)]) by now apply mkeys_minsert_new.
    constructor.
    - rewrite A2, S1, Hi. unfold mkeys. now rewrite map_app.
    - now apply minsert_NoDup.
    - rewrite A3, S3, Hi, map_app, sum_app. cbn. lia.
    - rewrite A4, S4, mget_minsert. destruct (ueqb_spec c (us "application")) as [->|Hne]; [now rewrite ueqb_refl|].
      destruct (ueqb_spec (us "application") c) as [K|K]; [now destruct Hne | reflexivity].
    - intros t. rewrite A6, S5. rewrite (ex_insert (P := fun cd => mhas t (cd_languages cd) = true) cds c cd Hn). reflexivity.
    - intros t. rewrite A7, S6, Hi, map_app, sum_app. cbn. lia.
    - intros n. rewrite A10, S7. rewrite (ex_insert (P := fun cd => wrote_some cd n) cds c cd Hn). reflexivity.
    - first [exact (conj (A9 S8) A5) | exact (A8 S9)].
    - first [exact (conj (A9 S8) A5) | exact (A8 S9)].
    - intros c' cd' H. rewrite mget_minsert in H. destruct (ueqb c' c); [injection H as <-; exact A1 | exact (S10 c' cd' H)].
  Qed.
  Lemma components_sum cs : (forall c f, In (c, f) cs -> mget c (sp_components p) = Some f) -> NoDup (mkeys cs) ->
    forall cds rd, so_far cds rd -> (forall c, In c (mkeys cs) -> ~ In c (mkeys cds)) -> gives (q_component_loop E D p cs (cds, rd)) (fun acc => so_far (fst acc) (snd acc)).
  Proof.
    induction cs as [|(c & f) cs IH]; intros Hcs Hn cds rd Hs Hnew; cbn [q_component_loop]; [now apply gives_ok|].
    cbn [mkeys map fst] in Hn. inversion Hn as [|c' cs' Hc' Hn']; subst c' cs'.
    eapply gives_bind; [apply (component_sum c f (Hcs c f (or_introl eq_refl)) cds rd); apply (sf_once _ _ Hs)|].
    intros (cds1 & rd1) (cd & Hcd & Ha). cbn [fst snd] in *. subst cds1. apply IH.
    - intros c' f' Hi. apply Hcs. now right.
    - exact Hn'.
    - apply (add_one c cd cds rd rd1); auto. apply Hnew. now left.
    - intros c' Hi. rewrite minsert_keys_In. intros [->|K]; [contradiction|]. apply (Hnew c'); [now right | exact K].
  Qed.
  Lemma build_sum : gives (q_build_details E D p) (fun acc => sums (fst acc) (snd acc)).
  Proof.
    unfold q_build_details. eapply gives_bind.
    { apply components_sum; [intros c f Hi; exact (nodup_get _ c f (proj1 Hp) Hi) | exact (proj1 Hp) | | intros c _ []].
      constructor; cbn [rd_components rd_total rd_default rd_languages rd_contributors mkeys map].
      - reflexivity.
      - constructor.
      - reflexivity.
      - reflexivity.
      - intros t. split; [intros [] | intros (c & cd & K & _); discriminate K].
      - reflexivity.
      - intros n. split; [intros [] | intros (c & cd & K & _); discriminate K].
      - split; constructor.
      - intros t x K. discriminate K.
      - intros c cd K. discriminate K. }
    intros (cds & rd) [S1 S2 S3 S4 S5 S6 S7 (S8 & S8') S9 S10]. cbn [fst snd] in *.
    assert (Hl : forall t, mhas t (rd_languages rd) = true <-> exists c cd, mget c cds = Some cd /\ mhas t (cd_languages cd) = true).
    { intros t. rewrite mhas_true, mget_keys. apply S5. }
    destruct (rd_default rd) as [t|] eqn:Ed.
    - destruct (mget t (rd_languages rd)) as [data|] eqn:Et; [|apply gives_bad; cbn; tauto]. apply gives_ok. cbn [fst snd].
      constructor; cbn [rd_components rd_total rd_default rd_languages rd_contributors].
      + exact S1.
      + exact S3.
      + congruence.
      + intros t'. rewrite <- Hl, !mhas_true, set_ratios_get. destruct (mget t' (rd_languages rd)); cbn [option_map]; split; intros (v & Hv); try discriminate Hv; eauto.
      + intros t'. rewrite count_ratios. apply S6.
      + exact S7.
      + rewrite set_ratios_keys. auto.
      + intros t' x Hx. rewrite count_ratios. rewrite set_ratios_get in Hx. destruct (mget t' (rd_languages rd)) as [y|]; [|discriminate Hx]. injection Hx as <-.
        cbn [lg_ratio lg_count]. unfold count_of. now rewrite Et.
      + exact S10.
    - apply gives_ok. cbn [fst snd]. constructor; auto.
      + congruence.
      + intros t x Hx. rewrite Ed. exact (S9 t x Hx).
  Qed.

  (** What is kept by the provider. *)
  Definition kept (st : pstate) : Prop := forall y, ps_details st = Some y -> sums (fst y) (snd y).
  Lemma get_sum h st : queries_ok (ps_queries st) -> kept st -> forall s' x, q_get_details E D p (h, st) = (s', x) ->
    queries_ok (ps_queries (snd s')) /\ kept (snd s') /\ on_ok x (fun y => ps_details (snd s') = Some y).
  Proof.
    intros Hq Hk s' x H. unfold q_get_details in H. cbn [snd] in H. destruct (ps_details st) as [y|] eqn:Ed.
    - injection H as <- <-. cbn [snd]. split; [exact Hq|]. split; [exact Hk|]. intros a [= <-]. exact Ed.
    - destruct (build_sum h st Hq) as (qs & st' & z & G1 & G2 & G3 & G4). rewrite G1 in H. destruct z as [y|e| |]; injection H as <- <-; cbn [snd fst ps_queries ps_details].
      + split; [exact G2|]. split; [intros y' [= <-]; exact (G4 _ eq_refl)|]. intros a [= <-]. reflexivity.
      + split; [exact G2|]. split; [intros y'; rewrite G3, Ed; discriminate|]. intros a K. discriminate K.
      + split; [exact G2|]. split; [intros y'; rewrite G3, Ed; discriminate|]. intros a K. discriminate K.
      + split; [exact G2|]. split; [intros y'; rewrite G3, Ed; discriminate|]. intros a K. discriminate K.
  Qed.
  Lemma kept_same st st' : kept st -> ps_details st' = ps_details st -> kept st'.
  Proof. intros H He y Hy. apply H. congruence. Qed.
  Lemma call_kept x h st : queries_ok (ps_queries st) -> kept st -> kept (snd (fst (q_pcall E D p x (h, st)))).
  Proof.
    intros Hq Hk. destruct (lookup_of x) as [[[[one exact] [[c i] t]] answer]|] eqn:El.
    - destruct (mget c (sp_components p)) as [files|] eqn:Ec.
      + destruct (lookup_adds E D p Hp x one exact c i t answer files El Ec h st Hq) as (qs & st' & y & -> & _ & H3 & _). exact (kept_same _ _ Hk H3).
      + rewrite (lookup_unknown E D p x one exact c i t answer El Ec). exact Hk.
    - destruct (q_get_details E D p (h, st)) as (s1 & z) eqn:Eg. destruct (get_sum h st Hq Hk s1 z Eg) as (G1 & G2 & _).
      destruct x as [c i t|c i t|c i t|c i|c|]; try discriminate El; cbn [q_pcall].
      + unfold q_identifier_details. unfold qbind at 1 2. rewrite Eg. destruct z as [(cds & rd)|e| |]; try exact G2.
        destruct (mget c cds) as [cd|]; [|exact G2]. destruct (mget c (sp_components p)) as [files|] eqn:Ec.
        2:{ unfold qbind at 1, q_identifier_languages, connection. rewrite Ec. exact G2. }
        destruct s1 as (h1 & st1). cbn [snd] in *.
        destruct (exact_identifier E D p Hp c files i (fun l => mk_idetails l (cd_default cd)) Ec h1 st1 G1) as (q2 & st2 & y & H5 & _ & H6 & _).
        rewrite H5. pose proof (kept_same _ _ G2 H6) as K. destruct y; exact K.
      + unfold q_component_details. unfold qbind at 1 2. rewrite Eg. destruct z as [(cds & rd)|e| |]; try exact G2. destruct (mget c cds); exact G2.
      + unfold q_repository_details. unfold qbind at 1 2. rewrite Eg. destruct z as [(cds & rd)|e| |]; exact G2.
  Qed.
  Lemma run_kept hist : forall s, queries_ok (ps_queries (snd s)) -> kept (snd s) -> kept (snd (q_prun E D p s hist)).
  Proof.
    induction hist as [|x hist IH]; intros s Hq Hk; [exact Hk|]. change (q_prun E D p s (x :: hist)) with (q_prun E D p (fst (q_pcall E D p x s)) hist).
    apply IH; [exact (run_ok E D p Hp [x] s Hq)|]. destruct s as (h & st). now apply call_kept.
  Qed.

  Theorem repository_sums hist rd : snd (q_pcall E D p CallRepository (q_prun E D p qstate_new hist)) = Ok (AnRepository rd) ->
    exists cds, sums cds rd /\ forall hist' c, snd (q_pcall E D p (CallComponent c) (q_prun E D p qstate_new (hist ++ CallRepository :: hist'))) =
      match mget c cds with Some cd => Ok (AnComponent cd) | None => Err (PComponentNotFound c) end.
  Proof.
    set (s := q_prun E D p qstate_new hist). assert (Hq : queries_ok (ps_queries (snd s))) by exact (run_ok E D p Hp hist _ new_ok).
    assert (Hk : kept (snd s)) by (apply run_kept; [exact new_ok | intros y Hy; discriminate Hy]).
    assert (Hs : forall hist', q_prun E D p qstate_new (hist ++ CallRepository :: hist') = q_prun E D p (fst (q_pcall E D p CallRepository s)) hist').
    { intros hist'. unfold q_prun, s. rewrite fold_left_app. reflexivity. }
    clearbody s. destruct s as (h & st). cbn [snd] in *. destruct (q_get_details E D p (h, st)) as (s1 & z) eqn:Eg.
    destruct (get_sum h st Hq Hk s1 z Eg) as (G1 & G2 & G3). cbn [q_pcall] in *. unfold q_repository_details in *. intros Ha.
    unfold qbind at 1 2 in Ha. rewrite Eg in Ha. destruct z as [(cds & rd')|e| |]; cbn [snd] in Ha; try discriminate Ha. cbn [qskip qret snd] in Ha. injection Ha as ->.
    specialize (G3 _ eq_refl). exists cds. split; [exact (G2 _ G3)|]. intros hist' c. rewrite Hs.
    assert (Hf : fst (qbind (qbind (q_get_details E D p) (fun '(_, rd) => qskip rd)) (fun d => qskip (AnRepository d)) (h, st)) = s1) by (unfold qbind; rewrite Eg; reflexivity).
    rewrite Hf. pose proof (run_keeps E D p Hp hist' s1 _ G1 G3) as Hd. set (s2 := q_prun E D p s1 hist') in *. clearbody s2.
    unfold q_component_details. unfold qbind at 1 2. unfold q_get_details. rewrite Hd. destruct (mget c cds); reflexivity.
  Qed.
End Sum.
