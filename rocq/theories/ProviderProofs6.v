(** Proofs about the sqlite3 provider: details of components and of the repository. *)
From Verif Require Import Base BaseFacts RegistryModel ProviderModel ProviderSpec ProviderProofs ProviderProofs2 ProviderProofs4 ProviderProofs5.

Section Details.
  Variable E : penv.
  Variable p : sprovider.
  Hypothesis Hp : provider_ok p.
  Hypothesis Ho : order_ok E.

  (** Nothing panics and a result satisfies [Q]. *)
  Definition post {A} (m : PM A) (Q : A -> Prop) : Prop := quiet_m E p m /\ forall a, value m = Ok a -> Q a.
  Lemma post_ret {A} (x : pout A) (Q : A -> Prop) : quiet x -> (forall a, x = Ok a -> Q a) -> post (pret x) Q.
  Proof. intros H HQ. split; [apply quiet_m_ret; exact H | exact HQ]. Qed.
  Lemma post_skip {A} (a : A) (Q : A -> Prop) : Q a -> post (skip a) Q.
  Proof. intros H. apply post_ret; [apply quiet_Ok | intros b Hb; injection Hb as <-; exact H]. Qed.
  Lemma post_bind {A B} (m : PM A) (f : A -> PM B) Q R : post m Q -> (forall a, Q a -> post (f a) R) -> post (pbind m f) R.
  Proof.
    intros (Hm & HQ) Hf. split.
    - apply quiet_m_bind; [exact Hm|]. intros a Ha. apply (Hf a (HQ a Ha)).
    - intros b Hb. rewrite (value_bind E p) in Hb; [|apply Hm | intros a Ha; apply (Hf a (HQ a Ha))].
      apply bind_Ok in Hb. destruct Hb as (a & Ha & Hb). apply (Hf a (HQ a Ha)). exact Hb.
  Qed.
  Lemma post_err {A} e (Q : A -> Prop) : post (pret (Err e)) Q.
  Proof. apply post_ret; [apply quiet_Err | discriminate]. Qed.
  Lemma post_weaken {A} (m : PM A) (Q R : A -> Prop) : post m Q -> (forall a, Q a -> R a) -> post m R.
  Proof. intros (H1 & H2) H. split; auto. Qed.

  Section Component.
    Variables (c : ustr) (fa fo : bool).
    Hypothesis Hc : mget c (sp_components p) = Some (fa, fo).

    Lemma aio_at : fa = true -> exists d, in_aio p c d /\ aio_db p c = Some d.
    Proof.
      intros H. destruct (proj1 (proj2 Hp c _ Hc) H) as (d & Hd). exists d. subst. split; [exists fo, (us "1.0"); auto|].
      unfold aio_db. rewrite Hc, Hd. reflexivity.
    Qed.
    Lemma own_at : fo = true -> exists d, in_own p c d /\ own_db p c = Some d.
    Proof.
      intros H. destruct (proj2 (proj2 Hp c _ Hc) H) as (d & Hd). exists d. subst. split; [exists fa, (us "1.0"); auto|].
      unfold own_db. rewrite Hc, Hd. destruct fa; reflexivity.
    Qed.
    Lemma no_aio : fa = false -> aio_db p c = None /\ forall d, ~ in_aio p c d.
    Proof. intros ->. split; [unfold aio_db; rewrite Hc; reflexivity|]. intros d (f & v & H & _). congruence. Qed.
    Lemma no_own : fo = false -> own_db p c = None /\ forall d, ~ in_own p c d.
    Proof. intros ->. split; [unfold own_db; rewrite Hc; destruct fa; reflexivity|]. intros d (f & v & H & _). congruence. Qed.

    Definition sA (t : ustr) : N := match aio_db p c with Some d => stored_in d c t | None => 0 end.
    Definition sO (t : ustr) : N := match own_db p c with Some d => stored_in d c t | None => 0 end.
    Definition cA (t n : ustr) : Prop := exists d, in_aio p c d /\ contrib_in d c t n.
    Definition cO (t n : ustr) : Prop := exists d, in_own p c d /\ contrib_in d c t n.
    Lemma contributes_split t n : contributes p c t n <-> cA t n \/ cO t n.
    Proof.
      split.
      - intros (d & r & [Hs|Hs] & H); [left | right]; exists d; (split; [exact Hs | exists r; exact H]).
      - intros [(d & Hs & r & H)|(d & Hs & r & H)]; exists d, r; (split; [|exact H]); [left | right]; exact Hs.
    Qed.

    Lemma contributors_post t l0 : (fa = false -> l0 = []) ->
      post (if fa then contributors E p c t true else skip l0) (fun l => NoDup l /\ forall n, In n l <-> cA t n).
    Proof.
      intros H0. case_eq fa; intros Hfa.
      - destruct (aio_at Hfa) as (d & Hd & _). split; [apply contributors_quiet; assumption|]. intros l Hl.
        destruct (contributors_spec E p Hp Ho c t true d l Hd Hl) as (H1 & H2). split; [exact H1|]. intros n. rewrite H2. split; [intros H; exists d; auto|].
        intros (d' & Hd' & H). rewrite (in_aio_unique p c d d' Hd Hd'). exact H.
      - apply post_skip. rewrite (H0 Hfa). split; [constructor|]. intros n. split; [intros [] | intros (d & Hd & _)].
        destruct (proj2 (no_aio Hfa) d Hd).
    Qed.
    Lemma contributors_own_post t : post (if fo then contributors E p c t false else skip []) (fun l => NoDup l /\ forall n, In n l <-> cO t n).
    Proof.
      case_eq fo; intros Hfo.
      - destruct (own_at Hfo) as (d & Hd & _). split; [apply contributors_quiet; assumption|]. intros l Hl.
        destruct (contributors_spec E p Hp Ho c t false d l Hd Hl) as (H1 & H2). split; [exact H1|]. intros n. rewrite H2. split; [intros H; exists d; auto|].
        intros (d' & Hd' & H). rewrite (in_own_unique p c d d' Hd Hd'). exact H.
      - apply post_skip. split; [constructor|]. intros n. split; [intros [] | intros (d & Hd & _)].
        destruct (proj2 (no_own Hfo) d Hd).
    Qed.
    Lemma count_post t n0 : (fa = false -> n0 = 0%N) -> post (if fa then count E p c t true else skip n0) (fun n => n = sA t).
    Proof.
      intros H0. unfold sA. case_eq fa; intros Hfa.
      - destruct (aio_at Hfa) as (d & Hd & Ha). rewrite Ha. split; [apply count_quiet; assumption|]. intros n Hn. exact (count_spec E p Hp c t true d n Hd Hn).
      - rewrite (proj1 (no_aio Hfa)). apply post_skip. exact (H0 Hfa).
    Qed.
    Lemma count_own_post t : post (if fo then count E p c t false else skip 0%N) (fun n => n = sO t).
    Proof.
      unfold sO. case_eq fo; intros Hfo.
      - destruct (own_at Hfo) as (d & Hd & Ha). rewrite Ha. split; [apply count_quiet; assumption|]. intros n Hn. exact (count_spec E p Hp c t false d n Hd Hn).
      - rewrite (proj1 (no_own Hfo)). apply post_skip. reflexivity.
    Qed.

    (** The data of a language are right. *)
    Definition data_right (t : ustr) (x : lgdata) : Prop :=
      lg_count x = stored p c t /\ NoDup (lg_contributors x) /\ forall n, In n (lg_contributors x) <-> contributes p c t n.

    Lemma language_step_post t cd rd data rl : mget t (cd_languages cd) = Some data -> (fa = false -> data = no_data) ->
      mget t (rd_languages rd) = Some rl ->
      post (language_step E p c (fa, fo) t (cd, rd)) (fun acc => exists x rc, data_right t x /\
        acc = (mk_cdetails (minsert t x (cd_languages cd)) (cd_default cd) (cd_total cd + stored p c t),
               mk_rdetails (minsert t (set_count rl (lg_count rl + stored p c t)) (rd_languages rd)) (rd_default rd)
                 (rd_total rd + stored p c t) (rd_components rd) rc) /\
        (NoDup (rd_contributors rd) -> NoDup rc) /\ forall n, In n rc <-> In n (rd_contributors rd) \/ contributes p c t n).
    Proof.
      intros Hd Hnew Hr. unfold language_step. rewrite Hd. cbn [fst snd].
      eapply post_bind; [apply contributors_post; intros H; rewrite (Hnew H); reflexivity|]. intros c1 (Hc1 & Hi1).
      eapply post_bind; [apply contributors_own_post|]. intros c2 (Hc2 & Hi2).
      eapply post_bind; [apply count_post; intros H; rewrite (Hnew H); reflexivity|]. intros n1 ->.
      eapply post_bind; [apply count_own_post|]. intros n2 ->.
      rewrite Hr. apply post_skip. change (sA t + sO t)%N with (stored p c t). eexists. eexists. split; [|split; [reflexivity|]].
      - split; [reflexivity|]. cbn [lg_contributors]. split; [apply push_all_NoDup; exact Hc1|]. intros n.
        rewrite push_all_In, contributes_split, Hi1, Hi2. reflexivity.
      - split.
        + intros Hn. apply push_all_NoDup. case_eq fa; intros Hfa; [apply push_all_NoDup|]; exact Hn.
        + intros n. rewrite push_all_In, contributes_split, Hi2. case_eq fa; intros Hfa.
          * rewrite push_all_In, Hi1. tauto.
          * assert (~ cA t n) by (intros (d & Hda & _); exact (proj2 (no_aio Hfa) d Hda)). tauto.
    Qed.

    Record inv (K RK : list ustr) (D : ustr) (rd0 : rdetails) (done : list ustr) (cd : cdetails) (rd : rdetails) : Prop := mk_inv {
      iv_keys : mkeys (cd_languages cd) = K;
      iv_done : forall t x, mget t (cd_languages cd) = Some x -> In t done -> data_right t x;
      iv_new : forall t x, mget t (cd_languages cd) = Some x -> ~ In t done -> x = no_data;
      iv_total : cd_total cd = sumN (map (stored p c) done);
      iv_default : cd_default cd = D;
      iv_rkeys : mkeys (rd_languages rd) = RK;
      iv_rcount : forall t x0, mget t (rd_languages rd0) = Some x0 -> exists x, mget t (rd_languages rd) = Some x /\
        lg_count x = (lg_count x0 + sumN (map (stored p c) (filter (ueqb t) done)))%N /\ lg_contributors x = lg_contributors x0;
      iv_rtotal : rd_total rd = (rd_total rd0 + sumN (map (stored p c) done))%N;
      iv_rdefault : rd_default rd = rd_default rd0;
      iv_rcomponents : rd_components rd = rd_components rd0;
      iv_rnodup : NoDup (rd_contributors rd0) -> NoDup (rd_contributors rd);
      iv_rcontributors : forall n, In n (rd_contributors rd) <-> In n (rd_contributors rd0) \/ exists t, In t done /\ contributes p c t n
    }.

    Lemma language_loop_post K RK D rd0 ls : forall done cd rd, inv K RK D rd0 done cd rd ->
      (fa = false -> NoDup (done ++ ls)) -> (forall t, In t ls -> In t K /\ In t RK) -> mkeys (rd_languages rd0) = RK ->
      post (language_loop E p c (fa, fo) ls (cd, rd)) (fun acc => inv K RK D rd0 (done ++ ls) (fst acc) (snd acc)).
    Proof.
      induction ls as [|t ls IH]; intros done cd rd Hinv Hnd Hk Hrk; cbn [language_loop].
      - apply post_skip. rewrite app_nil_r. exact Hinv.
      - pose proof Hinv as Hinv0. destruct Hinv as [I1 I2 I3 I4 I5 I6 I7 I8 I9 I10 I11 I12].
        destruct (Hk t (or_introl eq_refl)) as (HK & HRK).
        rewrite <- I1 in HK. apply mget_keys in HK. destruct HK as (data & Hdata).
        pose proof HRK as HRK'. rewrite <- I6 in HRK'. apply mget_keys in HRK'. destruct HRK' as (rl & Hrl).
        eapply post_bind.
        { eapply language_step_post; [exact Hdata| |exact Hrl]. intros Hf. apply (I3 t data Hdata).
          specialize (Hnd Hf). apply NoDup_remove_2 in Hnd. intros Hi. apply Hnd. apply in_or_app; left; exact Hi. }
        intros acc (x & rc & Hx & -> & Hrn & Hri).
        replace (done ++ t :: ls) with ((done ++ [t]) ++ ls) in * by (rewrite <- app_assoc; reflexivity).
        apply IH; [|exact Hnd|intros t' Ht'; apply Hk; right; exact Ht'|exact Hrk].
        split; cbn [cd_languages cd_default cd_total rd_languages rd_default rd_total rd_components rd_contributors].
        + rewrite map_fst_minsert_old; [exact I1|]. apply mget_keys. eauto.
        + intros t' x' Hx' Hi. rewrite mget_minsert in Hx'. destruct (ueqb_spec t' t) as [->|Hne]; [injection Hx' as <-; exact Hx|].
          apply I2; [exact Hx'|]. apply in_app_or in Hi. destruct Hi as [Hi|[->|[]]]; [exact Hi | contradiction].
        + intros t' x' Hx' Hi. rewrite mget_minsert in Hx'. destruct (ueqb_spec t' t) as [->|Hne].
          * exfalso; apply Hi, in_or_app; right; left; reflexivity.
          * apply (I3 t' x' Hx'). intros H; apply Hi, in_or_app; left; exact H.
        + rewrite map_app, sumN_app, I4. cbn. lia.
        + exact I5.
        + rewrite map_fst_minsert_old; [exact I6|]. apply mget_keys. eauto.
        + intros t' x0 Hx0. destruct (I7 t' x0 Hx0) as (x' & Hx' & H1 & H2). rewrite mget_minsert, filter_app. cbn [filter].
          destruct (ueqb_spec t' t) as [->|Hne].
          * eexists; split; [reflexivity|]. assert (x' = rl) by congruence. subst x'. split; [|exact H2].
            cbn [set_count lg_count]. rewrite map_app, sumN_app, H1. cbn. lia.
          * exists x'. split; [exact Hx'|]. rewrite app_nil_r. auto.
        + rewrite map_app, sumN_app, I8. cbn. lia.
        + exact I9.
        + exact I10.
        + auto.
        + intros n. rewrite Hri, I12. split.
          * intros [[H|(t' & Ht' & H)]|H]; [auto | right; exists t'; split; [apply in_or_app; auto | exact H]|].
            right. exists t. split; [apply in_or_app; right; left; reflexivity | exact H].
          * intros [H|(t' & Ht' & H)]; [auto|]. apply in_app_or in Ht'. destruct Ht' as [Ht'|[<-|[]]]; [left; right; eauto | auto].
    Qed.

    (** The languages. *)
    Definition lA (t : ustr) : Prop := exists d, in_aio p c d /\ speaks E d c t.
    Definition lO (t : ustr) : Prop := exists d, in_own p c d /\ speaks E d c t.
    Lemma has_language_split t : has_language E p c t <-> lA t \/ lO t.
    Proof.
      split.
      - intros (d & r & [Hs|Hs] & H); [left | right]; exists d; (split; [exact Hs | exists r; exact H]).
      - intros [(d & Hs & r & H)|(d & Hs & r & H)]; exists d, r; (split; [|exact H]); [left | right]; exact Hs.
    Qed.
    Lemma languages_post : post (if fa then languages E p c true else skip []) (fun l => (forall t, In t l <-> lA t) /\
      (fa = false -> l = []) /\ (one_spelling E p c -> NoDup l)).
    Proof.
      case_eq fa; intros Hfa.
      - destruct (aio_at Hfa) as (d & Hd & _). split; [apply languages_quiet; assumption|]. intros l Hl.
        destruct (languages_spec E p Hp Ho c true d l Hd Hl) as (H1 & H2). split; [|split; [discriminate|]].
        + intros t. rewrite H1. split; [intros H; exists d; auto|]. intros (d' & Hd' & H). rewrite (in_aio_unique p c d d' Hd Hd'). exact H.
        + intros Hone. apply H2. intros r r'. apply Hone. left. exact Hd.
      - apply post_skip. split; [|split; [reflexivity | constructor]]. intros t. split; [intros [] | intros (d & Hd & _)].
        destruct (proj2 (no_aio Hfa) d Hd).
    Qed.
    Lemma languages_own_post : post (if fo then languages E p c false else skip []) (fun l => forall t, In t l <-> lO t).
    Proof.
      case_eq fo; intros Hfo.
      - destruct (own_at Hfo) as (d & Hd & _). split; [apply languages_quiet; assumption|]. intros l Hl.
        destruct (languages_spec E p Hp Ho c false d l Hd Hl) as (H1 & H2).
        intros t. rewrite H1. split; [intros H; exists d; auto|]. intros (d' & Hd' & H). rewrite (in_own_unique p c d d' Hd Hd'). exact H.
      - apply post_skip. intros t. split; [intros [] | intros (d & Hd & _)]. destruct (proj2 (no_own Hfo) d Hd).
    Qed.
    Lemma default_post : post (if fa then default_language E p c true else skip None) (fun o =>
      match o with Some t => exists d, in_aio p c d /\ default_in E d c t | None => forall d, in_aio p c d -> no_default_in d c end).
    Proof.
      case_eq fa; intros Hfa.
      - destruct (aio_at Hfa) as (d & Hd & _). split; [apply default_language_quiet; assumption|]. intros o H.
        pose proof (default_spec E p Hp Ho c true d o Hd H) as Hs. destruct o as [t|]; [exists d; auto|].
        intros d' Hd'. rewrite (in_aio_unique p c d' d Hd' Hd). exact Hs.
      - apply post_skip. intros d Hd. destruct (proj2 (no_aio Hfa) d Hd).
    Qed.
    Lemma default_own_post : post (if fo then default_language E p c false else skip None) (fun o =>
      match o with Some t => exists d, in_own p c d /\ default_in E d c t | None => True end).
    Proof.
      case_eq fo; intros Hfo.
      - destruct (own_at Hfo) as (d & Hd & _). split; [apply default_language_quiet; assumption|]. intros o H.
        pose proof (default_spec E p Hp Ho c false d o Hd H) as Hs. destruct o as [t|]; [exists d; auto | exact I].
      - apply post_skip. exact I.
    Qed.

    (** What the details of a component say; [ls] are the languages in the order visited, possibly with repetitions. *)
    Record component_right (ls : list ustr) (cd : cdetails) : Prop := mk_component_right {
      cr_list : forall t, In t ls <-> has_language E p c t;
      cr_once : one_spelling E p c \/ fa = false -> NoDup ls;
      cr_languages : forall t, In t (mkeys (cd_languages cd)) <-> has_language E p c t;
      cr_nodup : NoDup (mkeys (cd_languages cd));
      cr_data : forall t x, mget t (cd_languages cd) = Some x -> data_right t x /\ lg_ratio x = Some (stored p c t, stored p c (cd_default cd));
      cr_default : default_of E p c (cd_default cd);
      cr_in : has_language E p c (cd_default cd);
      cr_total : cd_total cd = sumN (map (stored p c) ls)
    }.

    Lemma component_step_post cds rd0 : NoDup (mkeys (rd_languages rd0)) ->
      post (component_step E p c (fa, fo) (cds, rd0)) (fun acc => exists ls cd rd,
        acc = (minsert c cd cds, rd) /\ component_right ls cd /\
        NoDup (mkeys (rd_languages rd)) /\
        (forall t, In t (mkeys (rd_languages rd)) <-> In t (mkeys (rd_languages rd0)) \/ In t ls) /\
        (forall t x, mget t (rd_languages rd) = Some x ->
           lg_count x = (match mget t (rd_languages rd0) with Some y => lg_count y | None => 0 end + sumN (map (stored p c) (filter (ueqb t) ls)))%N /\
           lg_contributors x = match mget t (rd_languages rd0) with Some y => lg_contributors y | None => [] end) /\
        rd_total rd = (rd_total rd0 + cd_total cd)%N /\
        rd_default rd = (if ueqb c (us "application") then Some (cd_default cd) else rd_default rd0) /\
        rd_components rd = rd_components rd0 ++ [c] /\
        (NoDup (rd_contributors rd0) -> NoDup (rd_contributors rd)) /\
        (forall n, In n (rd_contributors rd) <-> In n (rd_contributors rd0) \/ exists t, In t ls /\ contributes p c t n)).
    Proof.
      intros Hrn. unfold component_step. cbn [fst snd].
      eapply post_bind; [apply post_ret; [apply quiet_tag | intros ? _; exact I]|]. intros _ _.
      eapply post_bind; [apply languages_post|]. intros l1 (Hl1 & Hl1' & Hl1n).
      eapply post_bind; [apply languages_own_post|]. intros l2 Hl2. cbv beta in Hl2.
      set (cm1 := if fa then add_aio_languages l1 [] else []).
      assert (Hcm1 : no_data_map cm1 /\ NoDup (mkeys cm1) /\ forall t, In t (mkeys cm1) <-> In t l1).
      { subst cm1. case_eq fa; intros Hfa.
        - destruct (add_aio_languages_facts l1 []) as (H1 & H2 & H3); [intros t x H; discriminate H | constructor|].
          split; [exact H1|]. split; [exact H2|]. intros t. rewrite H3. cbn. tauto.
        - rewrite (Hl1' Hfa). split; [intros t x H; discriminate H|]. split; [constructor | cbn; tauto]. }
      destruct Hcm1 as (Hm1 & Hm2 & Hm3). pose proof (add_own_languages_facts l2 l1 cm1 Hm1 Hm2 Hm3) as Hadd.
      destruct (add_own_languages l2 (l1, cm1)) as (ls & cm2). destruct Hadd as (Ha1 & Ha2 & Ha3 & Ha4 & Ha5).
      set (rm1 := fold_left ensure l1 (rd_languages rd0)). set (rm2 := fold_left ensure l2 rm1).
      assert (Hrm : NoDup (mkeys rm2) /\ (forall t, In t (mkeys rm2) <-> In t (mkeys (rd_languages rd0)) \/ In t ls) /\
        (forall t x, mget t rm2 = Some x -> match mget t (rd_languages rd0) with Some y => x = y | None => x = no_data end)).
      { destruct (ensure_all_facts l1 (rd_languages rd0) Hrn) as (E1 & E2 & E3 & E4). fold rm1 in E1, E2, E3, E4.
        destruct (ensure_all_facts l2 rm1 E1) as (F1 & F2 & F3 & F4). fold rm2 in F1, F2, F3, F4.
        split; [exact F1|]. split; [intros t; rewrite F2, E2, Ha4; tauto|]. intros t x Hx.
        destruct (mget t (rd_languages rd0)) as [y|] eqn:Ey.
        - rewrite (F3 t y (E3 t y Ey)) in Hx. congruence.
        - destruct (mget t rm1) as [z|] eqn:Ez; [|exact (F4 t x Ez Hx)]. rewrite (F3 t z Ez) in Hx. injection Hx as <-. exact (E4 t z Ey Ez). }
      destruct Hrm as (Hrm1 & Hrm2 & Hrm3).
      assert (Hls : forall t, In t ls <-> has_language E p c t).
      { intros t. rewrite Ha4, has_language_split, Hl1, Hl2. reflexivity. }
      eapply post_bind; [apply default_post|]. intros d1 Hd1. cbv beta in Hd1.
      eapply (post_bind _ _ (fun o => match o with Some t => default_of E p c t | None => True end)).
      { destruct d1 as [t|].
        - apply post_skip. left. exact Hd1.
        - eapply post_weaken; [apply default_own_post|]. intros [t|] H; [right; auto | exact I]. }
      intros [t|] Hdef; [|apply post_err]. destruct (mhas t cm2) eqn:Eh; cbn [negb]; [|apply post_err].
      assert (Htls : In t ls) by (apply Ha3; apply mhas_true in Eh; apply mget_keys; exact Eh).
      set (rdx := mk_rdetails rm2 (if ueqb c (us "application") then Some t else rd_default rd0) (rd_total rd0) (rd_components rd0 ++ [c]) (rd_contributors rd0)).
      eapply post_bind.
      { apply (language_loop_post (mkeys cm2) (mkeys rm2) t rdx ls [] (mk_cdetails cm2 t 0) rdx).
        - split; cbn [cd_languages cd_default cd_total]; subst rdx; cbn [rd_languages rd_default rd_total rd_components rd_contributors]; auto.
          + intros t' x _ [].
          + intros t' x Hx _. exact (Ha1 t' x Hx).
          + intros t' x0 Hx0. exists x0. split; [exact Hx0|]. cbn. split; [lia | reflexivity].
          + cbn. lia.
          + intros n. split; [auto|]. intros [H|(t' & [] & _)]. exact H.
        - intros Hf. cbn [app]. apply Ha5. rewrite (Hl1' Hf). constructor.
        - intros t' Ht'. split; [apply Ha3; exact Ht' | apply Hrm2; auto].
        - reflexivity. }
      intros (cd & rd) Hinv. cbn [app fst snd] in Hinv. destruct Hinv as [I1 I2 I3 I4 I5 I6 I7 I8 I9 I10 I11 I12].
      subst rdx; cbn [rd_languages rd_default rd_total rd_components rd_contributors] in *.
      assert (Hdata : exists data, mget (cd_default cd) (cd_languages cd) = Some data).
      { apply mget_keys. rewrite I1, I5. apply Ha3. exact Htls. }
      destruct Hdata as (data & Hdata). rewrite Hdata. apply post_skip. eexists ls, _, rd. split; [reflexivity|].
      split; [|split; [rewrite I6; exact Hrm1|split; [intros t'; rewrite I6; apply Hrm2|]]].
      - split; cbn [cd_languages cd_default cd_total].
        + exact Hls.
        + intros [Hone|Hf]; [exact (Ha5 (Hl1n Hone))|]. apply Ha5. rewrite (Hl1' Hf). constructor.
        + intros t'. rewrite set_ratios_keys, I1, Ha3. apply Hls.
        + rewrite set_ratios_keys, I1. exact Ha2.
        + intros t' x Hx. rewrite set_ratios_get in Hx. destruct (mget t' (cd_languages cd)) as [y|] eqn:Ey; [|discriminate Hx].
          injection Hx as <-. assert (Ht' : In t' ls) by (apply Ha3; rewrite <- I1; apply mget_keys; eauto).
          destruct (I2 t' y Ey Ht') as (H1 & H2 & H3). split; [split; [exact H1|split; [exact H2|exact H3]]|].
          cbn [lg_ratio]. rewrite H1, I5. rewrite I5 in Hdata. rewrite (proj1 (I2 t data Hdata Htls)). reflexivity.
        + rewrite I5. exact Hdef.
        + rewrite I5. apply Hls. exact Htls.
        + exact I4.
      - split; [|split; [|split; [|split; [|split]]]].
        + intros t' x Hx. assert (Hk : In t' (mkeys rm2)) by (rewrite <- I6; apply mget_keys; eauto).
          apply mget_keys in Hk. destruct Hk as (x0 & Hx0). destruct (I7 t' x0 Hx0) as (x' & Hx' & H1 & H2).
          assert (x' = x) by congruence. subst x'. rewrite H1, H2. specialize (Hrm3 t' x0 Hx0).
          destruct (mget t' (rd_languages rd0)) as [y|]; subst x0; split; reflexivity.
        + cbn [cd_total]. rewrite I8, I4. reflexivity.
        + cbn [cd_default]. rewrite I9, I5. reflexivity.
        + exact I10.
        + exact I11.
        + exact I12.
    Qed.
  End Component.

  (** ** All components *)
  (** The details [x] = (component, languages visited). *)
  Record repo_inv (L : list (ustr * list ustr)) (cds : amap cdetails) (rd : rdetails) : Prop := mk_repo_inv {
    ri_keys : mkeys cds = map fst L;
    ri_right : forall c ls, In (c, ls) L -> exists cd, mget c cds = Some cd /\ exists fa fo, mget c (sp_components p) = Some (fa, fo) /\ component_right c fa ls cd;
    ri_nodup : NoDup (mkeys (rd_languages rd));
    ri_languages : forall t, In t (mkeys (rd_languages rd)) <-> exists c ls, In (c, ls) L /\ In t ls;
    ri_count : forall t x, mget t (rd_languages rd) = Some x ->
      lg_count x = sumN (map (fun y => sumN (map (stored p (fst y)) (filter (ueqb t) (snd y)))) L) /\ lg_contributors x = [];
    ri_total : rd_total rd = sumN (map (fun y => cd_total (snd y)) cds);
    ri_default : rd_default rd = option_map cd_default (mget (us "application") cds);
    ri_components : rd_components rd = map fst L;
    ri_cnodup : NoDup (rd_contributors rd);
    ri_contributors : forall n, In n (rd_contributors rd) <-> exists c ls t, In (c, ls) L /\ In t ls /\ contributes p c t n
  }.

  Lemma component_loop_post cs : forall L cds rd, repo_inv L cds rd -> NoDup (map fst L ++ map fst cs) ->
    (forall c f, In (c, f) cs -> mget c (sp_components p) = Some f) ->
    post (component_loop E p cs (cds, rd)) (fun acc => exists L', repo_inv L' (fst acc) (snd acc) /\ map fst L' = map fst L ++ map fst cs).
  Proof.
    induction cs as [|(c & fa & fo) cs IH]; intros L cds rd Hinv Hnd Hcs; cbn [component_loop].
    - apply post_skip. exists L. split; [exact Hinv|]. rewrite app_nil_r. reflexivity.
    - pose proof (Hcs c _ (or_introl eq_refl)) as Hc. destruct Hinv as [R1 R2 R3 R4 R5 R6 R7 R8 R9 R10].
      eapply post_bind; [apply (component_step_post c fa fo Hc cds rd R3)|].
      intros acc (ls & cd & rd' & -> & Hright & S1 & S2 & S3 & S4 & S5 & S6 & S7 & S8).
      assert (Hnew : mget c cds = None).
      { apply mget_None_keys. rewrite R1. cbn [map fst] in Hnd. apply NoDup_remove_2 in Hnd. intros H; apply Hnd, in_or_app; left; exact H. }
      assert (Hins : minsert c cd cds = cds ++ [(c, cd)]) by (apply mkeys_minsert_new; exact Hnew).
      eapply post_weaken.
      + apply (IH (L ++ [(c, ls)]) (minsert c cd cds) rd').
        * split.
          -- rewrite Hins. unfold mkeys. rewrite !map_app. cbn [map fst]. unfold mkeys in R1. rewrite R1. reflexivity.
          -- intros c' ls' Hin. rewrite mget_minsert. apply in_app_or in Hin. destruct Hin as [Hin|[Hin|[]]].
             ++ destruct (R2 c' ls' Hin) as (cd' & Hcd' & H). destruct (ueqb_spec c' c) as [->|_]; [congruence | exists cd'; auto].
             ++ injection Hin as <- <-. rewrite ueqb_refl. exists cd. split; [reflexivity|]. exists fa, fo. auto.
          -- exact S1.
          -- intros t. rewrite S2, R4. split.
             ++ intros [(c' & ls' & H1 & H2)|H]; [exists c', ls' | exists c, ls]; (split; [apply in_or_app; cbn; auto | assumption]).
             ++ intros (c' & ls' & H1 & H2). apply in_app_or in H1. destruct H1 as [H1|[H1|[]]]; [left; eauto | injection H1 as <- <-; auto].
          -- intros t x Hx. destruct (S3 t x Hx) as (H1 & H2). rewrite H1, H2, map_app, sumN_app. cbn [map fst snd sumN fold_right].
             destruct (mget t (rd_languages rd)) as [y|] eqn:Ey.
             ++ destruct (R5 t y Ey) as (H3 & H4). rewrite H3, H4. split; [lia | reflexivity].
             ++ assert (Hz : sumN (map (fun y => sumN (map (stored p (fst y)) (filter (ueqb t) (snd y)))) L) = 0%N).
                { assert (Hno : forall c' ls', In (c', ls') L -> ~ In t ls').
                  { intros c' ls' H H'. apply mget_None_keys in Ey. apply Ey. apply R4. eauto. }
                  clear - Hno. induction L as [|(c' & ls') L IHL]; [reflexivity|]. cbn [map fst snd sumN fold_right].
                  fold (sumN (map (fun y => sumN (map (stored p (fst y)) (filter (ueqb t) (snd y)))) L)). rewrite IHL.
                  - assert (Hf : filter (ueqb t) ls' = []).
                    { specialize (Hno c' ls' (or_introl eq_refl)). clear - Hno. induction ls' as [|z ls' IHl]; [reflexivity|]. cbn [filter].
                      destruct (ueqb_spec t z) as [->|_]; [exfalso; apply Hno; left; reflexivity|]. apply IHl. intros H; apply Hno; right; exact H. }
                    rewrite Hf. reflexivity.
                  - intros c0 l0 H. apply (Hno c0 l0). right; exact H. }
                rewrite Hz. split; [lia | reflexivity].
          -- rewrite Hins, map_app, sumN_app, S4, R6. cbn. lia.
          -- rewrite S5, mget_minsert. rewrite (ueqb_sym (us "application") c). destruct (ueqb c (us "application")); [reflexivity | exact R7].
          -- rewrite S6, R8, map_app. reflexivity.
          -- auto.
          -- intros n. rewrite S8, R10. split.
             ++ intros [(c' & ls' & t & H1 & H2)|(t & H)]; [exists c', ls', t | exists c, ls, t]; (split; [apply in_or_app; cbn; auto | assumption]).
             ++ intros (c' & ls' & t & H1 & H2). apply in_app_or in H1. destruct H1 as [H1|[H1|[]]]; [left; eauto | injection H1 as <- <-; eauto].
        * rewrite map_app. cbn [map fst]. rewrite <- app_assoc. exact Hnd.
        * intros c' f' Hin. apply Hcs. right; exact Hin.
      + intros acc (L' & HL & Hm). exists L'. split; [exact HL|]. rewrite Hm, map_app, <- app_assoc. reflexivity.
  Qed.

  Lemma components_self c f : In (c, f) (sp_components p) -> mget c (sp_components p) = Some f.
  Proof.
    destruct Hp as (Hnd & _). revert Hnd. induction (sp_components p) as [|(k, v) m IH]; [intros _ []|]. cbn [mkeys map fst mget].
    intros Hnd [H|H]; [injection H as -> ->; rewrite ueqb_refl; reflexivity|]. inversion Hnd as [|x l Hx Hl]; subst.
    destruct (ueqb_spec c k) as [->|_]; [|exact (IH Hl H)]. exfalso; apply Hx. exact (in_map fst m (k, f) H).
  Qed.

  (** What the details say. *)
  Record details_right (L : list (ustr * list ustr)) (cds : amap cdetails) (rd : rdetails) : Prop := mk_details_right {
    dr_inv : repo_inv L cds rd;
    dr_all : map fst L = mkeys (sp_components p);
    dr_ratio : forall d t x, rd_default rd = Some d -> mget t (rd_languages rd) = Some x ->
      exists y, mget d (rd_languages rd) = Some y /\ lg_ratio x = Some (lg_count x, lg_count y)
  }.
  Lemma build_details_post : post (build_details E p) (fun acc => exists L, details_right L (fst acc) (snd acc)).
  Proof.
    unfold build_details. eapply post_bind.
    - apply (component_loop_post (sp_components p) []).
      + split; cbn [mkeys map fst snd rd_languages rd_total rd_default rd_components rd_contributors mget].
        * reflexivity.
        * intros c ls [].
        * constructor.
        * intros t. split; [intros [] | intros (c & ls & [] & _)].
        * intros t x H; discriminate H.
        * reflexivity.
        * reflexivity.
        * reflexivity.
        * constructor.
        * intros n. split; [intros [] | intros (c & ls & t & [] & _)].
      + exact (proj1 Hp).
      + apply components_self.
    - intros (cds & rd) (L & Hinv & Hall). cbn [fst snd app map] in Hinv, Hall. pose proof Hinv as Hinv0. destruct Hinv as [R1 R2 R3 R4 R5 R6 R7 R8 R9 R10].
      destruct (rd_default rd) as [t|] eqn:Ed.
      + assert (Hdata : exists data, mget t (rd_languages rd) = Some data).
        { apply mget_keys, R4. destruct (mget (us "application") cds) as [cd|] eqn:Ea; [|discriminate R7]. injection R7 as ->.
          assert (Hk : In (us "application") (map fst L)) by (rewrite <- R1; apply mget_keys; eauto).
          apply in_map_iff in Hk. destruct Hk as ((c & ls) & Hc & Hin). cbn [fst] in Hc. subst c. exists (us "application"), ls. split; [exact Hin|].
          destruct (R2 _ _ Hin) as (cd' & Hcd' & fa & fo & _ & Hr). assert (cd' = cd) by congruence. subst cd'.
          apply (cr_list _ _ _ _ Hr). exact (cr_in _ _ _ _ Hr). }
        destruct Hdata as (data & Hdata). rewrite Hdata. apply post_skip. exists L. cbn [fst snd]. split.
        * split; cbn [rd_languages rd_default rd_total rd_components rd_contributors]; auto.
          -- rewrite set_ratios_keys. exact R3.
          -- intros t'. rewrite set_ratios_keys. apply R4.
          -- intros t' x Hx. rewrite set_ratios_get in Hx. destruct (mget t' (rd_languages rd)) as [y|] eqn:Ey; [|discriminate Hx].
             injection Hx as <-. exact (R5 t' y Ey).
        * exact Hall.
        * cbn [rd_languages rd_default]. intros d t' x Hd Hx. injection Hd as <-. rewrite set_ratios_get in Hx. rewrite set_ratios_get, Hdata.
          destruct (mget t' (rd_languages rd)) as [y|]; [|discriminate Hx]. injection Hx as <-. eexists. split; reflexivity.
      + apply post_skip. exists L. cbn [fst snd]. split; [exact Hinv0 | exact Hall|]. intros d t x H. congruence.
  Qed.
End Details.
