(** Proofs about the language tag registry. *)
From Verif Require Import Base BaseFacts RegistryModel RegistrySpec.

Section Sequential.
  Variable L : locid.
  Hypothesis HL : locid_ok L.

  Record inv (h : list ustr) (rs : list tref) (r : lregistry) : Prop := {
    i_tags : forall k x, mget k (lr_tags r) = Some x -> r_tag x = k /\ canon L k = Some k /\ requested L h k /\ r_id x < lr_next r;
    i_dep : forall k x, mget k (lr_deprecated r) = Some x -> canon L k = Some (r_tag x) /\ mget (r_tag x) (lr_tags r) = Some x /\ In k h /\ k <> r_tag x;
    i_all : forall s y, In s h -> canon L s = Some y -> mget y (lr_tags r) <> None /\ (s <> y -> mget s (lr_deprecated r) <> None);
    i_nd : NoDup (mkeys (lr_tags r)) /\ NoDup (mkeys (lr_deprecated r));
    i_inj : forall k k' x x', mget k (lr_tags r) = Some x -> mget k' (lr_tags r) = Some x' -> r_id x = r_id x' -> k = k';
    i_refs : forall x, In x rs -> mget (r_tag x) (lr_tags r) = Some x;
    i_icu : forall k x, mget k (lr_icu r) = Some x -> parse_locale L k = Some (r_tag x)
  }.

  Lemma inv_new : inv [] [] lreg_new.
  Proof. constructor; cbn; try discriminate; try contradiction. split; constructor. Qed.

  Lemma inv_more h rs r s : inv h rs r -> (forall y, canon L s = Some y -> mget y (lr_tags r) <> None /\ (s <> y -> mget s (lr_deprecated r) <> None)) ->
    inv (s :: h) rs r.
  Proof.
    intros [H1 H2 H3 H4 H5 H6 H7] Hs. constructor; auto.
    - intros k x Hk. destruct (H1 k x Hk) as (? & ? & (q & Hq & Hc) & ?). repeat split; auto. exists q. split; [now right|exact Hc].
    - intros k x Hk. destruct (H2 k x Hk) as (? & ? & ? & ?). repeat split; auto. now right.
    - intros q y [<-|Hq] Hc; [now apply Hs|now apply H3].
  Qed.
  Lemma inv_ref h rs r x : inv h rs r -> mget (r_tag x) (lr_tags r) = Some x -> inv h (x :: rs) r.
  Proof. intros [H1 H2 H3 H4 H5 H6 H7] Hx. constructor; auto. intros y [<-|Hy]; auto. Qed.

  Lemma tag_inv h rs r s r' o : inv h rs r -> tag L r s = (r', o) ->
    inv (s :: h) (match o with Ok x => x :: rs | _ => rs end) r' /\
    match canon L s with
    | None => o = Err IcuLocid /\ r' = r
    | Some y => exists x, o = Ok x /\ r_tag x = y /\ mget y (lr_tags r') = Some x
    end.
  Proof.
    intros Hi H. pose proof Hi as [H1 H2 H3 H4 H5 H6 H7]. unfold tag in H. destruct (mget s (lr_tags r)) as [x|] eqn:E1.
    { injection H as <- <-. destruct (H1 _ _ E1) as (Ht & Hc & _ & _). rewrite Hc. split.
      - apply inv_ref; [|now rewrite Ht]. apply inv_more; [exact Hi|]. intros y Hy. assert (y = s) as -> by congruence. split; congruence.
      - exists x. auto. }
    destruct (mget s (lr_deprecated r)) as [x|] eqn:E2.
    { injection H as <- <-. destruct (H2 _ _ E2) as (Hc & Ht & _ & Hne). rewrite Hc. split.
      - apply inv_ref; [|exact Ht]. apply inv_more; [exact Hi|]. intros y Hy. assert (y = r_tag x) as -> by congruence. split; congruence.
      - exists x. auto. }
    destruct (canon L s) as [new|] eqn:Ec.
    2:{ injection H as <- <-. split; [|auto]. apply inv_more; [exact Hi|]. congruence. }
    destruct (HL s new Ec) as (Hcc & _).
    destruct (mget new (lr_tags r)) as [x|] eqn:E3.
    - injection H as <- <-. destruct (H1 _ _ E3) as (Ht & _ & _ & _). assert (Hne : s <> new) by congruence. split; [|exists x; auto].
      constructor; cbn [set_deprecated lr_tags lr_deprecated lr_icu lr_next].
      + intros k y Hk. destruct (H1 k y Hk) as (? & ? & (q & Hq & Hqc) & ?). repeat split; auto. exists q. split; [now right|exact Hqc].
      + intros k y Hk. rewrite mget_minsert in Hk. destruct (ueqb_spec k s) as [->|N].
        * injection Hk as <-. rewrite Ht. repeat split; auto. now left.
        * destruct (H2 k y Hk) as (? & ? & ? & ?). repeat split; auto. now right.
      + intros q y Hq Hqc. rewrite mget_minsert. destruct (ueqb_spec q s) as [->|N].
        * assert (y = new) as -> by congruence. split; congruence.
        * destruct Hq as [<-|Hq]; [now destruct N|]. now apply H3.
      + destruct H4. split; [assumption|]. now apply minsert_NoDup.
      + exact H5.
      + intros y [<-|Hy]; [now rewrite Ht|auto].
      + exact H7.
    - cbn [fresh] in H. set (x := mk_tref (lr_next r) new) in *.
      injection H as <- <-. 
      assert (Hr2 : forall b : bool, lr_tags (if b then mk_lregistry (lr_tags r) (lr_deprecated r) (lr_icu r) (S (lr_next r))
          else set_deprecated (mk_lregistry (lr_tags r) (lr_deprecated r) (lr_icu r) (S (lr_next r))) (minsert s x (lr_deprecated r))) = lr_tags r) by (intros []; reflexivity).
      split; [|exists x; repeat split; cbn [set_tags lr_tags]; apply mget_minsert_eq].
      constructor; cbn [set_tags lr_tags lr_deprecated lr_icu lr_next lr_deprecated].
      + intros k y Hk. rewrite Hr2, mget_minsert in Hk. destruct (ueqb_spec k new) as [->|N].
        * injection Hk as <-. repeat split; auto; [exists s; split; [now left|exact Ec]|]. cbn. destruct (ueqb s new); cbn; lia.
        * destruct (H1 k y Hk) as (? & ? & (q & Hq & Hqc) & ?). repeat split; auto; [exists q; split; [now right|exact Hqc]|].
          destruct (ueqb s new); cbn; lia.
      + intros k y Hk. rewrite Hr2, mget_minsert. destruct (ueqb_spec s new) as [->|N]; cbn in Hk.
        * destruct (H2 k y Hk) as (Ha & Hb & Hc & Hd). destruct (ueqb_spec (r_tag y) new) as [E|N]; [congruence|]. repeat split; auto. now right.
        * rewrite mget_minsert in Hk. destruct (ueqb_spec k s) as [->|Nk].
          -- injection Hk as <-. cbn. rewrite ueqb_refl. repeat split; auto.
          -- destruct (H2 k y Hk) as (Ha & Hb & Hc & Hd). destruct (ueqb_spec (r_tag y) new) as [E|N']; [congruence|]. repeat split; auto. now right.
      + intros q y Hq Hqc. rewrite Hr2, mget_minsert. split.
        * destruct (ueqb_spec y new) as [->|N]; [discriminate|]. destruct Hq as [<-|Hq]; [congruence|]. exact (proj1 (H3 q y Hq Hqc)).
        * intros Hne. destruct (ueqb_spec s new) as [->|N]; cbn.
          -- destruct Hq as [<-|Hq]; [congruence|]. now apply (H3 q y).
          -- rewrite mget_minsert. destruct (ueqb_spec q s) as [->|N']; [discriminate|]. destruct Hq as [<-|Hq]; [now destruct N'|]. now apply (H3 q y).
      + destruct H4. split; [rewrite Hr2; now apply minsert_NoDup|]. destruct (ueqb s new); cbn; [assumption|now apply minsert_NoDup].
      + intros k k' y y' Hk Hk' Hid. rewrite Hr2, mget_minsert in Hk, Hk'.
        destruct (ueqb_spec k new) as [->|N]; destruct (ueqb_spec k' new) as [->|N']; auto.
        * injection Hk as <-. cbn in Hid. destruct (H1 _ _ Hk') as (_ & _ & _ & ?). lia.
        * injection Hk' as <-. cbn in Hid. destruct (H1 _ _ Hk) as (_ & _ & _ & ?). lia.
        * eapply H5; eauto.
      + intros y [<-|Hy]; rewrite Hr2, mget_minsert; [cbn; now rewrite ueqb_refl|].
        destruct (ueqb_spec (r_tag y) new) as [E|N]; [|now apply H6]. rewrite <- E in E3. rewrite (H6 y Hy) in E3. discriminate.
      + intros k y Hk. destruct (ueqb s new); cbn in Hk; now apply H7.
  Qed.

  Lemma icu_inv h rs r t r' o : inv h rs r -> In t rs -> icu_language L r t = (r', o) ->
    inv h rs r' /\ lr_tags r' = lr_tags r /\ exists x, o = Ok x /\ parse_locale L (r_tag t) = Some (r_tag x) /\ mget (r_tag t) (lr_icu r') = Some x.
  Proof.
    intros Hi Ht H. pose proof Hi as [H1 H2 H3 H4 H5 H6 H7]. unfold icu_language in H.
    destruct (mget (r_tag t) (lr_icu r)) as [x|] eqn:E.
    { injection H as <- <-. split; [exact Hi|]. split; [reflexivity|]. exists x. split; [reflexivity|]. split; [now apply H7|exact E]. }
    destruct (H1 _ _ (H6 t Ht)) as (_ & Hc & _). destruct (HL _ _ Hc) as (_ & Hp).
    destruct (parse_locale L (r_tag t)) as [l|] eqn:El; [|congruence]. cbn [fresh] in H. injection H as <- <-.
    split; [|split; [reflexivity|]; eexists; repeat split; cbn; apply mget_minsert_eq].
    constructor; cbn; auto.
    - intros k x Hk. destruct (H1 k x Hk) as (? & ? & ? & ?). repeat split; auto.
    - intros k x Hk. rewrite mget_minsert in Hk. destruct (ueqb_spec k (r_tag t)) as [->|N]; [injection Hk as <-; exact El|now apply H7].
  Qed.

  Lemma reachable_inv h rs r : reachable L h rs r -> inv h rs r.
  Proof.
    induction 1 as [|h rs r s r' o H IH E|h rs r t r' o H IH Hin E]; [apply inv_new| |].
    - exact (proj1 (tag_inv _ _ _ _ _ _ IH E)).
    - exact (proj1 (icu_inv _ _ _ _ _ _ IH Hin E)).
  Qed.

  Theorem tag_canonical h rs r s : reachable L h rs r ->
    match canon L s with
    | None => tag L r s = (r, Err IcuLocid)
    | Some y => exists r' x, tag L r s = (r', Ok x) /\ r_tag x = y
    end.
  Proof.
    intros H. apply reachable_inv in H. destruct (tag L r s) as [r' o] eqn:E. pose proof (tag_inv _ _ _ _ _ _ H E) as (_ & G).
    destruct (canon L s); [destruct G as (x & -> & Ht & _); eauto|destruct G as (-> & ->); reflexivity].
  Qed.

  (** All references ever returned for a canonical form are the same. *)
  Theorem tag_shared h rs r x x' : reachable L h rs r -> In x rs -> In x' rs -> (r_tag x = r_tag x' <-> r_id x = r_id x') /\ (r_tag x = r_tag x' -> x = x').
  Proof.
    intros H Hx Hx'. apply reachable_inv in H. destruct H as [H1 H2 H3 H4 H5 H6 H7].
    pose proof (H6 x Hx) as Gx. pose proof (H6 x' Hx') as Gx'.
    assert (E : r_tag x = r_tag x' -> x = x') by (intros E; rewrite E in Gx; congruence). split; [split|exact E].
    - intros Ht. now rewrite (E Ht).
    - intros Hid. eapply H5; eauto.
  Qed.

  Theorem tags_listed h rs r : reachable L h rs r ->
    NoDup (map r_tag (list_tags r)) /\ (forall y, In y (map r_tag (list_tags r)) <-> requested L h y).
  Proof.
    intros H. apply reachable_inv in H. destruct H as [H1 H2 H3 (H4 & _) H5 H6 H7]. unfold list_tags.
    assert (E : map r_tag (map snd (lr_tags r)) = mkeys (lr_tags r)).
    { unfold mkeys. rewrite map_map. apply map_ext_in. intros [k x] Hk. cbn.
      assert (G : mget k (lr_tags r) = Some x).
      { clear - Hk H4. induction (lr_tags r) as [|[k' x'] m IH]; [destruct Hk|]. cbn in *. inversion H4 as [|? ? Hn Hd]; subst.
        destruct Hk as [[= -> ->]|Hk]; [now rewrite ueqb_refl|]. destruct (ueqb_spec k k') as [->|N]; [|auto].
        destruct Hn. apply in_map_iff. now exists (k', x). }
      now destruct (H1 k x G) as (? & _). }
    rewrite E. split; [exact H4|]. intros y. rewrite <- mget_keys. split.
    - intros (x & Hx). now destruct (H1 y x Hx) as (_ & _ & ? & _).
    - intros (s & Hs & Hc). destruct (H3 s y Hs Hc) as (Hn & _). destruct (mget y (lr_tags r)) as [x|]; [eauto|now destruct Hn].
  Qed.

  (** One entry per string asked for that is not canonical; the entry is its canonical tag. *)
  Theorem deprecated_listed h rs r : reachable L h rs r ->
    exists ks, NoDup ks /\ (forall k, In k ks <-> In k h /\ exists y, canon L k = Some y /\ y <> k) /\
      map (fun k => canon L k) ks = map (fun x => Some (r_tag x)) (list_deprecated r).
  Proof.
    intros H. apply reachable_inv in H. destruct H as [H1 H2 H3 (_ & H4) H5 H6 H7].
    assert (Gm : forall k x, In (k, x) (lr_deprecated r) -> mget k (lr_deprecated r) = Some x).
    { intros k x Hk. clear - Hk H4. induction (lr_deprecated r) as [|[k' x'] m IH]; [destruct Hk|]. cbn in *. inversion H4 as [|? ? Hn Hd]; subst.
      destruct Hk as [[= -> ->]|Hk]; [now rewrite ueqb_refl|]. destruct (ueqb_spec k k') as [->|N]; [|auto].
      destruct Hn. apply in_map_iff. now exists (k', x). }
    exists (mkeys (lr_deprecated r)). split; [exact H4|]. split.
    - intros k. rewrite <- mget_keys. split.
      + intros (x & Hx). destruct (H2 k x Hx) as (Ha & _ & Hb & Hc). split; [exact Hb|]. eauto.
      + intros (Hk & y & Hc & Hn). destruct (H3 k y Hk Hc) as (_ & Hd). destruct (mget k (lr_deprecated r)) as [x|]; [eauto|].
        destruct Hd; congruence.
    - unfold list_deprecated, mkeys. rewrite !map_map. apply map_ext_in. intros [k x] Hk. cbn. now destruct (H2 k x (Gm k x Hk)) as (? & _).
  Qed.

  (** Together: one entry per canonical form and one per other spelling. *)
  Theorem all_listed h rs r : reachable L h rs r ->
    exists ks, NoDup ks /\
      (forall k, In k ks <-> requested L h k \/ (In k h /\ exists y, canon L k = Some y /\ y <> k)) /\
      map (fun k => canon L k) ks = map (fun x => Some (r_tag x)) (list_all r).
  Proof.
    intros H. destruct (tags_listed _ _ _ H) as (Hd & Hi). destruct (deprecated_listed _ _ _ H) as (ks & Kd & Ki & Km).
    assert (Hc : forall y, requested L h y -> canon L y = Some y) by (intros y (s & _ & Hs); now apply (HL _ _ Hs)).
    exists (map r_tag (list_tags r) ++ ks). split; [|split].
    - assert (D : forall y, In y (map r_tag (list_tags r)) -> ~ In y ks); [intros y Hy Hk|].
      2:{ clear - Hd Kd D. induction (map r_tag (list_tags r)) as [|a l IH]; [exact Kd|]. inversion_clear Hd. cbn. constructor.
          - rewrite in_app_iff. intros [?|Hk]; [contradiction|]. apply (D a); [now left|exact Hk].
          - apply IH; [assumption|]. intros y Hy. apply D. now right. }
      apply Hi, Hc in Hy. apply Ki in Hk.
      destruct Hk as (_ & y' & Hy' & Hn). congruence.
    - intros k. rewrite in_app_iff, Hi, Ki. tauto.
    - unfold list_all. rewrite !map_app, Km. f_equal. rewrite map_map. apply map_ext_in. intros x Hx. apply Hc, Hi, in_map, Hx.
  Qed.

  Theorem icu_language_ok h rs r t : reachable L h rs r -> In t rs ->
    exists r' x, icu_language L r t = (r', Ok x) /\ parse_locale L (r_tag t) = Some (r_tag x) /\
      forall t', r_tag t' = r_tag t -> icu_language L r' t' = (r', Ok x).
  Proof.
    intros H Ht. apply reachable_inv in H. destruct (icu_language L r t) as [r' o] eqn:E.
    destruct (icu_inv _ _ _ _ _ _ H Ht E) as (_ & _ & x & -> & Hp & Hg). exists r', x. repeat split; auto.
    intros t' Et. unfold icu_language. now rewrite Et, Hg.
  Qed.
End Sequential.

(** ** Schedules *)
Section Concurrent.
  Variable L : locid.
  Hypothesis HL : locid_ok L.

  Definition reg_ok (r : lregistry) : Prop :=
    (forall k x, mget k (lr_tags r) = Some x -> r_tag x = k /\ canon L k = Some k) /\
    (forall k x, mget k (lr_deprecated r) = Some x -> canon L k = Some (r_tag x)).
  Definition pc_ok (s : ustr) (p : pc) : Prop :=
    match p with
    | PTags q | PDeprecated q | PCanon q => q = s
    | PAgain q new | PCreate q new => q = s /\ canon L s = Some new
    | PHold q x | PInsert q x => q = s /\ canon L s = Some (r_tag x)
    | PDone q (Ok x) => q = s /\ canon L s = Some (r_tag x)
    | PDone q (Err _) => q = s /\ canon L s = None
    | PDone _ _ => False
    end.
  (** The lock is held by a thread that is about to release it. *)
  Definition lock_ok (g : conc) : Prop :=
    match g_lock g with
    | None => forall i s x, nth_error (g_threads g) i <> Some (PHold s x)
    | Some j => exists s x, nth_error (g_threads g) j = Some (PHold s x) /\
        forall i s' x', nth_error (g_threads g) i = Some (PHold s' x') -> i = j
    end.
  Definition conc_ok (args : list ustr) (g : conc) : Prop :=
    reg_ok (g_reg g) /\ Forall2 pc_ok args (g_threads g) /\ lock_ok g.

  Lemma Forall2_nth {A B} (R : A -> B -> Prop) l l' i y : Forall2 R l l' -> nth_error l' i = Some y ->
    exists x, nth_error l i = Some x /\ R x y.
  Proof. intros H. revert i. induction H as [|a b l l' Hab H IH]; intros [|i] Hi; try discriminate; cbn in *; [injection Hi as <-; eauto|auto]. Qed.
  Lemma Forall2_lset {A B} (R : A -> B -> Prop) l l' i x y : Forall2 R l l' -> nth_error l i = Some x -> R x y -> Forall2 R l (lset l' i y).
  Proof.
    intros H. revert i. induction H as [|a b l l' Hab H IH]; intros [|i] Hi HR; try discriminate; cbn in *.
    - injection Hi as ->. now constructor.
    - constructor; auto.
  Qed.

  Lemma pc_step_ok r free p r' hold p' s : reg_ok r -> pc_ok s p -> pc_step L r free p = Some (r', hold, p') ->
    reg_ok r' /\ pc_ok s p' /\ (hold = true <-> exists q x, p' = PHold q x) /\ (hold = true -> free = true).
  Proof.
    intros (R1 & R2) Hp H. destruct p as [q|q|q|q new|q x|q new|q x|q o]; cbn [pc_step] in H; cbn [pc_ok] in Hp.
    - subst q. destruct free; [|discriminate]. destruct (mget s (lr_tags r)) as [x|] eqn:E; injection H as <- <- <-.
      + destruct (R1 _ _ E) as (Ht & Hc). split; [now split|]. split; [cbn; split; [reflexivity|now rewrite Ht]|].
        split; [split; [discriminate|intros (? & ? & ?); discriminate]|discriminate].
      + split; [now split|]. split; [reflexivity|]. split; [split; [discriminate|intros (? & ? & ?); discriminate]|discriminate].
    - subst q. destruct (mget s (lr_deprecated r)) as [x|] eqn:E; injection H as <- <- <-.
      + split; [now split|]. split; [cbn; split; [reflexivity|exact (R2 _ _ E)]|].
        split; [split; [discriminate|intros (? & ? & ?); discriminate]|discriminate].
      + split; [now split|]. split; [reflexivity|]. split; [split; [discriminate|intros (? & ? & ?); discriminate]|discriminate].
    - subst q. destruct (canon L s) as [new|] eqn:E; injection H as <- <- <-.
      + split; [now split|]. split; [now cbn|]. split; [split; [discriminate|intros (? & ? & ?); discriminate]|discriminate].
      + split; [now split|]. split; [now cbn|]. split; [split; [discriminate|intros (? & ? & ?); discriminate]|discriminate].
    - destruct Hp as (-> & Hc). destruct free; [|discriminate]. destruct (mget new (lr_tags r)) as [x|] eqn:E; injection H as <- <- <-.
      + destruct (R1 _ _ E) as (Ht & _). split; [now split|]. split; [cbn; split; [reflexivity|now rewrite Ht]|].
        split; [split; [eauto|reflexivity]|reflexivity].
      + split; [now split|]. split; [now cbn|]. split; [split; [discriminate|intros (? & ? & ?); discriminate]|discriminate].
    - destruct Hp as (-> & Hc). injection H as <- <- <-. split.
      + split; [exact R1|]. cbn. intros k y Hk. rewrite mget_minsert in Hk. destruct (ueqb_spec k s) as [->|N]; [now injection Hk as <-|auto].
      + split; [now cbn|]. split; [split; [discriminate|intros (? & ? & ?); discriminate]|discriminate].
    - destruct Hp as (-> & Hc). cbn [fresh] in H. injection H as <- <- <-. split.
      + split; [intros k y Hk; apply R1; destruct (ueqb s new); exact Hk|]. intros k y Hk. destruct (ueqb_spec s new) as [->|N]; cbn in Hk; [now apply R2|].
        rewrite mget_minsert in Hk. destruct (ueqb_spec k s) as [->|N']; [now injection Hk as <-|auto].
      + split; [now cbn|]. split; [split; [discriminate|intros (? & ? & ?); discriminate]|discriminate].
    - destruct Hp as (-> & Hc). destruct free; [|discriminate]. injection H as <- <- <-. split.
      + split; [|exact R2]. cbn. intros k y Hk. rewrite mget_minsert in Hk. destruct (ueqb_spec k (r_tag x)) as [->|N]; [|auto].
        injection Hk as <-. split; [reflexivity|]. exact (proj1 (HL _ _ Hc)).
      + split; [now cbn|]. split; [split; [discriminate|intros (? & ? & ?); discriminate]|discriminate].
    - discriminate.
  Qed.

  Lemma conc_step_ok args g i g' : conc_ok args g -> conc_step L g i = Some g' -> conc_ok args g'.
  Proof.
    intros (Hr & Ht & Hl) H. unfold conc_step in H. destruct (nth_error (g_threads g) i) as [p|] eqn:Ei; [|discriminate].
    destruct (pc_step _ _ _ p) as [[[r' hold] p']|] eqn:Ep; [|discriminate]. injection H as <-.
    destruct (Forall2_nth _ _ _ _ _ Ht Ei) as (s & Es & Hp).
    destruct (pc_step_ok _ _ _ _ _ _ _ Hr Hp Ep) as (R1 & R2 & R3 & R4).
    split; [exact R1|]. split; [eapply Forall2_lset; eauto|].
    assert (Hi : i < List.length (g_threads g)) by (apply nth_error_Some; congruence).
    unfold lock_ok in *. cbn [g_lock g_threads]. destruct hold.
    - destruct (proj1 R3 eq_refl) as (q & x & ->). exists q, x. split; [now apply lset_nth_eq|].
      intros j s' x' Hj. destruct (Nat.eq_dec j i) as [->|N]; [reflexivity|]. rewrite lset_nth_ne in Hj by congruence.
      specialize (R4 eq_refl). destruct (g_lock g); [discriminate|]. now destruct (Hl j s' x').
    - assert (Hnh : forall q x, p' <> PHold q x) by (intros q x Ex; assert (Hf : false = true) by (apply R3; eauto); discriminate Hf).
      assert (Hdec : (exists q x, p = PHold q x) \/ forall q x, p <> PHold q x) by (destruct p; try (right; discriminate); left; eauto).
      destruct Hdec as [(q & x & ->)|Hnp].
      + intros j s' x' Hj. destruct (Nat.eq_dec j i) as [->|N].
        * rewrite lset_nth_eq in Hj by exact Hi. injection Hj as Hj. exact (Hnh _ _ Hj).
        * rewrite lset_nth_ne in Hj by congruence. destruct (g_lock g) as [k|]; [|exact (Hl _ _ _ Ei)].
          destruct Hl as (_ & _ & _ & Hl). pose proof (Hl _ _ _ Ei). pose proof (Hl _ _ _ Hj). congruence.
      + replace (match p with PHold _ _ => None | _ => g_lock g end) with (g_lock g) by (destruct p; try reflexivity; now destruct (Hnp s0 x)).
        destruct (g_lock g) as [k|].
        * destruct Hl as (q & x & Hk & Hl). exists q, x. split.
          -- rewrite lset_nth_ne; [exact Hk|]. intros ->. rewrite Ei in Hk. injection Hk as Hk. exact (Hnp _ _ Hk).
          -- intros j s' x' Hj. destruct (Nat.eq_dec j i) as [->|N]; [rewrite lset_nth_eq in Hj by exact Hi; injection Hj as Hj; now destruct (Hnh s' x')|].
             rewrite lset_nth_ne in Hj by congruence. eapply Hl; eauto.
        * intros j s' x' Hj. destruct (Nat.eq_dec j i) as [->|N]; [rewrite lset_nth_eq in Hj by exact Hi; injection Hj as Hj; exact (Hnh _ _ Hj)|].
          rewrite lset_nth_ne in Hj by congruence. exact (Hl _ _ _ Hj).
  Qed.
  Lemma conc_run_ok args sch : forall g, conc_ok args g -> conc_ok args (conc_run L g sch).
  Proof.
    induction sch as [|i sch IH]; intros g Hg; [exact Hg|]. cbn. apply IH. destruct (conc_step L g i) eqn:E; [|exact Hg].
    eapply conc_step_ok; eauto.
  Qed.
  Lemma start_ok r args : reg_ok r -> conc_ok args (conc_start r args).
  Proof.
    intros Hr. split; [exact Hr|]. split.
    - cbn. induction args; cbn; constructor; auto. reflexivity.
    - cbn. intros i s x H. apply nth_error_In in H. apply in_map_iff in H as (? & ? & _). discriminate.
  Qed.
  Lemma inv_reg_ok h rs r : inv L h rs r -> reg_ok r.
  Proof.
    intros [H1 H2 H3 H4 H5 H6 H7]. split.
    - intros k x Hk. destruct (H1 k x Hk) as (? & ? & _). auto.
    - intros k x Hk. now destruct (H2 k x Hk) as (? & _).
  Qed.

  (** Safety: every finished call has the canonical value of its argument. *)
  Theorem schedule_canonical h rs r args sch i s o : reachable L h rs r ->
    nth_error (g_threads (conc_run L (conc_start r args) sch)) i = Some (PDone s o) ->
    nth_error args i = Some s /\
    match canon L s with Some y => exists x, o = Ok x /\ r_tag x = y | None => o = Err IcuLocid end.
  Proof.
    intros H Hi. apply (reachable_inv L HL) in H. pose proof (conc_run_ok args sch _ (start_ok r args (inv_reg_ok _ _ _ H))) as (_ & Ht & _).
    destruct (Forall2_nth _ _ _ _ _ Ht Hi) as (s' & Es & Hp). cbn in Hp. destruct o as [x|[]| |]; cbn in Hp; try contradiction.
    - destruct Hp as (-> & Hc). rewrite Hc. eauto.
    - destruct Hp as (-> & Hc). now rewrite Hc.
  Qed.

  (** No deadlock: as long as a call is not finished, some thread can go on. *)
  Theorem no_deadlock h rs r args sch : reachable L h rs r ->
    let g := conc_run L (conc_start r args) sch in
    (forall i, conc_step L g i = None) -> forall i p, nth_error (g_threads g) i = Some p -> exists s o, p = PDone s o.
  Proof.
    intros H g Hn i p Hi. apply (reachable_inv L HL) in H.
    pose proof (conc_run_ok args sch _ (start_ok r args (inv_reg_ok _ _ _ H))) as (_ & _ & Hl). fold g in Hl.
    assert (Hfree : g_lock g = None).
    { unfold lock_ok in Hl. destruct (g_lock g) as [j|] eqn:E; [|reflexivity]. destruct Hl as (s & x & Hj & _).
      specialize (Hn j). unfold conc_step in Hn. rewrite Hj in Hn. discriminate. }
    specialize (Hn i). unfold conc_step in Hn. rewrite Hi, Hfree in Hn. destruct p as [q|q|q|q new|q x|q new|q x|q o]; cbn in Hn; try discriminate; eauto.
    destruct (mget new (lr_tags (g_reg g))); discriminate.
  Qed.

  (** Termination: every thread takes at most six steps. *)
  Definition remaining (p : pc) : nat :=
    match p with PTags _ => 6 | PDeprecated _ => 5 | PCanon _ => 4 | PAgain _ _ => 3 | PCreate _ _ => 2 | PHold _ _ | PInsert _ _ => 1 | PDone _ _ => 0 end.
  Fixpoint work (l : list pc) : nat := match l with [] => 0 | p :: r => remaining p + work r end.
  Lemma work_lset l i p p' : nth_error l i = Some p -> work (lset l i p') + remaining p = work l + remaining p'.
  Proof. revert i. induction l as [|q l IH]; intros [|i] H; try discriminate; cbn in *; [injection H as ->; lia|]. specialize (IH i H). lia. Qed.
  Lemma pc_step_less r free p r' hold p' : pc_step L r free p = Some (r', hold, p') -> remaining p' < remaining p.
  Proof.
    destruct p as [q|q|q|q new|q x|q new|q x|q o]; cbn [pc_step fresh]; intros H; try discriminate H;
      try (destruct free; [|discriminate H]);
      repeat match type of H with context [match ?o with Some _ => _ | None => _ end] => destruct o end;
      injection H as <- <- <-; cbn; lia.
  Qed.
  Theorem step_less g i g' : conc_step L g i = Some g' -> work (g_threads g') < work (g_threads g).
  Proof.
    unfold conc_step. destruct (nth_error (g_threads g) i) as [p|] eqn:Ei; [|discriminate].
    destruct (pc_step _ _ _ p) as [[[r' hold] p']|] eqn:Ep; [|discriminate]. intros [= <-]. cbn.
    pose proof (work_lset _ _ _ p' Ei). apply pc_step_less in Ep. lia.
  Qed.
  Lemma start_work r args : work (g_threads (conc_start r args)) = 6 * List.length args.
  Proof. cbn [conc_start g_threads]. induction args; cbn [map work remaining List.length]; lia. Qed.

  (** A thread that runs without interruption computes the sequential [tag]. *)
  Fixpoint alone (g : conc) (i n : nat) : conc := match n with O => g | S n => alone (match conc_step L g i with Some g' => g' | None => g end) i n end.
  Lemma alone_run g i n : alone g i n = conc_run L g (repeat i n).
  Proof. revert g. induction n as [|n IH]; intros g; [reflexivity|]. cbn. apply IH. Qed.
  Lemma step_eq r th i p r' hold p' : nth_error th i = Some p -> pc_step L r true p = Some (r', hold, p') ->
    conc_step L (mk_conc r None th) i = Some (mk_conc r' (if hold then Some i else None) (lset th i p')).
  Proof. intros Hi Hp. unfold conc_step. cbn [g_threads g_lock g_reg]. rewrite Hi, Hp. destruct hold; [reflexivity|]. destruct p; reflexivity. Qed.
  Lemma step_hold r th i s x : nth_error th i = Some (PHold s x) ->
    conc_step L (mk_conc r (Some i) th) i = Some (mk_conc (set_deprecated r (minsert s x (lr_deprecated r))) None (lset th i (PDone s (Ok x)))).
  Proof. intros Hi. unfold conc_step. cbn [g_threads g_lock g_reg]. rewrite Hi. reflexivity. Qed.
  Lemma step_done r l th i s o : nth_error th i = Some (PDone s o) -> forall n, alone (mk_conc r l th) i n = mk_conc r l th.
  Proof. intros Hi n. induction n as [|n IH]; [reflexivity|]. cbn [alone]. unfold conc_step. cbn [g_threads]. rewrite Hi. cbn. exact IH. Qed.
  Lemma lset_twice {A} (l : list A) i x y : lset (lset l i x) i y = lset l i y.
  Proof. revert i. induction l as [|a l IH]; intros [|i]; cbn; congruence. Qed.

  Theorem alone_sequential r th i s : nth_error th i = Some (PTags s) ->
    conc_run L (mk_conc r None th) (repeat i 6) = mk_conc (fst (tag L r s)) None (lset th i (PDone s (snd (tag L r s)))).
  Proof.
    intros Hi. rewrite <- alone_run. assert (Hlt : i < List.length th) by (apply nth_error_Some; congruence).
    assert (Hn : forall p, nth_error (lset th i p) i = Some p) by (intros p; now apply lset_nth_eq).
    unfold tag. cbn [alone]. erewrite step_eq; [|exact Hi|reflexivity].
    destruct (mget s (lr_tags r)) as [x|] eqn:E1; [exact (step_done _ _ _ _ _ _ (Hn _) 5)|].
    erewrite step_eq; [|apply Hn|reflexivity]. rewrite lset_twice.
    destruct (mget s (lr_deprecated r)) as [x|] eqn:E2; [exact (step_done _ _ _ _ _ _ (Hn _) 4)|].
    erewrite step_eq; [|apply Hn|reflexivity]. rewrite lset_twice.
    destruct (canon L s) as [new|]; [|exact (step_done _ _ _ _ _ _ (Hn _) 3)].
    destruct (mget new (lr_tags r)) as [x|] eqn:E3.
    - erewrite step_eq; [|apply Hn|cbn [pc_step]; rewrite E3; reflexivity]. cbv iota. rewrite lset_twice.
      rewrite (step_hold _ _ _ _ _ (Hn _)), lset_twice. exact (step_done _ _ _ _ _ _ (Hn _) 1).
    - erewrite step_eq; [|apply Hn|cbn [pc_step]; rewrite E3; reflexivity]. cbv iota. rewrite lset_twice.
      erewrite step_eq; [|apply Hn|reflexivity]. cbv iota. rewrite lset_twice.
      erewrite step_eq; [|apply Hn|reflexivity]. cbv iota. rewrite lset_twice. cbn [fresh fst snd r_tag]. reflexivity.
  Qed.
End Concurrent.
