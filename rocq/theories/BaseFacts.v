(** Lemmas about the definitions of [Base]. *)
From Coq Require Import Permutation.
From Verif Require Import Base.

Lemma ueqb_spec a b : reflect (a = b) (ueqb a b).
Proof.
  revert b; induction a as [|x a IH]; destruct b as [|y b]; cbn; try (constructor; congruence).
  destruct (N.eqb_spec x y) as [->|Hn]; cbn.
  - destruct (IH b) as [->|Hn]; constructor; congruence.
  - constructor; congruence.
Qed.

Lemma ueqb_refl a : ueqb a a = true.
Proof. destruct (ueqb_spec a a); congruence. Qed.

Lemma ueqb_eq a b : ueqb a b = true <-> a = b.
Proof. destruct (ueqb_spec a b); split; congruence. Qed.

Lemma ueqb_neq a b : ueqb a b = false <-> a <> b.
Proof. destruct (ueqb_spec a b); split; congruence. Qed.

Lemma ueqb_sym a b : ueqb a b = ueqb b a.
Proof. destruct (ueqb_spec a b), (ueqb_spec b a); congruence. Qed.

Lemma umem_In x l : umem x l = true <-> In x l.
Proof.
  unfold umem; rewrite existsb_exists; split.
  - intros (y & Hy & He); apply ueqb_eq in He; subst; exact Hy.
  - intros H; exists x; split; [exact H | apply ueqb_refl].
Qed.

Lemma umem_nIn x l : umem x l = false <-> ~ In x l.
Proof. rewrite <- umem_In; destruct (umem x l); split; intros H; [discriminate | exfalso; apply H; reflexivity | discriminate | reflexivity]. Qed.

Lemma clen_pos c : 1 <= clen c.
Proof. unfold clen; repeat destruct (_ <? _)%N; lia. Qed.

Lemma blen_app a b : blen (a ++ b) = blen a + blen b.
Proof. induction a as [|x a IH]; cbn; [reflexivity | rewrite IH; lia]. Qed.

Lemma blen_len s : List.length s <= blen s.
Proof. induction s as [|c s IH]; cbn; [lia | pose proof (clen_pos c); lia]. Qed.

Lemma mget_minsert {V} k k' (v : V) m :
  mget k (minsert k' v m) = if ueqb k k' then Some v else mget k m.
Proof.
  induction m as [|(k0, v0) m IH]; cbn.
  - reflexivity.
  - destruct (ueqb_spec k' k0) as [->|Hn]; cbn.
    + destruct (ueqb_spec k k0); reflexivity.
    + destruct (ueqb_spec k k0) as [->|Hn'].
      * destruct (ueqb_spec k0 k'); [congruence | reflexivity].
      * exact IH.
Qed.

Lemma mget_minsert_eq {V} k (v : V) m : mget k (minsert k v m) = Some v.
Proof. rewrite mget_minsert, ueqb_refl; reflexivity. Qed.

Lemma mget_minsert_ne {V} k k' (v : V) m : k <> k' -> mget k (minsert k' v m) = mget k m.
Proof. intros H; rewrite mget_minsert; destruct (ueqb_spec k k'); [contradiction | reflexivity]. Qed.

Lemma mhas_true {V} k (m : amap V) : mhas k m = true <-> exists v, mget k m = Some v.
Proof.
  unfold mhas; destruct (mget k m) as [v|]; split; intros H; try discriminate; eauto.
  destruct H as (v & Hv); discriminate.
Qed.

Lemma mhas_false {V} k (m : amap V) : mhas k m = false <-> mget k m = None.
Proof. unfold mhas; destruct (mget k m); split; congruence. Qed.

Lemma mget_In {V} k (v : V) m : mget k m = Some v -> In (k, v) m.
Proof.
  induction m as [|(k0, v0) m IH]; cbn; [discriminate|].
  destruct (ueqb_spec k k0) as [->|Hn]; intros H.
  - injection H as ->; left; reflexivity.
  - right; exact (IH H).
Qed.

Lemma mget_keys {V} k (m : amap V) : (exists v, mget k m = Some v) <-> In k (mkeys m).
Proof.
  induction m as [|(k0, v0) m IH]; cbn.
  - split; [intros (v & H); discriminate | intros []].
  - destruct (ueqb_spec k k0) as [->|Hn].
    + split; [intros _; left; reflexivity | intros _; eauto].
    + rewrite IH; split; [tauto | intros [H|H]; [congruence | exact H]].
Qed.

Lemma mget_None_keys {V} k (m : amap V) : mget k m = None <-> ~ In k (mkeys m).
Proof.
  rewrite <- mget_keys; split.
  - intros H (v & Hv); congruence.
  - intros H; destruct (mget k m) as [v|] eqn:E; [exfalso; apply H; eauto | reflexivity].
Qed.

Lemma mkeys_minsert_new {V} k (v : V) m : mget k m = None -> minsert k v m = m ++ [(k, v)].
Proof.
  induction m as [|(k0, v0) m IH]; cbn; [reflexivity|].
  destruct (ueqb k k0); [discriminate | intros H; rewrite (IH H); reflexivity].
Qed.

Lemma mkeys_minsert_old {V} k (v : V) m : mget k m <> None -> mkeys (minsert k v m) = mkeys m.
Proof.
  induction m as [|(k0, v0) m IH]; cbn; [congruence|].
  destruct (ueqb_spec k k0); cbn; [reflexivity|].
  intros H; specialize (IH H); unfold mkeys in IH; rewrite IH; reflexivity.
Qed.

Lemma minsert_keys_In {V} k k' (v : V) m : In k (mkeys (minsert k' v m)) <-> k = k' \/ In k (mkeys m).
Proof.
  rewrite <- !mget_keys, mget_minsert; destruct (ueqb_spec k k') as [->|Hn].
  - split; [intros _; left; reflexivity | intros _; eauto].
  - split; [tauto | intros [H|H]; [contradiction | exact H]].
Qed.

Lemma minsert_NoDup {V} k (v : V) m : NoDup (mkeys m) -> NoDup (mkeys (minsert k v m)).
Proof.
  intros H; destruct (mget k m) as [w|] eqn:E.
  - rewrite mkeys_minsert_old by congruence; exact H.
  - rewrite mkeys_minsert_new by exact E.
    unfold mkeys; rewrite map_app; cbn.
    apply mget_None_keys in E. unfold mkeys in *.
    apply (Permutation_NoDup (Permutation_cons_append (map fst m) k)).
    constructor; assumption.
Qed.

Lemma lset_length {A} (l : list A) i x : List.length (lset l i x) = List.length l.
Proof. revert i; induction l as [|y l IH]; destruct i; cbn; auto. Qed.

Lemma lset_nth_eq {A} (l : list A) i x : i < List.length l -> nth_error (lset l i x) i = Some x.
Proof. revert i; induction l as [|y l IH]; destruct i; cbn; intros H; try lia; auto. apply IH; lia. Qed.

Lemma lset_nth_ne {A} (l : list A) i j x : i <> j -> nth_error (lset l i x) j = nth_error l j.
Proof. revert i j; induction l as [|y l IH]; destruct i, j; cbn; intros H; try congruence; auto. Qed.

Lemma lset_app_l {A} (a b : list A) i x : i < List.length a -> lset (a ++ b) i x = lset a i x ++ b.
Proof. revert i; induction a as [|y a IH]; destruct i; cbn; intros H; try lia; auto. rewrite IH by lia; auto. Qed.

Lemma lset_app_r {A} (a b : list A) i x : List.length a <= i ->
  lset (a ++ b) i x = a ++ lset b (i - List.length a) x.
Proof.
  revert i; induction a as [|y a IH]; intros i H; cbn in *.
  - rewrite Nat.sub_0_r; reflexivity.
  - destruct i; [lia|]. cbn; rewrite IH by lia; reflexivity.
Qed.

Lemma last_opt_app {A} (l : list A) x : last_opt (l ++ [x]) = Some x.
Proof.
  unfold last_opt. rewrite app_length; cbn.
  rewrite nth_error_app2 by lia.
  replace (List.length l + 1 - 1 - List.length l) with 0 by lia. reflexivity.
Qed.

Lemma bind_Ok {E A B} (x : outcome E A) (f : A -> outcome E B) b :
  bind x f = Ok b <-> exists a, x = Ok a /\ f a = Ok b.
Proof.
  destruct x; cbn; split; intros H; try discriminate; eauto;
    try (destruct H as (a' & H1 & H2); congruence).
Qed.

Lemma NoDup_app_remove_l {A} (l l' : list A) : NoDup (l ++ l') -> NoDup l'.
Proof. induction l as [|x l IH]; cbn; intros H; [exact H|]. inversion H; auto. Qed.

Lemma NoDup_app_remove_r {A} (l l' : list A) : NoDup (l ++ l') -> NoDup l.
Proof.
  induction l as [|x l IH]; cbn; intros H; [constructor|]. inversion H as [|y m Hy Hm]; subst.
  constructor; [intros Hi; apply Hy; apply in_or_app; auto | auto].
Qed.
