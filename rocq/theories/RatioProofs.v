(** The ratios of the statistics of a provider. *)
From Coq Require Import SpecFloat QArith Qpower Qabs Lqa Lia ZArith.
From Verif Require Import Base BaseFacts ProviderModel FloatModel FloatSpec FloatProofs.

Local Open Scope Q_scope.
Notation Qn n := (inject_Z (Z.of_N n)).

Lemma is_number_unique x q q' : is_number x q -> is_number x q' -> q == q'.
Proof. intros H H'. inversion H; subst; inversion H'; subst; congruence || (etransitivity; [eassumption|symmetry; assumption]). Qed.
Lemma f32_of_0 : f32_of 0 = S754_zero false.
Proof. reflexivity. Qed.
Lemma scaled_pos m e : 0 < scaled (Z.pos m) e.
Proof. unfold scaled. pose proof (p2_pos e). assert (0 < inject_Z (Z.pos m)) by (apply (inj_lt 0); lia). nra. Qed.
Lemma Qn_pos n : (0 < n)%N -> 0 < Qn n.
Proof. intros. apply (inj_lt 0). lia. Qed.
Lemma Qn_lt n n' : (n < n')%N -> Qn n < Qn n'.
Proof. intros. apply inj_lt. lia. Qed.

(** The quotient of two integers. *)
Lemma ratio_finite n d : (0 < n < 2 ^ 64)%N -> (0 < d < 2 ^ 64)%N -> exists a b m e,
  nearest (Qn n) a /\ nearest (Qn d) b /\ 0 < a /\ 0 < b /\ close (Qn n) a /\ close (Qn d) b /\
  f32_ratio (Some (n, d)) = S754_finite false m e /\ nearest (a / b) (scaled (Z.pos m) e) /\ close (a / b) (scaled (Z.pos m) e) /\
  (n = d -> a = b).
Proof.
  intros Hn Hd. destruct (f32_of_finite n Hn) as (m1 & e1 & A1 & A2 & A3 & A4 & A5). destruct (f32_of_finite d Hd) as (m2 & e2 & B1 & B2 & B3 & B4 & B5).
  destruct (div_nearest m1 e1 m2 e2 A3 B3 ltac:(lia)) as (m & e & C1 & C2 & C3). exists (scaled (Z.pos m1) e1), (scaled (Z.pos m2) e2), m, e.
  split; [exact A2|]. split; [exact B2|]. split; [apply scaled_pos|]. split; [apply scaled_pos|]. split; [exact A5|]. split; [exact B5|].
  split; [cbn [f32_ratio]; rewrite A1, B1; exact C1|].
  split; [exact C2|]. split; [exact C3|]. intros <-. rewrite A1 in B1. injection B1 as <- <-. reflexivity.
Qed.
Lemma div_le_1 a b : 0 < b -> a <= b -> a / b <= 1.
Proof. intros. apply Qle_shift_div_r; lra. Qed.
Lemma div_ge_1 a b : 0 < b -> b <= a -> 1 <= a / b.
Proof. intros. apply Qle_shift_div_l; lra. Qed.

Lemma same_of n m e m' e' : f32_of n = S754_finite false m e -> (2 ^ 23 <= Z.pos m < 2 ^ 24)%Z -> (2 ^ 23 <= Z.pos m' < 2 ^ 24)%Z ->
  scaled (Z.pos m) e == scaled (Z.pos m') e' -> f32_of n = S754_finite false m' e'.
Proof.
  intros H Hm Hm' E. unfold scaled in E. assert (e = e').
  { assert (Hlt : forall a b x y, (2 ^ 23 <= Z.pos x < 2 ^ 24)%Z -> (2 ^ 23 <= Z.pos y < 2 ^ 24)%Z -> inject_Z (Z.pos x) * p2 a == inject_Z (Z.pos y) * p2 b -> (a < b)%Z -> False).
    { intros a b x y Hx Hy H0 L. assert (H1 : p2 (a + 1) <= p2 b) by (apply p2_le; lia). rewrite p2_plus in H1. change (p2 1) with 2 in H1.
      pose proof (p2_pos a). assert (inject_Z (Z.pos x) < 2 * inject_Z (Z.pos y)).
      { change 2 with (inject_Z 2). rewrite <- inject_Z_mult. apply inj_lt. lia. }
      assert (0 < inject_Z (Z.pos y)) by (apply (inj_lt 0); lia). nra. }
    destruct (Z.lt_trichotomy e e') as [L|[L|L]]; [destruct (Hlt _ _ _ _ Hm Hm' E L)|exact L|destruct (Hlt _ _ _ _ Hm' Hm (Qeq_sym _ _ E) L)]. }
  subst e'. apply Qmult_inj_r in E; [|pose proof (p2_pos e); lra]. assert (Z.pos m = Z.pos m') by (apply Z.le_antisymm; apply le_inj; rewrite E; apply Qle_refl).
  now replace m' with m by congruence.
Qed.
Lemma ratio_mono n n' d q q' : (n <= n')%N -> (n' < 2 ^ 64)%N -> (0 < d < 2 ^ 64)%N -> is_number (f32_ratio (Some (n, d))) q -> is_number (f32_ratio (Some (n', d))) q' -> q <= q'.
Proof.
  intros Hn Hn' Hd H H'. destruct (N.eq_dec n n') as [<-|Hne]; [rewrite (is_number_unique _ _ _ H H'); lra|].
  destruct (f32_of_finite d Hd) as (m2 & e2 & B1 & B2 & B3 & B4 & B5). cbn [f32_ratio] in H, H'. rewrite B1 in H, H'.
  destruct (f32_of_finite n' ltac:(lia)) as (m3 & e3 & C1 & C2 & C3 & C4 & C5).
  destruct (div_nearest m3 e3 m2 e2 C3 B3 ltac:(lia)) as (m' & e' & F1 & F2 & F3).
  assert (E' : q' == scaled (Z.pos m') e'). { rewrite C1, F1 in H'. inversion H'; subst; assumption. }
  destruct (N.eq_dec n 0) as [->|Hn0].
  - rewrite f32_of_0 in H. cbn in H. inversion H; subst. rewrite E'. pose proof (scaled_pos m' e'). lra.
  - destruct (f32_of_finite n ltac:(lia)) as (m1 & e1 & A1 & A2 & A3 & A4 & A5). destruct (div_nearest m1 e1 m2 e2 A3 B3 ltac:(lia)) as (m & e & G1 & G2 & G3).
    assert (Eq : q == scaled (Z.pos m) e). { rewrite A1, G1 in H. inversion H; subst; assumption. }
    assert (Hle : scaled (Z.pos m1) e1 <= scaled (Z.pos m3) e3) by (apply (nearest_mono (Qn n) (Qn n')); [apply Qn_lt; lia|exact A2|exact C2]).
    destruct (Qle_lt_or_eq _ _ Hle) as [L|L].
    + rewrite Eq, E'. refine (nearest_mono _ _ _ _ _ G2 F2). unfold Qdiv. apply Qmult_lt_compat_r; [|exact L]. apply Qinv_lt_0_compat, scaled_pos.
    + rewrite (same_of n m1 e1 m3 e3 A1 A3 C3 L) in H. rewrite C1 in H'. rewrite (is_number_unique _ _ _ H H'). lra.
Qed.

Lemma close_quotient x y a b q : 0 < x -> 0 < y -> 0 < b -> close x a -> close y b -> close (a / b) q -> Qabs (q - x / y) <= x / y * (1 # 2 ^ 22).
Proof.
  intros Px Py Pb Ca Cb C. change (1 # 2 ^ 22) with (1 # 4194304). unfold close, unit_error in *. set (t := x / y). assert (Et : x == t * y) by (unfold t; field; lra).
  assert (Pt : 0 < t) by (unfold t; apply Qlt_shift_div_l; lra). clearbody t. set (s := a / b) in *. assert (Es : a == s * b) by (unfold s; field; lra). clearbody s.
  assert (T1 : t * b <= t * y * (1 + (1 # 16777216))) by (setoid_replace (t * y * (1 + (1 # 16777216))) with (t * (y * (1 + (1 # 16777216)))) by ring; apply Qmult_le_l; lra).
  assert (T2 : t * y * (1 - (1 # 16777216)) <= t * b) by (setoid_replace (t * y * (1 - (1 # 16777216))) with (t * (y * (1 - (1 # 16777216)))) by ring; apply Qmult_le_l; lra).
  assert (T3 : 0 < t * y) by (rewrite <- Et; exact Px).
  assert (S1 : s <= t * (1 + (5 # 33554432))).
  { apply (Qmult_le_r _ _ b Pb). rewrite <- Es. setoid_replace (t * (1 + (5 # 33554432)) * b) with ((t * b) * (1 + (5 # 33554432))) by ring. lra. }
  assert (S2 : t * (1 - (5 # 33554432)) <= s).
  { apply (Qmult_le_r _ _ b Pb). rewrite <- Es. setoid_replace (t * (1 - (5 # 33554432)) * b) with ((t * b) * (1 - (5 # 33554432))) by ring. lra. }
  apply Qabs_case; intros; lra.
Qed.
Lemma div_ext x y a b : x == a -> y == b -> x / y == a / b.
Proof. intros -> ->. reflexivity. Qed.
Lemma ratio_number n d : (n < 2 ^ 64)%N -> (0 < d < 2 ^ 64)%N -> exists q, is_number (f32_ratio (Some (n, d))) q /\ in_f32 q /\
  (q == 0 <-> n = 0%N) /\ (n = d -> q == 1) /\ ((n <= d)%N -> q <= 1) /\ ((d <= n)%N -> 1 <= q) /\
  Qabs (q - Qn n / Qn d) <= Qn n / Qn d * (1 # 2 ^ 22) /\ ((n < 2 ^ 24)%N -> (d < 2 ^ 24)%N -> nearest (Qn n / Qn d) q).
Proof.
  intros Hn Hd. assert (Pd : 0 < Qn d) by (apply Qn_pos; lia). destruct (N.eq_dec n 0) as [->|Hn0].
  - exists 0. destruct (f32_of_finite d Hd) as (m2 & e2 & B1 & B2 & B3 & B4). cbn [f32_ratio]. rewrite f32_of_0, B1. cbn.
    split; [constructor; reflexivity|]. split; [exact zero_in|]. split; [split; reflexivity|]. split; [lia|]. split; [lra|]. split; [lia|].
    assert (E : 0 / Qn d == 0) by (field; lra). change (inject_Z 0) with 0. split.
    + rewrite E. cbn. discriminate.
    + intros _ _. apply (nearest_ext 0); [symmetry; exact E|]. split; [exact zero_in|]. intros x _. exact (Qabs_nonneg (x - 0)).
  - destruct (ratio_finite n d ltac:(lia) Hd) as (a & b & m & e & A & B & Pa & Pb & Ca & Cb & R & H & C & Heq). exists (scaled (Z.pos m) e). rewrite R.
    pose proof (scaled_pos m e) as Ps. assert (Pn : 0 < Qn n) by (apply Qn_pos; lia). assert (Hab : (n <= d)%N -> a <= b).
    { intros L. destruct (N.eq_dec n d) as [E|E]; [rewrite (Heq E); lra|]. apply (nearest_mono (Qn n) (Qn d)); [apply Qn_lt; lia|exact A|exact B]. }
    assert (Hba : (d <= n)%N -> b <= a).
    { intros L. destruct (N.eq_dec n d) as [E|E]; [rewrite (Heq E); lra|]. apply (nearest_mono (Qn d) (Qn n)); [apply Qn_lt; lia|exact B|exact A]. }
    assert (L1 : (n <= d)%N -> scaled (Z.pos m) e <= 1) by (intros L; apply (nearest_le (a / b)); [exact one_in|apply div_le_1; auto|exact H]).
    assert (L2 : (d <= n)%N -> 1 <= scaled (Z.pos m) e) by (intros L; apply (nearest_ge (a / b)); [exact one_in|apply div_ge_1; auto|exact H]).
    split; [constructor; reflexivity|]. split; [exact (proj1 H)|]. split; [split; [lra|lia]|]. split; [intros E; apply Qle_antisym; [apply L1|apply L2]; lia|].
    split; [exact L1|]. split; [exact L2|]. split; [exact (close_quotient _ _ _ _ _ Pn Pd Pb Ca Cb C)|].
    intros L L'. apply (nearest_ext (a / b)); [|exact H]. apply div_ext; [exact (nearest_exact _ _ (small_in n L) A)|exact (nearest_exact _ _ (small_in d L') B)].
Qed.

(** ** Without a default language no ratio is computed *)
Close Scope Q_scope.
Definition after {A} (m : PM A) (Q : A -> Prop) : Prop := forall st st' a, m st = (st', Ok a) -> Q a.
Lemma after_bind {A B} (m : PM A) (f : A -> PM B) (Q : A -> Prop) R : after m Q -> (forall a, Q a -> after (f a) R) -> after (pbind m f) R.
Proof. intros Hm Hf st st' b. unfold pbind. destruct (m st) as (st1 & [a|e| |]) eqn:E; try discriminate. intros H. exact (Hf a (Hm _ _ _ E) _ _ _ H). Qed.
Lemma after_bind' {A B} (m : PM A) (f : A -> PM B) R : (forall a, after (f a) R) -> after (pbind m f) R.
Proof. intros Hf. apply (after_bind m f (fun _ => True)); [intros ? ? ? _; exact Logic.I|auto]. Qed.
Lemma after_skip {A} (a : A) (Q : A -> Prop) : Q a -> after (skip a) Q.
Proof. intros H st st' b E. injection E as _ <-. exact H. Qed.
Lemma after_no {A} (x : pout A) (Q : A -> Prop) : (forall a, x <> Ok a) -> after (pret x) Q.
Proof. intros H st st' b E. injection E as _ E. destruct (H _ E). Qed.

Definition no_ratios (m : amap lgdata) : Prop := forall t x, mget t m = Some x -> lg_ratio x = None.
Lemma no_ratios_insert m t x : no_ratios m -> lg_ratio x = None -> no_ratios (minsert t x m).
Proof. intros H Hx t' x'. rewrite mget_minsert. destruct (ueqb_spec t' t); [congruence|apply H]. Qed.
Lemma no_ratios_ensure l : forall m, no_ratios m -> no_ratios (fold_left ensure l m).
Proof. induction l as [|t l IH]; intros m H; [exact H|]. cbn [fold_left]. apply IH. unfold ensure. destruct (mhas t m); [exact H|]. apply no_ratios_insert; [exact H|reflexivity]. Qed.
Lemma language_loop_ratios E p c f ls : forall acc, no_ratios (rd_languages (snd acc)) ->
  after (language_loop E p c f ls acc) (fun x => no_ratios (rd_languages (snd x))).
Proof.
  induction ls as [|t ls IH]; intros acc H; cbn [language_loop]; [apply after_skip, H|]. apply (after_bind _ _ (fun x => no_ratios (rd_languages (snd x)))); [|exact IH].
  destruct acc as (cd & rd). unfold language_step. destruct (mget t (cd_languages cd)) as [data|]; [|apply after_no; discriminate].
  do 4 (apply after_bind'; intros ?). cbn [snd] in H. destruct (mget t (rd_languages rd)) as [rl|] eqn:E1; [|apply after_no; discriminate].
  apply after_skip. cbn [snd rd_languages]. apply no_ratios_insert; [exact H|]. cbn. exact (H _ _ E1).
Qed.
Lemma component_loop_ratios E p cs : forall acc, no_ratios (rd_languages (snd acc)) ->
  after (component_loop E p cs acc) (fun x => no_ratios (rd_languages (snd x))).
Proof.
  induction cs as [|(c & f) cs IH]; intros acc H; cbn [component_loop]; [apply after_skip, H|]. apply (after_bind _ _ (fun x => no_ratios (rd_languages (snd x)))); [|exact IH].
  destruct acc as (cds & rd0). cbn [snd] in H. unfold component_step. apply after_bind'; intros und. apply after_bind'; intros l1. apply after_bind'; intros l2.
  destruct (add_own_languages _ _) as (ls & cm2). apply after_bind'; intros d1. apply after_bind'; intros d2. destruct d2 as [t|]; [|apply after_no; discriminate].
  destruct (negb (mhas t cm2)); [apply after_no; discriminate|].
  eapply after_bind; [apply language_loop_ratios; cbn [snd rd_languages]; apply no_ratios_ensure, no_ratios_ensure, H|].
  intros (cd & rd) Hr. cbn [snd] in Hr. destruct (mget (cd_default cd) (cd_languages cd)); [apply after_skip; exact Hr|apply after_no; discriminate].
Qed.
Lemma build_details_ratios E p : after (build_details E p) (fun x => rd_default (snd x) = None -> no_ratios (rd_languages (snd x))).
Proof.
  unfold build_details. eapply after_bind; [apply component_loop_ratios; intros t x H; discriminate H|]. intros (cds & rd) H.
  destruct (rd_default rd) as [t|] eqn:Ed; [|apply after_skip; intros _; exact H].
  destruct (mget t (rd_languages rd)); [|apply after_no; discriminate]. apply after_skip. cbn [snd rd_default]. congruence.
Qed.
