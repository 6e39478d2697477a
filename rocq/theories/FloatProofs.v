(** Rounding of binary32 gives the nearest number. *)
From Coq Require Import SpecFloat QArith Qpower Qabs Lqa Lia ZArith.
From Verif Require Import Base FloatModel FloatSpec.

Local Open Scope Q_scope.

(** ** Powers of two *)
Notation p2 := (Qpower 2).
Lemma p2_pos e : 0 < p2 e.
Proof. apply Qpower_0_lt. reflexivity. Qed.
Lemma p2_plus a b : p2 (a + b) == p2 a * p2 b.
Proof. apply Qpower_plus. discriminate. Qed.
Lemma p2_Z n : (0 <= n)%Z -> p2 n == inject_Z (2 ^ n).
Proof. intros H. rewrite Zpower_Qpower by exact H. reflexivity. Qed.
Lemma p2_le a b : (a <= b)%Z -> p2 a <= p2 b.
Proof.
  intros H. replace b with (a + (b - a))%Z by lia. rewrite p2_plus. pose proof (p2_pos a) as Ha.
  assert (Hb : 1 <= p2 (b - a)). { rewrite p2_Z by lia. change 1 with (inject_Z 1). rewrite <- Zle_Qle. pose proof (Z.pow_pos_nonneg 2 (b - a)). lia. }
  nra.
Qed.

(** ** Locations *)
Definition loc_at (m : Z) (y : Q) (l : location) : Prop :=
  match l with
  | loc_Exact => y == inject_Z m
  | loc_Inexact Lt => inject_Z m < y /\ y < inject_Z m + (1 # 2)
  | loc_Inexact Eq => y == inject_Z m + (1 # 2)
  | loc_Inexact Gt => inject_Z m + (1 # 2) < y /\ y < inject_Z m + 1
  end.
Lemma loc_bounds m y l : loc_at m y l -> inject_Z m <= y /\ y < inject_Z m + 1.
Proof. destruct l as [|[]]; cbn; intros H; split; lra. Qed.
Lemma xO_Q p : inject_Z (Z.pos p~0) == 2 * inject_Z (Z.pos p).
Proof. rewrite (Pos2Z.inj_xO p), inject_Z_mult. reflexivity. Qed.
Lemma xI_Q p : inject_Z (Z.pos p~1) == 2 * inject_Z (Z.pos p) + 1.
Proof. rewrite (Pos2Z.inj_xI p), inject_Z_plus, inject_Z_mult. reflexivity. Qed.
Lemma shr_1_at r y : (0 <= shr_m r)%Z -> loc_at (shr_m r) y (loc_of_shr_record r) ->
  (0 <= shr_m (shr_1 r))%Z /\ loc_at (shr_m (shr_1 r)) (y / 2) (loc_of_shr_record (shr_1 r)).
Proof.
  destruct r as [m a b]. intros Hm H. cbn [shr_m] in Hm. destruct m as [|[p|p|]|p]; [| | | |lia];
    (split; [destruct a, b; cbn; lia|]); destruct a, b; cbn [loc_of_shr_record shr_m shr_1 loc_at orb] in *;
    try rewrite xO_Q in H; try rewrite xI_Q in H; try (change (inject_Z 1) with 1 in H); unfold Qdiv; change (/ 2) with (1 # 2); try (change (inject_Z 0) with 0 in *); try lra; try (split; lra).
Qed.
Lemma iter_shr_at n : forall r y, (0 <= shr_m r)%Z -> loc_at (shr_m r) y (loc_of_shr_record r) ->
  let r' := SpecFloat.iter_pos shr_1 n r in (0 <= shr_m r')%Z /\ loc_at (shr_m r') (y * p2 (- Z.pos n)) (loc_of_shr_record r').
Proof.
  induction n as [n IH|n IH|]; intros r y Hr H; cbn [SpecFloat.iter_pos].
  - destruct (shr_1_at r y Hr H) as (H1 & H2). destruct (IH _ _ H1 H2) as (H3 & H4). destruct (IH _ _ H3 H4) as (H5 & H6). split; [exact H5|].
    revert H6. generalize (SpecFloat.iter_pos shr_1 n (SpecFloat.iter_pos shr_1 n (shr_1 r))) as r'. intros r' H6.
    assert (E : y / 2 * p2 (- Z.pos n) * p2 (- Z.pos n) == y * p2 (- Z.pos n~1)).
    { replace (- Z.pos n~1)%Z with (- (1) + (- Z.pos n + - Z.pos n))%Z by lia. rewrite !p2_plus. change (p2 (-(1))) with (1 # 2). field. }
    clear - E H6. destruct (loc_of_shr_record r') as [|[]]; cbn in *; rewrite <- E; exact H6.
  - destruct (IH _ _ Hr H) as (H3 & H4). destruct (IH _ _ H3 H4) as (H5 & H6). split; [exact H5|].
    revert H6. generalize (SpecFloat.iter_pos shr_1 n (SpecFloat.iter_pos shr_1 n r)) as r'. intros r' H6.
    assert (E : y * p2 (- Z.pos n) * p2 (- Z.pos n) == y * p2 (- Z.pos n~0)).
    { replace (- Z.pos n~0)%Z with (- Z.pos n + - Z.pos n)%Z by lia. rewrite !p2_plus. ring. }
    clear - E H6. destruct (loc_of_shr_record r') as [|[]]; cbn in *; rewrite <- E; exact H6.
  - exact (shr_1_at r y Hr H).
Qed.

(** ** Digits *)
Lemma digits_bounds p : (2 ^ (Z.pos (digits2_pos p) - 1) <= Z.pos p < 2 ^ Z.pos (digits2_pos p))%Z.
Proof.
  induction p as [p IH|p IH|]; cbn [digits2_pos]; [| |cbn; lia]; rewrite Pos2Z.inj_succ;
    replace (Z.succ (Z.pos (digits2_pos p)) - 1)%Z with (Z.succ (Z.pos (digits2_pos p) - 1)) by lia;
    rewrite !Z.pow_succ_r by lia; lia.
Qed.
Lemma digits_unique p d : (2 ^ (d - 1) <= Z.pos p < 2 ^ d)%Z -> (0 < d)%Z -> Z.pos (digits2_pos p) = d.
Proof.
  intros H Hd. pose proof (digits_bounds p) as B. set (c := Z.pos (digits2_pos p)) in *. assert (0 < c)%Z by (unfold c; lia).
  destruct (Z.lt_trichotomy c d) as [L|[E|L]]; [|exact E|].
  - assert (2 ^ c <= 2 ^ (d - 1))%Z by (apply Z.pow_le_mono_r; lia). lia.
  - assert (2 ^ d <= 2 ^ (c - 1))%Z by (apply Z.pow_le_mono_r; lia). lia.
Qed.

(** ** Rounding *)
Lemma inj_le a b : (a <= b)%Z -> inject_Z a <= inject_Z b.
Proof. rewrite Zle_Qle. auto. Qed.
Lemma inj_lt a b : (a < b)%Z -> inject_Z a < inject_Z b.
Proof. rewrite Zlt_Qlt. auto. Qed.
Lemma le_inj a b : inject_Z a <= inject_Z b -> (a <= b)%Z.
Proof. rewrite Zle_Qle. auto. Qed.
Lemma lt_inj a b : inject_Z a < inject_Z b -> (a < b)%Z.
Proof. rewrite Zlt_Qlt. auto. Qed.
Lemma loc_of_record m l : shr_m (shr_record_of_loc m l) = m /\ loc_of_shr_record (shr_record_of_loc m l) = l.
Proof. destruct l as [|[]]; split; reflexivity. Qed.
Lemma loc_at_ext m y y' l : y == y' -> loc_at m y l -> loc_at m y' l.
Proof. intros E. destruct l as [|[]]; cbn; rewrite E; auto. Qed.

Lemma shr_fexp_at p ex lx y : loc_at (Z.pos p) y lx -> let d := Z.pos (digits2_pos p) in (24 <= d)%Z -> (-125 <= d + ex)%Z ->
  exists r, shr_fexp 24 128 (Z.pos p) ex lx = (r, (ex + d - 24)%Z) /\ (2 ^ 23 <= shr_m r < 2 ^ 24)%Z /\
    loc_at (shr_m r) (y * p2 (24 - d)) (loc_of_shr_record r).
Proof.
  intros Hl d Hd He. destruct (loc_of_record (Z.pos p) lx) as (R1 & R2).
  assert (Hb : inject_Z (2 ^ 23) <= y * p2 (24 - d) /\ y * p2 (24 - d) < inject_Z (2 ^ 24)).
  { pose proof (digits_bounds p) as (B1 & B2). fold d in B1, B2. destruct (loc_bounds _ _ _ Hl) as (L1 & L2).
    pose proof (p2_pos (24 - d)) as Hp.
    assert (E1 : inject_Z (2 ^ 23) == inject_Z (2 ^ (d - 1)) * p2 (24 - d)).
    { rewrite <- !p2_Z by lia. rewrite <- p2_plus. replace (d - 1 + (24 - d))%Z with 23%Z by lia. reflexivity. }
    assert (E2 : inject_Z (2 ^ 24) == inject_Z (2 ^ d) * p2 (24 - d)).
    { rewrite <- !p2_Z by lia. rewrite <- p2_plus. replace (d + (24 - d))%Z with 24%Z by lia. reflexivity. }
    rewrite E1, E2. apply inj_le in B1. assert (B3 : (Z.pos p + 1 <= 2 ^ d)%Z) by lia. apply inj_le in B3. rewrite inject_Z_plus in B3. change (inject_Z 1) with 1 in B3.
    split; [apply Qmult_le_compat_r; lra|]. apply Qmult_lt_compat_r; [exact Hp|lra]. }
  unfold shr_fexp. assert (Hf : (fexp 24 128 (Zdigits2 (Z.pos p) + ex) - ex)%Z = (d - 24)%Z).
  { unfold fexp, emin. cbn [Zdigits2]. fold d. lia. }
  rewrite Hf. assert (Hgoal : forall r, (0 <= shr_m r)%Z -> loc_at (shr_m r) (y * p2 (24 - d)) (loc_of_shr_record r) ->
    (2 ^ 23 <= shr_m r < 2 ^ 24)%Z).
  { intros r _ Hr. destruct (loc_bounds _ _ _ Hr) as (L1 & L2). split.
    - assert (2 ^ 23 < shr_m r + 1)%Z; [|lia]. apply lt_inj. rewrite inject_Z_plus. change (inject_Z 1) with 1. lra.
    - apply lt_inj. lra. }
  destruct (d - 24)%Z as [|n|n] eqn:En; [| |lia]; cbn [shr].
  - exists (shr_record_of_loc (Z.pos p) lx). split; [f_equal; lia|].
    assert (Hr : loc_at (shr_m (shr_record_of_loc (Z.pos p) lx)) (y * p2 (24 - d)) (loc_of_shr_record (shr_record_of_loc (Z.pos p) lx))).
    { rewrite R1, R2. apply (loc_at_ext _ y); [|exact Hl]. replace (24 - d)%Z with 0%Z by lia. change (p2 0) with 1. ring. }
    split; [apply Hgoal; [rewrite R1; lia|exact Hr]|exact Hr].
  - destruct (iter_shr_at n (shr_record_of_loc (Z.pos p) lx) y) as (I1 & I2); [rewrite R1; lia|rewrite R1, R2; exact Hl|].
    exists (SpecFloat.iter_pos shr_1 n (shr_record_of_loc (Z.pos p) lx)). split; [f_equal; lia|].
    apply (loc_at_ext _ _ (y * p2 (24 - d))) in I2; [|replace (24 - d)%Z with (- Z.pos n)%Z by lia; reflexivity].
    split; [apply Hgoal; [exact I1|exact I2]|exact I2].
Qed.

(** Between two neighbours there is no number of binary32. *)
Lemma no_number_between m e x : (2 ^ 23 <= m < 2 ^ 24)%Z -> in_f32 x -> x <= scaled m e \/ scaled (m + 1) e <= x.
Proof.
  intros Hm (k & f & Hk & Hf & Ex). unfold scaled in *. pose proof (p2_pos e) as Pe. pose proof (p2_pos f) as Pf.
  destruct (Z_lt_le_dec f e) as [L|L].
  - left. rewrite Ex. assert (H1 : p2 f <= p2 (e - 1)) by (apply p2_le; lia).
    assert (E : p2 e == 2 * p2 (e - 1)). { replace e with (1 + (e - 1))%Z at 1 by lia. rewrite p2_plus. reflexivity. }
    assert (H2 : inject_Z k <= 2 * inject_Z (2 ^ 23)). { change 2 with (inject_Z 2). rewrite <- inject_Z_mult. apply inj_le. lia. }
    assert (H3 : inject_Z (2 ^ 23) <= inject_Z m) by (apply inj_le; lia).
    assert (H0 : 0 <= inject_Z k) by (apply (inj_le 0); lia).
    assert (H4 : 0 <= inject_Z (2 ^ 23)) by (apply (inj_le 0); lia). rewrite E. pose proof (p2_pos (e - 1)). nra.
  - assert (E : x == inject_Z (k * 2 ^ (f - e)) * p2 e).
    { rewrite Ex, inject_Z_mult, <- p2_Z by lia. rewrite <- Qmult_assoc, <- p2_plus. replace (f - e + e)%Z with f by lia. reflexivity. }
    destruct (Z_le_gt_dec (k * 2 ^ (f - e)) m) as [H|H].
    + left. rewrite E. apply Qmult_le_compat_r; [apply inj_le; exact H|lra].
    + right. rewrite E. apply Qmult_le_compat_r; [apply inj_le; lia|lra].
Qed.
Lemma nearer q r a b : a <= q -> q <= b -> (r == a /\ q - a <= b - q \/ r == b /\ b - q <= q - a) -> forall x, x <= a \/ b <= x ->
  Qabs (r - q) <= Qabs (x - q).
Proof.
  intros Ha Hb Hr x Hx. apply Qabs_case; intros H1; apply Qabs_case; intros H2; destruct Hr as [(E & Hr)|(E & Hr)], Hx; lra.
Qed.

(** A relative error of at most 2^-24. *)
Definition unit_error : Q := 1 # 16777216.
Definition close (x r : Q) : Prop := x * (1 - unit_error) <= r /\ r <= x * (1 + unit_error).
Lemma close_ext x r r' : r == r' -> close x r -> close x r'.
Proof. unfold close. intros E. rewrite E. auto. Qed.
Lemma round_aux_nearest s p ex lx x : loc_at (Z.pos p) (x * p2 (- ex)) lx -> let d := Z.pos (digits2_pos p) in (24 <= d)%Z ->
  (-125 <= d + ex <= 127)%Z ->
  exists m e, binary_round_aux 24 128 s (Z.pos p) ex lx = S754_finite s m e /\ nearest x (scaled (Z.pos m) e) /\
    (2 ^ 23 <= Z.pos m < 2 ^ 24)%Z /\ (ex + d - 24 <= e <= ex + d - 23)%Z /\ close x (scaled (Z.pos m) e).
Proof.
  intros Hl d Hd He. destruct (shr_fexp_at p ex lx _ Hl Hd (proj1 He)) as (r & Er & Hr & Hlr). fold d in Er, Hlr. unfold binary_round_aux. rewrite Er.
  set (e1 := (ex + d - 24)%Z) in *. set (m := shr_m r) in *. set (l := loc_of_shr_record r) in *.
  assert (Ex : x * p2 (- ex) * p2 (24 - d) == x * p2 (- e1)).
  { rewrite <- Qmult_assoc, <- p2_plus. replace (- ex + (24 - d))%Z with (- e1)%Z by (unfold e1; lia). reflexivity. }
  apply (loc_at_ext _ _ _ _ Ex) in Hlr. set (m1 := round_nearest_even m l).
  assert (Pe : 0 < p2 e1) by apply p2_pos.
  assert (Ey : x == x * p2 (- e1) * p2 e1). { rewrite <- Qmult_assoc, <- p2_plus. replace (- e1 + e1)%Z with 0%Z by lia. change (p2 0) with 1. ring. }
  set (y := x * p2 (- e1)) in *.
  assert (Hm1 : (m1 = m /\ y - inject_Z m <= inject_Z m + 1 - y) \/ (m1 = m + 1)%Z /\ inject_Z m + 1 - y <= y - inject_Z m).
  { clear - Hlr. unfold m1. destruct l as [|[]]; cbn [round_nearest_even loc_at] in *; [left|destruct (Z.even m); [left|right]|left|right]; split; auto; lra. }
  destruct (loc_bounds _ _ _ Hlr) as (B1 & B2).
  assert (Hn : forall z, in_f32 z -> Qabs (scaled m1 e1 - x) <= Qabs (z - x)).
  { assert (H : scaled m e1 <= x /\ x <= scaled (m + 1) e1 /\ (scaled m1 e1 == scaled m e1 /\ x - scaled m e1 <= scaled (m + 1) e1 - x \/
      scaled m1 e1 == scaled (m + 1) e1 /\ scaled (m + 1) e1 - x <= x - scaled m e1));
      [|intros z Hz; exact (nearer x _ _ _ (proj1 H) (proj1 (proj2 H)) (proj2 (proj2 H)) z (no_number_between m e1 z Hr Hz))].
    unfold scaled. rewrite inject_Z_plus. change (inject_Z 1) with 1. rewrite Ey. split; [apply Qmult_le_compat_r; lra|]. split; [apply Qmult_le_compat_r; lra|].
    destruct Hm1 as [(-> & H)|(-> & H)]; [left|right; rewrite inject_Z_plus; change (inject_Z 1) with 1]; (split; [reflexivity|nra]). }
  assert (Hcl : close x (scaled m1 e1)).
  { assert (Hy : inject_Z (2 ^ 23) <= y). { apply (Qle_trans _ (inject_Z m)); [apply inj_le; lia|exact B1]. }
    change (inject_Z (2 ^ 23)) with (8388608 # 1) in Hy. assert (Hu : (1 # 2) <= y * unit_error) by (unfold unit_error; lra).
    unfold close, scaled. rewrite Ey. assert (Hb : y * (1 - unit_error) <= inject_Z m1 /\ inject_Z m1 <= y * (1 + unit_error)).
    { destruct Hm1 as [(-> & H)|(-> & H)]; [|rewrite inject_Z_plus; change (inject_Z 1) with 1]; split; lra. }
    split; [setoid_replace (y * p2 e1 * (1 - unit_error)) with (y * (1 - unit_error) * p2 e1) by ring|setoid_replace (y * p2 e1 * (1 + unit_error)) with (y * (1 + unit_error) * p2 e1) by ring];
      apply Qmult_le_compat_r; lra. }
  assert (Hm1b : (2 ^ 23 <= m1 <= 2 ^ 24)%Z) by (destruct Hm1 as [(-> & _)|(-> & _)]; lia).
  clearbody m1. unfold e1 in *. clear Er Hlr Hl Ex Hm1 B1 B2 Ey Pe y.
  destruct (Z.eq_dec m1 (2 ^ 24)) as [->|Hne].
  - exists (2 ^ 23)%positive, (e1 + 1)%Z. unfold shr_fexp. cbn [shr_record_of_loc]. assert (Hf : (fexp 24 128 (Zdigits2 (2 ^ 24) + e1) - e1)%Z = 1%Z).
    { change (Zdigits2 (2 ^ 24)) with 25%Z. unfold fexp, emin, e1. lia. }
    unfold e1 in Hf. rewrite Hf. cbn [shr]. change (shr_m (SpecFloat.iter_pos shr_1 1 {| shr_m := 2 ^ 24; shr_r := false; shr_s := false |})) with (Z.pos (2 ^ 23)).
    cbv beta iota zeta. change (128 - 24)%Z with 104%Z. destruct (Zle_bool (ex + d - 24 + 1) 104) eqn:El; [|apply Z.leb_gt in El; lia].
    split; [reflexivity|]. assert (Es : scaled (2 ^ 24) (ex + d - 24) == scaled (Z.pos (2 ^ 23)) (e1 + 1)).
    { unfold scaled, e1. replace (ex + d - 24 + 1)%Z with (1 + (ex + d - 24))%Z by lia. rewrite p2_plus. change (p2 1) with 2.
      change (inject_Z (2 ^ 24)) with (inject_Z (2 ^ 23 * 2)). rewrite inject_Z_mult. change (Z.pos (2 ^ 23)) with (2 ^ 23)%Z. ring. }
    split; [|split; [lia|split; [unfold e1; lia|apply (close_ext _ _ _ Es Hcl)]]]. split; [exists (2 ^ 23)%Z, (e1 + 1)%Z; split; [lia|]; split; [unfold e1; lia|reflexivity]|].
    intros z Hz. rewrite <- Es. apply Hn, Hz.
  - destruct m1 as [|q|q]; [lia| |lia]. exists q, e1. unfold shr_fexp. cbn [shr_record_of_loc Zdigits2].
    rewrite (digits_unique q 24) by (cbn; lia). assert (Hf : (fexp 24 128 (24 + e1) - e1)%Z = 0%Z) by (unfold fexp, emin, e1; lia).
    unfold e1 in Hf. rewrite Hf. cbn [shr shr_m]. change (128 - 24)%Z with 104%Z. destruct (Zle_bool (ex + d - 24) 104) eqn:El; [|apply Z.leb_gt in El; lia].
    split; [reflexivity|]. split; [|split; [lia|split; [unfold e1; lia|exact Hcl]]]. split; [exists (Z.pos q), e1; split; [lia|]; split; [unfold e1; lia|reflexivity]|exact Hn].
Qed.

(** ** From an integer *)
Lemma f32_of_finite n : (0 < n < 2 ^ 64)%N -> exists m e, f32_of n = S754_finite false m e /\ nearest (inject_Z (Z.of_N n)) (scaled (Z.pos m) e) /\
  (2 ^ 23 <= Z.pos m < 2 ^ 24)%Z /\ (-23 <= e <= 41)%Z /\ close (inject_Z (Z.of_N n)) (scaled (Z.pos m) e).
Proof.
  destruct n as [|p]; [lia|]. intros Hn. cbn [Z.of_N]. unfold f32_of. cbn [binary_normalize Z.of_N]. unfold binary_round.
  pose proof (digits_bounds p) as (B1 & B2). assert (Hd : (Z.pos (digits2_pos p) <= 64)%Z).
  { destruct (Z_le_gt_dec (Z.pos (digits2_pos p)) 64) as [H|H]; [exact H|exfalso].
    assert (2 ^ 64 <= 2 ^ (Z.pos (digits2_pos p) - 1))%Z by (apply Z.pow_le_mono_r; lia). lia. }
  set (d := Z.pos (digits2_pos p)) in *. assert (Hd1 : (1 <= d)%Z) by (unfold d; lia).
  assert (Hf : fexp 24 128 (d + 0) = (d - 24)%Z) by (unfold fexp, emin; lia). rewrite Hf. unfold shl_align.
  assert (Hbig : (24 <= d)%Z -> exists m e, binary_round_aux 24 128 false (Z.pos p) 0 loc_Exact = S754_finite false m e /\
    nearest (inject_Z (Z.pos p)) (scaled (Z.pos m) e) /\ (2 ^ 23 <= Z.pos m < 2 ^ 24)%Z /\ (-23 <= e <= 41)%Z /\ close (inject_Z (Z.pos p)) (scaled (Z.pos m) e)).
  { intros H. destruct (round_aux_nearest false p 0 loc_Exact (inject_Z (Z.pos p))) as (m & e & H1 & H2 & H3 & H4 & H5).
    - cbn [loc_at]. change (p2 (-0)) with 1. ring.
    - exact H.
    - fold d. lia.
    - fold d in H4. exists m, e. repeat (split; [assumption || lia|]). exact H5. }
  destruct (d - 24 - 0)%Z as [|k|k] eqn:Ek; [apply Hbig; lia|apply Hbig; lia|].
  assert (Es : Z.pos (shift_pos k p) = (2 ^ (24 - d) * Z.pos p)%Z).
  { rewrite shift_pos_correct, Z.pow_pos_fold. replace (Z.pos k) with (24 - d)%Z by lia. reflexivity. }
  assert (Ed : Z.pos (digits2_pos (shift_pos k p)) = 24%Z).
  { apply digits_unique; [|lia]. rewrite Es. replace (2 ^ (24 - 1))%Z with (2 ^ (24 - d) * 2 ^ (d - 1))%Z by (rewrite <- Z.pow_add_r by lia; f_equal; lia).
    replace (2 ^ 24)%Z with (2 ^ (24 - d) * 2 ^ d)%Z by (rewrite <- Z.pow_add_r by lia; f_equal; lia).
    assert (0 < 2 ^ (24 - d))%Z by (apply Z.pow_pos_nonneg; lia). nia. }
  destruct (round_aux_nearest false (shift_pos k p) (d - 24) loc_Exact (inject_Z (Z.pos p))) as (m & e & H1 & H2 & H3 & H4 & H5).
  - cbn [loc_at]. rewrite Es, inject_Z_mult, <- p2_Z by lia. replace (- (d - 24))%Z with (24 - d)%Z by lia. ring.
  - rewrite Ed. lia.
  - rewrite Ed. lia.
  - rewrite Ed in H4. exists m, e. repeat (split; [assumption || lia|]). exact H5.
Qed.

(** ** Nearest numbers *)
Lemma nearest_exact q r : in_f32 q -> nearest q r -> r == q.
Proof.
  intros Hq (_ & H). specialize (H q Hq). assert (E : Qabs (q - q) == 0). { setoid_replace (q - q) with 0 by ring. reflexivity. }
  rewrite E in H. revert H. apply Qabs_case; intros; lra.
Qed.
Lemma nearest_mono q q' r r' : q < q' -> nearest q r -> nearest q' r' -> r <= r'.
Proof.
  intros Hq (I1 & H1) (I2 & H2). specialize (H1 _ I2). specialize (H2 _ I1). destruct (Qlt_le_dec r' r) as [L|L]; [exfalso|exact L].
  revert H1 H2. do 4 (apply Qabs_case; intros ?); lra.
Qed.
Lemma nearest_ext q q' r : q == q' -> nearest q r -> nearest q' r.
Proof. intros E (H1 & H2). split; [exact H1|]. intros x Hx. rewrite <- E. apply H2, Hx. Qed.
Lemma small_in n : (n < 2 ^ 24)%N -> in_f32 (inject_Z (Z.of_N n)).
Proof. intros H. exists (Z.of_N n), 0%Z. split; [lia|]. split; [lia|]. unfold scaled. change (p2 0) with 1. ring. Qed.
Lemma zero_in : in_f32 0.
Proof. exact (small_in 0 eq_refl). Qed.
Lemma one_in : in_f32 1.
Proof. exact (small_in 1 eq_refl). Qed.
Lemma nearest_le q r b : in_f32 b -> q <= b -> nearest q r -> r <= b.
Proof.
  intros Hb Hq H. destruct (Qle_lt_or_eq _ _ Hq) as [L|E].
  - apply (nearest_mono q b); [exact L|exact H|]. split; [exact Hb|]. intros x _. setoid_replace (b - b) with 0 by ring. apply Qabs_nonneg.
  - rewrite (nearest_exact b r Hb (nearest_ext _ _ _ E H)). lra.
Qed.
Lemma nearest_ge q r b : in_f32 b -> b <= q -> nearest q r -> b <= r.
Proof.
  intros Hb Hq H. destruct (Qle_lt_or_eq _ _ Hq) as [L|E].
  - apply (nearest_mono b q); [exact L| |exact H]. split; [exact Hb|]. intros x _. setoid_replace (b - b) with 0 by ring. apply Qabs_nonneg.
  - rewrite (nearest_exact b r Hb); [lra|]. apply (nearest_ext q); [symmetry; exact E|exact H].
Qed.

(** ** Division *)
Lemma div_location m2 r q0 (m' : Z) : (0 < m2)%Z -> (0 <= r < m2)%Z -> m' = (m2 * q0 + r)%Z -> loc_at q0 (inject_Z m' / inject_Z m2) (new_location m2 r).
Proof.
  intros H2 Hr E. assert (P : 0 < inject_Z m2) by (apply (inj_lt 0); exact H2).
  assert (Ey : inject_Z m' / inject_Z m2 == inject_Z q0 + inject_Z r / inject_Z m2).
  { rewrite E, inject_Z_plus, inject_Z_mult. field. lra. }
  apply (loc_at_ext _ (inject_Z q0 + inject_Z r / inject_Z m2)); [symmetry; exact Ey|]. clear Ey E.
  set (z := inject_Z r / inject_Z m2). assert (Ez : inject_Z r == z * inject_Z m2) by (unfold z; field; lra). clearbody z.
  assert (Zlt : forall a b, (2 * r < m2)%Z -> a = inject_Z r -> b = inject_Z m2 -> 2 * a < b) by
    (intros a b H -> ->; change 2 with (inject_Z 2); rewrite <- inject_Z_mult; apply inj_lt; exact H).
  assert (Zgt : (2 * r > m2)%Z -> inject_Z m2 < 2 * inject_Z r) by
    (intros H; change 2 with (inject_Z 2); rewrite <- inject_Z_mult; apply inj_lt; lia).
  assert (Zeq : (2 * r = m2)%Z -> inject_Z m2 == 2 * inject_Z r) by
    (intros <-; rewrite inject_Z_mult; reflexivity).
  assert (Z1 : inject_Z r < inject_Z m2) by (apply inj_lt; lia). assert (Z0 : r <> 0%Z -> 0 < inject_Z r) by (intros; apply (inj_lt 0); lia).
  pose proof (fun H => Zlt _ _ H eq_refl eq_refl) as Zlt'. clear Zlt.
  assert (Z00 : r = 0%Z -> inject_Z r == 0) by (intros ->; reflexivity).
  unfold new_location, new_location_even, new_location_odd. destruct (Z.even m2) eqn:Ev; destruct (Zeq_bool r 0) eqn:E0.
  - apply Zeq_bool_eq in E0. specialize (Z00 E0). cbn [loc_at]. nra.
  - apply Zeq_bool_neq in E0. specialize (Z0 E0). destruct (Z.compare_spec (2 * r) m2) as [C|C|C]; cbn [loc_at].
    + specialize (Zeq C). nra.
    + specialize (Zlt' C). split; nra.
    + specialize (Zgt (Z.lt_gt _ _ C)). split; nra.
  - apply Zeq_bool_eq in E0. specialize (Z00 E0). cbn [loc_at]. nra.
  - apply Zeq_bool_neq in E0. specialize (Z0 E0).
    assert (Hodd : (2 * r <> m2)%Z). { intros C. rewrite <- C, Z.even_mul in Ev. discriminate. }
    destruct (Z.compare_spec (2 * r + 1) m2) as [C|C|C]; cbn [loc_at].
    + assert (C' : (2 * r < m2)%Z) by lia. specialize (Zlt' C'). split; nra.
    + assert (C' : (2 * r < m2)%Z) by lia. specialize (Zlt' C'). split; nra.
    + assert (C' : (2 * r > m2)%Z) by lia. specialize (Zgt C'). split; nra.
Qed.

Lemma div_nearest m1 e1 m2 e2 : (2 ^ 23 <= Z.pos m1 < 2 ^ 24)%Z -> (2 ^ 23 <= Z.pos m2 < 2 ^ 24)%Z -> (-100 <= e1 - e2 <= 100)%Z ->
  exists m e, f32_div (S754_finite false m1 e1) (S754_finite false m2 e2) = S754_finite false m e /\
    nearest (scaled (Z.pos m1) e1 / scaled (Z.pos m2) e2) (scaled (Z.pos m) e) /\ close (scaled (Z.pos m1) e1 / scaled (Z.pos m2) e2) (scaled (Z.pos m) e).
Proof.
  intros H1 H2 He. unfold f32_div, SFdiv, SFdiv_core_binary. cbn [Zdigits2]. rewrite (digits_unique m1 24), (digits_unique m2 24) by lia.
  assert (Hmin : Z.min (fexp 24 128 (24 + e1 - (24 + e2))) (e1 - e2) = (e1 - e2 - 24)%Z) by (unfold fexp, emin; lia). rewrite Hmin.
  replace (e1 - e2 - (e1 - e2 - 24))%Z with 24%Z by lia. cbv beta iota zeta. rewrite Z.shiftl_mul_pow2 by lia.
  set (m' := (Z.pos m1 * 2 ^ 24)%Z). pose proof (Z_div_mod m' (Z.pos m2) ltac:(lia)) as Hdm. destruct (Z.div_eucl m' (Z.pos m2)) as (q & r).
  destruct Hdm as (Em & Hr). pose proof (div_location (Z.pos m2) r q m' ltac:(lia) Hr Em) as Hl.
  assert (Hq : (2 ^ 23 <= q < 2 ^ 25)%Z) by (unfold m' in Em; nia). destruct q as [|q|q]; [lia| |lia].
  assert (Hd : (24 <= Z.pos (digits2_pos q) <= 25)%Z).
  { destruct (Z_lt_le_dec (Z.pos q) (2 ^ 24)) as [L|L]; [rewrite (digits_unique q 24) by lia|rewrite (digits_unique q 25) by lia]; lia. }
  destruct (round_aux_nearest (xorb false false) q (e1 - e2 - 24) (new_location (Z.pos m2) r) (scaled (Z.pos m1) e1 / scaled (Z.pos m2) e2)) as (m & e & A1 & A2 & _ & _ & A3).
  - revert Hl. apply loc_at_ext. unfold scaled, m'. rewrite inject_Z_mult, <- p2_Z by lia.
    replace (- (e1 - e2 - 24))%Z with (24 + (- e1 + e2))%Z by lia. rewrite !p2_plus, Qpower_opp. field.
    pose proof (p2_pos e1). pose proof (p2_pos e2). assert (0 < inject_Z (Z.pos m2)) by (apply (inj_lt 0); lia). repeat split; lra.
  - lia.
  - lia.
  - exists m, e. split; [exact A1|]. split; [exact A2|exact A3].
Qed.
