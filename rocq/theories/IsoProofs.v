(** Proofs about the ISO readers. *)
From Verif Require Import Base BaseFacts ValueModel IsoModel IsoSpec.

Lemma digit_char c : is_digit c -> digit c = Some (c - 48)%N.
Proof. intros (H1 & H2). unfold digit. change (ch "0") with 48%N. change (ch "9") with 57%N. rewrite (proj2 (N.leb_le _ _) H1), (proj2 (N.leb_le _ _) H2). reflexivity. Qed.
Lemma digit_not c x : is_digit c -> (x < 48)%N -> N.eqb c x = false.
Proof. intros (H & _) Hx. apply N.eqb_neq. lia. Qed.
Lemma digits_value_ok w : digits w -> forall acc, digits_value acc w = Some (acc * 10 ^ N.of_nat (List.length w) + place_value w)%N.
Proof.
  induction 1 as [|c w Hc Hw IH]; intros acc; cbn [digits_value place_value List.length]; [f_equal; change (10 ^ N.of_nat 0)%N with 1%N; lia|].
  rewrite (digit_char c Hc), IH. f_equal. rewrite Nat2N.inj_succ, N.pow_succ_r'. lia.
Qed.
Lemma parse_unsigned_ok max w : digits w -> w <> [] -> parse_unsigned max w = if (place_value w <=? max)%N then Some (place_value w) else None.
Proof.
  intros Hd Hn. unfold parse_unsigned. destruct w as [|c w]; [now destruct Hn|]. inversion Hd as [|? ? Hc Hw]; subst.
  rewrite (digit_not c (ch "+") Hc) by (cbn; lia). rewrite digits_value_ok by exact Hd. rewrite N.mul_0_l, N.add_0_l. reflexivity.
Qed.
Lemma clen_digit c : is_digit c -> clen c = 1.
Proof. intros (H1 & H2). unfold clen. rewrite (proj2 (N.ltb_lt c 128)) by lia. reflexivity. Qed.
Lemma cut_digits w : digits w -> forall r, cut_bytes (List.length w) (w ++ r) = Some (w, r).
Proof.
  induction 1 as [|c w Hc Hw IH]; intros r; cbn [List.length cut_bytes app]; [destruct r; reflexivity|].
  rewrite (clen_digit c Hc). cbn [Nat.leb]. replace (S (List.length w) - 1) with (List.length w) by lia. now rewrite IH.
Qed.
Lemma cut_number k w n r : number k w n -> cut_bytes k (w ++ r) = Some (w, r).
Proof. intros (<- & H & _). now apply cut_digits. Qed.
Lemma cut_short k w : digits w -> List.length w < k -> cut_bytes k w = None.
Proof.
  intros H. revert k. induction H as [|c w Hc Hw IH]; intros k Hk; cbn [List.length] in Hk; destruct k as [|k]; try lia; [reflexivity|].
  cbn [cut_bytes]. rewrite (clen_digit c Hc). cbn [Nat.leb]. replace (S k - 1) with k by lia. rewrite IH by lia. reflexivity.
Qed.
Lemma cut_nil k : cut_bytes (S k) [] = None. Proof. reflexivity. Qed.

Lemma split_none c w : ~ In c w -> split_on c w = [w].
Proof.
  induction w as [|x w IH]; intros H; [reflexivity|]. cbn [split_on].
  destruct (N.eqb_spec x c) as [->|N]; [destruct H; now left|]. rewrite IH; [reflexivity|]. intros Hi. apply H. now right.
Qed.
Lemma split_app c w r : ~ In c w -> split_on c (w ++ c :: r) = w :: split_on c r.
Proof.
  induction w as [|x w IH]; intros H; cbn [app split_on]; [now rewrite N.eqb_refl|].
  destruct (N.eqb_spec x c) as [->|N]; [destruct H; now left|]. rewrite IH; [reflexivity|]. intros Hi. apply H. now right.
Qed.
Lemma digits_no c w : digits w -> (c < 48)%N -> ~ In c w.
Proof. intros H Hc Hi. unfold digits in H. rewrite Forall_forall in H. destruct (H c Hi). lia. Qed.
Lemma trim_other c x r : x <> c -> trim_start c (x :: r) = x :: r.
Proof. intros H. cbn. destruct (N.eqb_spec x c); [contradiction|reflexivity]. Qed.
Lemma trim_digits c w r : digits w -> w <> [] -> (c < 48 \/ 57 < c)%N -> trim_start c (w ++ r) = w ++ r.
Proof.
  intros H Hn Hc. destruct w as [|x w]; [now destruct Hn|]. cbn [app]. apply trim_other. inversion H as [|? ? [H1 H2] _]; subst. lia.
Qed.

Lemma i32_digits w : digits w -> w <> [] -> year_range (Z.of_N (place_value w)) -> parse_i32 w = Some (Z.of_N (place_value w)).
Proof.
  intros Hd Hn (_ & Hr). unfold parse_i32. destruct w as [|c w]; [now destruct Hn|]. inversion Hd as [|? ? Hc Hw]; subst.
  rewrite (digit_not c (ch "-") Hc) by (cbn; lia). rewrite parse_unsigned_ok by (auto; discriminate).
  rewrite (proj2 (N.leb_le _ _)) by lia. reflexivity.
Qed.
Lemma i32_minus w : digits w -> w <> [] -> year_range (- Z.of_N (place_value w)) -> parse_i32 (ch "-" :: w) = Some (- Z.of_N (place_value w))%Z.
Proof.
  intros Hd Hn (Hr & _). unfold parse_i32. rewrite N.eqb_refl. destruct w as [|c w]; [now destruct Hn|].
  rewrite digits_value_ok by exact Hd. rewrite N.mul_0_l, N.add_0_l. rewrite (proj2 (N.leb_le _ _)) by lia. reflexivity.
Qed.
Lemma place_bound w : digits w -> (place_value w < 10 ^ N.of_nat (List.length w))%N.
Proof.
  induction 1 as [|c w (H1 & H2) Hw IH]; [reflexivity|]. cbn [place_value List.length]. rewrite Nat2N.inj_succ, N.pow_succ_r'.
  assert ((c - 48) * 10 ^ N.of_nat (List.length w) <= 9 * 10 ^ N.of_nat (List.length w))%N by (apply N.mul_le_mono_r; lia). lia.
Qed.
Lemma u8_number w n : number 2 w n -> parse_u8 w = Some n.
Proof.
  intros (Hl & Hd & <-). unfold parse_u8. rewrite parse_unsigned_ok by (auto; destruct w; discriminate).
  pose proof (place_bound w Hd) as Hb. rewrite Hl in Hb. change (10 ^ N.of_nat 2)%N with 100%N in Hb.
  rewrite (proj2 (N.leb_le _ _)) by lia. reflexivity.
Qed.
Lemma number_ne k w n : number (S k) w n -> w <> []. Proof. intros (H & _). destruct w; discriminate. Qed.
Lemma number_digits k w n : number k w n -> digits w. Proof. intros (_ & H & _). exact H. Qed.

Section Date.
  Variable valid : Z -> N -> N -> bool.

  (** The hyphenated forms, given what the year part is. *)
  Definition tail_date (y : Z) (r : list ustr) : iout date :=
    match r with
    | [] => new_date valid y 1 1
    | ms :: r' =>
        let! m := ok_or (parse_u8 ms) IsoParseInt in
        match r' with
        | [] => new_date valid y m 1
        | ds :: _ => let! d := ok_or (parse_u8 ds) IsoParseInt in new_date valid y m d
        end
    end.
  Lemma decompose_plain w x r y : digits w -> w <> [] -> parse_i32 w = Some y ->
    forall pre, pre = [] \/ pre = [ch "+"] -> split_on (ch "-") r = x ->
    decompose_iso_date valid (pre ++ w ++ ch "-" :: r) = tail_date y x.
  Proof.
    intros Hd Hn Hy pre Hp <-. unfold decompose_iso_date.
    replace (trim_start (ch "+") (pre ++ w ++ ch "-" :: r)) with (w ++ ch "-" :: r).
    2:{ destruct Hp as [-> | ->]; cbn [app]; [|cbn [trim_start]; rewrite N.eqb_refl]; symmetry; apply trim_digits; auto; left; reflexivity. }
    rewrite split_app by (apply digits_no; [exact Hd|reflexivity]).
    destruct (w ++ ch "-" :: r) eqn:E; [destruct w; discriminate|].
    destruct (split_on (ch "-") r) as [|p ps] eqn:Es; [destruct r; cbn in Es; [discriminate|destruct (N.eqb _ _); [discriminate|destruct (split_on _ _); discriminate]]|].
    destruct w as [|c w]; [now destruct Hn|]. cbn [bind]. rewrite Hy. reflexivity.
  Qed.
  Lemma decompose_minus w y x r : digits w -> w <> [] -> parse_i32 (ch "-" :: w) = Some y -> x = tail_date y r ->
    forall s, split_on (ch "-") s = w :: r -> s <> [] -> decompose_iso_date valid (ch "-" :: s) = x.
  Proof.
    intros Hd Hn Hy -> s Hs Hne. unfold decompose_iso_date. rewrite trim_other by (intros H; discriminate H).
    cbn [split_on]. rewrite N.eqb_refl, Hs. cbn [bind]. rewrite Hy. reflexivity.
  Qed.

  Lemma two ms m : number 2 ms m -> split_on (ch "-") ms = [ms].
  Proof. intros H. apply split_none, digits_no; [exact (number_digits _ _ _ H)|reflexivity]. Qed.
  Lemma two_two ms m ds d : number 2 ms m -> number 2 ds d -> split_on (ch "-") (ms ++ ch "-" :: ds) = [ms; ds].
  Proof. intros H1 H2. rewrite split_app, (two _ _ H2); [reflexivity|]. apply digits_no; [exact (number_digits _ _ _ H1)|reflexivity]. Qed.
  Lemma tail_full y ms m ds d : number 2 ms m -> number 2 ds d -> tail_date y [ms; ds] = new_date valid y m d.
  Proof. intros H1 H2. cbn. now rewrite (u8_number _ _ H1), (u8_number _ _ H2). Qed.
  Lemma tail_month y ms m : number 2 ms m -> tail_date y [ms] = new_date valid y m 1.
  Proof. intros H1. cbn. now rewrite (u8_number _ _ H1). Qed.

  Theorem date_forms s y m d : date_string s y m d -> ~ only_expanded_year s -> year_range y ->
    decompose_iso_date valid s = new_date valid y m d.
  Proof.
    intros H Hx Hr. destruct H as [p ys y ms m ds d Hy Hm Hd|p ys y ms m Hy Hm|p ys y Hy|ys y ms m ds d Hy Hm Hd].
    - rewrite <- (tail_full y ms m ds d Hm Hd). destruct Hy as [w n Hw|w n k Hw Hk|w n k Hw Hk].
      + apply (decompose_plain w [ms; ds] _ _ (number_digits _ _ _ Hw) (number_ne _ _ _ Hw)) with (pre := []); auto.
        * pose proof (number_ne _ _ _ Hw) as Hne. destruct Hw as (_ & Hw & <-). now apply i32_digits.
        * now apply (two_two ms m ds d).
      + cbn [app]. destruct Hw as (Hl & Hw & <-). assert (w <> []) by (destruct w; [cbn in Hl; lia|discriminate]).
        eapply (decompose_minus w _ _ [ms; ds]); eauto using i32_minus.
        * rewrite split_app, (two_two ms m ds d Hm Hd); [reflexivity|apply digits_no; [exact Hw|reflexivity]].
        * destruct w; discriminate.
      + destruct Hw as (Hl & Hw & <-). assert (w <> []) by (destruct w; [cbn in Hl; lia|discriminate]).
        apply (decompose_plain w [ms; ds]) with (pre := [ch "+"]); auto using i32_digits. now apply (two_two ms m ds d).
    - rewrite <- (tail_month y ms m Hm). destruct Hy as [w n Hw|w n k Hw Hk|w n k Hw Hk].
      + apply (decompose_plain w [ms] _ _ (number_digits _ _ _ Hw) (number_ne _ _ _ Hw)) with (pre := []); auto.
        * pose proof (number_ne _ _ _ Hw) as Hne. destruct Hw as (_ & Hw & <-). now apply i32_digits.
        * now apply (two ms m).
      + cbn [app]. destruct Hw as (Hl & Hw & <-). assert (w <> []) by (destruct w; [cbn in Hl; lia|discriminate]).
        eapply (decompose_minus w _ _ [ms]); eauto using i32_minus.
        * rewrite split_app, (two ms m Hm); [reflexivity|apply digits_no; [exact Hw|reflexivity]].
        * destruct w; discriminate.
      + destruct Hw as (Hl & Hw & <-). assert (w <> []) by (destruct w; [cbn in Hl; lia|discriminate]).
        apply (decompose_plain w [ms]) with (pre := [ch "+"]); auto using i32_digits. now apply (two ms m).
    - destruct Hy as [w n Hw|w n k Hw Hk|w n k Hw Hk].
      + pose proof (number_digits _ _ _ Hw) as Hd. pose proof (number_ne _ _ _ Hw) as Hne. unfold decompose_iso_date.
        assert (Et : trim_start (ch "+") w = w)
          by (pose proof (trim_digits (ch "+") w [] Hd Hne (or_introl eq_refl)) as Et; now rewrite app_nil_r in Et).
        rewrite Et, split_none by (apply digits_no; [exact Hd|reflexivity]).
        assert (Ec : cut_bytes 4 w = Some (w, [])) by (pose proof (cut_number 4 _ _ [] Hw) as Ec; now rewrite app_nil_r in Ec).
        rewrite Ec. destruct w as [|c w]; [now destruct Hne|]. destruct Hw as (_ & _ & <-).
        rewrite i32_digits by auto. reflexivity.
      + destruct Hw as (Hl & Hw & <-). assert (w <> []) by (destruct w; [cbn in Hl; lia|discriminate]).
        eapply (decompose_minus w _ _ []); eauto using i32_minus. apply split_none, digits_no; [exact Hw|reflexivity].
      + destruct Hx. exists (Z.of_N n). econstructor; eauto.
    - pose proof (number_digits _ _ _ Hy) as Hdy. pose proof (number_ne _ _ _ Hy) as Hne. unfold decompose_iso_date.
      rewrite (trim_digits (ch "+") ys _ Hdy Hne) by (left; reflexivity).
      rewrite split_none.
      2:{ intros Hi. apply in_app_or in Hi as [Hi|Hi]; [|apply in_app_or in Hi as [Hi|Hi]];
          (eapply (digits_no (ch "-")); [|reflexivity|exact Hi]); eapply number_digits; eauto. }
      destruct (ys ++ ms ++ ds) eqn:E; [destruct ys; [now destruct Hne|discriminate]|]. rewrite <- E. clear E.
      rewrite (cut_number 4 _ _ _ Hy). rewrite (cut_number 2 _ _ _ Hm).
      assert (Ec : cut_bytes 2 ds = Some (ds, [])) by (pose proof (cut_number 2 _ _ [] Hd) as Ec; now rewrite app_nil_r in Ec).
      rewrite Ec.
      rewrite (u8_number _ _ Hm), (u8_number _ _ Hd). destruct Hy as (_ & _ & <-). rewrite i32_digits by auto. reflexivity.
  Qed.

  (** A date that is accepted is valid for ICU4X. *)
  Theorem date_valid s dt : decompose_iso_date valid s = Ok dt -> valid (dt_year dt) (dt_month dt) (dt_day dt) = true.
  Proof.
    assert (Hn : forall y m d, new_date valid y m d = Ok dt -> valid (dt_year dt) (dt_month dt) (dt_day dt) = true).
    { intros y m d. unfold new_date. destruct (valid y m d) eqn:E; [|discriminate]. intros [= <-]. exact E. }
    assert (Hb : forall (A : Type) (o : option A) (f : A -> iout date), (forall a, f a = Ok dt -> valid (dt_year dt) (dt_month dt) (dt_day dt) = true) ->
              bind (ok_or o IsoParseInt) f = Ok dt -> valid (dt_year dt) (dt_month dt) (dt_day dt) = true).
    { intros A o f Hf. destruct o as [a|]; cbn; [apply Hf|discriminate]. }
    unfold decompose_iso_date. destruct (trim_start _ s) as [|c0 r0] eqn:Et; [apply Hn|]. rewrite <- Et. clear Et c0 r0.
    destruct (split_on _ _) as [|p [|q l]]; [discriminate| |].
    - destruct (cut_bytes 4 p) as [[ys r]|]; [|apply Hn]. apply Hb. intros y.
      destruct (cut_bytes 2 r) as [[ms r']|]; [|apply Hn]. apply Hb. intros m.
      destruct (cut_bytes 2 r') as [[ds ?]|]; [|apply Hn]. apply Hb. intros d. apply Hn.
    - intros H. apply bind_Ok in H as ([ystr r] & _ & H). revert H. apply Hb. intros y.
      destruct r as [|ms r]; [apply Hn|]. apply Hb. intros m. destruct r as [|ds r]; [apply Hn|]. apply Hb. intros d. apply Hn.
  Qed.
End Date.

Lemma parse_unit_number bits max w n : number 2 w n -> (2 <= bits)%N -> (7 <= bits)%N -> parse_unit bits max w = if (n <=? max)%N then Ok n else Err IsoCalendar.
Proof.
  intros (Hl & Hd & <-) _ Hb. unfold parse_unit. rewrite parse_unsigned_ok by (auto; destruct w; discriminate).
  pose proof (place_bound w Hd) as Hp. rewrite Hl in Hp. change (10 ^ N.of_nat 2)%N with 100%N in Hp.
  assert (2 ^ 7 <= 2 ^ bits)%N by (apply N.pow_le_mono_r; lia). change (2 ^ 7)%N with 128%N in H.
  rewrite (proj2 (N.leb_le (place_value w) _)) by lia. reflexivity.
Qed.

Lemma before_none c w : ~ In c w -> before c w = w.
Proof.
  induction w as [|x w IH]; intros H; [reflexivity|]. cbn. destruct (N.eqb_spec x c) as [->|N]; [destruct H; now left|].
  rewrite IH; [reflexivity|]. intros Hi. apply H. now right.
Qed.
Lemma before_app c w r : before c (w ++ c :: r) = before c w.
Proof. induction w as [|x w IH]; cbn; [now rewrite N.eqb_refl|]. destruct (N.eqb x c); [reflexivity|]. now rewrite IH. Qed.
Lemma trim_app c x w r : x <> c -> trim_start c (w ++ x :: r) = trim_start c w ++ x :: r.
Proof. intros H. induction w as [|y w IH]; cbn; [destruct (N.eqb_spec x c); [contradiction|reflexivity]|]. destruct (N.eqb y c); [exact IH|reflexivity]. Qed.
Lemma before_swap c c' w r : before c (before c' (w ++ c :: r)) = before c (before c' w).
Proof.
  induction w as [|x w IH]; cbn; [destruct (N.eqb c c'); cbn; [reflexivity|now rewrite N.eqb_refl]|].
  destruct (N.eqb x c'); [reflexivity|]. cbn. destruct (N.eqb x c); [reflexivity|]. now rewrite IH.
Qed.
Theorem zone_ignored s z : decompose_iso_time (s ++ ch "+" :: z) = decompose_iso_time s /\
  decompose_iso_time (s ++ ch "-" :: z) = decompose_iso_time s.
Proof.
  unfold decompose_iso_time. rewrite !trim_app by (intros H; discriminate H). rewrite before_app, before_swap. split; reflexivity.
Qed.

(** The reader without the preparations. *)
Definition read_time (trimmed : ustr) : iout time :=
  match cut_bytes 2 trimmed with
  | None => Ok (mk_time 0 0 0 0)
  | Some (hs, r) =>
      let! h := parse_hour hs in
      match cut_bytes 2 (trim_start (ch ":") r) with
      | None => Ok (mk_time h 0 0 0)
      | Some (ms, r') =>
          let! m := parse_minute ms in
          match cut_bytes 2 (trim_start (ch ":") r') with
          | None => Ok (mk_time h m 0 0)
          | Some (ss, r'') =>
              let! sec := parse_second ss in
              let! n := parse_nano (trim_start (ch ".") r'') in
              Ok (mk_time h m sec n)
          end
      end
  end.
Definition timechar (c : uchar) : Prop := is_digit c \/ c = ch ":" \/ c = ch ".".
Lemma prepared t w : opt (ch "T") t -> Forall timechar w -> decompose_iso_time (t ++ w) = read_time w.
Proof.
  intros Ht Hw. unfold decompose_iso_time, read_time.
  assert (E : before (ch "-") (before (ch "+") (trim_start (ch "T") (t ++ w))) = w).
  { assert (Ew : trim_start (ch "T") w = w).
    { destruct w as [|c w]; [reflexivity|]. apply trim_other. inversion Hw as [|? ? Hc _]; subst. intros ->.
      destruct Hc as [[H1 H2]|[H|H]]; [cbn in H2; lia|discriminate H|discriminate H]. }
    replace (trim_start (ch "T") (t ++ w)) with w.
    2:{ destruct Ht as [-> | ->]; cbn [app]; [now symmetry|]. cbn [trim_start]. rewrite N.eqb_refl. now symmetry. }
    assert (Hno : forall x, ~ timechar x -> ~ In x w).
    { intros x Hx Hi. rewrite Forall_forall in Hw. exact (Hx (Hw x Hi)). }
    rewrite (before_none (ch "+")), before_none; auto; apply Hno; intros [[H1 H2]|[H|H]]; try discriminate H; cbn in H1; lia. }
  rewrite E. reflexivity.
Qed.
Lemma digits_timechar w : digits w -> Forall timechar w.
Proof. intros H. eapply Forall_impl; [|exact H]. intros c Hc. now left. Qed.
Lemma number_timechar k w n : number k w n -> Forall timechar w.
Proof. intros H. eapply digits_timechar, number_digits, H. Qed.
Lemma opt_timechar c : opt (ch ":") c -> Forall timechar c.
Proof. intros [-> | ->]; constructor; [right; now left|constructor]. Qed.
Lemma trim_colon c w r : opt (ch ":") c -> digits w -> w <> [] -> trim_start (ch ":") (c ++ w ++ r) = w ++ r.
Proof. intros [-> | ->] Hw Hn; cbn [app]; [|cbn [trim_start]; rewrite N.eqb_refl]; apply trim_digits; auto; right; reflexivity. Qed.

Definition unit_ok (n max : N) : bool := (n <=? max)%N.
Definition check_unit (n max : N) : iout N := if (n <=? max)%N then Ok n else Err IsoCalendar.
Lemma hour_number w n : number 2 w n -> parse_hour w = check_unit n 24.
Proof. intros H. apply parse_unit_number; [exact H|lia|lia]. Qed.
Lemma minute_number w n : number 2 w n -> parse_minute w = check_unit n 60.
Proof. intros H. apply parse_unit_number; [exact H|lia|lia]. Qed.
Lemma second_number w n : number 2 w n -> parse_second w = check_unit n 61.
Proof. intros H. apply parse_unit_number; [exact H|lia|lia]. Qed.


Section Time.
  Lemma time_none t : opt (ch "T") t -> decompose_iso_time t = Ok (mk_time 0 0 0 0).
  Proof. intros [-> | ->]; reflexivity. Qed.
  Lemma time_hour t hs h : opt (ch "T") t -> number 2 hs h -> (h <= 24)%N -> decompose_iso_time (t ++ hs) = Ok (mk_time h 0 0 0).
  Proof.
    intros Ht Hh Hb. rewrite prepared by eauto using number_timechar. unfold read_time.
    assert (Ec : cut_bytes 2 hs = Some (hs, [])) by (pose proof (cut_number 2 _ _ [] Hh) as Ec; now rewrite app_nil_r in Ec).
    rewrite Ec. rewrite (hour_number _ _ Hh). unfold check_unit.
    rewrite (proj2 (N.leb_le h 24) Hb). reflexivity.
  Qed.
  Lemma time_minute t hs h c ms m : opt (ch "T") t -> number 2 hs h -> opt (ch ":") c -> number 2 ms m ->
    (h <= 24)%N -> (m <= 60)%N -> decompose_iso_time (t ++ hs ++ c ++ ms) = Ok (mk_time h m 0 0).
  Proof.
    intros Ht Hh Hc Hm Hb1 Hb2. rewrite prepared; [|exact Ht|rewrite !Forall_app; repeat split; eauto using number_timechar, opt_timechar].
    unfold read_time. rewrite (cut_number 2 hs h _ Hh). rewrite (hour_number _ _ Hh). unfold check_unit.
    rewrite (proj2 (N.leb_le h 24) Hb1). cbn [bind].
    pose proof (trim_colon c ms [] Hc (number_digits _ _ _ Hm) (number_ne _ _ _ Hm)) as Et.
    pose proof (cut_number 2 ms m [] Hm) as Ec. rewrite !app_nil_r in *. rewrite Et, Ec.
    rewrite (minute_number _ _ Hm). unfold check_unit. rewrite (proj2 (N.leb_le m 60) Hb2). reflexivity.
  Qed.
  Lemma time_second_fraction t hs h c ms m ss s f : opt (ch "T") t -> number 2 hs h -> opt (ch ":") c -> number 2 ms m -> number 2 ss s ->
    (h <= 24)%N -> (m <= 60)%N -> (s <= 61)%N -> digits f -> f <> [] ->
    decompose_iso_time (t ++ hs ++ c ++ ms ++ c ++ ss ++ ch "." :: f) =
      if (place_value f <=? 999999999)%N then Ok (mk_time h m s (place_value f)) else Err IsoCalendar.
  Proof.
    intros Ht Hh Hc Hm Hs Hb1 Hb2 Hb3 Hf Hne.
    rewrite prepared; [|exact Ht|].
    2:{ rewrite !Forall_app. repeat split; eauto using number_timechar, opt_timechar.
        constructor; [right; now right|now apply digits_timechar]. }
    unfold read_time. rewrite (cut_number 2 hs h _ Hh). rewrite (hour_number _ _ Hh). unfold check_unit.
    rewrite (proj2 (N.leb_le h 24) Hb1). cbn [bind].
    rewrite (trim_colon c ms _ Hc (number_digits _ _ _ Hm) (number_ne _ _ _ Hm)), (cut_number 2 ms m _ Hm).
    rewrite (minute_number _ _ Hm). unfold check_unit. rewrite (proj2 (N.leb_le m 60) Hb2). cbn [bind].
    rewrite (trim_colon c ss _ Hc (number_digits _ _ _ Hs) (number_ne _ _ _ Hs)), (cut_number 2 ss s _ Hs).
    rewrite (second_number _ _ Hs). unfold check_unit. rewrite (proj2 (N.leb_le s 61) Hb3). cbn [bind].
    cbn [trim_start]. rewrite N.eqb_refl. pose proof (trim_digits (ch ".") f [] Hf Hne (or_introl eq_refl)) as Et.
    rewrite app_nil_r in Et. rewrite Et. unfold parse_nano, parse_unit. rewrite parse_unsigned_ok by auto.
    change (2 ^ 32 - 1)%N with 4294967295%N.
    destruct (N.leb_spec (place_value f) 999999999) as [H|H].
    - rewrite (proj2 (N.leb_le (place_value f) 4294967295)) by lia. rewrite (proj2 (N.leb_le _ _) H). reflexivity.
    - destruct (place_value f <=? 4294967295)%N; [|reflexivity]. rewrite (proj2 (N.leb_gt _ _) H). reflexivity.
  Qed.
  Lemma time_second t hs h c ms m ss s : opt (ch "T") t -> number 2 hs h -> opt (ch ":") c -> number 2 ms m -> number 2 ss s ->
    forall tm, decompose_iso_time (t ++ hs ++ c ++ ms ++ c ++ ss) <> Ok tm.
  Proof.
    intros Ht Hh Hc Hm Hs tm. rewrite prepared; [|exact Ht|rewrite !Forall_app; repeat split; eauto using number_timechar, opt_timechar].
    unfold read_time. rewrite (cut_number 2 hs h _ Hh). rewrite (hour_number _ _ Hh). unfold check_unit.
    destruct (h <=? 24)%N; [|discriminate]. cbn [bind].
    rewrite (trim_colon c ms _ Hc (number_digits _ _ _ Hm) (number_ne _ _ _ Hm)), (cut_number 2 ms m _ Hm).
    rewrite (minute_number _ _ Hm). unfold check_unit. destruct (m <=? 60)%N; [|discriminate]. cbn [bind].
    pose proof (trim_colon c ss [] Hc (number_digits _ _ _ Hs) (number_ne _ _ _ Hs)) as Et.
    pose proof (cut_number 2 ss s [] Hs) as Ec. rewrite !app_nil_r in *. rewrite Et, Ec.
    rewrite (second_number _ _ Hs). unfold check_unit. destruct (s <=? 61)%N; discriminate.
  Qed.
End Time.

(** The times that are accepted are in the range of ICU4X, and the reader never panics. *)
Theorem time_range s tm : decompose_iso_time s = Ok tm ->
  (tm_hour tm <= 24 /\ tm_minute tm <= 60 /\ tm_second tm <= 61 /\ tm_nano tm <= 999999999)%N.
Proof.
  change (decompose_iso_time s) with (read_time (before (ch "-") (before (ch "+") (trim_start (ch "T") s)))).
  generalize (before (ch "-") (before (ch "+") (trim_start (ch "T") s))). intros w. unfold read_time.
  assert (Hu : forall b max x n, parse_unit b max x = Ok n -> (n <= max)%N).
  { intros b max x n. unfold parse_unit. destruct (parse_unsigned _ x) as [k|]; [|discriminate].
    destruct (k <=? max)%N eqn:E; [|discriminate]. intros [= <-]. now apply N.leb_le. }
  destruct (cut_bytes 2 w) as [[hs r]|]; [|intros [= <-]; cbn; lia].
  intros H. apply bind_Ok in H as (h & Hh & H). apply Hu in Hh.
  destruct (cut_bytes 2 _) as [[ms r']|]; [|injection H as <-; cbn; lia].
  apply bind_Ok in H as (m & Hm & H). apply Hu in Hm.
  destruct (cut_bytes 2 _) as [[ss r'']|]; [|injection H as <-; cbn; lia].
  apply bind_Ok in H as (sec & Hs & H). apply Hu in Hs. apply bind_Ok in H as (n & Hn & H). apply Hu in Hn.
  injection H as <-. cbn. lia.
Qed.

Theorem time_nine s h m sec f : time_string s h m sec (Some f) -> List.length f = 9 ->
  (h <= 24)%N -> (m <= 60)%N -> (sec <= 61)%N -> decompose_iso_time s = Ok (mk_time h m sec (fraction_nanos f)).
Proof.
  intros H Hl Hh Hm Hs. inversion H as [| | | |t hs h0 c ms m0 ss s0 f0 Ht Hh0 Hc Hm0 Hs0 Hf Hne]; subst.
  rewrite (time_second_fraction t hs h c ms m ss sec f) by assumption. pose proof (place_bound f Hf) as Hb. rewrite Hl in Hb.
  change (10 ^ N.of_nat 9)%N with 1000000000%N in Hb. rewrite (proj2 (N.leb_le _ _)) by lia. unfold fraction_nanos. rewrite Hl.
  change (10 ^ N.of_nat (9 - 9))%N with 1%N. now rewrite N.mul_1_r.
Qed.

(** ** Necessary conditions of the documented forms, for refutations *)
Definition numeral_char (c : uchar) : bool := ((48 <=? c) && (c <=? 57) || (c =? 45))%N%bool.
Definition date_shape (s : ustr) : bool :=
  match s with
  | [] => false
  | c :: r =>
      ((numeral_char c || (c =? 43)%N) && forallb numeral_char r && (4 <=? List.length s) &&
       (existsb (fun c => (c =? 45) || (c =? 43))%N s || (List.length s =? 4) || (List.length s =? 8)))%bool
  end.
Lemma digits_chars w : digits w -> forallb numeral_char w = true.
Proof.
  intros H. apply forallb_forall. intros c Hc. unfold digits in H. rewrite Forall_forall in H. destruct (H c Hc) as (H1 & H2).
  unfold numeral_char. rewrite (proj2 (N.leb_le _ _) H1), (proj2 (N.leb_le _ _) H2). reflexivity.
Qed.
Lemma year_shape p ys y : year_string p ys y ->
  exists c r, ys = c :: r /\ (numeral_char c || (c =? 43)%N)%bool = true /\ forallb numeral_char r = true /\
    4 <= List.length ys /\ (existsb (fun c => (c =? 45) || (c =? 43))%N ys = true \/ List.length ys = 4).
Proof.
  intros [w n (Hl & Hd & _)|w n k (Hl & Hd & _) Hk|w n k (Hl & Hd & _) Hk].
  - destruct w as [|c w]; [discriminate|]. pose proof (digits_chars _ Hd) as Hc. cbn [forallb] in Hc. apply andb_prop in Hc as (H1 & H2).
    exists c, w. rewrite H1. repeat split; auto; lia.
  - exists (ch "-"), w. repeat split; auto using digits_chars; cbn [List.length]; lia.
  - exists (ch "+"), w. repeat split; auto using digits_chars; cbn [List.length]; lia.
Qed.
Lemma date_string_shape s y m d : date_string s y m d -> date_shape s = true.
Proof.
  assert (G : forall p ys y r, year_string p ys y -> forallb numeral_char r = true -> In (ch "-") r -> date_shape (ys ++ r) = true).
  { intros p ys y0 r Hy Hr Hi. destruct (year_shape _ _ _ Hy) as (c & t & -> & H1 & H2 & H3 & _). cbn [app date_shape].
    rewrite H1, forallb_app, H2, Hr. cbn [andb].
    replace (4 <=? List.length (c :: t ++ r)) with true by (symmetry; apply Nat.leb_le; cbn [List.length] in *; rewrite app_length; lia).
    replace (existsb _ (c :: t ++ r)) with true; [reflexivity|]. symmetry. apply existsb_exists. exists (ch "-").
    split; [right; apply in_or_app; now right|reflexivity]. }
  intros [p ys y0 ms m0 ds d0 Hy Hm Hd|p ys y0 ms m0 Hy Hm|p ys y0 Hy|ys y0 ms m0 ds d0 Hy Hm Hd].
  - apply (G p ys y0); [exact Hy| |now left]. cbn [forallb]. rewrite forallb_app. cbn [forallb].
    now rewrite (digits_chars _ (number_digits _ _ _ Hm)), (digits_chars _ (number_digits _ _ _ Hd)).
  - apply (G p ys y0); [exact Hy| |now left]. cbn [forallb]. now rewrite (digits_chars _ (number_digits _ _ _ Hm)).
  - destruct (year_shape _ _ _ Hy) as (c & t & -> & H1 & H2 & H3 & H4). unfold date_shape. rewrite H1, H2.
    rewrite (proj2 (Nat.leb_le _ _) H3). cbn [andb]. destruct H4 as [-> |H4]; [reflexivity|]. rewrite H4. now rewrite Bool.orb_true_r.
  - assert (Hall : forallb numeral_char (ys ++ ms ++ ds) = true)
      by (now rewrite !forallb_app, (digits_chars _ (number_digits _ _ _ Hy)), (digits_chars _ (number_digits _ _ _ Hm)), (digits_chars _ (number_digits _ _ _ Hd))).
    assert (Hlen : List.length (ys ++ ms ++ ds) = 8) by (rewrite !app_length; destruct Hy as (-> & _), Hm as (-> & _), Hd as (-> & _); reflexivity).
    destruct (ys ++ ms ++ ds) as [|c r]; [discriminate|]. cbn [forallb] in Hall. apply andb_prop in Hall as (H1 & H2).
    unfold date_shape. rewrite H1, H2, Hlen. cbn [andb orb Nat.leb Nat.eqb]. now rewrite Bool.orb_true_r.
Qed.
