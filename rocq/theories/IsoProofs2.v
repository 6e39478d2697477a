(** What the ISO readers accept, exactly. *)
From Verif Require Import Base BaseFacts ValueModel IsoModel IsoSpec IsoProofs.

Lemma blen_zero a : blen a = 0 -> a = [].
Proof. destruct a as [|c a]; [reflexivity|]. cbn. pose proof (clen_pos c). lia. Qed.
Lemma cut_some n s a b : cut_bytes n s = Some (a, b) <-> s = a ++ b /\ blen a = n.
Proof.
  revert n a b. induction s as [|c s IH]; intros n a b.
  - destruct n; cbn [cut_bytes].
    + split; [now intros [= <- <-]|]. intros (He & Hb). apply blen_zero in Hb. subst a. cbn in He. now subst b.
    + split; [discriminate|]. intros (He & Hb). symmetry in He. apply app_eq_nil in He as (-> & ->). discriminate.
  - destruct n; cbn [cut_bytes].
    + split; [now intros [= <- <-]|]. intros (He & Hb). apply blen_zero in Hb. subst a. cbn in He. now subst b.
    + destruct (Nat.leb_spec (clen c) (S n)) as [Hl|Hl].
      * destruct (cut_bytes (S n - clen c) s) as [[a' b']|] eqn:E.
        -- apply IH in E as (E1 & E2). split.
           ++ intros [= <- <-]. subst s. split; [reflexivity|]. cbn. lia.
           ++ intros (He & Hb). destruct a as [|c' a]; [discriminate|]. cbn in He, Hb. injection He as <- He.
              assert (Hx : cut_bytes (S n - clen c) s = Some (a, b)) by (apply IH; split; [exact He|lia]).
              assert (Hy : cut_bytes (S n - clen c) s = Some (a', b')) by (apply IH; split; [exact E1|exact E2]).
              rewrite Hx in Hy. now injection Hy as <- <-.
        -- split; [discriminate|]. intros (He & Hb). destruct a as [|c' a]; [discriminate|]. cbn in He, Hb. injection He as <- He.
           assert (Hx : cut_bytes (S n - clen c) s = Some (a, b)) by (apply IH; split; [exact He|lia]). congruence.
      * split; [discriminate|]. intros (He & Hb). destruct a as [|c' a]; [discriminate|]. cbn in He, Hb. injection He as <- He. lia.
Qed.
Lemma cut_none n s : cut_bytes n s = None <-> no_cut n s.
Proof.
  split.
  - intros H a b He Hb. assert (Hx : cut_bytes n s = Some (a, b)) by now apply cut_some. congruence.
  - intros H. destruct (cut_bytes n s) as [[a b]|] eqn:E; [|reflexivity]. apply cut_some in E as (He & Hb). destruct (H a b He Hb).
Qed.

Lemma digit_some c d : digit c = Some d -> is_digit c /\ d = (c - 48)%N.
Proof.
  unfold digit, is_digit. change (ch "0") with 48%N. change (ch "9") with 57%N.
  destruct (N.leb_spec 48 c) as [H1|H1], (N.leb_spec c 57) as [H2|H2]; cbn [andb]; try discriminate. intros [= <-]. split; [split; assumption|reflexivity].
Qed.
Lemma digits_value_some w : forall acc n, digits_value acc w = Some n -> digits w.
Proof.
  induction w as [|c w IH]; intros acc n; cbn [digits_value]; [constructor|].
  destruct (digit c) as [d|] eqn:E; [|discriminate]. intros H. constructor; [exact (proj1 (digit_some _ _ E))|exact (IH _ _ H)].
Qed.
Lemma digits_value_iff w n : digits_value 0 w = Some n <-> digits w /\ place_value w = n.
Proof.
  split.
  - intros H. pose proof (digits_value_some _ _ _ H) as Hd. split; [exact Hd|]. rewrite digits_value_ok in H by exact Hd.
    rewrite N.mul_0_l, N.add_0_l in H. now injection H.
  - intros (Hd & <-). rewrite digits_value_ok by exact Hd. rewrite N.mul_0_l, N.add_0_l. reflexivity.
Qed.
Lemma plus_not_digit : ~ is_digit (ch "+"). Proof. intros (H & _). cbn in H. lia. Qed.
Lemma minus_not_digit : ~ is_digit (ch "-"). Proof. intros (H & _). cbn in H. lia. Qed.
Lemma parse_unsigned_iff max w n : parse_unsigned max w = Some n <-> plus_number max w n.
Proof.
  assert (G : forall b, match b with
                        | [] => None
                        | _ => match digits_value 0 b with Some n => if (n <=? max)%N then Some n else None | None => None end
                        end = Some n <-> b <> [] /\ digits b /\ place_value b = n /\ (n <= max)%N).
  { intros b. destruct b as [|c b]; [split; [discriminate|intros (H & _); now destruct H]|].
    destruct (digits_value 0 (c :: b)) as [k|] eqn:E.
    - apply digits_value_iff in E as (Hd & <-). destruct (N.leb_spec (place_value (c :: b)) max) as [H|H].
      + split; [intros [= <-]; repeat split; auto; discriminate|]. intros (_ & _ & -> & _). reflexivity.
      + split; [discriminate|]. intros (_ & _ & <- & Hx). lia.
    - split; [discriminate|]. intros (_ & Hd & Hv & _).
      assert (Hx : digits_value 0 (c :: b) = Some n) by (apply digits_value_iff; auto). congruence. }
  unfold parse_unsigned, plus_number. destruct w as [|c w].
  - split; [discriminate|]. intros (d & [<- |He] & H & _); [now destruct H|discriminate He].
  - destruct (N.eqb_spec c (ch "+")) as [->|Hc].
    + etransitivity; [exact (G w)|]. split.
      * intros (H1 & H2 & H3 & H4). exists w. split; [now right|]. auto.
      * intros (d & [He|He] & H1 & H2 & H3 & H4).
        -- subst d. inversion H2 as [|? ? Hp _]. destruct (plus_not_digit Hp).
        -- injection He as <-. auto.
    + etransitivity; [exact (G (c :: w))|]. split.
      * intros (H1 & H2 & H3 & H4). exists (c :: w). split; [now left|]. auto.
      * intros (d & [He|He] & H1 & H2 & H3 & H4); [subst d; auto|]. injection He as He _. destruct (Hc He).
Qed.
Lemma parse_u8_iff w n : parse_u8 w = Some n <-> plus_number 255 w n. Proof. apply parse_unsigned_iff. Qed.

(** The year is read from a string that starts with neither sign, or from a minus sign and such a string. *)
Lemma i32_plain_iff w y : hd_error w <> Some (ch "+") -> hd_error w <> Some (ch "-") ->
  parse_i32 w = Some y <-> w <> [] /\ digits w /\ Z.of_N (place_value w) = y /\ year_range y.
Proof.
  intros Hp Hm. split.
  - unfold parse_i32. destruct w as [|c w]; [discriminate|].
    destruct (N.eqb_spec c (ch "-")) as [->|Hc]; [now destruct Hm|].
    destruct (parse_unsigned 2147483647 (c :: w)) as [n|] eqn:E; [|discriminate]. intros [= <-].
    apply parse_unsigned_iff in E as (d & [He|He] & H1 & H2 & H3 & H4).
    + subst d. subst n. repeat split; auto; try lia.
    + injection He as -> _. now destruct Hp.
  - intros (Hn & Hd & <- & Hr). now apply i32_digits.
Qed.
Lemma i32_minus_iff w y : parse_i32 (ch "-" :: w) = Some y <-> w <> [] /\ digits w /\ (- Z.of_N (place_value w))%Z = y /\ year_range y.
Proof.
  split.
  - unfold parse_i32. rewrite N.eqb_refl. destruct w as [|c w]; [discriminate|].
    destruct (digits_value 0 (c :: w)) as [n|] eqn:E; [|discriminate]. apply digits_value_iff in E as (Hd & <-).
    destruct (N.leb_spec (place_value (c :: w)) 2147483648) as [H|H]; [|discriminate]. intros Hy.
    assert (y = (- Z.of_N (place_value (c :: w)))%Z) as -> by congruence. clear Hy.
    split; [discriminate|]. split; [exact Hd|]. split; [reflexivity|]. revert H. generalize (place_value (c :: w)). intros k H. unfold year_range. lia.
  - intros (Hn & Hd & <- & Hr). now apply i32_minus.
Qed.

(** ** Splitting *)
Lemma split_cases c s : (~ In c s /\ split_on c s = [s]) \/
  exists p r, ~ In c p /\ s = p ++ c :: r /\ split_on c s = p :: split_on c r.
Proof.
  induction s as [|x s IH]; [left; split; [intros []|reflexivity]|].
  destruct (N.eqb_spec x c) as [->|Hx].
  - right. exists [], s. split; [intros []|]. split; [reflexivity|]. cbn. now rewrite N.eqb_refl.
  - destruct IH as [(Hi & He)|(p & r & Hi & Hs & He)].
    + left. assert (Hn : ~ In c (x :: s)) by (intros [H|H]; [now destruct Hx|now apply Hi]). split; [exact Hn|]. now apply split_none.
    + right. exists (x :: p), r. assert (Hn : ~ In c (x :: p)) by (intros [H|H]; [now destruct Hx|now apply Hi]).
      split; [exact Hn|]. split; [now rewrite Hs|]. rewrite Hs. exact (split_app c (x :: p) r Hn).
Qed.
Lemma split_ne c s : split_on c s <> [].
Proof. destruct (split_cases c s) as [(_ & ->)|(p & r & _ & _ & ->)]; discriminate. Qed.

Lemma plus_number_no max w n : plus_number max w n -> ~ In (ch "-") w.
Proof.
  intros (d & He & _ & Hd & _) Hi. assert (Hx : ~ In (ch "-") d) by (apply digits_no; [exact Hd|reflexivity]).
  destruct He as [<- | ->]; [now apply Hx|]. destruct Hi as [H|H]; [discriminate H|now apply Hx].
Qed.

Section Date.
  Variable valid : Z -> N -> N -> bool.

  Lemma new_date_iff y m d y' m' d' : new_date valid y m d = Ok (mk_date y' m' d') <-> y = y' /\ m = m' /\ d = d' /\ valid y' m' d' = true.
  Proof.
    unfold new_date. split.
    - destruct (valid y m d) eqn:E; [|discriminate]. now intros [= <- <- <-].
    - intros (<- & <- & <- & H). now rewrite H.
  Qed.
  Lemma ok_or_iff {A} (o : option A) (f : A -> iout date) dt : bind (ok_or o IsoParseInt) f = Ok dt <-> exists a, o = Some a /\ f a = Ok dt.
  Proof.
    split.
    - destruct o as [a|]; cbn; [|discriminate]. intros H. now exists a.
    - intros (a & -> & H). exact H.
  Qed.

  (** The part after the year. *)
  Definition after_year (r : ustr) : list ustr := match r with [] => [] | _ :: r' => split_on (ch "-") r' end.
  Lemma tail_iff y r y' m d : (r = [] \/ exists r', r = ch "-" :: r') ->
    tail_date valid y (after_year r) = Ok (mk_date y' m d) <-> y = y' /\ hyphen_tail r m d /\ valid y' m d = true.
  Proof.
    intros [-> |(r' & ->)]; cbn [after_year].
    - cbn [tail_date]. rewrite new_date_iff. split.
      + intros (<- & <- & <- & H). repeat split; auto. constructor.
      + intros (<- & H & Hv). inversion H; subst. auto.
    - split.
      + destruct (split_cases (ch "-") r') as [(Hi & ->)|(ms & q & Hi & -> & ->)].
        * cbn [tail_date]. rewrite ok_or_iff. intros (k & Hk & H). apply parse_u8_iff in Hk. apply new_date_iff in H as (<- & <- & <- & H).
          repeat split; auto. now constructor.
        * destruct (split_cases (ch "-") q) as [(Hq & ->)|(ds & x & Hq & -> & ->)].
          -- cbn [tail_date]. rewrite ok_or_iff. intros (k & Hk & H). apply parse_u8_iff in Hk.
             apply ok_or_iff in H as (l & Hl & H). apply parse_u8_iff in Hl. apply new_date_iff in H as (<- & <- & <- & H).
             repeat split; auto. pose proof (ht_day ms k q l [] Hk Hl (or_introl eq_refl)) as Ht. now rewrite app_nil_r in Ht.
          -- cbn [tail_date]. rewrite ok_or_iff. intros (k & Hk & H). apply parse_u8_iff in Hk.
             apply ok_or_iff in H as (l & Hl & H). apply parse_u8_iff in Hl. apply new_date_iff in H as (<- & <- & <- & H).
             repeat split; auto. apply ht_day; eauto.
      + intros (<- & H & Hv). inversion H as [|ms k Hm E1 E2 E3|ms k ds l q Hm Hd Hq E1 E2 E3].
        * subst. rewrite (split_none _ _ (plus_number_no _ _ _ Hm)). cbn [tail_date].
          rewrite (proj2 (parse_u8_iff _ _) Hm). cbn [ok_or bind]. unfold new_date. now rewrite Hv.
        * subst. rewrite (split_app _ _ _ (plus_number_no _ _ _ Hm)).
          assert (Es : exists t, split_on (ch "-") (ds ++ q) = ds :: t).
          { destruct Hq as [-> |(x & ->)]; [rewrite app_nil_r, (split_none _ _ (plus_number_no _ _ _ Hd)); eauto|].
            rewrite (split_app _ _ _ (plus_number_no _ _ _ Hd)). eauto. }
          destruct Es as (t & ->). cbn [tail_date]. rewrite (proj2 (parse_u8_iff _ _) Hm), (proj2 (parse_u8_iff _ _) Hd).
          cbn [ok_or bind]. unfold new_date. now rewrite Hv.
  Qed.

  Lemma bytes_digits k w : digits w -> blen w = List.length w /\ (List.length w = k -> blen w = k).
  Proof.
    intros H. assert (E : blen w = List.length w) by (induction H as [|c w Hc Hw IH]; [reflexivity|]; cbn; rewrite (clen_digit c Hc), IH; reflexivity).
    split; [exact E|]. intros <-. exact E.
  Qed.
  Lemma plus_bytes max w n : plus_number max w n -> blen w = List.length w.
  Proof.
    intros (d & He & _ & Hd & _). destruct (bytes_digits 0 d Hd) as (Hb & _). destruct He as [-> | ->]; [exact Hb|]. cbn. now rewrite Hb.
  Qed.
  Lemma plus2_iff w n : plus_number2 w n <-> blen w = 2 /\ plus_number 255 w n.
  Proof. unfold plus_number2. split; intros (H1 & H2); split; auto; rewrite (plus_bytes _ _ _ H2) in *; exact H1. Qed.

  (** The forms without a hyphen. *)
  Definition compact (p : ustr) : iout date :=
    match cut_bytes 4 p with
    | None => new_date valid 0 1 1
    | Some (ys, r) =>
        let! y := ok_or (parse_i32 ys) IsoParseInt in
        match cut_bytes 2 r with
        | None => new_date valid y 1 1
        | Some (ms, r') =>
            let! m := ok_or (parse_u8 ms) IsoParseInt in
            match cut_bytes 2 r' with
            | None => new_date valid y m 1
            | Some (ds, _) => let! d := ok_or (parse_u8 ds) IsoParseInt in new_date valid y m d
            end
        end
    end.
  Inductive compact_date : ustr -> Z -> N -> N -> Prop :=
  | cd_short s : no_cut 4 s -> compact_date s 0 1 1
  | cd_year ys y r : number 4 ys y -> no_cut 2 r -> compact_date (ys ++ r) (Z.of_N y) 1 1
  | cd_month ys y ms m r : number 4 ys y -> plus_number2 ms m -> no_cut 2 r -> compact_date (ys ++ ms ++ r) (Z.of_N y) m 1
  | cd_day ys y ms m ds d r : number 4 ys y -> plus_number2 ms m -> plus_number2 ds d -> compact_date (ys ++ ms ++ ds ++ r) (Z.of_N y) m d.
  Lemma number4_range ys y : number 4 ys y -> year_range (Z.of_N y).
  Proof.
    intros (Hl & Hd & <-). pose proof (place_bound ys Hd) as Hb. rewrite Hl in Hb. change (10 ^ N.of_nat 4)%N with 10000%N in Hb.
    unfold year_range. lia.
  Qed.
  Lemma compact_iff p y m d : hd_error p <> Some (ch "+") -> ~ In (ch "-") p ->
    compact p = Ok (mk_date y m d) <-> compact_date p y m d /\ valid y m d = true.
  Proof.
    intros Hp Hm. unfold compact. split.
    - destruct (cut_bytes 4 p) as [[ys r]|] eqn:E4.
      + apply cut_some in E4 as (-> & Hb). rewrite ok_or_iff. intros (yy & Hy & H).
        assert (Hys : number 4 ys (place_value ys) /\ Z.of_N (place_value ys) = yy).
        { apply i32_plain_iff in Hy as (Hn & Hd & Hv & Hr).
          - split; [|exact Hv]. split; [|split; auto]. destruct (bytes_digits 4 ys Hd) as (<- & _). exact Hb.
          - destruct ys as [|c ys]; [discriminate|]. cbn in Hp |- *. exact Hp.
          - destruct ys as [|c ys]; [discriminate|]. cbn. intros [= ->]. apply Hm. now left. }
        destruct Hys as (Hys & <-). clear Hy.
        destruct (cut_bytes 2 r) as [[ms r']|] eqn:E2.
        * apply cut_some in E2 as (-> & Hbm). apply ok_or_iff in H as (k & Hk & H). apply parse_u8_iff in Hk.
          destruct (cut_bytes 2 r') as [[ds q]|] eqn:E3.
          -- apply cut_some in E3 as (-> & Hbd). apply ok_or_iff in H as (l & Hl & H). apply parse_u8_iff in Hl.
             apply new_date_iff in H as (<- & <- & <- & H). split; [|exact H]. apply cd_day; [exact Hys|now apply plus2_iff|now apply plus2_iff].
          -- apply cut_none in E3. apply new_date_iff in H as (<- & <- & <- & H). split; [|exact H].
             apply cd_month; [exact Hys|now apply plus2_iff|exact E3].
        * apply cut_none in E2. apply new_date_iff in H as (<- & <- & <- & H). split; [|exact H]. now apply cd_year.
      + apply cut_none in E4. intros H. apply new_date_iff in H as (<- & <- & <- & H). split; [|exact H]. now constructor.
    - intros (H & Hv).
      assert (Hcut : forall ys yy r, number 4 ys yy -> cut_bytes 4 (ys ++ r) = Some (ys, r) /\ parse_i32 ys = Some (Z.of_N yy)).
      { intros ys yy r Hn. split; [exact (cut_number 4 ys yy r Hn)|]. pose proof (number4_range _ _ Hn) as Hr. pose proof (number_ne _ _ _ Hn).
        destruct Hn as (_ & Hd & <-). now apply i32_digits. }
      assert (Hcut2 : forall ms mm r, plus_number2 ms mm -> cut_bytes 2 (ms ++ r) = Some (ms, r) /\ parse_u8 ms = Some mm).
      { intros ms mm r Hn. apply plus2_iff in Hn as (Hb & Hn). split; [apply cut_some; auto|]. now apply parse_u8_iff. }
      destruct H as [s Hs|ys yy r Hy Hr|ys yy ms mm r Hy Hmm Hr|ys yy ms mm ds dd r Hy Hmm Hdd].
      + rewrite (proj2 (cut_none 4 s) Hs). unfold new_date. now rewrite Hv.
      + destruct (Hcut ys yy r Hy) as (-> & ->). cbn [ok_or bind]. rewrite (proj2 (cut_none 2 r) Hr). unfold new_date. now rewrite Hv.
      + destruct (Hcut ys yy (ms ++ r) Hy) as (-> & ->). cbn [ok_or bind]. destruct (Hcut2 ms mm r Hmm) as (-> & ->). cbn [ok_or bind].
        rewrite (proj2 (cut_none 2 r) Hr). unfold new_date. now rewrite Hv.
      + destruct (Hcut ys yy (ms ++ ds ++ r) Hy) as (-> & ->). cbn [ok_or bind]. destruct (Hcut2 ms mm (ds ++ r) Hmm) as (-> & ->). cbn [ok_or bind].
        destruct (Hcut2 ds dd r Hdd) as (-> & ->). cbn [ok_or bind]. unfold new_date. now rewrite Hv.
  Qed.

  (** Everything after the plus signs. *)
  Inductive signless_date : ustr -> Z -> N -> N -> Prop :=
  | sd_hyphen w r m d : w <> [] -> digits w -> r <> [] -> hyphen_tail r m d -> signless_date (w ++ r) (Z.of_N (place_value w)) m d
  | sd_negative w r m d : w <> [] -> digits w -> hyphen_tail r m d -> signless_date (ch "-" :: w ++ r) (- Z.of_N (place_value w)) m d
  | sd_compact p y m d : ~ In (ch "-") p -> hd_error p <> Some (ch "+") -> compact_date p y m d -> signless_date p y m d.

  Lemma decompose_compact p : ~ In (ch "-") p -> hd_error p <> Some (ch "+") -> decompose_iso_date valid p = compact p.
  Proof.
    intros Hm Hp. unfold decompose_iso_date. assert (Et : trim_start (ch "+") p = p).
    { destruct p as [|c p]; [reflexivity|]. apply trim_other. intros ->. now apply Hp. }
    rewrite Et. destruct p as [|c p]; [reflexivity|]. rewrite (split_none _ _ Hm). reflexivity.
  Qed.
  Lemma hyphen_head r m d : hyphen_tail r m d -> r = [] \/ exists r', r = ch "-" :: r'.
  Proof. intros [|ms k H|ms k ds l q H1 H2 H3]; eauto. Qed.
  Lemma decompose_hyphen p r : ~ In (ch "-") p -> p <> [] -> hd_error p <> Some (ch "+") ->
    decompose_iso_date valid (p ++ ch "-" :: r) = bind (ok_or (parse_i32 p) IsoParseInt) (fun y => tail_date valid y (split_on (ch "-") r)).
  Proof.
    intros Hm Hne Hp. unfold decompose_iso_date. destruct p as [|c p]; [now destruct Hne|]. cbn [app].
    rewrite (trim_other (ch "+") c) by (intros ->; now apply Hp). change (c :: p ++ ch "-" :: r) with ((c :: p) ++ ch "-" :: r).
    rewrite (split_app _ _ _ Hm). destruct (split_on (ch "-") r) as [|q l] eqn:E; [destruct (split_ne _ _ E)|]. cbn [app bind]. reflexivity.
  Qed.
  Lemma decompose_negative r : decompose_iso_date valid (ch "-" :: r) =
    match split_on (ch "-") r with
    | [] => Panic
    | w :: l => bind (ok_or (parse_i32 (ch "-" :: w)) IsoParseInt) (fun y => tail_date valid y l)
    end.
  Proof.
    unfold decompose_iso_date. rewrite trim_other by (intros H; discriminate H). cbn [split_on]. rewrite N.eqb_refl.
    destruct (split_on (ch "-") r) as [|q l] eqn:E; [destruct (split_ne _ _ E)|]. cbn [bind]. reflexivity.
  Qed.
  Lemma split_after w r : ~ In (ch "-") w -> (r = [] \/ exists r', r = ch "-" :: r') ->
    split_on (ch "-") (w ++ r) = w :: after_year r.
  Proof.
    intros Hw [-> |(r' & ->)]; cbn [after_year]; [rewrite app_nil_r; now apply split_none|now apply split_app].
  Qed.
  Lemma tail_valid y r y' m d : tail_date valid y r = Ok (mk_date y' m d) -> y = y'.
  Proof.
    destruct r as [|ms [|ds r]]; cbn [tail_date]; intros H.
    - now apply new_date_iff in H.
    - apply ok_or_iff in H as (k & _ & H). now apply new_date_iff in H.
    - apply ok_or_iff in H as (k & _ & H). apply ok_or_iff in H as (l & _ & H). now apply new_date_iff in H.
  Qed.

  Lemma signless_iff s y m d : hd_error s <> Some (ch "+") ->
    decompose_iso_date valid s = Ok (mk_date y m d) <-> signless_date s y m d /\ year_range y /\ valid y m d = true.
  Proof.
    intros Hp. split.
    - destruct (split_cases (ch "-") s) as [(Hi & _)|(p & r & Hi & -> & _)].
      + rewrite (decompose_compact s Hi Hp). intros H. apply compact_iff in H as (H & Hv); auto. split; [now apply sd_compact|].
        split; [|exact Hv]. destruct H; eauto using number4_range. unfold year_range. lia.
      + destruct p as [|c p].
        * cbn [app]. rewrite decompose_negative.
          destruct (split_cases (ch "-") r) as [(Hr & ->)|(w & q & Hr & -> & ->)].
          -- intros H. apply ok_or_iff in H as (yy & Hy & H). pose proof (tail_valid _ _ _ _ _ H) as ->.
             apply i32_minus_iff in Hy as (Hn & Hd & <- & Hrg).
             change [] with (after_year []) in H. apply tail_iff in H as (_ & Ht & Hv); [|now left].
             split; [|split; auto]. pose proof (sd_negative r [] m d Hn Hd Ht) as Hs. now rewrite app_nil_r in Hs.
          -- intros H. apply ok_or_iff in H as (yy & Hy & H). pose proof (tail_valid _ _ _ _ _ H) as ->.
             apply i32_minus_iff in Hy as (Hn & Hd & <- & Hrg).
             change (split_on (ch "-") q) with (after_year (ch "-" :: q)) in H. apply tail_iff in H as (_ & Ht & Hv); [|eauto].
             split; [|split; auto]. exact (sd_negative w (ch "-" :: q) m d Hn Hd Ht).
        * rewrite decompose_hyphen; [|exact Hi|discriminate|exact Hp]. intros H. apply ok_or_iff in H as (yy & Hy & H).
          pose proof (tail_valid _ _ _ _ _ H) as ->. apply i32_plain_iff in Hy as (Hn & Hd & <- & Hrg).
          -- change (split_on (ch "-") r) with (after_year (ch "-" :: r)) in H. apply tail_iff in H as (_ & Ht & Hv); [|eauto].
             split; [|split; auto]. apply sd_hyphen; auto. discriminate.
          -- exact Hp.
          -- cbn. intros [= ->]. apply Hi. now left.
    - intros (H & Hrg & Hv). destruct H as [w r m d Hn Hd Hr Ht|w r m d Hn Hd Ht|p y m d Hm _ H].
      + destruct (hyphen_head _ _ _ Ht) as [-> |(r' & ->)]; [now destruct Hr|].
        rewrite decompose_hyphen; [|apply digits_no; [exact Hd|reflexivity]|exact Hn|].
        2:{ destruct w as [|c w]; [now destruct Hn|]. exact Hp. }
        rewrite i32_digits by assumption. cbn [ok_or bind]. change (split_on (ch "-") r') with (after_year (ch "-" :: r')).
        apply tail_iff; eauto.
      + rewrite decompose_negative, (split_after w r); [|apply digits_no; [exact Hd|reflexivity]|exact (hyphen_head _ _ _ Ht)].
        rewrite i32_minus by assumption. cbn [ok_or bind]. apply tail_iff; [exact (hyphen_head _ _ _ Ht)|auto].
      + rewrite (decompose_compact p Hm Hp). apply compact_iff; auto.
  Qed.

  Lemma decompose_plus s : decompose_iso_date valid (ch "+" :: s) = decompose_iso_date valid s.
  Proof. unfold decompose_iso_date. cbn [trim_start]. rewrite N.eqb_refl. reflexivity. Qed.
  Lemma signless_accepted s y m d : signless_date s y m d -> accepted_date s y m d.
  Proof.
    intros [w r m' d' H1 H2 H3 H4|w r m' d' H1 H2 H3|p y' m' d' Hi Hh H]; [now apply ad_hyphen|now apply ad_negative|].
    destruct H as [s' Hs|ys yy r Hy Hr|ys yy ms mm r Hy Hmm Hr|ys yy ms mm ds dd r Hy Hmm Hdd].
    - now apply ad_short.
    - apply ad_year; auto. intros Hx. apply Hi, in_or_app. now right.
    - apply ad_month; auto. intros Hx. apply Hi, in_or_app. right. apply in_or_app. now right.
    - apply ad_day; auto. intros Hx. apply Hi, in_or_app. right. apply in_or_app. right. apply in_or_app. now right.
  Qed.
  Lemma number_hd k ys y r : number (S k) ys y -> hd_error (ys ++ r) <> Some (ch "+") /\ hd_error (ys ++ r) <> Some (ch "-").
  Proof.
    intros (Hl & Hd & _). destruct ys as [|c ys]; [discriminate|]. inversion Hd as [|? ? Hc _]; subst. cbn.
    split; intros [= ->]; [exact (plus_not_digit Hc)|exact (minus_not_digit Hc)].
  Qed.
  Lemma accepted_signless s y m d : accepted_date s y m d -> hd_error s <> Some (ch "+") -> signless_date s y m d.
  Proof.
    intros H Hh. destruct H as [s y m d H|w r m d H1 H2 H3 H4|w r m d H1 H2 H3|s H1 H2 H3|ys y r H1 H2 H3|ys y ms m r H1 H2 H3 H4|ys y ms m ds d r H1 H2 H3 H4].
    - now destruct Hh.
    - now apply sd_hyphen.
    - now apply sd_negative.
    - apply sd_compact; auto. now constructor.
    - apply sd_compact; [|exact Hh|now apply cd_year]. intros Hx. apply in_app_or in Hx as [Hx|Hx]; [|now apply H2].
      exact (digits_no (ch "-") ys (number_digits _ _ _ H1) eq_refl Hx).
    - apply sd_compact; [|exact Hh|now apply cd_month]. intros Hx. apply in_app_or in Hx as [Hx|Hx].
      + exact (digits_no (ch "-") ys (number_digits _ _ _ H1) eq_refl Hx).
      + apply in_app_or in Hx as [Hx|Hx]; [exact (plus_number_no _ _ _ (proj2 H2) Hx)|now apply H3].
    - apply sd_compact; [|exact Hh|now apply cd_day]. intros Hx. apply in_app_or in Hx as [Hx|Hx].
      + exact (digits_no (ch "-") ys (number_digits _ _ _ H1) eq_refl Hx).
      + apply in_app_or in Hx as [Hx|Hx]; [exact (plus_number_no _ _ _ (proj2 H2) Hx)|].
        apply in_app_or in Hx as [Hx|Hx]; [exact (plus_number_no _ _ _ (proj2 H3) Hx)|now apply H4].
  Qed.
  Lemma accepted_plus s y m d : accepted_date (ch "+" :: s) y m d -> accepted_date s y m d.
  Proof.
    remember (ch "+" :: s) as s0 eqn:E.
    intros H. destruct H as [s' y m d H|w r m d H1 H2 H3 H4|w r m d H1 H2 H3|s' H1 H2 H3|ys y r H1 H2 H3|ys y ms m r H1 H2 H3 H4|ys y ms m ds d r H1 H2 H3 H4].
    - now injection E as <-.
    - destruct w as [|c w]; [now destruct H1|]. injection E as -> _. inversion H2 as [|? ? Hc _]; subst. destruct (plus_not_digit Hc).
    - discriminate E.
    - subst s'. now destruct H2.
    - destruct (number_hd _ _ _ r H1) as (Hx & _). rewrite E in Hx. now destruct Hx.
    - destruct (number_hd _ _ _ (ms ++ r) H1) as (Hx & _). rewrite E in Hx. now destruct Hx.
    - destruct (number_hd _ _ _ (ms ++ ds ++ r) H1) as (Hx & _). rewrite E in Hx. now destruct Hx.
  Qed.

  Theorem date_accepted s y m d :
    decompose_iso_date valid s = Ok (mk_date y m d) <-> accepted_date s y m d /\ year_range y /\ valid y m d = true.
  Proof.
    induction s as [|c s IH].
    - rewrite signless_iff by discriminate. split; intros (H & Hr); (split; [|exact Hr]); [now apply signless_accepted|apply accepted_signless; [exact H|discriminate]].
    - destruct (N.eq_dec c (ch "+")) as [->|Hc].
      + rewrite decompose_plus, IH. split; intros (H & Hr); (split; [|exact Hr]); [now apply ad_plus|now apply accepted_plus].
      + assert (Hh : hd_error (c :: s) <> Some (ch "+")) by (intros [= He]; exact (Hc He)).
        rewrite signless_iff by exact Hh. split; intros (H & Hr); (split; [|exact Hr]); [now apply signless_accepted|now apply accepted_signless].
  Qed.
End Date.

(** ** Times *)
Lemma trim_padded c s w : trim_start c s = w <-> padded c s w.
Proof.
  split.
  - revert w. induction s as [|x s IH]; intros w; cbn [trim_start].
    + intros <-. exists 0. split; [reflexivity|discriminate].
    + destruct (N.eqb_spec x c) as [->|Hx].
      * intros H. destruct (IH w H) as (k & -> & Hh). exists (S k). split; [reflexivity|exact Hh].
      * intros <-. exists 0. split; [reflexivity|]. intros [= H]. exact (Hx H).
  - intros (k & -> & Hh). induction k as [|k IH]; cbn [repeat app].
    + destruct w as [|x w]; [reflexivity|]. apply trim_other. intros ->. now apply Hh.
    + cbn [trim_start]. rewrite N.eqb_refl. exact IH.
Qed.
Lemma before_split c s : ~ In c (before c s) /\ exists z, s = before c s ++ z /\ (z = [] \/ exists x, z = c :: x).
Proof.
  induction s as [|y s (Hi & z & He & Hz)]; [split; [intros []|exists []; auto]|]. cbn [before].
  destruct (N.eqb_spec y c) as [->|Hy].
  - split; [intros []|]. exists (c :: s). split; [reflexivity|]. right. now exists s.
  - split; [intros [H|H]; [exact (Hy H)|exact (Hi H)]|]. exists z. split; [cbn; now rewrite <- He|exact Hz].
Qed.
Lemma zone_iff a w : before (ch "-") (before (ch "+") a) = w <->
  exists z, a = w ++ z /\ no_zone w /\ (z = [] \/ exists x, z = ch "+" :: x \/ z = ch "-" :: x).
Proof.
  split.
  - intros <-. destruct (before_split (ch "+") a) as (H1 & z1 & E1 & Hz1).
    destruct (before_split (ch "-") (before (ch "+") a)) as (H2 & z2 & E2 & Hz2).
    exists (z2 ++ z1). split; [rewrite app_assoc, <- E2; exact E1|]. split.
    + split; [|exact H2]. intros Hi. apply H1. rewrite E2. apply in_or_app. now left.
    + destruct Hz2 as [-> |(x & ->)]; [|right; exists (x ++ z1); now right].
      destruct Hz1 as [-> |(x & ->)]; [now left|right; exists x; now left].
  - intros (z & -> & (H1 & H2) & [-> |(x & [-> | ->])]).
    + now rewrite app_nil_r, (before_none _ _ H1), (before_none _ _ H2).
    + now rewrite before_app, (before_none _ _ H1), (before_none _ _ H2).
    + now rewrite before_swap, (before_none _ _ H1), (before_none _ _ H2).
Qed.
Lemma plus_number_plain max w n : ~ In (ch "+") w -> plus_number max w n <-> w <> [] /\ digits w /\ place_value w = n /\ (n <= max)%N.
Proof.
  intros Hi. split.
  - intros (d & [-> | ->] & H); [exact H|]. destruct Hi. now left.
  - intros H. exists w. split; [now left|exact H].
Qed.
Lemma parse_unit_iff bits max w n : ~ In (ch "+") w -> (max <= 2 ^ bits - 1)%N ->
  parse_unit bits max w = Ok n <-> w <> [] /\ digits w /\ place_value w = n /\ (n <= max)%N.
Proof.
  intros Hi Hm. unfold parse_unit. destruct (parse_unsigned (2 ^ bits - 1) w) as [k|] eqn:E.
  - apply parse_unsigned_iff in E. apply (plus_number_plain _ _ _ Hi) in E as (H1 & H2 & H3 & H4).
    destruct (N.leb_spec k max) as [H|H].
    + split; [intros [= <-]; auto|]. intros (_ & _ & <- & _). now rewrite H3.
    + split; [discriminate|]. intros (_ & _ & <- & Hx). lia.
  - split; [discriminate|]. intros (H1 & H2 & H3 & H4).
    assert (Hx : parse_unsigned (2 ^ bits - 1) w = Some n) by (apply parse_unsigned_iff, (plus_number_plain _ _ _ Hi); repeat split; auto; lia).
    congruence.
Qed.
Lemma unit2_iff bits max w n : ~ In (ch "+") w -> (max <= 2 ^ bits - 1)%N -> blen w = 2 ->
  parse_unit bits max w = Ok n <-> number 2 w n /\ (n <= max)%N.
Proof.
  intros Hi Hm Hb. rewrite parse_unit_iff by assumption. split.
  - intros (H1 & H2 & H3 & H4). split; [|exact H4]. split; [|auto]. destruct (bytes_digits 0 w H2) as (He & _). congruence.
  - intros (Hn & Hx). pose proof (number_ne _ _ _ Hn). destruct Hn as (_ & Hd & Hv). auto.
Qed.
Lemma number_bytes k w n : number k w n -> blen w = k.
Proof. intros (Hl & Hd & _). destruct (bytes_digits 0 w Hd) as (He & _). congruence. Qed.
Lemma cut_number_iff k w n r : number k w n -> cut_bytes k (w ++ r) = Some (w, r).
Proof. intros H. apply cut_some. split; [reflexivity|exact (number_bytes _ _ _ H)]. Qed.

Lemma padded_in c s w x : padded c s w -> In x w -> In x s.
Proof. intros (k & -> & _) H. apply in_or_app. now right. Qed.

Lemma clock_iff w h m sec n : ~ In (ch "+") w ->
  read_time w = Ok (mk_time h m sec n) <-> accepted_clock w h m sec n /\ (h <= 24 /\ m <= 60 /\ sec <= 61 /\ n <= 999999999)%N.
Proof.
  intros Hi. unfold read_time. split.
  - destruct (cut_bytes 2 w) as [[hs r]|] eqn:E1.
    2:{ apply cut_none in E1. intros [= <- <- <- <-]. split; [now constructor|lia]. }
    apply cut_some in E1 as (-> & Hb1). intros H. apply bind_Ok in H as (h' & Hh & H).
    apply unit2_iff in Hh as (Hh & Hh24); [|intros Hx; apply Hi, in_or_app; now left|vm_compute; discriminate|exact Hb1].
    destruct (cut_bytes 2 (trim_start (ch ":") r)) as [[ms r']|] eqn:E2.
    2:{ apply cut_none in E2. injection H as <- <- <- <-. split; [|lia].
        apply (ac_hour hs h' r (trim_start (ch ":") r)); [exact Hh|now apply trim_padded|exact E2]. }
    apply cut_some in E2 as (E2 & Hb2). apply bind_Ok in H as (m' & Hm & H). apply trim_padded in E2.
    assert (Hi2 : ~ In (ch "+") (ms ++ r')) by (intros Hx; apply Hi, in_or_app; right; exact (padded_in _ _ _ _ E2 Hx)).
    apply unit2_iff in Hm as (Hm & Hm60); [|intros Hx; apply Hi2, in_or_app; now left|vm_compute; discriminate|exact Hb2].
    destruct (cut_bytes 2 (trim_start (ch ":") r')) as [[ss r'']|] eqn:E3.
    2:{ apply cut_none in E3. injection H as <- <- <- <-. split; [|lia].
        apply (ac_minute hs h' ms m' r r' (trim_start (ch ":") r')); [exact Hh|exact E2|exact Hm|now apply trim_padded|exact E3]. }
    apply cut_some in E3 as (E3 & Hb3). apply bind_Ok in H as (s' & Hs & H). apply trim_padded in E3.
    assert (Hi3 : ~ In (ch "+") (ss ++ r'')) by (intros Hx; apply Hi2, in_or_app; right; exact (padded_in _ _ _ _ E3 Hx)).
    apply unit2_iff in Hs as (Hs & Hs61); [|intros Hx; apply Hi3, in_or_app; now left|vm_compute; discriminate|exact Hb3].
    apply bind_Ok in H as (n' & Hn & H). injection H as <- <- <- <-.
    assert (Ep : padded (ch ".") r'' (trim_start (ch ".") r'')) by now apply trim_padded.
    apply parse_unit_iff in Hn as (Hn1 & Hn2 & Hn3 & Hn4); [|intros Hx; apply Hi3, in_or_app; right; exact (padded_in _ _ _ _ Ep Hx)|vm_compute; discriminate].
    split; [|lia]. exact (ac_second hs h' ms m' r ss s' r' r'' n' (trim_start (ch ".") r'') Hh E2 Hm E3 Hs Ep Hn1 Hn2 Hn3).
  - intros (H & Hr).
    assert (Hno : forall k x v, number k x v -> ~ In (ch "+") x) by (intros k x v Hx; apply digits_no; [exact (number_digits _ _ _ Hx)|reflexivity]).
    destruct H as [w Hc|hs h r w Hh Hp Hc|hs h ms m c r w Hh Hp1 Hm Hp2 Hc|hs h ms m c ss sec c' r n f Hh Hp1 Hm Hp2 Hs Hp3 Hf1 Hf2 Hf3].
    + now rewrite (proj2 (cut_none 2 w) Hc).
    + rewrite (cut_number_iff 2 hs h r Hh). unfold parse_hour.
      rewrite (proj2 (unit2_iff 8 24 hs h (Hno _ _ _ Hh) ltac:(vm_compute; discriminate) (number_bytes _ _ _ Hh))) by (split; [exact Hh|lia]).
      cbn [bind]. rewrite (proj2 (trim_padded _ _ _) Hp), (proj2 (cut_none 2 w) Hc). reflexivity.
    + rewrite (cut_number_iff 2 hs h c Hh). unfold parse_hour, parse_minute.
      rewrite (proj2 (unit2_iff 8 24 hs h (Hno _ _ _ Hh) ltac:(vm_compute; discriminate) (number_bytes _ _ _ Hh))) by (split; [exact Hh|lia]).
      cbn [bind]. rewrite (proj2 (trim_padded _ _ _) Hp1), (cut_number_iff 2 ms m r Hm).
      rewrite (proj2 (unit2_iff 8 60 ms m (Hno _ _ _ Hm) ltac:(vm_compute; discriminate) (number_bytes _ _ _ Hm))) by (split; [exact Hm|lia]).
      cbn [bind]. rewrite (proj2 (trim_padded _ _ _) Hp2), (proj2 (cut_none 2 w) Hc). reflexivity.
    + rewrite (cut_number_iff 2 hs h c Hh). unfold parse_hour, parse_minute, parse_second, parse_nano.
      rewrite (proj2 (unit2_iff 8 24 hs h (Hno _ _ _ Hh) ltac:(vm_compute; discriminate) (number_bytes _ _ _ Hh))) by (split; [exact Hh|lia]).
      cbn [bind]. rewrite (proj2 (trim_padded _ _ _) Hp1), (cut_number_iff 2 ms m c' Hm).
      rewrite (proj2 (unit2_iff 8 60 ms m (Hno _ _ _ Hm) ltac:(vm_compute; discriminate) (number_bytes _ _ _ Hm))) by (split; [exact Hm|lia]).
      cbn [bind]. rewrite (proj2 (trim_padded _ _ _) Hp2), (cut_number_iff 2 ss sec r Hs).
      rewrite (proj2 (unit2_iff 8 61 ss sec (Hno _ _ _ Hs) ltac:(vm_compute; discriminate) (number_bytes _ _ _ Hs))) by (split; [exact Hs|lia]).
      cbn [bind]. rewrite (proj2 (trim_padded _ _ _) Hp3).
      rewrite (proj2 (parse_unit_iff 32 999999999 f n (digits_no (ch "+") f Hf2 eq_refl) ltac:(vm_compute; discriminate))) by (repeat split; auto; lia).
      reflexivity.
Qed.

Theorem time_accepted s h m sec n :
  decompose_iso_time s = Ok (mk_time h m sec n) <->
  accepted_time s h m sec n /\ (h <= 24 /\ m <= 60 /\ sec <= 61 /\ n <= 999999999)%N.
Proof.
  change (decompose_iso_time s) with (read_time (before (ch "-") (before (ch "+") (trim_start (ch "T") s)))).
  set (w := before (ch "-") (before (ch "+") (trim_start (ch "T") s))).
  destruct (proj1 (zone_iff (trim_start (ch "T") s) w) eq_refl) as (z & He & Hw & Hz).
  rewrite (clock_iff w h m sec n (proj1 Hw)). split.
  - intros (H & Hr). split; [|exact Hr]. exists (trim_start (ch "T") s), w, z. split; [now apply trim_padded|]. auto.
  - intros ((a & w' & z' & Hp & Ha & Hw' & Hz' & Hc) & Hr). split; [|exact Hr]. apply trim_padded in Hp.
    assert (Ew : before (ch "-") (before (ch "+") a) = w') by (apply zone_iff; now exists z').
    replace w with w'; [exact Hc|]. unfold w. rewrite Hp. now symmetry.
Qed.
