(** What one item of an accepted string does is what the specification says. *)
From Verif Require Import Base BaseFacts LexerModel LexerSpec TreeModel TreeSpec ValueModel CommandModel IsoModel
  FormatterModel FormatterAbs FormatterActs FormatterSpec.
Local Opaque us.

(** ** Splitting strings *)
Lemma split_none c s : ~ In c s -> split_on c s = [s].
Proof.
  induction s as [|x s IH]; intros H; [reflexivity|]. cbn [split_on].
  destruct (N.eqb_spec x c) as [->|_]; [destruct H; now left|]. rewrite IH; [reflexivity|]. intros Hi. apply H. now right.
Qed.
Lemma split_at c a b : ~ In c a -> split_on c (a ++ c :: b) = a :: split_on c b.
Proof.
  induction a as [|x a IH]; intros H; cbn [app split_on]; [now rewrite N.eqb_refl|].
  destruct (N.eqb_spec x c) as [->|_]; [destruct H; now left|]. rewrite IH; [reflexivity|]. intros Hi. apply H. now right.
Qed.
Lemma split_cases (c : N) (s : ustr) : ~ In c s \/ exists a b, ~ In c a /\ s = a ++ c :: b.
Proof.
  destruct (in_dec N.eq_dec c s) as [H|H]; [right|now left].
  induction s as [|x s IH]; [destruct H|]. destruct (N.eq_dec x c) as [->|Hne].
  - exists [], s. split; [now intros []|reflexivity].
  - destruct IH as (a & b & H1 & ->); [destruct H; [congruence|assumption]|].
    exists (x :: a), b. split; [|reflexivity]. intros [?|?]; [congruence|contradiction].
Qed.

(** ** Selector maps *)
Lemma pairs_from_get sels : forall m k, mget k (pairs_from m sels) = if umem k (map fst sels) then Some k else mget k m.
Proof.
  induction sels as [|[s b] sels IH]; intros m k; [reflexivity|]. cbn [pairs_from fold_left fst map].
  change (fold_left _ sels ?m) with (pairs_from m sels). rewrite IH.
  cbn [umem existsb map fst]. change (existsb (ueqb k) (map fst sels)) with (umem k (map fst sels)).
  destruct (umem k (map fst sels)); [now rewrite Bool.orb_true_r|]. rewrite Bool.orb_false_r.
  rewrite mget_minsert. destruct (ueqb_spec k s) as [->|]; reflexivity.
Qed.
Lemma pairs_get sels k : mget k (pairs sels) = if umem k (map fst sels) then Some k else None.
Proof. unfold pairs. now rewrite pairs_from_get. Qed.
Lemma pairs_from_same sels : forall m, (forall k v, In (k, v) m -> k = v) ->
  forall k v, In (k, v) (pairs_from m sels) -> k = v.
Proof.
  induction sels as [|[s b] sels IH]; intros m Hm k v; [apply Hm|]. cbn [pairs_from fold_left fst].
  change (fold_left _ sels ?m) with (pairs_from m sels). apply IH. clear IH. intros k' v'.
  induction m as [|[k0 v0] m IH]; cbn [minsert].
  - intros [[= <- <-]|[]]. reflexivity.
  - destruct (ueqb_spec s k0) as [->|_]; intros [H|H].
    + injection H as <- <-. reflexivity.
    + apply Hm. now right.
    + apply Hm. now left.
    + apply IH; [|exact H]. intros; apply Hm. now right.
Qed.
Lemma pairs_same sels k v : In (k, v) (pairs sels) -> k = v.
Proof. apply pairs_from_same. intros ? ? []. Qed.
Lemma pairs_nil sels : pairs sels = [] -> sels = [].
Proof.
  intros H. destruct sels as [|[s b] sels]; [reflexivity|].
  pose proof (pairs_get ((s, b) :: sels) s) as E. rewrite H in E. cbn in E. rewrite ueqb_refl in E. discriminate.
Qed.

(** Any option of [decimal] and [date_time] is rejected, because its value is taken to be its own name. *)
Lemma decimal_options_nil ph l s g x : (forall k v, In (k, v) l -> k = v) ->
  decimal_options ph l s g = Ok x -> l = [] /\ x = (s, g).
Proof.
  destruct l as [|[k v] l]; cbn [decimal_options]; [intros _ [= <-]; auto|].
  intros H. rewrite <- (H k v (or_introl eq_refl)).
  destruct (ueqb_spec k (us "sign")) as [->|_]; [discriminate|].
  destruct (ueqb_spec k (us "group")) as [->|_]; discriminate.
Qed.
Lemma date_time_options_nil fe locale ph l a b c x : (forall k v, In (k, v) l -> k = v) ->
  date_time_options fe locale ph l a b c = Ok x -> l = [] /\ x = (a, b, c).
Proof.
  destruct l as [|[k v] l]; cbn [date_time_options]; [intros _ [= <-]; auto|].
  intros H. rewrite <- (H k v (or_introl eq_refl)).
  destruct (ueqb_spec k (us "date")) as [->|_]; [discriminate|].
  destruct (ueqb_spec k (us "time")) as [->|_]; [discriminate|].
  destruct (ueqb_spec k (us "calendar")) as [->|_]; discriminate.
Qed.

(** ** Commands *)
Lemma cmd_args_iff ps l : cmd_args ps = Ok l <-> exists args, ps = map SId args /\ l = map VString args.
Proof.
  revert l. induction ps as [|p ps IH]; intros l.
  - split; [intros [= <-]; now exists []|]. intros ([|] & E & ->); [reflexivity|discriminate].
  - unfold cmd_args. cbn [fold_right]. change (fold_right _ (Ok []) ps) with (cmd_args ps). destruct p as [w|].
    + split.
      * intros H. apply bind_Ok in H as (l' & H1 & H2). injection H2 as <-. apply IH in H1 as (args & -> & ->).
        now exists (w :: args).
      * intros ([|w' args] & E & ->); [discriminate|]. injection E as -> ->. cbn [map].
        rewrite (proj2 (IH (map VString args))); [reflexivity|]. now exists args.
    + split; [discriminate|]. intros ([|w' args] & E & _); discriminate.
Qed.
Lemma delayed_ok vals args :
  delayed_parameters vals (map VString args) = Ok (map (parameter vals) args).
Proof. induction args as [|w args IH]; [reflexivity|]. cbn [map delayed_parameters]. now rewrite IH. Qed.
Lemma run_command_ok reg name l t : run_command reg name l = Ok t <->
  exists f, mget name reg = Some f /\ f (VString name :: l) = Ok t.
Proof.
  unfold run_command, creg_command. destruct (mget name reg) as [f|]; cbn.
  - split; [|intros (g & [= <-] & ->); reflexivity]. intros H. exists f. split; [reflexivity|].
    destruct (f _); try discriminate H. now injection H as ->.
  - split; [discriminate|]. now intros (f & ? & _).
Qed.
Lemma format_command_ok reg vals name args t : format_command reg vals (VString name :: map VString args) = Ok t <->
  exists f, mget name reg = Some f /\ f (VString name :: map (parameter vals) args) = Ok t.
Proof. cbn [format_command]. rewrite delayed_ok. apply (run_command_ok reg name). Qed.

(** ** Values *)
Lemma number_of_ok fe kind v d : number_of fe kind v = Ok d <-> number_value fe v d.
Proof.
  split.
  - intros H. destruct v; try discriminate; cbn in H; try (injection H as <-; constructor).
    destruct (fe_float fe bits) eqn:E; [|discriminate]. injection H as <-. now constructor.
  - intros H. destruct H as [d|n|z|b d E]; cbn; try reflexivity. now rewrite E.
Qed.

Lemma ok_or_ok {E A} (o : option A) (e : E) a : ok_or o e = Ok a <-> o = Some a.
Proof. destruct o; cbn; split; congruence. Qed.

Lemma date_time_ok fe locale v t : format_date_time fe locale None None None v = Ok t <->
  exists m, moment_value fe v m /\ shown fe locale m t.
Proof.
  assert (Gd : forall d, (let! f := ok_or (fe_date fe locale LnMedium) FIcu in ok_or (f d) FIcu) = Ok t <->
                 shown fe locale (MDate d) t).
  { intros d. cbn. split.
    - intros H. apply bind_Ok in H as (f & H1 & H2). apply ok_or_ok in H1, H2. eauto.
    - intros (f & -> & H). cbn. now rewrite H. }
  assert (Gt : forall x, (let! f := ok_or (fe_time fe locale LnMedium) FIcu in Ok (f x)) = Ok t <->
                 shown fe locale (MTime x) t).
  { intros x. cbn. split.
    - intros H. apply bind_Ok in H as (f & H1 & H2). apply ok_or_ok in H1. injection H2 as <-. eauto.
    - intros (f & -> & <-). reflexivity. }
  assert (Gb : forall d x, (let! f := ok_or (fe_datetime fe locale LnMedium LnMedium) FIcu in ok_or (f d x) FIcu) = Ok t <->
                 shown fe locale (MBoth d x) t).
  { intros d x. cbn. split.
    - intros H. apply bind_Ok in H as (f & H1 & H2). apply ok_or_ok in H1, H2. eauto.
    - intros (f & -> & H). cbn. now rewrite H. }
  assert (Dd : forall s d, map_err FIso (decompose_iso_date (fe_valid_date fe) s) = Ok d <->
                 decompose_iso_date (fe_valid_date fe) s = Ok d).
  { intros s d. destruct (decompose_iso_date _ s); cbn; split; congruence. }
  assert (Dt : forall s d, map_err FIso (decompose_iso_time s) = Ok d <-> decompose_iso_time s = Ok d).
  { intros s d. destruct (decompose_iso_time s); cbn; split; congruence. }
  unfold format_date_time. cbv zeta. split.
  - intros H. destruct v; try discriminate.
    + destruct (split_cases (ch "T") s) as [Hn|(a & b & Ha & ->)].
      * rewrite (split_none _ _ Hn) in H. apply bind_Ok in H as (d & H1 & H2). apply Dd in H1. apply Gd in H2.
        exists (MDate d). split; [now constructor|exact H2].
      * rewrite (split_at _ _ _ Ha) in H. destruct (split_cases (ch "T") b) as [Hb|(b1 & b2 & Hb1 & ->)].
        -- rewrite (split_none _ _ Hb) in H. destruct a as [|c a].
           ++ apply bind_Ok in H as (x & H1 & H2). apply Dt in H1. apply Gt in H2.
              exists (MTime x). split; [now constructor|exact H2].
           ++ apply bind_Ok in H as (d & H1 & H). apply bind_Ok in H as (x & H2 & H3).
              apply Dd in H1. apply Dt in H2. apply Gb in H3. exists (MBoth d x).
              split; [apply mv_string_both; auto; discriminate|exact H3].
        -- rewrite (split_at _ _ _ Hb1) in H.
           assert (Hs : exists q qs, split_on (ch "T") b2 = q :: qs).
           { destruct (split_cases (ch "T") b2) as [Hq|(q1 & q2 & Hq & ->)];
               [rewrite split_none by exact Hq|rewrite split_at by exact Hq]; eauto. }
           destruct Hs as (q & qs & Hs). rewrite Hs in H.
           apply bind_Ok in H as (d & H1 & H2). apply Dd in H1. apply Gd in H2.
           exists (MDate d). split; [|exact H2]. apply mv_string_many; auto. intros Hq. apply Hq.
           apply in_or_app. right. now left.
    + exists (MBoth d t0). split; [constructor|now apply Gb].
    + exists (MDate d). split; [constructor|now apply Gd].
    + exists (MTime t0). split; [constructor|now apply Gt].
  - intros (m & Hm & Hs). destruct Hm as [d|x|d x|s d Hn Hd|b x Hn Hx|a b d x Ha Hna Hnb Hd Hx|a b d Hna Hnb Hd].
    + now apply Gd.
    + now apply Gt.
    + now apply Gb.
    + rewrite (split_none _ _ Hn). rewrite Hd. cbn [bind map_err]. now apply Gd.
    + change (ch "T" :: b) with ([] ++ ch "T" :: b). rewrite split_at by now intros []. rewrite (split_none _ _ Hn).
      rewrite Hx. cbn [bind map_err]. now apply Gt.
    + rewrite (split_at _ _ _ Hna), (split_none _ _ Hnb). destruct a as [|c a]; [now destruct Ha|].
      rewrite Hd, Hx. cbn [bind map_err]. now apply Gb.
    + rewrite (split_at _ _ _ Hna). destruct (split_cases (ch "T") b) as [Hb|(b1 & b2 & Hb1 & ->)]; [now destruct Hnb|].
      rewrite (split_at _ _ _ Hb1).
      assert (Hq : exists q qs, split_on (ch "T") b2 = q :: qs).
      { destruct (split_cases (ch "T") b2) as [Hq|(q1 & q2 & Hq & ->)];
          [rewrite split_none by exact Hq|rewrite split_at by exact Hq]; eauto. }
      destruct Hq as (q & qs & ->). rewrite Hd. cbn [bind map_err]. now apply Gd.
Qed.

(** ** One item *)
Section Item.
  Variables (fe : fmtenv) (reg : cregistry) (locale : ustr) (vals : amap pvalue) (strs : amap (list sitem)).
  Notation rens := (renders fe reg locale vals strs by_selector by_selector).
  Notation ren := (rend fe reg locale vals strs by_selector by_selector).
  Definition act_means (x : act) (n : option ustr) (t : ustr) : Prop :=
    match x with
    | APure r => r = Ok t
    | AHash => n = Some t
    | ACall m u => exists body, mget m strs = Some body /\ rens u body t
    end.

  Lemma num_means sels d rules n t : act_means (num_act fe locale strs sels d rules) n t <->
    exists f branch body, fe_decimal fe locale None = Some f /\
      by_selector sels (plural_category (rules d)) branch /\ mget branch strs = Some body /\ rens (Some (f d)) body t.
  Proof.
    unfold num_act. destruct (fe_decimal fe locale None) as [f|].
    2:{ split; [discriminate|]. intros (f & ? & ? & ? & _). discriminate. }
    cbv zeta. rewrite pairs_get. destruct (umem _ (map fst sels)) eqn:Em.
    - apply umem_In in Em. destruct (mget (plural_category (rules d)) strs) as [body|] eqn:Eb.
      + cbn [act_means]. split.
        * intros (b & Hb & H). exists f, (plural_category (rules d)), b. repeat split; auto.
        * intros (f' & branch & b & [= <-] & (_ & ->) & Hb & H). eauto.
      + cbn [act_means]. split; [discriminate|]. intros (f' & branch & b & _ & (_ & ->) & Hb & _). congruence.
    - apply umem_nIn in Em. cbn [act_means]. split; [discriminate|]. intros (f' & branch & b & _ & (H & _) & _). contradiction.
  Qed.

  Lemma act_rend known main x n t : item_check fe reg locale known main x = Ok tt ->
    ren n x t <-> act_means (item_act fe reg locale vals strs x) n t.
  Proof.
    intros Hc. destruct x as [w| |ph [[kw sels]|]|ps].
    - cbn. split; [intros H; inversion H; reflexivity|intros [= <-]; constructor].
    - cbn. split; [intros H; inversion H; assumption|intros ->; now constructor].
    - cbn [item_act item_check] in *. unfold kw_act, kw_check in *.
      destruct (ueqb_spec kw (us "decimal")) as [->|N1].
      { apply bind_Ok in Hc as ([s g] & Hc & _). pose proof Hc as Hc'.
        apply decimal_options_nil in Hc' as (Hp & [= -> ->]); [|apply pairs_same]. apply pairs_nil in Hp as ->.
        cbn [act_means]. cbn [pairs pairs_from fold_left decimal_options]. unfold avalue. split.
        - intros H. inversion H; subst. rewrite H1. cbn [ok_or bind]. unfold format_decimal. rewrite H3. cbn [ok_or bind].
          rewrite (proj2 (number_of_ok fe _ v dec) H2). reflexivity.
        - intros H. apply bind_Ok in H as (v & H1 & H). cbn [bind] in H. apply ok_or_ok in H1.
          unfold format_decimal in H. apply bind_Ok in H as (f & H2 & H). apply ok_or_ok in H2.
          apply bind_Ok in H as (d & H3 & H). apply number_of_ok in H3. injection H as <-. econstructor; eauto. }
      destruct (ueqb_spec kw (us "date_time")) as [->|N2].
      { apply bind_Ok in Hc as ([[l1 l2] l3] & Hc & _). pose proof Hc as Hc'.
        apply date_time_options_nil in Hc' as (Hp & [= -> -> ->]); [|apply pairs_same]. apply pairs_nil in Hp as ->.
        cbn [act_means]. cbn [pairs pairs_from fold_left date_time_options]. unfold avalue. split.
        - intros H. inversion H; subst; try congruence. rewrite H1. cbn [ok_or bind]. apply date_time_ok. eauto.
        - intros H. apply bind_Ok in H as (v & H1 & H). cbn [bind] in H. apply ok_or_ok in H1.
          apply date_time_ok in H as (m & Hm & Hs). econstructor; eauto. }
      destruct (mget ph vals) as [v|] eqn:Ev.
      2:{ cbn [act_means]. split; [|discriminate]. intros H. inversion H; subst; congruence. }
      destruct (ueqb_spec kw (us "ordinal")) as [->|N3].
      { destruct (fe_ordinal fe locale) as [rules|] eqn:Er.
        2:{ cbn [act_means]. split; [|discriminate]. intros H. inversion H; subst; congruence. }
        destruct v; try (cbn [act_means]; split; [|discriminate]; intros H; inversion H; subst; congruence).
        rewrite num_means. split.
        - intros H. inversion H; subst; try congruence. assert (k = n0) as -> by congruence.
          assert (rules0 = rules) as -> by congruence. eauto 8.
        - intros (f & branch & body & H1 & H2 & H3 & H4). eapply rn_ordinal; eauto. }
      destruct (ueqb_spec kw (us "plural")) as [->|N4].
      { destruct (fe_cardinal fe locale) as [rules|] eqn:Er.
        2:{ cbn [act_means]. split; [|discriminate]. intros H. inversion H; subst; congruence. }
        destruct (number_of fe (us "PatternPlural") v) as [d|e| |] eqn:En;
          try (cbn [act_means]; split; [|discriminate]; intros H; inversion H; subst; try congruence;
               assert (v0 = v) as -> by congruence;
               match goal with Hn : number_value fe v _ |- _ => apply (number_of_ok fe (us "PatternPlural")) in Hn; congruence end).
        rewrite num_means. split.
        - intros H. inversion H; subst; try congruence. assert (v0 = v) as -> by congruence.
          assert (rules0 = rules) as -> by congruence.
          match goal with Hn : number_value fe v _ |- _ => apply (number_of_ok fe (us "PatternPlural")) in Hn;
            assert (dec = d) as -> by congruence end. eauto 8.
        - intros (f & branch & body & H1 & H2 & H3 & H4). apply number_of_ok in En. eapply rn_plural; eauto. }
      destruct (ueqb_spec kw (us "select")) as [->|N5]; [|discriminate Hc].
      change (value_text v) with (text_value v). destruct (text_value v) as [key|] eqn:Et.
      2:{ cbn [act_means]. split; [|discriminate]. intros H. inversion H; subst; congruence. }
      rewrite pairs_get. destruct (umem key (map fst sels)) eqn:Em.
      + apply umem_In in Em. cbn [act_means]. split.
        * intros H. inversion H; subst; try congruence. assert (v0 = v) as -> by congruence.
          assert (key0 = key) as -> by congruence.
          match goal with Hb : by_selector _ _ _ |- _ => destruct Hb as (_ & ->) end. eauto.
        * intros (body & H1 & H2). eapply rn_select; eauto. now split.
      + apply umem_nIn in Em. cbn [act_means]. split; [|discriminate].
        intros H. inversion H; subst; try congruence. assert (v0 = v) as -> by congruence.
        assert (key0 = key) as -> by congruence.
        match goal with Hb : by_selector _ _ _ |- _ => destruct Hb; contradiction end.
    - cbn [item_act act_means]. unfold avalue. split.
      + intros H. inversion H; subst. rewrite H1. cbn. unfold text_of. change (value_text v) with (text_value v). now rewrite H2.
      + intros H. apply bind_Ok in H as (v & H1 & H2). apply ok_or_ok in H1, H2. econstructor; eauto.
    - cbn [item_act act_means]. split.
      + intros H. inversion H as [| | | | | | | |name args f t' Hm Hf Ep|name args f t' Hm Hf Ep]; subst.
        * assert (E : cmd_parts (SId name :: map SId args) = Ok (name, false, map VString args)).
          { assert (Ea : cmd_args (map SId args) = Ok (map VString args)) by (apply cmd_args_iff; eauto).
            destruct args as [|w args]; [reflexivity|]. cbn [map cmd_parts] in *. rewrite Ea. reflexivity. }
          rewrite E. cbn [bind]. apply run_command_ok. eauto.
        * cbn [cmd_parts]. rewrite (proj2 (cmd_args_iff (map SId args) (map VString args))) by eauto.
          cbn [bind]. apply format_command_ok. eauto.
      + intros H. apply bind_Ok in H as ([[name delay] l] & H1 & H2).
        assert (Hp : exists args, l = map VString args /\
                  ps = if delay then SId name :: SDelay :: map SId args else SId name :: map SId args).
        { destruct ps as [|[w|] ps]; try discriminate H1. destruct ps as [|[w'|] ps]; cbn [cmd_parts] in H1.
          - injection H1 as <- <- <-. now exists [].
          - apply bind_Ok in H1 as (l' & H1 & E). injection E as <- <- <-. apply cmd_args_iff in H1 as (args & E & ->).
            exists args. now rewrite E.
          - apply bind_Ok in H1 as (l' & H1 & E). injection E as <- <- <-. apply cmd_args_iff in H1 as (args & -> & ->).
            now exists args. }
        destruct Hp as (args & -> & ->). destruct delay.
        * apply format_command_ok in H2 as (f & H2 & H3). eapply rn_delayed; eauto.
        * apply run_command_ok in H2 as (f & H2 & H3). eapply rn_command; eauto.
  Qed.
End Item.
