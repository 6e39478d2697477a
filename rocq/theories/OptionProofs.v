(** Proofs about the options of [decimal] and [date_time]. *)
From Verif Require Import Base BaseFacts LexerModel ValueModel CommandModel IsoModel FormatterModel FormatterSpec FormatterProofs OptionSpec.

(** ** Tables *)
Lemma sign_display_ok s x : sign_display s = Ok x <-> In (s, x) sign_table.
Proof.
  unfold sign_display. split.
  - intros H. repeat match type of H with (if ueqb s ?w then _ else _) = _ => destruct (ueqb_spec s w) as [->|] end; try discriminate; injection H as <-; cbn [In sign_table]; auto 10.
  - intros H. cbn [In sign_table] in H. destruct H as [H|[H|[H|[H|[H|[]]]]]]; injection H as <- <-; reflexivity.
Qed.
Lemma grouping_ok s x : decimal_grouping_display s = Ok x <-> In (s, x) group_table.
Proof.
  unfold decimal_grouping_display. split.
  - intros H. repeat match type of H with (if ueqb s ?w then _ else _) = _ => destruct (ueqb_spec s w) as [->|] end; try discriminate; injection H as <-; cbn [In group_table]; auto 10.
  - intros H. cbn [In group_table] in H. destruct H as [H|[H|[H|[H|[]]]]]; injection H as <- <-; reflexivity.
Qed.
Lemma length_option_ok w s x : length_option w s = Ok x <-> In (s, x) length_table.
Proof.
  unfold length_option. split.
  - intros H. repeat match type of H with (if ueqb s ?w then _ else _) = _ => destruct (ueqb_spec s w) as [->|] end; try discriminate; injection H as <-; cbn [In length_table]; auto 10.
  - intros H. cbn [In length_table] in H. destruct H as [H|[H|[H|[H|[]]]]]; injection H as <- <-; reflexivity.
Qed.

(** ** Options *)
(** An option that is not mentioned keeps what it was before. *)
Definition option_from {A} (table : list (ustr * A)) (m : amap ustr) (k : ustr) (before x : option A) : Prop :=
  match mget k m with
  | None => x = before
  | Some v => exists y, x = Some y /\ In (v, y) table
  end.
Lemma option_from_none {A} (table : list (ustr * A)) m k x : option_from table m k None x <-> option_is table m k x.
Proof. reflexivity. Qed.
Lemma option_from_cons {A} (table : list (ustr * A)) m k k0 v b x : k <> k0 -> option_from table ((k0, v) :: m) k b x <-> option_from table m k b x.
Proof. intros H. unfold option_from. cbn [mget]. destruct (ueqb_spec k k0); [congruence|]. reflexivity. Qed.
Lemma option_from_same {A} (table : list (ustr * A)) m k v b x : ~ In k (mkeys m) -> option_from table ((k, v) :: m) k b x <->
  exists y, In (v, y) table /\ option_from table m k (Some y) x.
Proof.
  intros H. apply mget_None_keys in H. unfold option_from. cbn [mget]. rewrite ueqb_refl, H. split; [intros (y & -> & Hy); eauto|intros (y & Hy & ->); eauto].
Qed.
Lemma only_cons k v m ks : only_options ((k, v) :: m) ks <-> In k ks /\ only_options m ks.
Proof. unfold only_options. cbn [mkeys map fst In]. split; [intros H; split; auto|]. intros (H1 & H2) x [<-|Hx]; auto. Qed.

Lemma decimal_options_ok ph m : NoDup (mkeys m) -> forall s0 g0 s g, decimal_options ph m s0 g0 = Ok (s, g) <->
  only_options m [us "sign"; us "group"] /\ option_from sign_table m (us "sign") s0 s /\ option_from group_table m (us "group") g0 g.
Proof.
  induction m as [|(k, v) m IH]; intros Hn s0 g0 s g.
  - cbn. unfold option_from. cbn. split; [intros [= <- <-]; repeat split; auto; intros ? []|]. intros (_ & -> & ->). reflexivity.
  - cbn [mkeys map fst] in Hn. apply NoDup_cons_iff in Hn as (Hk & Hn). rewrite only_cons. cbn [decimal_options].
    destruct (ueqb_spec k (us "sign")) as [->|N1]; [|destruct (ueqb_spec k (us "group")) as [->|N2]].
    + rewrite option_from_same, option_from_cons; [|discriminate|exact Hk]. split.
      * intros H. apply bind_Ok in H as (y & H1 & H2). apply sign_display_ok in H1. apply IH in H2 as (A1 & A2 & A3); [|exact Hn]. cbn [In]. repeat split; auto. eauto.
      * intros ((_ & A1) & (y & Hy & A2) & A3). apply sign_display_ok in Hy. rewrite Hy. cbn. apply IH; auto.
    + rewrite option_from_same, option_from_cons; [|discriminate|exact Hk]. split.
      * intros H. apply bind_Ok in H as (y & H1 & H2). apply grouping_ok in H1. apply IH in H2 as (A1 & A2 & A3); [|exact Hn]. cbn [In]. repeat split; auto. eauto.
      * intros ((_ & A1) & A2 & (y & Hy & A3)). apply grouping_ok in Hy. rewrite Hy. cbn. apply IH; auto.
    + split; [discriminate|]. intros ((H & _) & _). cbn [In] in H. destruct H as [H|[H|[]]]; congruence.
Qed.

Definition calendar_from (fe : fmtenv) (locale : ustr) (m : amap ustr) (before x : option ustr) : Prop :=
  match mget (us "calendar") m with
  | None => x = before
  | Some c => In c calendar_names /\ exists l, fe_locale fe (calendar_locale locale c) = Some l /\ x = Some l
  end.
Lemma calendar_from_cons fe locale m k0 v b x : us "calendar" <> k0 -> calendar_from fe locale ((k0, v) :: m) b x <-> calendar_from fe locale m b x.
Proof. intros H. unfold calendar_from. cbn [mget]. destruct (ueqb_spec (us "calendar") k0); [congruence|]. reflexivity. Qed.
Lemma umem_in s l : umem s l = true <-> In s l.
Proof.
  unfold umem. rewrite existsb_exists. split; [intros (x & Hx & E); apply ueqb_eq in E; now subst|]. intros H. exists s. split; [exact H|apply ueqb_refl].
Qed.
Lemma date_time_options_ok fe locale ph m : NoDup (mkeys m) -> forall d0 t0 c0 d t c, date_time_options fe locale ph m d0 t0 c0 = Ok (d, t, c) <->
  only_options m [us "date"; us "time"; us "calendar"] /\ option_from length_table m (us "date") d0 d /\ option_from length_table m (us "time") t0 t /\
  calendar_from fe locale m c0 c.
Proof.
  induction m as [|(k, v) m IH]; intros Hn d0 t0 c0 d t c.
  - cbn. unfold option_from, calendar_from. cbn. split; [intros [= <- <- <-]; repeat split; auto; intros ? []|]. intros (_ & -> & -> & ->). reflexivity.
  - cbn [mkeys map fst] in Hn. apply NoDup_cons_iff in Hn as (Hk & Hn). rewrite only_cons. cbn [date_time_options].
    destruct (ueqb_spec k (us "date")) as [->|N1]; [|destruct (ueqb_spec k (us "time")) as [->|N2]; [|destruct (ueqb_spec k (us "calendar")) as [->|N3]]].
    + rewrite option_from_same, option_from_cons, calendar_from_cons by first [discriminate|exact Hk]. split.
      * intros H. apply bind_Ok in H as (y & H1 & H2). apply length_option_ok in H1. apply IH in H2 as (A1 & A2 & A3); [|exact Hn]. cbn [In]. repeat split; auto; try tauto. eauto.
      * intros ((_ & A1) & (y & Hy & A2) & A3). unfold date_length. apply (length_option_ok (us "date")) in Hy. rewrite Hy. cbn. apply IH; auto.
    + rewrite option_from_same, option_from_cons, calendar_from_cons by first [discriminate|exact Hk]. split.
      * intros H. apply bind_Ok in H as (y & H1 & H2). apply length_option_ok in H1. apply IH in H2 as (A1 & A2 & A3); [|exact Hn]. cbn [In]. repeat split; auto; try tauto.
        destruct A3; eauto.
      * intros ((_ & A1) & A2 & (y & Hy & A3) & A4). unfold time_length. apply (length_option_ok (us "time")) in Hy. rewrite Hy. cbn. apply IH; auto.
    + rewrite !option_from_cons by discriminate. unfold calendar_from at 1. cbn [mget]. rewrite ueqb_refl.
      destruct (umem v calendars) eqn:Em; cbn [negb].
      * apply umem_in in Em. change calendars with calendar_names in Em. split.
        -- intros H. apply bind_Ok in H as (y & H1 & H2). apply ok_or_ok in H1. apply IH in H2 as (A1 & A2 & A3 & A4); [|exact Hn]. unfold calendar_from in A4.
           apply mget_None_keys in Hk. rewrite Hk in A4. cbn [In]. repeat split; auto. eauto.
        -- intros ((_ & A1) & A2 & A3 & _ & l & Hl & ->). rewrite Hl. cbn. apply IH; [exact Hn|]. split; [exact A1|]. split; [exact A2|]. split; [exact A3|].
           unfold calendar_from. apply mget_None_keys in Hk. now rewrite Hk.
      * split; [discriminate|]. intros (_ & _ & _ & H & _). apply umem_in in H. change calendar_names with calendars in H. congruence.
    + split; [discriminate|]. intros ((H & _) & _). cbn [In] in H. destruct H as [H|[H|[H|[]]]]; congruence.
Qed.

(** ** Effect *)
Lemma format_decimal_ok fe locale sign group v w : format_decimal fe locale sign group v = Ok w <->
  exists f d, fe_decimal fe locale group = Some f /\ number_value fe v d /\ w = f (match sign with Some s => fe_sign fe s d | None => d end).
Proof.
  unfold format_decimal. split.
  - intros H. apply bind_Ok in H as (f & H1 & H2). apply ok_or_ok in H1. apply bind_Ok in H2 as (d & H2 & H3). apply number_of_ok in H2. injection H3 as <-. eauto 6.
  - intros (f & d & H1 & H2 & ->). apply (number_of_ok fe (us "PatternDecimal")) in H2. rewrite H1, H2. reflexivity.
Qed.

(** An environment in which the lengths and the calendar are always the given ones. *)
Definition fixed_env (fe : fmtenv) (loc : ustr) (d t : len_opt) : fmtenv :=
  mk_fmtenv (fe_unsigned fe) (fe_integer fe) (fe_float fe) (fe_sign fe) (fe_decimal fe) (fe_cardinal fe) (fe_ordinal fe)
    (fun _ _ _ => fe_datetime fe loc d t) (fun _ _ => fe_date fe loc d) (fun _ _ => fe_time fe loc t) (fe_valid_date fe) (fe_locale fe).
Lemma fixed_moment fe loc d t v m : moment_value (fixed_env fe loc d t) v m <-> moment_value fe v m.
Proof.
  split; (intros H; destruct H;
    [apply mv_date|apply mv_time|apply mv_both|now apply mv_string_date|now apply mv_string_time|now apply mv_string_both|now apply mv_string_many]).
Qed.
Lemma format_date_time_ok fe locale d t c v w : format_date_time fe locale d t c v = Ok w <->
  exists m, moment_value fe v m /\ shown_with fe (match c with Some l => l | None => locale end) (or_medium d) (or_medium t) m w.
Proof.
  change (format_date_time fe locale d t c v) with
    (format_date_time (fixed_env fe (match c with Some l => l | None => locale end) (or_medium d) (or_medium t)) locale None None None v).
  rewrite date_time_ok. split; intros (m & H1 & H2); exists m; (split; [eapply fixed_moment; exact H1|]); destruct m; exact H2.
Qed.

(** ** Calendars *)
Lemma is_prefix_iff p s : is_prefix p s = true <-> exists b, s = p ++ b.
Proof.
  revert s. induction p as [|a p IH]; intros s; cbn [is_prefix]; [split; [now exists s|reflexivity]|].
  destruct s as [|b s]; [split; [discriminate|intros (x & H); discriminate]|]. rewrite Bool.andb_true_iff, N.eqb_eq, IH. split.
  - intros (-> & x & ->). now exists x.
  - intros (x & [= -> ->]). split; [reflexivity|now exists x].
Qed.
(** What [find_str] finds is the first occurrence. *)
Lemma find_str_some p s a b : find_str p s = Some (a, b) -> s = a ++ b /\ is_prefix p b = true /\ forall x y, s = x ++ y -> is_prefix p y = true -> List.length a <= List.length x.
Proof.
  revert a. induction s as [|c s IH]; intros a; cbn [find_str].
  - destruct (is_prefix p []) eqn:Ep; [|discriminate]. intros [= <- <-]. repeat split; auto. intros. apply Nat.le_0_l.
  - destruct (is_prefix p (c :: s)) eqn:Ep.
    + intros [= <- <-]. repeat split; auto. intros. apply Nat.le_0_l.
    + destruct (find_str p s) as [(a', b')|]; [|discriminate]. intros [= <- <-]. destruct (IH a' eq_refl) as (E & H1 & H2). split; [cbn; now rewrite E at 1|].
      split; [exact H1|]. intros [|z x] y Hs Hy; [cbn in Hs; subst y; congruence|]. injection Hs as _ Hs. cbn [List.length]. apply le_n_S. eauto.
Qed.
Lemma find_str_none p s : find_str p s = None -> ~ occurs p s.
Proof.
  induction s as [|c s IH]; cbn [find_str]; intros H (a & b & E).
  - destruct (is_prefix p []) eqn:Ep; [discriminate|]. assert (is_prefix p [] = true); [|congruence]. apply is_prefix_iff. symmetry in E. apply app_eq_nil in E as (-> & E). now exists b.
  - destruct (is_prefix p (c :: s)) eqn:Ep; [discriminate|]. destruct a as [|x a].
    + assert (is_prefix p (c :: s) = true); [|congruence]. apply is_prefix_iff. now exists b.
    + injection E as _ E. destruct (find_str p s) as [(?, ?)|]; [discriminate|]. apply IH; [reflexivity|]. now exists a, b.
Qed.
Lemma find_str_absent p s : ~ occurs p s -> find_str p s = None.
Proof.
  intros H. destruct (find_str p s) as [(a, b)|] eqn:E; [|reflexivity]. apply find_str_some in E as (-> & Hb & _). apply is_prefix_iff in Hb as (x & ->). destruct H. now exists a, x.
Qed.
(** The first occurrence is at [a] if there is none in [a] and all but the last character of the word. *)
Lemma find_str_first q c a b : ~ occurs (q ++ [c]) (a ++ q) -> find_str (q ++ [c]) (a ++ (q ++ [c]) ++ b) = Some (a, (q ++ [c]) ++ b).
Proof.
  intros H. destruct (find_str (q ++ [c]) (a ++ (q ++ [c]) ++ b)) as [(a', b')|] eqn:E.
  - apply find_str_some in E as (Es & Hp & Hmin). assert (Hle : List.length a' <= List.length a).
    { apply (Hmin a ((q ++ [c]) ++ b)); [reflexivity|]. apply is_prefix_iff. now exists b. }
    apply is_prefix_iff in Hp as (b'' & ->). clear Hmin. assert (Ha : exists r, a = a' ++ r).
    { clear H. revert a Es Hle. induction a' as [|z a' IH]; intros a Es Hle; [now exists a|]. destruct a as [|z' a]; [cbn in Hle; lia|]. cbn in Es, Hle. injection Es as -> Es.
      destruct (IH a Es ltac:(lia)) as (r & ->). now exists r. }
    destruct Ha as (r & ->). rewrite <- app_assoc in Es. apply app_inv_head in Es. destruct r as [|z r].
    { rewrite app_nil_r. cbn in Es. now rewrite Es. }
    destruct H. assert (Hl : exists y, (z :: r) ++ q = (q ++ [c]) ++ y).
    { rewrite (app_assoc (z :: r)), <- !app_assoc in Es.
      assert (G : forall (u w x y : ustr), u ++ w = x ++ y -> List.length x <= List.length u -> exists v, u = x ++ v).
      { clear. intros u w x. revert u. induction x as [|e x IH]; intros u y E Hl; [now exists u|]. destruct u as [|e' u]; [cbn in Hl; lia|]. cbn in E, Hl. injection E as -> E.
        destruct (IH u y E ltac:(lia)) as (v & ->). now exists v. }
      apply (G _ ([c] ++ b) _ b''); [now rewrite <- app_assoc, Es, app_assoc|]. rewrite !app_length. cbn. lia. }
    destruct Hl as (y & Hy). exists a', y. now rewrite <- app_assoc, Hy.
  - apply find_str_none in E. destruct E. now exists a, b.
Qed.

Lemma upto_hyphens_word n s x : ~ In (ch "-") s -> upto_hyphens n (s ++ x) = (let (y, b) := upto_hyphens n x in (s ++ y, b)).
Proof.
  induction s as [|c s IH]; intros H; [cbn; now destruct (upto_hyphens n x)|]. cbn [app upto_hyphens].
  destruct (N.eqb_spec c (ch "-")) as [->|_]; [destruct H; now left|]. rewrite IH by (intros K; apply H; now right). now destruct (upto_hyphens n x).
Qed.
Lemma upto_key y : upto_hyphens 3 (us "-u-ca-" ++ y) = (let (z, b) := upto_hyphens 0 y in (us "-u-ca-" ++ z, b)).
Proof. change (us "-u-ca-") with [ch "-"; ch "u"; ch "-"; ch "c"; ch "a"; ch "-"]. cbn [app upto_hyphens]. cbn [N.eqb]. destruct (upto_hyphens 0 y). reflexivity. Qed.
Lemma upto_calendar x r : ~ In (ch "-") x -> (r = [] \/ exists r', r = ch "-" :: r') -> upto_hyphens 3 (us "-u-ca-" ++ x ++ r) =
  match r with [] => (us "-u-ca-" ++ x, false) | _ => (us "-u-ca-" ++ x ++ [ch "-"], true) end.
Proof.
  intros Hx Hr. rewrite upto_key, upto_hyphens_word by exact Hx. destruct Hr as [->|(r' & ->)]; [cbn [upto_hyphens]; now rewrite app_nil_r|]. cbn [upto_hyphens]. rewrite N.eqb_refl. reflexivity.
Qed.
Lemma occurs_more p q s : occurs (p ++ q) s -> occurs p s.
Proof. intros (a & b & ->). exists a, (q ++ b). now rewrite <- !app_assoc. Qed.
Lemma replace_first f old new a r : find_str old (a ++ old ++ r) = Some (a, old ++ r) -> ~ occurs old r -> replace_all (S f) old new (a ++ old ++ r) = a ++ new ++ r.
Proof.
  intros H1 H2. cbn [replace_all]. rewrite H1. rewrite skipn_app, skipn_all, Nat.sub_diag. cbn [app skipn]. f_equal. f_equal.
  destruct f; cbn [replace_all]; [reflexivity|]. now rewrite (find_str_absent _ _ H2).
Qed.
(** The old word begins with [-u-ca-], whose first occurrence is where it is. *)
Lemma find_longer p q a r : find_str p (a ++ (p ++ q) ++ r) = Some (a, (p ++ q) ++ r) -> find_str (p ++ q) (a ++ (p ++ q) ++ r) = Some (a, (p ++ q) ++ r).
Proof.
  intros H. apply find_str_some in H as (_ & _ & Hmin). destruct (find_str (p ++ q) (a ++ (p ++ q) ++ r)) as [(a', b')|] eqn:E.
  - apply find_str_some in E as (Es & Hp & Hmin'). assert (L1 : List.length a' <= List.length a).
    { apply (Hmin' a ((p ++ q) ++ r)); [reflexivity|]. apply is_prefix_iff. now exists r. }
    assert (L2 : List.length a <= List.length a').
    { apply (Hmin a' b' Es). apply is_prefix_iff in Hp as (x & ->). apply is_prefix_iff. exists (q ++ x). now rewrite <- app_assoc. }
    assert (G : forall (u w x y : ustr), u ++ w = x ++ y -> List.length u = List.length x -> u = x /\ w = y).
    { clear. induction u as [|e u IH]; intros w [|e' x] y E Hl; try discriminate; [auto|]. injection E as -> E. injection Hl as Hl. destruct (IH _ _ _ E Hl) as (-> & ->). auto. }
    destruct (G _ _ _ _ Es ltac:(lia)) as (-> & ->). reflexivity.
  - apply find_str_none in E. destruct E. exists a, r. reflexivity.
Qed.
Lemma calendar_absent locale cal : ~ occurs calendar_key locale -> calendar_locale locale cal = locale ++ calendar_key ++ cal.
Proof. intros H. unfold calendar_locale. change (us "-u-ca-") with calendar_key. now rewrite (find_str_absent _ _ H). Qed.
Lemma calendar_present before x r cal : ~ occurs calendar_key (before ++ us "-u-ca") -> ~ In (ch "-") x -> ~ occurs calendar_key r ->
  (r = [] \/ exists r', r = ch "-" :: r') ->
  calendar_locale (before ++ calendar_key ++ x ++ r) cal = before ++ calendar_key ++ cal ++ r.
Proof.
  intros H1 Hx Hr Hs. assert (Hf : forall y, find_str calendar_key (before ++ calendar_key ++ y) = Some (before, calendar_key ++ y)) by (intros y; now apply (find_str_first (us "-u-ca") (ch "-"))).
  unfold calendar_locale. change (us "-u-ca-") with calendar_key. rewrite Hf. unfold calendar_key at 1. rewrite (upto_calendar _ _ Hx Hs).
  assert (Hlen : exists f, List.length (before ++ calendar_key ++ x ++ r) = S f).
  { rewrite !app_length. cbn [calendar_key List.length]. exists (List.length (before) + (5 + List.length (x ++ r))). rewrite app_length. cbn. lia. }
  destruct Hlen as (f & ->). change (us "-u-ca-") with calendar_key. destruct Hs as [->|(r' & ->)].
  - rewrite !app_nil_r. pose proof (replace_first f (calendar_key ++ x) (calendar_key ++ cal) before []) as K. rewrite !app_nil_r in K. apply K.
    + pose proof (find_longer calendar_key x before []) as L. rewrite !app_nil_r in L. apply L. apply Hf.
    + intros (a & b & E). destruct a; discriminate.
  - set (old := calendar_key ++ x ++ [ch "-"]). replace (before ++ calendar_key ++ x ++ ch "-" :: r') with (before ++ old ++ r') by (unfold old; now rewrite <- !app_assoc).
    rewrite replace_first.
    + rewrite <- !app_assoc. reflexivity.
    + pose proof (find_longer calendar_key (x ++ [ch "-"]) before r') as L. apply L. rewrite <- app_assoc. apply Hf.
    + intros K. apply occurs_more in K as (a & b & ->). apply Hr. exists (ch "-" :: a), b. reflexivity.
Qed.
