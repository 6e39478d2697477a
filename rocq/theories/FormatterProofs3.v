(** Termination, panics and histories of evaluation, for checked contents. *)
From Verif Require Import Base BaseFacts LexerModel LexerSpec TreeModel TreeSpec ValueModel CommandModel IsoModel
  FormatterModel FormatterAbs FormatterActs FormatterSpec FormatterProofs FormatterProofs2.
Local Opaque us.

(** ** What the checks establish *)
Section Checks.
  Variables (fe : fmtenv) (reg : cregistry) (locale : ustr).
  Notation item_check := (item_check fe reg locale).
  Notation items_check := (items_check fe reg locale).
  Notation group_check := (group_check fe reg locale).

  Lemma items_check_all known main l : items_check known main l = Ok tt -> forall x, In x l -> item_check known main x = Ok tt.
  Proof.
    induction l as [|y l IH]; intros H x Hx; [destruct Hx|]. cbn [FormatterAbs.items_check] in H.
    apply bind_Ok in H as ([] & H1 & H2). destruct Hx as [<-|Hx]; auto.
  Qed.
  Lemma group_check_all l : forall known known', group_check known l = Ok known' ->
    known' = known ++ map fst l /\
    (forall pre id x post, l = pre ++ (id, x) :: post ->
       ~ In id (known ++ map fst pre) /\ items_check (known ++ map fst pre) false x = Ok tt).
  Proof.
    induction l as [|[id x] l IH]; intros known known' H; cbn [FormatterAbs.group_check] in H.
    - injection H as <-. split; [cbn; now rewrite app_nil_r|]. intros pre id x post E. destruct pre; discriminate.
    - destruct (umem id known) eqn:E; [discriminate|]. apply umem_nIn in E. apply bind_Ok in H as ([] & H1 & H2).
      apply IH in H2 as (-> & H3). rewrite <- app_assoc. split; [reflexivity|].
      intros pre id' x' post Heq. destruct pre as [|y pre]; cbn [app] in Heq.
      + injection Heq as <- <- <-. cbn. rewrite app_nil_r. auto.
      + injection Heq as <- Heq. specialize (H3 _ _ _ _ Heq). rewrite <- app_assoc in H3. exact H3.
  Qed.

  (** The group's strings and the main string, with the names known when they are checked. *)
  Lemma content_check_all a : content_check fe reg locale a = Ok tt ->
    (forall pre id x post, group_of a = pre ++ (id, x) :: post ->
       ~ In id (us "_" :: map fst pre) /\ items_check (us "_" :: map fst pre) false x = Ok tt) /\
    items_check (us "_" :: map fst (group_of a)) true (fst a) = Ok tt.
  Proof.
    unfold content_check. intros H. apply bind_Ok in H as (known & H1 & H2).
    apply group_check_all in H1 as (-> & H1). auto.
  Qed.

  Lemma group_nodup a : content_check fe reg locale a = Ok tt -> NoDup (map fst (strings_of a)).
  Proof.
    intros H. apply content_check_all in H as (H & _). unfold strings_of. cbn [map fst].
    assert (G : forall l pre, group_of a = pre ++ l -> NoDup (us "_" :: map fst pre) -> NoDup (us "_" :: map fst (pre ++ l))).
    { induction l as [|[id x] l IH]; intros pre E Hn; [now rewrite app_nil_r|].
      replace (pre ++ (id, x) :: l) with ((pre ++ [(id, x)]) ++ l) by (now rewrite <- app_assoc).
      apply IH; [now rewrite <- app_assoc|]. rewrite map_app. cbn [map fst].
      change (us "_" :: map fst pre ++ [id]) with ((us "_" :: map fst pre) ++ [id]).
      apply (Permutation.Permutation_NoDup (l := id :: (us "_" :: map fst pre))).
      - change (id :: (us "_" :: map fst pre)) with ([id] ++ (us "_" :: map fst pre)). apply Permutation.Permutation_app_comm.
      - constructor; [apply (H pre id x l E)|exact Hn]. }
    apply (G (group_of a) [] eq_refl). constructor; [intros []|constructor].
  Qed.

  Lemma mget_nodup {V} (m : amap V) k v : NoDup (map fst m) -> In (k, v) m -> mget k m = Some v.
  Proof.
    induction m as [|[k' v'] m IH]; intros Hn Hi; [destruct Hi|]. cbn [map fst] in Hn. inversion Hn as [|? ? Hn1 Hn2]; subst.
    cbn [mget]. destruct Hi as [Hi|Hi].
    - injection Hi as -> ->. now rewrite ueqb_refl.
    - destruct (ueqb_spec k k') as [->|_]; [|auto]. exfalso. apply Hn1. apply in_map_iff. exists (k', v). auto.
  Qed.

  Lemma strings_checked a m l : content_check fe reg locale a = Ok tt -> mget m (strings_of a) = Some l ->
    all_checked fe reg locale l.
  Proof.
    intros Hc Hm x Hx. apply mget_In in Hm. pose proof (content_check_all a Hc) as (Hg & Hmain). destruct Hm as [Hm|Hm].
    - injection Hm as <- <-. eexists _, _. eapply items_check_all; eauto.
    - apply in_split in Hm as (pre & post & E). destruct (Hg _ _ _ _ E) as (_ & H). eexists _, _. eapply items_check_all; eauto.
  Qed.

  Lemma main_no_hash a : content_check fe reg locale a = Ok tt -> ~ In SHash (fst a).
  Proof.
    intros Hc Hi. apply content_check_all in Hc as (_ & Hm). apply (items_check_all _ _ _ Hm) in Hi. discriminate.
  Qed.

  (** What a checked item can call. *)
  Lemma select_checks_in ph known l sel : select_checks ph known l = Ok tt ->
    (forall k v, In (k, v) l -> k = v) -> In sel (map fst l) -> In sel known.
  Proof.
    induction l as [|[k v] l IH]; intros H He Hi; [destruct Hi|]. cbn [select_checks] in H.
    destruct (umem v known) eqn:E; [|discriminate]. cbn [negb] in H. apply umem_In in E.
    destruct Hi as [<-|Hi]; [cbn; rewrite (He k v (or_introl eq_refl)); exact E|]. apply IH; auto. intros; apply He. now right.
  Qed.
  Lemma plural_checks_in kw ph known l : forall o o' sel, plural_checks kw ph known l o = Ok o' ->
    (forall k v, In (k, v) l -> k = v) -> In sel (map fst l) -> In sel known /\ In sel valid_plurals.
  Proof.
    induction l as [|[k v] l IH]; intros o o' sel H He Hi; [destruct Hi|]. cbn [plural_checks] in H.
    destruct (umem k valid_plurals) eqn:E1; [|discriminate]. destruct (umem v known) eqn:E2; [|discriminate].
    cbn [negb] in H. apply umem_In in E1, E2. destruct Hi as [<-|Hi].
    - cbn. split; [|exact E1]. rewrite (He k v) by now left. exact E2.
    - eapply IH; eauto. intros; apply He. now right.
  Qed.
  Lemma pairs_names sels k : In k (map fst (pairs sels)) <-> In k (map fst sels).
  Proof.
    change (map fst (pairs sels)) with (mkeys (pairs sels)). rewrite <- mget_keys. rewrite pairs_get, <- umem_In.
    destruct (umem k (map fst sels)); split; intros H; eauto; [destruct H; discriminate|discriminate].
  Qed.

  Variable vals : amap pvalue.
  Variable strs : amap (list sitem).
  (** The value of the placeholder of a [select] with a selector [_] is [_]. *)
  Definition calls_main (x : sitem) : Prop :=
    exists ph sels v, x = SPat ph (Some (us "select", sels)) /\ In (us "_") (map fst sels) /\
      mget ph vals = Some v /\ value_text v = Some (us "_").

  Lemma num_call known kw ph sels d rules m u o' : plural_checks kw ph known (pairs sels) false = Ok o' ->
    num_act fe locale strs sels d rules = ACall m u -> In m known /\ m <> us "_" /\ In m (map fst sels) /\ u <> None.
  Proof.
    intros Hc. unfold num_act. destruct (fe_decimal fe locale None); [|discriminate]. cbv zeta. rewrite pairs_get.
    destruct (umem _ (map fst sels)) eqn:E; [|discriminate]. destruct (mget _ strs); [|discriminate].
    intros [= <- <-]. apply umem_In in E. pose proof E as E'. apply pairs_names in E'.
    destruct (plural_checks_in _ _ _ _ _ _ _ Hc (pairs_same sels) E') as (H1 & H2).
    split; [exact H1|]. split; [|split; [exact E|discriminate]].
    intros Hu. rewrite Hu in H2. cbn [valid_plurals In] in H2. destruct H2 as [H2|[H2|[H2|[H2|[H2|[H2|[]]]]]]]; discriminate H2.
  Qed.

  Lemma item_call known main x m u : item_check known main x = Ok tt -> item_act fe reg locale vals strs x = ACall m u ->
    In m known /\ (m = us "_" -> calls_main x) /\
    (u = None -> exists ph sels, is_select x ph sels /\ In m (map fst sels)).
  Proof.
    destruct x as [w| |ph [[kw sels]|]|ps]; cbn [item_act FormatterAbs.item_check]; try discriminate.
    unfold kw_act, kw_check. destruct (ueqb kw (us "decimal")); [discriminate|].
    destruct (ueqb kw (us "date_time")); [discriminate|].
    destruct (mget ph vals) as [v|] eqn:Ev; [|discriminate].
    destruct (ueqb kw (us "ordinal")) eqn:E1; cbn [orb].
    { intros Hc. apply bind_Ok in Hc as (o & Hc & _). destruct (fe_ordinal fe locale); [|discriminate].
      destruct v; try discriminate. intros Ha. destruct (num_call _ _ _ _ _ _ _ _ _ Hc Ha) as (H1 & H2 & H3 & H4).
      split; [exact H1|]. split; [contradiction|contradiction]. }
    destruct (ueqb kw (us "plural")) eqn:E2.
    { intros Hc. apply bind_Ok in Hc as (o & Hc & _). destruct (fe_cardinal fe locale); [|discriminate].
      destruct (number_of _ _ v); try discriminate. intros Ha. destruct (num_call _ _ _ _ _ _ _ _ _ Hc Ha) as (H1 & H2 & H3 & H4).
      split; [exact H1|]. split; [contradiction|contradiction]. }
    destruct (ueqb_spec kw (us "select")) as [->|_]; [|discriminate].
    intros Hc. destruct (value_text v) as [s|] eqn:Et; [|discriminate]. rewrite pairs_get.
    destruct (umem s (map fst sels)) eqn:E; [|discriminate]. intros [= <- <-]. apply umem_In in E.
    split. { apply (select_checks_in ph known (pairs sels)); [exact Hc|exact (pairs_same sels)|now apply pairs_names]. }
    split. { intros ->. exists ph, sels, v. auto. }
    intros _. exists ph, sels. split; [reflexivity|exact E].
  Qed.
End Checks.

(** ** Outcomes other than text and errors *)

(** [excl true] excludes panics, [excl false] excludes running out of fuel. *)
Definition excl (k : bool) {E A} (o : outcome E A) : Prop :=
  match o with Panic => k = false | NoFuel => k = true | _ => True end.
Lemma excl_bind k {E A B} (o : outcome E A) (f : A -> outcome E B) : excl k o -> (forall a, excl k (f a)) -> excl k (bind o f).
Proof. destruct o; cbn; auto. Qed.
Lemma excl_map_err k {E F A} (g : E -> F) (o : outcome E A) : excl k o -> excl k (map_err g o).
Proof. destruct o; cbn; auto. Qed.
Lemma excl_ok_or k {E A} (o : option A) (e : E) : excl k (ok_or o e).
Proof. destruct o; exact I. Qed.
Lemma excl_panic {E A} (o : outcome E A) : excl true o <-> o <> Panic.
Proof. destruct o; cbn; split; try congruence; auto. Qed.
Lemma excl_fuel {E A} (o : outcome E A) : excl false o <-> o <> NoFuel.
Proof. destruct o; cbn; split; try congruence; auto. Qed.

Lemma new_date_excl k valid y m d : excl k (new_date valid y m d).
Proof. unfold new_date. destruct (valid y m d); exact I. Qed.
Lemma iso_date_excl k valid s : excl k (decompose_iso_date valid s).
Proof.
  unfold decompose_iso_date. cbv zeta. destruct (trim_start _ s) as [|c r] eqn:E; [apply new_date_excl|].
  assert (Hs : exists q qs, split_on (ch "-") (c :: r) = q :: qs).
  { destruct (split_cases (ch "-") (c :: r)) as [Hq|(q1 & q2 & Hq & ->)];
      [rewrite split_none by exact Hq|rewrite split_at by exact Hq]; eauto. }
  destruct Hs as (q & qs & ->). destruct qs as [|q1 qs].
  - destruct (cut_bytes 4 q) as [[ys r1]|]; [|apply new_date_excl]. apply excl_bind; [apply excl_ok_or|]. intros y.
    destruct (cut_bytes 2 r1) as [[ms r2]|]; [|apply new_date_excl]. apply excl_bind; [apply excl_ok_or|]. intros m.
    destruct (cut_bytes 2 r2) as [[ds r3]|]; [|apply new_date_excl]. apply excl_bind; [apply excl_ok_or|]. intros d.
    apply new_date_excl.
  - apply excl_bind; [destruct q; exact I|]. intros [ystr l]. apply excl_bind; [apply excl_ok_or|]. intros y.
    destruct l as [|ms l]; [apply new_date_excl|]. apply excl_bind; [apply excl_ok_or|]. intros m.
    destruct l as [|ds l]; [apply new_date_excl|]. apply excl_bind; [apply excl_ok_or|]. intros d. apply new_date_excl.
Qed.
Lemma parse_unit_excl k b m s : excl k (parse_unit b m s).
Proof. unfold parse_unit. destruct (parse_unsigned _ s) as [n|]; [destruct (n <=? m)%N|]; exact I. Qed.
Lemma iso_time_excl k s : excl k (decompose_iso_time s).
Proof.
  unfold decompose_iso_time. cbv zeta. destruct (cut_bytes 2 _) as [[hs r]|]; [|exact I].
  apply excl_bind; [apply parse_unit_excl|]. intros h. destruct (cut_bytes 2 _) as [[ms r']|]; [|exact I].
  apply excl_bind; [apply parse_unit_excl|]. intros m. destruct (cut_bytes 2 _) as [[ss r'']|]; [|exact I].
  apply excl_bind; [apply parse_unit_excl|]. intros s'. apply excl_bind; [apply parse_unit_excl|]. intros n. exact I.
Qed.

Section Excl.
  Variables (k : bool) (fe : fmtenv) (reg : cregistry) (locale : ustr).
  (** Parameters on which the commands of the registry behave. *)
  Variable okarg : pvalue -> Prop.
  Hypothesis Hreg : forall name f args, mget name reg = Some f -> Forall okarg args -> excl k (f (VString name :: args)).
  Definition item_args (x : sitem) : Prop := match x with SCmd ps => forall w, In (SId w) ps -> okarg (VString w) | _ => True end.

  Lemma number_of_excl kind v : excl k (number_of fe kind v).
  Proof. destruct v; try exact I. apply excl_ok_or. Qed.
  Lemma format_date_time_excl l t c v : excl k (format_date_time fe locale l t c v).
  Proof.
    unfold format_date_time. cbv zeta.
    destruct v; try exact I; try (apply excl_bind; [apply excl_ok_or|]; intros f; try apply excl_ok_or; exact I).
    assert (Hs : exists q qs, split_on (ch "T") s = q :: qs).
    { destruct (split_cases (ch "T") s) as [Hq|(q1 & q2 & Hq & ->)];
        [rewrite split_none by exact Hq|rewrite split_at by exact Hq]; eauto. }
    destruct Hs as (q & qs & ->).
    assert (Hd : excl k (let! d := map_err FIso (decompose_iso_date (fe_valid_date fe) q) in
       let! f := ok_or (fe_date fe match c with Some c => c | None => locale end match l with Some x => x | None => LnMedium end) FIcu
       in ok_or (f d) FIcu)).
    { apply excl_bind; [apply excl_map_err, iso_date_excl|]. intros d. apply excl_bind; [apply excl_ok_or|]. intros f. apply excl_ok_or. }
    destruct qs as [|b [|? ?]]; [exact Hd| |exact Hd]. destruct q as [|c0 q].
    - apply excl_bind; [apply excl_map_err, iso_time_excl|]. intros d. apply excl_bind; [apply excl_ok_or|]. intros f. exact I.
    - apply excl_bind; [apply excl_map_err, iso_date_excl|]. intros d. apply excl_bind; [apply excl_map_err, iso_time_excl|].
      intros x. apply excl_bind; [apply excl_ok_or|]. intros f. apply excl_ok_or.
  Qed.
  Lemma decimal_options_excl ph l : forall s g, excl k (decimal_options ph l s g).
  Proof.
    induction l as [|[key v] l IH]; intros s g; [exact I|]. cbn [decimal_options].
    destruct (ueqb key _); [apply excl_bind; [|intros; apply IH]|].
    { unfold sign_display. repeat (destruct (ueqb v _); [exact I|]). exact I. }
    destruct (ueqb key _); [apply excl_bind; [|intros; apply IH]|exact I].
    unfold decimal_grouping_display. repeat (destruct (ueqb v _); [exact I|]). exact I.
  Qed.
  Lemma date_time_options_excl ph l : forall a b c, excl k (date_time_options fe locale ph l a b c).
  Proof.
    assert (Hlen : forall w v, excl k (length_option w v)).
    { intros w v. unfold length_option. repeat (destruct (ueqb v _); [exact I|]). exact I. }
    induction l as [|[key v] l IH]; intros a b c; [exact I|]. cbn [date_time_options].
    destruct (ueqb key _); [apply excl_bind; [apply Hlen|intros; apply IH]|].
    destruct (ueqb key _); [apply excl_bind; [apply Hlen|intros; apply IH]|].
    destruct (ueqb key _); [|exact I]. destruct (umem v calendars); cbn [negb]; [|exact I].
    apply excl_bind; [apply excl_ok_or|intros; apply IH].
  Qed.
  Lemma plural_checks_excl kw ph known l : forall o, excl k (plural_checks kw ph known l o).
  Proof.
    induction l as [|[s n] l IH]; intros o; [exact I|]. cbn [plural_checks].
    destruct (umem s _); [|exact I]. destruct (umem n known); [|exact I]. apply IH.
  Qed.
  Lemma select_checks_excl ph known l : excl k (select_checks ph known l).
  Proof. induction l as [|[s n] l IH]; [exact I|]. cbn [select_checks]. destruct (umem n known); [exact IH|exact I]. Qed.

  Lemma cmd_parts_args ps name delay l : cmd_parts ps = Ok (name, delay, l) ->
    (forall w, In (SId w) ps -> okarg (VString w)) -> exists args, l = map VString args /\ Forall (fun w => okarg (VString w)) args.
  Proof.
    intros H1 Hin.
    assert (Hp : exists args, l = map VString args /\
                  ps = if delay then SId name :: SDelay :: map SId args else SId name :: map SId args).
    { destruct ps as [|[w|] ps]; try discriminate H1. destruct ps as [|[w'|] ps]; cbn [cmd_parts] in H1.
      - injection H1 as <- <- <-. now exists [].
      - apply bind_Ok in H1 as (l' & H1 & E). injection E as <- <- <-. apply cmd_args_iff in H1 as (args & E & ->).
        exists args. now rewrite E.
      - apply bind_Ok in H1 as (l' & H1 & E). injection E as <- <- <-. apply cmd_args_iff in H1 as (args & -> & ->).
        now exists args. }
    destruct Hp as (args & -> & ->). exists args. split; [reflexivity|]. apply Forall_forall. intros w Hw. apply Hin.
    destruct delay; right; [right|]; now apply in_map.
  Qed.
  Lemma cmd_args_excl ps : excl k (cmd_args ps).
  Proof.
    induction ps as [|p ps IH]; [exact I|]. unfold cmd_args. cbn [fold_right]. change (fold_right _ (Ok []) ps) with (cmd_args ps).
    destruct p; [|exact I]. apply excl_bind; [exact IH|intros; exact I].
  Qed.
  Lemma cmd_parts_excl ps : excl k (cmd_parts ps).
  Proof.
    destruct ps as [|[w|] ps]; try exact I. destruct ps as [|[w'|] ps]; cbn [cmd_parts];
      (apply excl_bind; [apply cmd_args_excl|intros; exact I]).
  Qed.
  Lemma run_command_excl name l : Forall okarg l -> excl k (run_command reg name l).
  Proof.
    intros Hl. unfold run_command, creg_command. destruct (mget name reg) as [f|] eqn:E; cbn; [|exact I].
    apply excl_map_err. eauto.
  Qed.

  Lemma item_check_excl known main x : item_args x -> excl k (item_check fe reg locale known main x).
  Proof.
    intros Hx. destruct x as [w| |ph [[kw sels]|]|ps]; try exact I; cbn [item_check].
    - destruct main; exact I.
    - unfold kw_check. destruct (ueqb kw _); [apply excl_bind; [apply decimal_options_excl|intros; exact I]|].
      destruct (ueqb kw _); [apply excl_bind; [apply date_time_options_excl|intros; exact I]|].
      destruct (_ || _); [apply excl_bind; [apply plural_checks_excl|intros []; exact I]|].
      destruct (ueqb kw _); [apply select_checks_excl|exact I].
    - destruct (cmd_parts ps) as [[[name delay] l]|e| |] eqn:E; try (pose proof (cmd_parts_excl ps) as H; rewrite E in H; exact H).
      cbn [bind]. destruct delay; [exact I|]. destruct (cmd_parts_args _ _ _ _ E Hx) as (args & -> & Ha).
      apply excl_bind; [|intros; exact I]. apply run_command_excl. apply Forall_map. exact Ha.
  Qed.
  Lemma items_check_excl known main l : Forall item_args l -> excl k (items_check fe reg locale known main l).
  Proof.
    induction 1 as [|x l Hx _ IH]; [exact I|]. cbn [items_check]. apply excl_bind; [now apply item_check_excl|intros; exact IH].
  Qed.
  Definition content_args (a : sast) : Prop := forall m l, In (m, l) (strings_of a) -> Forall item_args l.
  Lemma content_check_excl a : content_args a -> excl k (content_check fe reg locale a).
  Proof.
    intros Ha. unfold content_check. apply excl_bind.
    - assert (Hg : forall m l, In (m, l) (group_of a) -> Forall item_args l) by (intros m l H; apply (Ha m l); now right).
      revert Hg. generalize [us "_"]. induction (group_of a) as [|[id x] l IH]; intros known Hg; [exact I|].
      cbn [group_check]. destruct (umem id known); [exact I|]. apply excl_bind.
      + apply items_check_excl. apply (Hg id x). now left.
      + intros _. apply IH. intros m l' H. apply (Hg m l'). now right.
    - intros known. apply items_check_excl. apply (Ha (us "_") (fst a)). now left.
  Qed.

  Variable vals : amap pvalue.
  Hypothesis Hvals : forall ph v, mget ph vals = Some v -> okarg v.

  Lemma pure_excl strs x r : item_args x -> item_act fe reg locale vals strs x = APure r -> excl k r.
  Proof.
    intros Hx. destruct x as [w| |ph [[kw sels]|]|ps]; cbn [item_act].
    - intros [= <-]. exact I.
    - discriminate.
    - assert (Hn : forall d rules, num_act fe locale strs sels d rules = APure r -> excl k r).
      { intros d rules. unfold num_act. destruct (fe_decimal fe locale None); [|intros [= <-]; exact I]. cbv zeta.
        destruct (mget _ (pairs sels)); [|intros [= <-]; exact I]. destruct (mget _ strs); [discriminate|intros [= <-]; exact I]. }
      unfold kw_act. destruct (ueqb kw _).
      { intros [= <-]. unfold avalue. apply excl_bind; [apply excl_ok_or|]. intros v. apply excl_bind; [apply decimal_options_excl|].
        intros [s g]. unfold format_decimal. apply excl_bind; [apply excl_ok_or|]. intros f.
        apply excl_bind; [apply number_of_excl|intros; exact I]. }
      destruct (ueqb kw _).
      { intros [= <-]. unfold avalue. apply excl_bind; [apply excl_ok_or|]. intros v. apply excl_bind; [apply date_time_options_excl|].
        intros [[ld lt] cal]. apply format_date_time_excl. }
      destruct (mget ph vals) as [v|]; [|intros [= <-]; exact I].
      destruct (ueqb kw _).
      { destruct (fe_ordinal fe locale); [|intros [= <-]; exact I]. destruct v; try (intros [= <-]; exact I). apply Hn. }
      destruct (ueqb kw _).
      { destruct (fe_cardinal fe locale); [|intros [= <-]; exact I].
        pose proof (number_of_excl (us "PatternPlural") v) as He. destruct (number_of _ _ v); try (intros [= <-]; exact He). apply Hn. }
      destruct (value_text v); [|intros [= <-]; exact I]. destruct (mget _ (pairs sels)); [discriminate|intros [= <-]; exact I].
    - intros [= <-]. unfold avalue, text_of. apply excl_bind; [apply excl_ok_or|]. intros v. apply excl_ok_or.
    - intros [= <-]. destruct (cmd_parts ps) as [[[name delay] l]|e| |] eqn:E; try (pose proof (cmd_parts_excl ps) as H; rewrite E in H; exact H).
      cbn [bind]. destruct (cmd_parts_args _ _ _ _ E Hx) as (args & -> & Ha). destruct delay.
      + cbn [format_command]. rewrite delayed_ok. cbn [bind].
        change (let! f := map_err FCommand (creg_command reg name) in map_err FCommand (f (VString name :: map (parameter vals) args)))
          with (run_command reg name (map (parameter vals) args)).
        apply run_command_excl. apply Forall_map. eapply Forall_impl; [|exact Ha]. intros w Hw. unfold parameter.
        destruct (mget w vals) eqn:Ew; [eapply Hvals; eassumption|exact Hw].
      + apply run_command_excl. apply Forall_map. exact Ha.
  Qed.

  Lemma evs_excl strs rec self l : Forall item_args l ->
    (forall x m u, In x l -> item_act fe reg locale vals strs x = ACall m u -> forall st, excl k (snd (rec m st))) ->
    forall st, excl k (snd (aitems fe reg locale vals rec strs self l st)).
  Proof.
    intros Ha. induction Ha as [|x l Hx _ IH]; intros Hrec st; [exact I|]. rewrite evs_cons.
    assert (H : excl k (snd (run_act rec self (item_act fe reg locale vals strs x) st))).
    { destruct (item_act fe reg locale vals strs x) as [r| |m [v|]] eqn:E; cbn [run_act snd].
      - eapply pure_excl; eassumption.
      - exact I.
      - eapply Hrec; [now left|exact E].
      - eapply Hrec; [now left|exact E]. }
    destruct (run_act rec self _ st) as [st1 [s|e| |]]; try exact H.
    specialize (IH (fun y m u Hy => Hrec y m u (or_intror Hy)) st1).
    destruct (aitems fe reg locale vals rec strs self l st1) as [st2 [s'|e| |]]; exact IH.
  Qed.
End Excl.

(** Evaluation does not panic. *)
Lemma ev_no_panic fe reg locale okarg vals a :
  (forall name f args, mget name reg = Some f -> Forall okarg args -> excl true (f (VString name :: args))) ->
  (forall ph v, mget ph vals = Some v -> okarg v) -> content_args okarg a ->
  forall f m st, snd (astring fe reg locale vals f (strings_of a) m st) <> Panic.
Proof.
  intros Hreg Hvals Ha f m st. apply excl_panic. revert m st.
  induction f as [|f IH]; intros m st; [reflexivity|]. cbn [astring].
  destruct (mget m (strings_of a)) as [l|] eqn:E; [|exact I].
  apply (evs_excl true fe reg locale okarg Hreg vals Hvals); [apply (Ha m l), mget_In, E|]. intros. apply IH.
Qed.

(** ** Termination *)
Section Terminates.
  Variables (fe : fmtenv) (reg : cregistry) (locale : ustr) (vals : amap pvalue) (a : sast).
  Hypothesis Hreg : forall name f args, mget name reg = Some f -> f args <> NoFuel.
  Hypothesis Hc : content_check fe reg locale a = Ok tt.
  Hypothesis Hself : forall m l x, In (m, l) (strings_of a) -> In x l -> ~ calls_main vals x.
  Notation ev f := (astring fe reg locale vals f (strings_of a)).

  Let Hreg' : forall name f args, mget name reg = Some f -> Forall (fun _ => True) args -> excl false (f (VString name :: args)).
  Proof. intros name f args H _. apply excl_fuel. eapply Hreg. exact H. Qed.
  Let Hargs l : Forall (item_args (fun _ => True)) l.
  Proof. apply Forall_forall. intros x _. destruct x; cbn; auto. Qed.

  Lemma named_terminates : forall n pre id x post, List.length pre < n -> group_of a = pre ++ (id, x) :: post ->
    forall f st, n <= f -> excl false (snd (ev f id st)).
  Proof.
    induction n as [|n IH]; intros pre id x post Hn E f st Hf; [lia|]. destruct f as [|f]; [lia|].
    destruct (content_check_all _ _ _ _ Hc) as (Hg & _). destruct (Hg _ _ _ _ E) as (Hid & Hit).
    assert (Hm : mget id (strings_of a) = Some x).
    { apply (mget_nodup _ _ _ (group_nodup _ _ _ _ Hc)). right. rewrite E. apply in_or_app. right. now left. }
    cbn [astring]. rewrite Hm.
    apply (evs_excl false fe reg locale _ Hreg' vals (fun _ _ _ => I)); [apply Hargs|].
    intros y m u Hy Ha s. pose proof (items_check_all _ _ _ _ _ _ Hit y Hy) as Hyc.
    destruct (item_call _ _ _ _ _ _ _ _ _ _ Hyc Ha) as (H1 & H2 & _). destruct H1 as [H1|H1].
    - exfalso. apply (Hself id x y); auto. right. rewrite E. apply in_or_app. right. now left.
    - apply in_map_iff in H1 as ([m' b] & <- & H1). apply in_split in H1 as (p1 & p2 & ->). cbn [fst].
      apply (IH p1 m' b (p2 ++ (id, x) :: post)); [|now rewrite E, <- app_assoc|lia].
      rewrite app_length in Hn. cbn in Hn. lia.
  Qed.

  Theorem ev_terminates f st : List.length (group_of a) < f -> snd (ev f (us "_") st) <> NoFuel.
  Proof.
    intros Hf. apply excl_fuel. destruct f as [|f]; [lia|]. cbn [astring strings_of mget]. rewrite ueqb_refl.
    destruct (content_check_all _ _ _ _ Hc) as (_ & Hm).
    apply (evs_excl false fe reg locale _ Hreg' vals (fun _ _ _ => I)); [apply Hargs|].
    intros y m u Hy Ha s. pose proof (items_check_all _ _ _ _ _ _ Hm y Hy) as Hyc.
    destruct (item_call _ _ _ _ _ _ _ _ _ _ Hyc Ha) as (H1 & H2 & _). destruct H1 as [H1|H1].
    - exfalso. apply (Hself (us "_") (fst a) y); auto. now left.
    - apply in_map_iff in H1 as ([m' b] & <- & H1). apply in_split in H1 as (p1 & p2 & E). cbn [fst].
      apply (named_terminates (List.length (group_of a)) p1 m' b p2); [|exact E|lia].
      rewrite E, app_length. cbn. lia.
  Qed.
End Terminates.
