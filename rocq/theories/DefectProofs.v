(** Proofs about the errors of building and using a formatter. *)
From Verif Require Import Base BaseFacts LexerModel LexerSpec TreeModel TreeSpec TreeMachine TreeProofs TreeProofs4 DocSpec DocProofs IcuExample ValueModel
  CommandModel IsoModel FormatterModel FormatterAbs FormatterRefine FormatterRefine2 FormatterSim FormatterActs FormatterSpec
  FormatterProofs FormatterProofs2 FormatterProofs3 FormatterProofs4 FormatterProofs5 DefectSpec.
Local Opaque us.

Lemma bind_Err {E A B} (o : outcome E A) (f : A -> outcome E B) e : bind o f = Err e ->
  o = Err e \/ exists a, o = Ok a /\ f a = Err e.
Proof. destruct o; cbn; intros H; try discriminate; [right; eauto|left; congruence]. Qed.

(** ** The checks of one placeholder *)
Section Build.
  Variables (fe : fmtenv) (reg : cregistry) (locale : ustr).

  (** The error of a placeholder, by its keyword. *)
  Definition kw_reports (known : list ustr) (ph kw : ustr) (sels : list (ustr * ustr)) (e : formatter_error) : Prop :=
    (e = FInvalidKeyword kw ph /\ ~ In kw keywords) \/
    (exists o, e = FInvalidOption o kw ph /\ kw = us "decimal" /\ In o (map fst sels) /\ ~ In o (map fst (options_of kw))) \/
    (exists o, e = FInvalidOption o (us "date-time") ph /\ kw = us "date_time" /\ In o (map fst sels) /\ ~ In o (map fst (options_of kw))) \/
    (e = FInvalidOption (us "calendar") (us "ordinal") ph /\ kw = us "date_time" /\ In (us "calendar") (map fst sels)) \/
    (exists o, e = FInvalidOptionValue o o kw /\ In o (map fst sels) /\ In o (map fst (options_of kw))) \/
    (exists sel, e = FInvalidSelector sel kw ph /\ (kw = us "plural" \/ kw = us "ordinal") /\ In sel (map fst sels) /\ ~ In sel categories) \/
    (exists sel, e = FSelectorNamed sel sel ph /\ In kw [us "plural"; us "ordinal"; us "select"] /\ In sel (map fst sels) /\ ~ In sel known) \/
    (e = FSelectorOther kw ph /\ (kw = us "plural" \/ kw = us "ordinal") /\ ~ In (us "other") (map fst sels)).

  Lemma decimal_options_err ph l : (forall k v, In (k, v) l -> k = v) -> forall s g e, decimal_options ph l s g = Err e ->
    exists k, In k (map fst l) /\
      ((k = us "sign" /\ e = FInvalidOptionValue (us "sign") (us "sign") (us "decimal")) \/
       (k = us "group" /\ e = FInvalidOptionValue (us "group") (us "group") (us "decimal")) \/
       (k <> us "sign" /\ k <> us "group" /\ e = FInvalidOption k (us "decimal") ph)).
  Proof.
    intros He s g e H. destruct l as [|[k v] l]; [discriminate|].
    assert (v = k) as -> by (symmetry; apply He; now left). exists k. split; [now left|]. cbn [decimal_options] in H.
    destruct (ueqb_spec k (us "sign")) as [->|N1].
    { left. split; [reflexivity|]. assert (E : sign_display (us "sign") = Err (FInvalidOptionValue (us "sign") (us "sign") (us "decimal")))
        by (vm_compute; reflexivity). rewrite E in H. cbn [bind] in H. congruence. }
    destruct (ueqb_spec k (us "group")) as [->|N2].
    { right. left. split; [reflexivity|].
      assert (E : decimal_grouping_display (us "group") = Err (FInvalidOptionValue (us "group") (us "group") (us "decimal")))
        by (vm_compute; reflexivity). rewrite E in H. cbn [bind] in H. congruence. }
    right. right. repeat split; auto. congruence.
  Qed.
  Lemma date_time_options_err ph l : (forall k v, In (k, v) l -> k = v) -> forall x y z e,
    date_time_options fe locale ph l x y z = Err e ->
    exists k, In k (map fst l) /\
      ((k = us "date" /\ e = FInvalidOptionValue (us "date") (us "date") (us "date_time")) \/
       (k = us "time" /\ e = FInvalidOptionValue (us "time") (us "time") (us "date_time")) \/
       (k = us "calendar" /\ e = FInvalidOption (us "calendar") (us "ordinal") ph) \/
       (k <> us "date" /\ k <> us "time" /\ k <> us "calendar" /\ e = FInvalidOption k (us "date-time") ph)).
  Proof.
    intros He x y z e H. destruct l as [|[k v] l]; [discriminate|].
    assert (v = k) as -> by (symmetry; apply He; now left). exists k. split; [now left|]. cbn [date_time_options] in H.
    destruct (ueqb_spec k (us "date")) as [->|N1].
    { left. split; [reflexivity|]. assert (E : date_length (us "date") = Err (FInvalidOptionValue (us "date") (us "date") (us "date_time")))
        by (vm_compute; reflexivity). rewrite E in H. cbn [bind] in H. congruence. }
    destruct (ueqb_spec k (us "time")) as [->|N2].
    { right. left. split; [reflexivity|]. assert (E : time_length (us "time") = Err (FInvalidOptionValue (us "time") (us "time") (us "date_time")))
        by (vm_compute; reflexivity). rewrite E in H. cbn [bind] in H. congruence. }
    destruct (ueqb_spec k (us "calendar")) as [->|N3].
    { right. right. left. split; [reflexivity|]. assert (E : umem (us "calendar") calendars = false) by (vm_compute; reflexivity).
      rewrite E in H. cbn [negb] in H. congruence. }
    right. right. right. repeat split; auto. congruence.
  Qed.
  Lemma plural_checks_err kw ph known l : (forall k v, In (k, v) l -> k = v) -> forall o e, plural_checks kw ph known l o = Err e ->
    exists sel, In sel (map fst l) /\
      ((~ In sel valid_plurals /\ e = FInvalidSelector sel kw ph) \/ (~ In sel known /\ e = FSelectorNamed sel sel ph)).
  Proof.
    induction l as [|[k v] l IH]; intros He o e H; [discriminate|]. cbn [plural_checks] in H.
    assert (v = k) as -> by (symmetry; apply He; now left).
    destruct (umem k valid_plurals) eqn:E1; cbn [negb] in H.
    2:{ apply umem_nIn in E1. exists k. split; [now left|]. left. split; [exact E1|congruence]. }
    destruct (umem k known) eqn:E2; cbn [negb] in H.
    2:{ apply umem_nIn in E2. exists k. split; [now left|]. right. split; [exact E2|congruence]. }
    destruct (IH (fun k0 v0 Hi => He k0 v0 (or_intror Hi)) _ _ H) as (sel & H1 & H2). exists sel. split; [now right|exact H2].
  Qed.
  Lemma select_checks_err ph known l : (forall k v, In (k, v) l -> k = v) -> forall e, select_checks ph known l = Err e ->
    exists sel, In sel (map fst l) /\ ~ In sel known /\ e = FSelectorNamed sel sel ph.
  Proof.
    induction l as [|[k v] l IH]; intros He e H; [discriminate|]. cbn [select_checks] in H.
    assert (v = k) as -> by (symmetry; apply He; now left).
    destruct (umem k known) eqn:E2; cbn [negb] in H.
    2:{ apply umem_nIn in E2. exists k. split; [now left|]. split; [exact E2|congruence]. }
    destruct (IH (fun k0 v0 Hi => He k0 v0 (or_intror Hi)) _ H) as (sel & H1 & H2). exists sel. split; [now right|exact H2].
  Qed.

  Lemma options_decimal : map fst (options_of (us "decimal")) = [us "sign"; us "group"].
  Proof. vm_compute. reflexivity. Qed.
  Lemma options_date_time : map fst (options_of (us "date_time")) = [us "date"; us "time"; us "calendar"].
  Proof. vm_compute. reflexivity. Qed.

  Lemma kw_check_any known ph kw sels l e : (forall k v, In (k, v) l -> k = v) -> (forall k, In k (map fst l) <-> In k (map fst sels)) ->
    kw_check fe locale known ph kw l = Err e -> kw_reports known ph kw sels e.
  Proof.
    unfold kw_check, kw_reports. intros Hsame Hnames H.
    destruct (ueqb_spec kw (us "decimal")) as [->|N1].
    { apply bind_Err in H as [H|(x & _ & H)]; [|discriminate].
      apply decimal_options_err in H as (k & Hk & H); [|exact Hsame]. apply (proj1 (Hnames _)) in Hk. rewrite options_decimal.
      destruct H as [(-> & ->)|[(-> & ->)|(M1 & M2 & ->)]].
      - do 4 right. left. exists (us "sign"). cbn [In]. auto.
      - do 4 right. left. exists (us "group"). cbn [In]. auto.
      - right. left. exists k. cbn [In]. repeat split; auto. intros [E|[E|[]]]; congruence. }
    destruct (ueqb_spec kw (us "date_time")) as [->|N2].
    { apply bind_Err in H as [H|(x & _ & H)]; [|discriminate].
      apply date_time_options_err in H as (k & Hk & H); [|exact Hsame]. apply (proj1 (Hnames _)) in Hk. rewrite options_date_time.
      destruct H as [(-> & ->)|[(-> & ->)|[(-> & ->)|(M1 & M2 & M3 & ->)]]].
      - do 4 right. left. exists (us "date"). cbn [In]. auto.
      - do 4 right. left. exists (us "time"). cbn [In]. auto.
      - do 3 right. left. auto.
      - do 2 right. left. exists k. cbn [In]. repeat split; auto. intros [E|[E|[E|[]]]]; congruence. }
    assert (Hpl : (kw = us "plural" \/ kw = us "ordinal") ->
      (let! other := plural_checks kw ph known l false in if negb other then Err (FSelectorOther kw ph) else Ok tt) = Err e ->
      (exists sel, e = FInvalidSelector sel kw ph /\ (kw = us "plural" \/ kw = us "ordinal") /\ In sel (map fst sels) /\ ~ In sel categories) \/
      (exists sel, e = FSelectorNamed sel sel ph /\ In kw [us "plural"; us "ordinal"; us "select"] /\ In sel (map fst sels) /\ ~ In sel known) \/
      (e = FSelectorOther kw ph /\ (kw = us "plural" \/ kw = us "ordinal") /\ ~ In (us "other") (map fst sels))).
    { intros Hkw Hb. apply bind_Err in Hb as [Hb|(o & Ho & Hb)].
      - apply plural_checks_err in Hb as (sel & Hs & Hb); [|exact Hsame]. apply (proj1 (Hnames _)) in Hs.
        destruct Hb as [(M & ->)|(M & ->)]; [left; exists sel; auto|]. right. left. exists sel. cbn [In].
        repeat split; auto. destruct Hkw; auto.
      - apply (plural_checks_iff kw ph known l false Hsame) in Ho as (_ & ->). cbn [orb] in Hb.
        destruct (umem (us "other") (map fst l)) eqn:E; cbn [negb] in Hb; [discriminate|]. apply umem_nIn in E.
        do 2 right. split; [congruence|]. split; [exact Hkw|]. intros Hi. apply E. now apply Hnames. }
    destruct (ueqb_spec kw (us "ordinal")) as [->|N3]; cbn [orb] in H; [do 5 right; apply Hpl; auto|].
    destruct (ueqb_spec kw (us "plural")) as [->|N4]; [do 5 right; apply Hpl; auto|].
    destruct (ueqb_spec kw (us "select")) as [->|N5].
    { apply select_checks_err in H as (sel & Hs & M & ->); [|exact Hsame]. apply (proj1 (Hnames _)) in Hs.
      do 6 right. left. exists sel. cbn [In]. auto 9. }
    left. split; [congruence|]. unfold keywords. cbn [In]. intros [E|[E|[E|[E|[E|[]]]]]]; congruence.
  Qed.
  Lemma kw_check_err known ph kw sels e : kw_check fe locale known ph kw (pairs sels) = Err e -> kw_reports known ph kw sels e.
  Proof. apply kw_check_any; [exact (pairs_same sels)|exact (pairs_names sels)]. Qed.

  (** ** Items, strings, contents *)
  Definition command_shape (x : sitem) : Prop := match x with SCmd ps => command_ok ps | _ => True end.

  Lemma cmd_args_words args : cmd_args (map SId args) = Ok (map VString args).
  Proof. apply cmd_args_iff. eauto. Qed.
  Lemma command_ok_shape ps : command_ok ps -> exists name args, ps = SId name :: map SId args \/ ps = SId name :: SDelay :: map SId args.
  Proof.
    intros (name & args & Hf & H).
    assert (E : exists ws, args = map SId ws).
    { clear H. induction Hf as [|p l Hp _ (ws & ->)]; [now exists []|]. destruct p as [w|]; [|now destruct Hp]. now exists (w :: ws). }
    destruct E as (ws & ->). exists name, ws. destruct H as [->|(-> & _)]; auto.
  Qed.

  Definition item_reports (known : list ustr) (x : sitem) (e : formatter_error) : Prop :=
    match x with
    | SPat ph (Some (kw, sels)) => kw_reports known ph kw sels e
    | SCmd ps => exists name args ce, ps = SId name :: map SId args /\ e = FCommand ce /\ command_fails reg name (map VString args) ce
    | _ => False
    end.
  Lemma run_command_err name l e : run_command reg name l = Err e -> exists ce, e = FCommand ce /\ command_fails reg name l ce.
  Proof.
    unfold run_command, creg_command, command_fails. intros H. destruct (mget name reg) as [f|] eqn:E; cbn [ok_or map_err bind] in H.
    - destruct (f (VString name :: l)) eqn:Ef; cbn [map_err] in H; try discriminate. injection H as <-. eauto 6.
    - injection H as <-. eauto.
  Qed.
  Lemma item_check_err known main x e : command_shape x -> (main = true -> x <> SHash) ->
    item_check fe reg locale known main x = Err e -> item_reports known x e.
  Proof.
    intros Hc Hm H. destruct x as [w| |ph [[kw sels]|]|ps]; cbn [item_check item_reports] in *; try discriminate.
    - destruct main; [now destruct (Hm eq_refl)|discriminate].
    - now apply kw_check_err.
    - destruct (command_ok_shape ps Hc) as (name & args & [->| ->]).
      + rewrite (proj2 (cmd_parts_iff _ name false (map VString args))) in H by eauto. cbn [bind] in H.
        apply bind_Err in H as [H|(t & _ & H)]; [|discriminate]. apply run_command_err in H as (ce & -> & H). eauto 6.
      + rewrite (proj2 (cmd_parts_iff _ name true (map VString args))) in H by eauto. discriminate.
  Qed.
  Lemma items_check_err known main l e : Forall command_shape l -> (main = true -> ~ In SHash l) ->
    items_check fe reg locale known main l = Err e -> exists x, In x l /\ item_reports known x e.
  Proof.
    induction l as [|x l IH]; intros Hc Hm H; [discriminate|]. inversion Hc as [|? ? H1 H2]; subst. cbn [items_check] in H.
    apply bind_Err in H as [H|(u & _ & H)].
    - exists x. split; [now left|]. apply (item_check_err known main); auto. intros E Hx. apply (Hm E). now left.
    - destruct (IH H2 (fun E Hi => Hm E (or_intror Hi)) H) as (y & Hy & Hr). exists y. split; [now right|exact Hr].
  Qed.
  Lemma group_check_err l : Forall (fun x => Forall command_shape (snd x)) l -> forall known e,
    group_check fe reg locale known l = Err e ->
    exists pre id body post, l = pre ++ (id, body) :: post /\
      ((e = FNamedStringIdentifier id /\ In id (known ++ map fst pre)) \/
       exists x, In x body /\ item_reports (known ++ map fst pre) x e).
  Proof.
    induction 1 as [|[id body] l H1 _ IH]; intros known e H; [discriminate|]. cbn [group_check snd] in *.
    destruct (umem id known) eqn:E.
    { apply umem_In in E. exists [], id, body, l. split; [reflexivity|]. left. cbn [map]. rewrite app_nil_r. split; [congruence|exact E]. }
    apply bind_Err in H as [H|(u & _ & H)].
    - exists [], id, body, l. split; [reflexivity|]. right. cbn [map]. rewrite app_nil_r.
      apply (items_check_err known false body e H1); [discriminate|exact H].
    - destruct (IH _ _ H) as (pre & id' & body' & post & -> & Hr). exists ((id, body) :: pre), id', body', post.
      split; [reflexivity|]. cbn [map fst]. rewrite <- app_assoc in Hr. exact Hr.
  Qed.

  (** Contents as the parser gives them. *)
  Definition parsed (a : sast) : Prop :=
    Forall command_shape (fst a) /\ ~ In SHash (fst a) /\ Forall (fun x => Forall command_shape (snd x)) (group_of a) /\
    NoDup (map fst (group_of a)).
  Lemma pieces_shape l : Forall pwf l -> Forall command_shape (map pcontent l).
  Proof.
    intros H. apply Forall_map. apply Forall_impl with (2 := H). intros p Hp. destruct p as [x|x| |id ws [[k ks]|]|qs]; cbn in *; auto.
  Qed.
  Lemma content_parsed d g s a : content_of d g s a -> parsed a.
  Proof.
    intros (c & ((Hm & Hh) & Hg & _ & Hn) & _ & ->). split; [now apply pieces_shape|]. split.
    { intros Hi. cbn [ccontent fst] in Hi. apply in_map_iff in Hi as (p & Hp & Hi). rewrite Forall_forall in Hh. specialize (Hh p Hi).
      destruct p as [x|x| |id ws [[k ks]|]|qs]; discriminate. }
    split; [|exact Hn]. unfold ccontent, group_of. cbn [snd]. destruct (c_group c) as [l|]; cbn [option_map]; [|constructor].
    clear -Hg. induction Hg as [|x l Hx _ IH]; [constructor|]. cbn [flat_map]. destruct x as [w|id w ws sub]; cbn [gcontent app]; [exact IH|].
    constructor; [|exact IH]. cbn [snd]. destruct Hx as (Hx & _). now apply pieces_shape.
  Qed.

  Lemma reports_located a known x e : located a known x -> item_reports known x e -> reports reg a e.
  Proof.
    intros Hl H. destruct x as [w| |ph [[kw sels]|]|ps]; cbn [item_reports] in H; try contradiction.
    - destruct H as [(-> & H)|[(o & -> & -> & H1 & H2)|[(o & -> & -> & H1 & H2)|[(-> & -> & H)|[(o & -> & H1 & H2)|
        [(sel & -> & H1 & H2 & H3)|[(sel & -> & H1 & H2 & H3)|(-> & H1 & H2)]]]]]]]; cbn [reports says].
      + eauto.
      + left. split; [reflexivity|]. eauto.
      + right. exists known, sels. split; [exact Hl|]. split; [exact H1|]. left. auto.
      + right. exists known, sels. split; [exact Hl|]. split; [exact H|]. right. auto.
      + split; [reflexivity|]. exists known, ph, sels. auto.
      + exists known, sels. auto.
      + split; [reflexivity|]. exists known, kw, sels. auto.
      + exists known, sels. auto.
    - destruct H as (name & args & ce & -> & -> & H). cbn [reports says]. exists known, name, args. auto.
  Qed.

  Theorem content_check_err a e : parsed a -> content_check fe reg locale a = Err e -> reports reg a e.
  Proof.
    intros (H1 & H2 & H3 & H4) H. unfold content_check in H. apply bind_Err in H as [H|(known & Hk & H)].
    - destruct (group_check_err _ H3 _ _ H) as (pre & id & body & post & E & [(-> & Hi)|(x & Hx & Hr)]).
      + cbn [reports says]. cbn [app] in Hi. destruct Hi as [<-|Hi].
        * split; [reflexivity|]. rewrite E, map_app. apply in_or_app. right. now left.
        * exfalso. rewrite E, map_app in H4. cbn [map fst] in H4. apply NoDup_remove_2 in H4. apply H4. apply in_or_app. now left.
      + apply (reports_located a (us "_" :: map fst pre) x); [|exact Hr]. now apply (in_named a pre id body post).
    - apply (group_check_iff fe reg locale (group_of a) [us "_"]) in Hk as (-> & _); [|constructor; [intros []|constructor]].
      destruct (items_check_err _ _ _ _ H1 (fun _ => H2) H) as (x & Hx & Hr).
      apply (reports_located a (us "_" :: map fst (group_of a)) x); [|exact Hr]. now apply in_main.
  Qed.
End Build.

(** The errors of [try_new] on a string with content [a]. *)
Theorem build_reports d fe reg tag locale s a e : icu_ok d -> content_of d l10n_grammar s a -> s <> [] ->
  formatter_try_new d l10n_grammar fe reg tag locale s = Err e ->
  (e = FNoGrammar /\ forall c, In c s -> ~ In c l10n_grammar) \/ reports reg a e.
Proof.
  intros Hd Ha Hs H. pose proof Ha as (c & Hc & Hseg & E).
  assert (Hacc : exists tr, tree_try_new d s l10n_grammar = Ok tr).
  { apply tree_accept_iff. split; [exact Hs|]. split; [intros E'; pose proof in_open as Ho; rewrite E' in Ho; destruct Ho|]. eauto. }
  destruct Hacc as (tr & Htr). pose proof (tree_reads _ _ _ _ _ Htr Hc Hseg) as Hi. rewrite <- E in Hi.
  unfold formatter_try_new in H. rewrite Htr in H. cbn [ft map_err bind] in H. destruct (tr_has_grammar tr) eqn:Eg.
  - right. pose proof (formatter_built fe reg locale tag tr a Hi Eg) as Hb.
    apply (content_check_err fe reg locale a e (content_parsed _ _ _ _ Ha)).
    destruct (content_check fe reg locale a) as [[]|e'| |]; try congruence. destruct Hb as (fm & Hfm & _). congruence.
  - left. unfold formatter_of_tree in H. rewrite Eg in H. cbn [negb] in H. split; [congruence|].
    intros x Hx Hg. assert (Ht : tr_has_grammar tr = true) by (apply (tree_grammar_iff d s tr Hd Htr); eauto). congruence.
Qed.
Lemma sound_says reg a e : sound_error e -> reports reg a e -> says reg a e.
Proof.
  destruct e; cbn [sound_error reports]; auto; try contradiction. intros -> [(_ & H)|(known & sels & _ & _ & [(H & _)|(H & _)])]; [exact H| |];
    exfalso; revert H; vm_compute; discriminate.
Qed.
