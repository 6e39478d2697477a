(** Documented strings through parser, builder and formatter. *)
From Verif Require Import Base BaseFacts LexerModel LexerSpec LexerProofs IcuExample TreeModel TreeSpec TreeMachine TreeProofs
  TreeProofs4 DocSpec DocProofs ValueModel CommandModel IsoModel FormatterModel FormatterAbs FormatterRefine FormatterRefine2
  FormatterSim FormatterActs FormatterSpec FormatterProofs FormatterProofs2 FormatterProofs3 FormatterProofs4.
Local Opaque us.

(** ** Grammar characters *)
Lemma tree_grammar_iff d s tr : icu_ok d -> tree_try_new d s l10n_grammar = Ok tr ->
  tr_has_grammar tr = true <-> exists c, In c s /\ In c l10n_grammar.
Proof.
  intros Hd H. destruct (tree_string_inv d s l10n_grammar _ H) as (ts & _ & Hp & (Hcc & Hg & _) & _ & _); [intros e; discriminate|].
  apply parse_sound in Hp as (_ & _ & -> & _). unfold has_gram. rewrite existsb_exists. split.
  - intros (t & Ht & Hty). apply (in_map seg_of) in Ht. rewrite Forall_forall in Hg. pose proof (Hg _ Ht) as (H1 & H2 & _).
    cbn [seg_of fst snd] in H1, H2. destruct (t_string t) as [|c w] eqn:E; [now destruct H1|]. exists c. split.
    + rewrite <- Hcc. apply in_concat. exists (t_string t). split; [|rewrite E; now left].
      apply in_map_iff. exists (seg_of t). auto.
    + inversion H2 as [|? ? Hc _]; subst. destruct (t_type t) eqn:Et; try (unfold is_type in Hty; rewrite Et in Hty; discriminate).
      inversion Hc; assumption.
  - intros (c & Hc & Hgr). rewrite <- Hcc in Hc. apply in_concat in Hc as (w & Hw & Hc).
    apply in_map_iff in Hw as (x & <- & Hx). apply in_map_iff in Hx as (t & <- & Ht). exists t. split; [exact Ht|].
    rewrite Forall_forall in Hg. destruct (Hg (seg_of t) (in_map _ _ _ Ht)) as (_ & H2 & _). rewrite Forall_forall in H2.
    specialize (H2 c Hc). cbn [seg_of fst] in H2. destruct (Hd c Hgr) as (H3 & H4).
    unfold is_type. inversion H2; try congruence; try contradiction; reflexivity.
Qed.

Lemma tree_plain d s : icu_ok d -> s <> [] -> (forall c, In c s -> ~ In c l10n_grammar) ->
  exists tr, tree_try_new d s l10n_grammar = Ok tr /\ tr_has_grammar tr = false.
Proof.
  intros Hd Hs Hn.
  assert (Hng : Forall (fun x => fst x <> TGrammar) (runs d l10n_grammar s)).
  { apply Forall_forall. intros x Hx Ht. pose proof (runs_good d l10n_grammar s) as Hg. rewrite Forall_forall in Hg.
    destruct (Hg x Hx) as (H1 & H2 & _). destruct (snd x) as [|c w] eqn:E; [now destruct H1|].
    inversion H2 as [|? ? Hc _]; subst. rewrite Ht in Hc. inversion Hc as [|Ha Hb Hi| |]; subst. apply (Hn c); [|exact Hi].
    rewrite <- (runs_concat d l10n_grammar s). apply in_concat. exists (snd x). split; [now apply in_map|]. rewrite E. now left. }
  assert (Hacc : exists tr, tree_try_new d s l10n_grammar = Ok tr).
  { apply tree_accept_iff. split; [exact Hs|]. split; [intros E; pose proof in_open as Ho; rewrite E in Ho; destruct Ho|].
    exists (mk_cst (map PText (runs d l10n_grammar s)) None). split.
    - split; [split|].
      + apply Forall_map. exact Hng.
      + apply Forall_map. apply Forall_forall. reflexivity.
      + split; [exact I|].
        assert (E : spats (map pcontent (map PText (runs d l10n_grammar s))) = [])
          by (induction (runs d l10n_grammar s) as [|x l IH]; [reflexivity|]; inversion Hng; subst; cbn; auto).
        unfold placeholder_names, string_names, ccontent, group_of. cbn [c_main c_group fst snd option_map flat_map map].
        rewrite E. split; constructor.
    - replace (cprint (mk_cst (map PText (runs d l10n_grammar s)) None)) with (runs d l10n_grammar s);
        [apply runs_segmentation|]. unfold cprint, pieces_print. cbn [c_main c_group]. rewrite app_nil_r.
      clear. induction (runs d l10n_grammar s) as [|x l IH]; [reflexivity|]. cbn. now rewrite <- IH. }
  destruct Hacc as (tr & Htr). exists tr. split; [exact Htr|].
  destruct (tr_has_grammar tr) eqn:E; [|reflexivity]. exfalso.
  apply (tree_grammar_iff d s tr Hd Htr) in E as (c & H1 & H2). exact (Hn c H1 H2).
Qed.

(** ** Acceptance by the builder *)
Lemma plural_names sel : In sel valid_plurals <-> exists c, sel = category_name c.
Proof.
  split.
  - intros [<-|[<-|[<-|[<-|[<-|[<-|[]]]]]]]; [exists CatZero|exists CatOne|exists CatTwo|exists CatFew|exists CatMany|exists CatOther]; reflexivity.
  - intros (c & ->). destruct c; cbn [In valid_plurals category_name]; auto 9.
Qed.
Section Build.
  Variables (fe : fmtenv) (reg : cregistry) (locale : ustr).

  Lemma plural_checks_iff kw ph known l : forall o, (forall k v, In (k, v) l -> k = v) ->
    (forall o', plural_checks kw ph known l o = Ok o' <->
      (forall sel, In sel (map fst l) -> In sel valid_plurals /\ In sel known) /\
      o' = (o || umem (us "other") (map fst l))%bool).
  Proof.
    induction l as [|[k v] l IH]; intros o He o'.
    - cbn [plural_checks map umem existsb]. rewrite Bool.orb_false_r. split; [intros [= <-]; split; [intros ? []|reflexivity]|intros (_ & ->); reflexivity].
    - cbn [plural_checks]. assert (v = k) as -> by (symmetry; apply He; now left).
      assert (He' : forall k0 v0, In (k0, v0) l -> k0 = v0) by (intros; apply He; now right).
      destruct (umem k valid_plurals) eqn:E1; cbn [negb].
      2:{ apply umem_nIn in E1. split; [discriminate|]. intros (H & _). destruct (H k (or_introl eq_refl)). contradiction. }
      destruct (umem k known) eqn:E2; cbn [negb].
      2:{ apply umem_nIn in E2. split; [discriminate|]. intros (H & _). destruct (H k (or_introl eq_refl)). contradiction. }
      apply umem_In in E1, E2. rewrite IH by exact He'. cbn [map fst umem existsb].
      change (existsb (ueqb (us "other")) (map fst l)) with (umem (us "other") (map fst l)).
      rewrite (ueqb_sym (us "other") k), <- Bool.orb_assoc. split; intros (H1 & ->); (split; [|reflexivity]).
      + intros sel [<-|Hs]; [cbn; auto|auto].
      + intros sel Hs. apply H1. now right.
  Qed.
  Lemma select_checks_iff ph known l : (forall k v, In (k, v) l -> k = v) ->
    select_checks ph known l = Ok tt <-> forall sel, In sel (map fst l) -> In sel known.
  Proof.
    induction l as [|[k v] l IH]; intros He; [split; [intros _ ? []|reflexivity]|]. cbn [select_checks].
    assert (v = k) as -> by (symmetry; apply He; now left). destruct (umem k known) eqn:E; cbn [negb].
    - apply umem_In in E. rewrite IH by (intros; apply He; now right). split.
      + intros H sel [<-|Hs]; [exact E|auto].
      + intros H sel Hs. apply H. now right.
    - apply umem_nIn in E. split; [discriminate|]. intros H. destruct (E (H k (or_introl eq_refl))).
  Qed.

  Lemma kw_check_iff known ph kw sels : kw_check fe locale known ph kw (pairs sels) = Ok tt <-> keyword_ok known kw sels.
  Proof.
    unfold kw_check, keyword_ok.
    assert (Hnames : forall P : ustr -> Prop, (forall sel, In sel (map fst (pairs sels)) -> P sel) <-> (forall sel, In sel (map fst sels) -> P sel)).
    { intros P. split; intros H sel Hs; apply H; now apply pairs_names. }
    assert (Hpl : forall kw' ph', (let! other := plural_checks kw' ph' known (pairs sels) false in
              if negb other then Err (FSelectorOther kw' ph') else Ok tt) = Ok tt <->
              In (us "other") (map fst sels) /\ forall sel, In sel (map fst sels) -> (exists c, sel = category_name c) /\ In sel known).
    { intros kw' ph'. transitivity (In (us "other") (map fst sels) /\ forall sel, In sel (map fst sels) -> In sel valid_plurals /\ In sel known).
      2:{ split; intros (A & B); (split; [exact A|]); intros sel Hs; destruct (B sel Hs) as (B1 & B2); (split; [now apply plural_names|exact B2]). }
      pose proof (plural_checks_iff kw' ph' known (pairs sels) false (pairs_same sels)) as Hi. rewrite <- Hnames.
      rewrite <- pairs_names, <- umem_In. split.
      - intros H. apply bind_Ok in H as (o & H1 & H2). apply Hi in H1 as (H1 & ->). cbn [orb] in H2.
        destruct (umem _ _); [|discriminate]. auto.
      - intros (H1 & H2). rewrite (proj2 (Hi true)); [reflexivity|]. rewrite H1. auto. }
    destruct (ueqb_spec kw (us "decimal")) as [->|N1].
    { split.
      - intros H. apply bind_Ok in H as (x & H & _). apply decimal_options_nil in H as (H & _); [|apply pairs_same].
        apply pairs_nil in H. auto.
      - intros [(_ & ->)|[([H|H] & _)|(H & _)]]; [reflexivity|discriminate H ..]. }
    destruct (ueqb_spec kw (us "date_time")) as [->|N2].
    { split.
      - intros H. apply bind_Ok in H as (x & H & _). apply date_time_options_nil in H as (H & _); [|apply pairs_same].
        apply pairs_nil in H. auto.
      - intros [(_ & ->)|[([H|H] & _)|(H & _)]]; [reflexivity|discriminate H ..]. }
    destruct (ueqb_spec kw (us "ordinal")) as [->|N3]; cbn [orb].
    { rewrite Hpl. split; [intros H; right; left; auto|].
      intros [([H|H] & _)|[(_ & H)|(H & _)]]; [discriminate H ..|exact H|discriminate H]. }
    destruct (ueqb_spec kw (us "plural")) as [->|N4]; cbn [orb].
    { rewrite Hpl. split; [intros H; right; left; auto|].
      intros [([H|H] & _)|[(_ & H)|(H & _)]]; [discriminate H ..|exact H|discriminate H]. }
    destruct (ueqb_spec kw (us "select")) as [->|N5].
    { rewrite (select_checks_iff ph known (pairs sels) (pairs_same sels)), Hnames. split; [intros H; right; right; auto|].
      intros [([H|H] & _)|[([H|H] & _)|(_ & H)]]; [discriminate H ..|exact H]. }
    split; [discriminate|]. intros [([H|H] & _)|[([H|H] & _)|(H & _)]]; contradiction.
  Qed.

  Lemma cmd_parts_iff ps name delay l : cmd_parts ps = Ok (name, delay, l) <->
    exists args, l = map VString args /\ ps = if delay then SId name :: SDelay :: map SId args else SId name :: map SId args.
  Proof.
    split.
    - intros H1. destruct ps as [|[w|] ps]; try discriminate H1. destruct ps as [|[w'|] ps]; cbn [cmd_parts] in H1.
      + injection H1 as <- <- <-. now exists [].
      + apply bind_Ok in H1 as (l' & H1 & E). injection E as <- <- <-. apply cmd_args_iff in H1 as (args & E & ->).
        exists args. now rewrite E.
      + apply bind_Ok in H1 as (l' & H1 & E). injection E as <- <- <-. apply cmd_args_iff in H1 as (args & -> & ->).
        now exists args.
    - intros (args & -> & ->). assert (E : cmd_args (map SId args) = Ok (map VString args)) by (apply cmd_args_iff; eauto).
      destruct delay; [cbn [cmd_parts]; now rewrite E|]. destruct args as [|w args]; [reflexivity|].
      cbn [map cmd_parts] in *. now rewrite E.
  Qed.

  Lemma item_check_iff known main x : item_check fe reg locale known main x = Ok tt <->
    item_ok reg known x /\ (main = true -> x <> SHash).
  Proof.
    destruct x as [w| |ph [[kw sels]|]|ps]; cbn [item_check item_ok]; try (split; [split; [exact I|discriminate]|reflexivity]).
    - destruct main; split; try reflexivity; try discriminate; [intros (_ & H); now destruct (H eq_refl)|].
      intros _. split; [exact I|discriminate].
    - rewrite kw_check_iff. split; [intros H; split; [exact H|discriminate]|intros (H & _); exact H].
    - split.
      + intros H. split; [|discriminate]. apply bind_Ok in H as ([[name delay] l] & H1 & H2).
        apply cmd_parts_iff in H1 as (args & -> & ->). destruct delay; [left; eauto|right].
        apply bind_Ok in H2 as (t & H2 & _). apply run_command_ok in H2 as (f & H2 & H3). exists name, args, f, t. auto.
      + intros ([(name & args & ->)|(name & args & f & t & -> & H1 & H2)] & _).
        * rewrite (proj2 (cmd_parts_iff _ name true (map VString args))) by eauto. reflexivity.
        * rewrite (proj2 (cmd_parts_iff _ name false (map VString args))) by eauto. cbn [bind].
          rewrite (proj2 (run_command_ok reg name (map VString args) t)) by eauto. reflexivity.
  Qed.
  Lemma items_check_iff known main l : items_check fe reg locale known main l = Ok tt <->
    Forall (item_ok reg known) l /\ (main = true -> ~ In SHash l).
  Proof.
    induction l as [|x l IH]; [split; [split; [constructor|intros _ []]|reflexivity]|]. cbn [items_check]. split.
    - intros H. apply bind_Ok in H as ([] & H1 & H2). apply item_check_iff in H1 as (H1 & H3). apply IH in H2 as (H2 & H4).
      split; [now constructor|]. intros Hm [Hx|Hx]; [exact (H3 Hm Hx)|exact (H4 Hm Hx)].
    - intros (H1 & H2). inversion H1 as [|? ? H3 H4]; subst.
      rewrite (proj2 (item_check_iff known main x)); [cbn [bind]; apply IH|].
      + split; [exact H4|]. intros Hm Hx. apply (H2 Hm). now right.
      + split; [exact H3|]. intros Hm Hx. apply (H2 Hm). now left.
  Qed.
  Lemma group_check_iff l : forall known known', NoDup known -> group_check fe reg locale known l = Ok known' <->
    known' = known ++ map fst l /\ NoDup (known ++ map fst l) /\
    forall pre name body post, l = pre ++ (name, body) :: post -> Forall (item_ok reg (known ++ map fst pre)) body.
  Proof.
    induction l as [|[id x] l IH]; intros known known' Hnd; cbn [group_check map fst].
    - rewrite app_nil_r. split; [intros [= <-]; repeat split; auto; intros pre ? ? ? E; destruct pre; discriminate|intros (-> & _); reflexivity].
    - assert (Hsh : known ++ id :: map fst l = (known ++ [id]) ++ map fst l) by (now rewrite <- app_assoc).
      destruct (umem id known) eqn:E.
      + apply umem_In in E. split; [discriminate|]. intros (_ & H & _). rewrite Hsh in H.
        apply NoDup_app_remove_r in H. exfalso. revert E. apply (NoDup_remove_2 known [] id) in H. now rewrite app_nil_r in H.
      + apply umem_nIn in E. assert (Hnd' : NoDup (known ++ [id])).
        { apply (Permutation.Permutation_NoDup (l := id :: known)); [|now constructor].
          change (id :: known) with ([id] ++ known). apply Permutation.Permutation_app_comm. }
        split.
        * intros H. apply bind_Ok in H as ([] & H1 & H2). apply items_check_iff in H1 as (H1 & _).
          apply (IH _ _ Hnd') in H2 as (-> & H2 & H3). rewrite Hsh. repeat split; auto.
          intros pre name body post Heq. destruct pre as [|y pre]; cbn [app] in Heq.
          -- injection Heq as <- <- <-. cbn. now rewrite app_nil_r.
          -- injection Heq as <- Heq. specialize (H3 _ _ _ _ Heq). now rewrite <- app_assoc in H3.
        * intros (-> & H2 & H3). rewrite (proj2 (items_check_iff known false x)).
          -- cbn [bind]. apply (IH _ _ Hnd'). rewrite <- Hsh. repeat split; auto.
             intros pre name body post Heq. subst l. specialize (H3 ((id, x) :: pre) name body post eq_refl).
             now rewrite <- app_assoc.
          -- split; [|discriminate]. specialize (H3 [] id x l eq_refl). cbn in H3. now rewrite app_nil_r in H3.
  Qed.
  Theorem content_check_iff a : content_check fe reg locale a = Ok tt <-> buildable reg a.
  Proof.
    unfold content_check, buildable. pose proof (fun k' => group_check_iff (group_of a) [us "_"] k' ltac:(constructor; [intros []|constructor])) as Hg.
    split.
    - intros H. apply bind_Ok in H as (known & H1 & H2). apply Hg in H1 as (-> & H3 & H4).
      apply items_check_iff in H2 as (H2 & H5). auto.
    - intros (H1 & H2 & H3 & H4). rewrite (proj2 (Hg (us "_" :: map fst (group_of a)))); [cbn [bind]; apply items_check_iff; auto|]. auto.
  Qed.
End Build.

(** Acceptance does not depend on the division of text. *)
Lemma buildable_joined reg a a' : joined a = joined a' -> buildable reg a -> buildable reg a'.
Proof.
  intros E H. set (fe := mk_fmtenv (fun _ => mk_decimal 0 0 0) (fun _ => mk_decimal 0 0 0) (fun _ => None) (fun _ x => x)
    (fun _ _ => None) (fun _ => None) (fun _ => None) (fun _ _ _ => None) (fun _ _ => None) (fun _ _ => None)
    (fun _ _ _ => true) (fun _ => None)).
  apply (content_check_iff fe reg []) in H. apply (content_check_iff fe reg []). now rewrite <- (content_check_join_eq fe reg [] a a' E).
Qed.

Section Strings.
  Variables (d : icu) (fe : fmtenv) (reg : cregistry) (tag locale : ustr).
  Hypothesis Hd : icu_ok d.
  Notation build := (formatter_try_new d l10n_grammar fe reg tag locale).

  Theorem build_iff s a : content_of d l10n_grammar s a -> s <> [] ->
    (exists fm, build s = Ok fm) <-> (exists c, In c s /\ In c l10n_grammar) /\ buildable reg a.
  Proof.
    intros Ha Hs. pose proof Ha as (c & Hc & Hseg & E).
    assert (Hacc : exists tr, tree_try_new d s l10n_grammar = Ok tr).
    { apply tree_accept_iff. split; [exact Hs|]. split; [intros E'; pose proof in_open as Ho; rewrite E' in Ho; destruct Ho|]. eauto. }
    destruct Hacc as (tr & Htr). pose proof (tree_reads _ _ _ _ _ Htr Hc Hseg) as Hi. rewrite <- E in Hi.
    unfold formatter_try_new. rewrite Htr. cbn [ft map_err bind]. rewrite <- (tree_grammar_iff d s tr Hd Htr).
    rewrite <- (content_check_iff fe reg locale a). destruct (tr_has_grammar tr) eqn:Eg.
    - pose proof (formatter_built fe reg locale tag tr a Hi Eg) as Hb.
      destruct (content_check fe reg locale a) as [[]|e| |].
      + destruct Hb as (fm & Hfm & _). split; eauto.
      + rewrite Hb. split; [intros (? & ?); discriminate|intros (_ & ?); discriminate].
      + rewrite Hb. split; [intros (? & ?); discriminate|intros (_ & ?); discriminate].
      + rewrite Hb. split; [intros (? & ?); discriminate|intros (_ & ?); discriminate].
    - unfold formatter_of_tree. rewrite Eg. split; [intros (? & ?); discriminate|intros (? & _); discriminate].
  Qed.

  (** Documented strings. *)
  Lemma doc_content_of e : doc_wf d e -> unique_names e -> supported d e -> dprint e <> [] ->
    exists a, content_of d l10n_grammar (dprint e) a /\ joined a = joined (doc_content e).
  Proof.
    intros H1 H2 H3 H4. exists (ccontent (to_cst d e)). split; [|now apply doc_joined].
    exists (to_cst d e). split; [now apply doc_cwf|]. split; [|reflexivity].
    rewrite <- (doc_runs d Hd e H1). apply runs_segmentation.
  Qed.

  (** ** Plain strings *)
  Lemma plain_items rec strs self s vals st : plain s ->
    aitems fe reg locale vals rec strs self (str_content s) st = (st, plain_text vals s).
  Proof.
    intros Hp. unfold str_content, plain_text. cbn [aitems aitem].
    assert (G : aitems fe reg locale vals rec strs self (flat_map (fun x => [syn_content (fst x); SText (snd x)]) (ds_rest s)) st
                = (st, rest_text vals (ds_rest s))).
    { unfold plain in Hp. induction (ds_rest s) as [|[x w] l IH]; [reflexivity|]. inversion Hp as [|? ? Hx Hl]; subst. specialize (IH Hl).
      cbn [flat_map fst snd app aitems rest_text]. cbn [fst] in Hx.
      assert (Hsx : aitem fe reg locale vals rec strs self (syn_content x) st = (st, syn_text vals x)).
      { destruct x as [c| |id [?|]|]; try now destruct Hx.
        cbn [syn_content aitem syn_text]. unfold avalue, text_of, place_text. destruct (mget id vals) as [v|]; cbn; [|reflexivity].
        change (text_value v) with (value_text v). now destruct (value_text v). }
      rewrite Hsx. destruct (syn_text vals x) as [t| | |]; cbn [bind]; try reflexivity. cbn [aitem]. rewrite IH.
      destruct (rest_text vals l) as [t'| | |]; cbn [bind]; reflexivity. }
    rewrite G. destruct (rest_text vals (ds_rest s)); reflexivity.
  Qed.

  Lemma rest_text_err vals l : (forall e, rest_text vals l = Err e ->
      (exists id, e = FPlaceholderValue (us "PatternString") id) \/ e = FInvalidValue (us "PatternString")) /\
    rest_text vals l <> Panic /\ rest_text vals l <> NoFuel.
  Proof.
    induction l as [|[x w] l (IH1 & IH2 & IH3)]; cbn [rest_text]; [repeat split; discriminate|].
    assert (Hx : (forall e, syn_text vals x = Err e ->
      (exists id, e = FPlaceholderValue (us "PatternString") id) \/ e = FInvalidValue (us "PatternString")) /\
      syn_text vals x <> Panic /\ syn_text vals x <> NoFuel).
    { destruct x as [c| |id kw|]; cbn [syn_text]; try (repeat split; discriminate). unfold place_text.
      destruct (mget id vals) as [v|]; [destruct (text_value v)|]; repeat split; try discriminate; intros e [= <-]; eauto. }
    destruct Hx as (X1 & X2 & X3). destruct (syn_text vals x); cbn [bind]; try contradiction; [|repeat split; try discriminate; auto].
    destruct (rest_text vals l); cbn [bind]; try contradiction; repeat split; try discriminate; auto.
  Qed.
  Lemma same_plain x vals s : same_out x (plain_text vals s) -> x = plain_text vals s.
  Proof.
    unfold plain_text, same_out. destruct (rest_text_err vals (ds_rest s)) as (H1 & H2 & H3).
    destruct (rest_text vals (ds_rest s)) as [t|e| |]; cbn [bind]; try contradiction; destruct x as [t'|e'| |]; try discriminate; cbn.
    - intros [= ->]. reflexivity.
    - intros H. injection H as H. destruct (H1 e eq_refl) as [(id & ->)| ->]; destruct e'; cbn in H; congruence.
  Qed.

  Lemma syn_gram x : syn_wf d x -> x <> DHash -> exists c, In c (synprint x) /\ In c l10n_grammar.
  Proof.
    intros Hx Hh. destruct x as [c| |id [[[w k] sels]|]|name delay ps]; [| now destruct Hh| | |]; cbn [synprint].
    - exists 96%N. split; [now left|exact in_back].
    - exists 123%N. split; [now left|exact in_open].
    - exists 123%N. split; [now left|exact in_open].
    - exists 123%N. split; [now left|exact in_open].
  Qed.

  Theorem plain_format s : main_wf d s -> NoDup (spats (str_content s)) -> plain s -> ds_rest s <> [] ->
    exists fm, build (strprint s) = Ok fm /\
      forall fm' vals fuel, after_formatting fe reg fm fm' -> 0 < fuel -> snd (format fuel fe reg fm' vals) = plain_text vals s.
  Proof.
    intros Hw Hu Hp Hr. set (e := mk_doc s None).
    assert (Hprint : dprint e = strprint s) by (unfold dprint, e; cbn [d_main d_group]; apply app_nil_r).
    assert (Hgram : exists c, In c (strprint s) /\ In c l10n_grammar).
    { destruct (ds_rest s) as [|[x w] l] eqn:E; [now destruct Hr|]. destruct Hw as ((_ & Hw) & Hh). rewrite E in Hw, Hh.
      inversion Hw as [|? ? [Hx _] _]; subst. inversion Hh as [|? ? Hxh _]; subst.
      destruct (syn_gram x Hx Hxh) as (c & Hc & Hg). exists c. split; [|exact Hg].
      unfold strprint. apply in_or_app. right. rewrite E. cbn [flat_map fst]. apply in_or_app. left. apply in_or_app. now left. }
    assert (Hne : dprint e <> []).
    { rewrite Hprint. destruct Hgram as (c & Hc & _). intros E. rewrite E in Hc. destruct Hc. }
    destruct (doc_content_of e) as (a & Ha & Hj).
    { split; [exact Hw|exact I]. }
    { unfold unique_names, placeholder_names, string_names, doc_content, e, group_of. cbn [d_main d_group fst snd option_map flat_map map].
      rewrite app_nil_r. split; [exact Hu|constructor]. }
    { exact I. }
    { exact Hne. }
    assert (Hb : buildable reg a).
    { apply (buildable_joined reg (doc_content e)); [now symmetry|].
      split; [constructor; [intros []|constructor]|].
      assert (Hin : forall x, In x (fst (doc_content e)) -> exists w, x = SText w \/ x = SPat w None).
      { intros x Hx. cbn [fst doc_content e d_main] in Hx. unfold str_content in Hx. destruct Hx as [<-|Hx]; [eauto|].
        apply in_flat_map in Hx as ([y w] & Hy & Hx). cbn [fst snd] in Hx.
        unfold plain in Hp. rewrite Forall_forall in Hp. specialize (Hp _ Hy). cbn [fst] in Hp.
        destruct Hx as [<-|[<-|[]]]; [|eauto]. destruct y as [c| |id [?|]|]; try (now destruct Hp); cbn; eauto. }
      split; [intros Hh; destruct (Hin _ Hh) as (w & [?|?]); discriminate|].
      split; [apply Forall_forall; intros x Hx; destruct (Hin _ Hx) as (w & [->| ->]); exact I|].
      intros pre name body post E. cbn in E. destruct pre; discriminate. }
    rewrite Hprint in *. destruct (proj2 (build_iff _ _ Ha Hne) (conj Hgram Hb)) as (fm & Hfm). exists fm. split; [exact Hfm|].
    intros fm' vals fuel Haf Hfuel. destruct (try_new_inv _ _ _ _ _ _ _ _ _ Ha Hfm) as (_ & Hrep & _).
    destruct (after_sim fe reg locale fm a fm' Hrep Haf) as (st & Hsim). specialize (Hsim vals fuel).
    rewrite (astring_join_eq fe reg locale vals fuel a (doc_content e) _ _ Hj) in Hsim.
    destruct fuel as [|f]; [lia|]. cbn [astring strings_of mget] in Hsim. rewrite ueqb_refl in Hsim.
    cbn [fst doc_content e d_main] in Hsim. rewrite (plain_items _ _ _ _ _ _ Hp) in Hsim. cbn [snd] in Hsim. now apply same_plain.
  Qed.

  (** ** Escaped text *)
  Fixpoint escaped (w : ustr) : dstr :=
    match w with
    | [] => mk_dstr [] []
    | c :: r =>
        if existsb (N.eqb c) l10n_grammar then mk_dstr [] ((DEsc c, ds_text (escaped r)) :: ds_rest (escaped r))
        else mk_dstr (c :: ds_text (escaped r)) (ds_rest (escaped r))
    end.
  Lemma gram_In c : existsb (N.eqb c) l10n_grammar = true <-> In c l10n_grammar.
  Proof. rewrite existsb_exists. split; [intros (x & H1 & H2); apply N.eqb_eq in H2; now subst|intros H; exists c; split; [exact H|apply N.eqb_refl]]. Qed.
  Lemma escaped_print w : strprint (escaped w) = escape w.
  Proof.
    induction w as [|c w IH]; [reflexivity|]. unfold strprint in *. cbn [escaped escape flat_map].
    destruct (existsb (N.eqb c) l10n_grammar); cbn [ds_text ds_rest flat_map fst snd synprint app].
    - fold (escape w). rewrite <- IH. now rewrite <- !app_assoc.
    - fold (escape w). rewrite <- IH. reflexivity.
  Qed.
  Lemma escaped_text vals w : plain_text vals (escaped w) = Ok w.
  Proof.
    induction w as [|c w IH]; [reflexivity|]. unfold plain_text in *. cbn [escaped].
    destruct (existsb (N.eqb c) l10n_grammar); cbn [ds_text ds_rest rest_text syn_text bind].
    - destruct (rest_text vals (ds_rest (escaped w))); cbn [bind] in *; try discriminate. injection IH as ->. reflexivity.
    - destruct (rest_text vals (ds_rest (escaped w))); cbn [bind] in *; try discriminate. injection IH as IH. cbn [app]. now rewrite IH.
  Qed.
  Lemma escaped_wf w : main_wf d (escaped w) /\ plain (escaped w) /\ spats (str_content (escaped w)) = [] /\
    ((exists c, In c w /\ In c l10n_grammar) -> ds_rest (escaped w) <> []).
  Proof.
    induction w as [|c w (((T & F) & N) & P & S & G)].
    - repeat split; try constructor. intros (c & [] & _).
    - cbn [escaped]. destruct (existsb (N.eqb c) l10n_grammar) eqn:E.
      + apply gram_In in E. repeat split; cbn [ds_text ds_rest].
        * constructor.
        * constructor; [split; [exact E|exact T]|exact F].
        * constructor; [discriminate|exact N].
        * constructor; [exact I|exact P].
        * exact S.
        * discriminate.
      + assert (E' : ~ In c l10n_grammar) by (intros Hc; apply gram_In in Hc; congruence).
        repeat split; cbn [ds_text ds_rest]; auto.
        * constructor; [exact E'|exact T].
        * intros (x & [<-|Hx] & Hg); [contradiction|]. apply G. eauto.
  Qed.
  Theorem escape_format w : (exists c, In c w /\ In c l10n_grammar) ->
    exists fm, build (escape w) = Ok fm /\
      forall fm' vals fuel, after_formatting fe reg fm fm' -> 0 < fuel -> snd (format fuel fe reg fm' vals) = Ok w.
  Proof.
    intros Hg. destruct (escaped_wf w) as (H1 & H2 & H3 & H4).
    destruct (plain_format (escaped w) H1) as (fm & Hfm & Hf); [rewrite H3; constructor|exact H2|auto|].
    rewrite escaped_print in Hfm. exists fm. split; [exact Hfm|]. intros. rewrite <- (escaped_text vals w). now apply Hf.
  Qed.

  (** ** The documented text *)
  Lemma documented_implemented a vals : own_branches a -> categories_covered fe locale vals a -> forall t,
    documented_text fe reg locale vals a t <-> implemented_text fe reg locale vals a t.
  Proof.
    intros Ho Hcov. unfold documented_text, implemented_text. set (strs := all_strings a).
    assert (Hsel : forall name body ph kw sels key branch, In (name, body) strs -> In (SPat ph (Some (kw, sels))) body ->
              documented_select sels key branch <-> by_selector sels key branch).
    { intros name body ph kw sels key branch Hn Hb. unfold documented_select, by_selector. split.
      - intros Hi. pose proof (Ho _ _ _ _ _ _ _ Hn Hb Hi) as <-. split; [|reflexivity]. apply in_map_iff. now exists (key, key).
      - intros (Hi & ->). apply in_map_iff in Hi as ([k b] & <- & Hi). cbn. now rewrite <- (Ho _ _ _ _ _ _ _ Hn Hb Hi) in Hi. }
    assert (Hpl : forall name body ph kw sels key branch, In (name, body) strs -> In (SPat ph (Some (kw, sels))) body ->
              In key (map fst sels) -> documented_plural sels key branch <-> by_selector sels key branch).
    { intros name body ph kw sels key branch Hn Hb Hk. rewrite <- (Hsel name body ph kw sels key branch Hn Hb).
      unfold documented_plural, documented_select. split; [intros [H|(H & _)]; [exact H|contradiction]|auto]. }
    assert (Hgen : forall (cs cp cs' cp' : list (ustr * ustr) -> ustr -> ustr -> Prop),
      (forall name body ph sels key branch, In (name, body) strs -> In (SPat ph (Some (us "select", sels))) body ->
         cs sels key branch -> cs' sels key branch) ->
      (forall name body ph kw sels key branch, In (name, body) strs -> In (SPat ph (Some (kw, sels))) body ->
         In key (map fst sels) -> cp sels key branch -> cp' sels key branch) ->
      forall n l t, renders fe reg locale vals strs cs cp n l t -> (exists name body, In (name, body) strs /\ incl l body) ->
        renders fe reg locale vals strs cs' cp' n l t).
    { intros cs cp cs' cp' Hcs Hcp n l t H.
      apply (renders_mut fe reg locale vals strs cs cp
        (fun n l t => (exists name body, In (name, body) strs /\ incl l body) -> renders fe reg locale vals strs cs' cp' n l t)
        (fun n x t => (exists name body, In (name, body) strs /\ In x body) -> rend fe reg locale vals strs cs' cp' n x t));
        [ .. |exact H]; clear n l t H; intros n.
      - intros _. constructor.
      - intros x l s t _ IHx _ IHl (name & body & Hn & Hi). constructor.
        + apply IHx. exists name, body. split; [exact Hn|apply Hi; now left].
        + apply IHl. exists name, body. split; [exact Hn|]. intros y Hy. apply Hi. now right.
      - intros w _. constructor.
      - intros s Hn _. now constructor.
      - intros ph v s H1 H2 _. econstructor; eauto.
      - intros ph v dec f H1 H2 H3 _. econstructor; eauto.
      - intros ph v m s H1 H2 H3 _. econstructor; eauto.
      - intros ph sels v key branch body t H1 H2 H3 H4 _ IH (nm & bd & Hn & Hi). eapply rn_select; eauto.
        apply IH. exists branch, body. split; [apply mget_In, H4|apply incl_refl].
      - intros ph sels v dec rules f branch body t H1 H2 H3 H4 H5 H6 _ IH (nm & bd & Hn & Hi).
        eapply rn_plural; [exact H1|exact H2|exact H3|exact H4| |exact H6|].
        { apply (Hcp _ _ _ _ _ _ _ Hn Hi); [|exact H5]. apply (Hcov nm bd ph sels v dec rules Hn H1 H2). left. auto. }
        apply IH. exists branch, body. split; [apply mget_In, H6|apply incl_refl].
      - intros ph sels k rules f branch body t H1 H2 H3 H4 H5 _ IH (nm & bd & Hn & Hi).
        eapply rn_ordinal; [exact H1|exact H2|exact H3| |exact H5|].
        { apply (Hcp _ _ _ _ _ _ _ Hn Hi); [|exact H4]. apply (Hcov nm bd ph sels (VUnsigned k) (fe_unsigned fe k) rules Hn H1); [constructor|]. right. auto. }
        apply IH. exists branch, body. split; [apply mget_In, H5|apply incl_refl].
      - intros name args f t H1 H2 _. econstructor; eauto.
      - intros name args f t H1 H2 _. eapply rn_delayed; eauto. }
    intros t. assert (Hmain : exists name body, In (name, body) strs /\ incl (fst a) body)
      by (exists (us "_"), (fst a); split; [now left|apply incl_refl]).
    split; intros H; (eapply Hgen; [| |exact H|exact Hmain]).
    - intros name body ph sels key branch Hn Hb. apply (Hsel name body ph _ sels key branch Hn Hb).
    - intros name body ph kw sels key branch Hn Hb Hk. apply (Hpl name body ph kw sels key branch Hn Hb Hk).
    - intros name body ph sels key branch Hn Hb. apply (Hsel name body ph _ sels key branch Hn Hb).
    - intros name body ph kw sels key branch Hn Hb Hk. apply (Hpl name body ph kw sels key branch Hn Hb Hk).
  Qed.

  Theorem format_documented s a fm fm' vals t : content_of d l10n_grammar s a -> hash_in_plurals_only a ->
    own_branches a -> categories_covered fe locale vals a -> build s = Ok fm -> after_formatting fe reg fm fm' ->
    gives fe reg fm' vals (Ok t) <-> documented_text fe reg locale vals a t.
  Proof.
    intros Ha Hh Ho Hc Hf Haf. rewrite (documented_implemented a vals Ho Hc t). eapply format_iff; eauto.
  Qed.

  (** ** What is needed of keywords *)
  Lemma built_items_ok s a fm : content_of d l10n_grammar s a -> build s = Ok fm ->
    forall name body x, In (name, body) (all_strings a) -> In x body -> exists known, item_ok reg known x.
  Proof.
    intros Ha Hf name body x Hn Hx. destruct (try_new_inv _ _ _ _ _ _ _ _ _ Ha Hf) as (Hc & _).
    apply content_check_iff in Hc as (_ & _ & H1 & H2). destruct Hn as [[= <- <-]|Hn].
    - rewrite Forall_forall in H1. eauto.
    - apply in_split in Hn as (pre & post & Hn). specialize (H2 _ _ _ _ Hn). rewrite Forall_forall in H2. eauto.
  Qed.
  Theorem options_rejected s a name body ph kw opts : content_of d l10n_grammar s a -> In (name, body) (all_strings a) ->
    In (SPat ph (Some (kw, opts))) body -> kw = us "decimal" \/ kw = us "date_time" -> opts <> [] ->
    forall fm, build s <> Ok fm.
  Proof.
    intros Ha Hn Hx Hk Ho fm Hf. destruct (built_items_ok _ _ _ Ha Hf _ _ _ Hn Hx) as (known & H). cbn in H.
    destruct H as [(_ & H)|[([H|H] & _)|(H & _)]]; [contradiction| | | ]; destruct Hk; subst; discriminate.
  Qed.
  Theorem plural_needs_other s a name body ph kw sels : content_of d l10n_grammar s a -> In (name, body) (all_strings a) ->
    In (SPat ph (Some (kw, sels))) body -> kw = us "plural" \/ kw = us "ordinal" -> ~ In (us "other") (map fst sels) ->
    forall fm, build s <> Ok fm.
  Proof.
    intros Ha Hn Hx Hk Ho fm Hf. destruct (built_items_ok _ _ _ Ha Hf _ _ _ Hn Hx) as (known & H). cbn in H.
    destruct H as [([H|H] & _)|[(_ & H & _)|(H & _)]]; try contradiction; destruct Hk; subst; discriminate.
  Qed.
End Strings.

(** ** The built-in commands *)
Definition built_in (reg : cregistry) : Prop :=
  forall name f, mget name reg = Some f -> f = file_path \/ f = english_a_or_an.
Lemma built_in_no_panic reg : built_in reg -> forall name f args, mget name reg = Some f ->
  Forall (fun v => v <> VString []) args -> f (VString name :: args) <> Panic.
Proof.
  intros Hb name f args Hf Ha. destruct (Hb _ _ Hf) as [-> | ->]; unfold file_path, english_a_or_an, command_parameter;
    destruct args as [|v args]; try discriminate; destruct v; try discriminate.
  cbn [bind]. inversion Ha as [|? ? Hv _]; subst. destruct s as [|c s]; [now destruct Hv|]. cbn.
  match goal with |- (if ?b then _ else _) <> _ => destruct b end; discriminate.
Qed.
Theorem built_in_build_no_panic d fe reg tag locale s tr : built_in reg -> tree_try_new d s l10n_grammar = Ok tr ->
  formatter_try_new d l10n_grammar fe reg tag locale s <> Panic.
Proof.
  intros Hb Ht. destruct (accepted_content d l10n_grammar s tr Ht) as (a & Ha & _).
  apply (build_no_panic d l10n_grammar fe reg tag locale (fun v => v <> VString []) s tr a Ha); auto.
  - now apply built_in_no_panic.
  - intros w Hw E. apply (words_nonempty d l10n_grammar s a w Ha Hw). congruence.
Qed.
Theorem built_in_format_no_panic d fe reg tag locale s fm fm' vals fuel : built_in reg ->
  (forall ph v, mget ph vals = Some v -> v <> VString []) ->
  formatter_try_new d l10n_grammar fe reg tag locale s = Ok fm -> after_formatting fe reg fm fm' ->
  snd (format fuel fe reg fm' vals) <> Panic.
Proof.
  intros Hb Hv Hf Haf. destruct (built_content d l10n_grammar fe reg tag locale s fm Hf) as (a & Ha).
  apply (format_no_panic d l10n_grammar fe reg tag locale (fun v => v <> VString []) s a fm fm' vals fuel Ha); auto.
  - now apply built_in_no_panic.
  - intros w Hw E. apply (words_nonempty d l10n_grammar s a w Ha Hw). congruence.
Qed.
Theorem safe_format_no_panic d g fe reg tag locale s fm fm' vals fuel :
  (forall name f args, mget name reg = Some f -> f (VString name :: args) <> Panic) ->
  formatter_try_new d g fe reg tag locale s = Ok fm -> after_formatting fe reg fm fm' ->
  snd (format fuel fe reg fm' vals) <> Panic.
Proof.
  intros Hr Hf Haf. destruct (built_content d g fe reg tag locale s fm Hf) as (a & Ha).
  apply (format_no_panic d g fe reg tag locale (fun _ => True) s a fm fm' vals fuel Ha); eauto.
Qed.
Theorem safe_build_no_panic d g fe reg tag locale s tr :
  (forall name f args, mget name reg = Some f -> f (VString name :: args) <> Panic) ->
  tree_try_new d s g = Ok tr -> formatter_try_new d g fe reg tag locale s <> Panic.
Proof.
  intros Hr Ht. destruct (accepted_content d g s tr Ht) as (a & Ha & _).
  apply (build_no_panic d g fe reg tag locale (fun _ => True) s tr a Ha); eauto.
Qed.
