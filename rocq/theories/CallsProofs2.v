(** Proofs for C92: whole pattern strings; commands without effects; uniqueness of the calls. *)
From Verif Require Import Base BaseFacts LexerModel LexerSpec TreeModel TreeSpec TreeProofs4 DocSpec ValueModel CommandModel IsoModel FormatterModel FormatterSpec FormatterAbs
  FormatterRefine FormatterRefine2 FormatterProofs FormatterProofs4 FormatterProofs5 CallsModel CallsSpec CallsProofs.
Local Opaque us.

Section Strings.
  Context {W : Type}.
  Variables (d : icu) (grammar : ustr) (fe : fmtenv) (reg : wregistry W) (tag locale : ustr).

  Lemma build_goes s a w : content_of d grammar s a ->
    goes reg (build_calls a) w (wformatter_try_new d grammar fe reg tag locale s w) (fun fm => wfm fe locale fm a).
  Proof.
    intros (c & Hc & Hs & ->). unfold wformatter_try_new. apply goes_pure. intros tr Ht.
    destruct (tree_try_new d s grammar) as [tr'| | |] eqn:E; cbn in Ht; try discriminate. injection Ht as ->.
    apply wbuilt. exact (tree_reads _ _ _ _ _ E Hc Hs).
  Qed.
  Theorem build_makes s a w w' r : content_of d grammar s a -> wformatter_try_new d grammar fe reg tag locale s w = (w', r) ->
    exists pre post, build_calls a = pre ++ post /\ attempted reg pre w w' /\ (forall fm, r = Ok fm -> post = [] /\ made reg pre w w').
  Proof.
    intros Hc H. destruct (build_goes s a w Hc) as [(fm & w1 & E & _ & Hm)|(w1 & r1 & pre & post & E & Hr & Ep & Ha)]; rewrite H in E; injection E as -> ->.
    - exists (build_calls a), []. rewrite app_nil_r. split; [reflexivity|]. split; [now constructor|]. auto.
    - exists pre, post. split; [exact Ep|]. split; [exact Ha|]. intros fm' Hf. now destruct (Hr fm').
  Qed.
  Lemma no_content_no_calls s w w' r : (forall a, ~ content_of d grammar s a) -> wformatter_try_new d grammar fe reg tag locale s w = (w', r) -> w' = w.
  Proof.
    intros Hn. unfold wformatter_try_new. destruct (tree_try_new d s grammar) as [tr|e| |] eqn:E; cbn; try (now intros [= <- _]).
    destruct (accepted_content d grammar s tr E) as (a & Ha & _). now destruct (Hn a).
  Qed.
  Lemma build_wfm s a w w' fm : content_of d grammar s a -> wformatter_try_new d grammar fe reg tag locale s w = (w', Ok fm) -> wfm fe locale fm a.
  Proof.
    intros Hc H. destruct (build_goes s a w Hc) as [(fm1 & w1 & E & Hf & Hm)|(w1 & r1 & pre & post & E & Hr & Ep & Ha)]; rewrite H in E.
    - injection E as _ ->. exact Hf.
    - injection E as _ <-. now destruct (Hr fm).
  Qed.
  Lemma after_wfm fm fm' a : wfm fe locale fm a -> wafter fe reg fm fm' -> wfm fe locale fm' a.
  Proof.
    intros H Ha. induction Ha as [|fm1 vals fuel w _ IH]; [exact H|]. unfold wformat.
    destruct (wformat_pattern fe reg fm1 vals fuel (us "_") (fm_numbers fm1) w) as ((ns & w1) & r). cbn [fst snd]. destruct IH as [H1 H2]. split; assumption.
  Qed.
  Theorem format_makes s a w0 w1 fm fm' vals fuel w w' fm'' r : content_of d grammar s a ->
    wformatter_try_new d grammar fe reg tag locale s w0 = (w1, Ok fm) -> wafter fe reg fm fm' -> wformat fuel fe reg fm' vals w = (w', (fm'', r)) ->
    exists calls, shows_first fe locale vals (all_strings a) (fst a) calls /\ attempted reg calls w w' /\
      (forall t, r = Ok t -> shows fe locale vals (all_strings a) (fst a) calls /\ made reg calls w w').
  Proof.
    intros Hc Hb Ha Hf. pose proof (after_wfm _ _ _ (build_wfm _ _ _ _ _ Hc Hb) Ha) as Hw. unfold wformat in Hf.
    pose proof (pattern_fine fe reg locale fm' a vals Hw fuel (us "_") (fm_numbers fm') w) as Hp. cbn [strings_of mget] in Hp. rewrite ueqb_refl in Hp.
    destruct (wformat_pattern fe reg fm' vals fuel (us "_") (fm_numbers fm') w) as ((ns & w2) & r2). injection Hf as <- <- <-.
    destruct Hp as (cs & H1 & H2 & H3). exists cs. split; [exact H1|]. split; [exact H2|exact H3].
  Qed.
End Strings.

(** ** The calls are determined *)
Section Unique.
  Variables (fe : fmtenv) (locale : ustr) (vals : amap pvalue) (strs : amap (list sitem)).
  Lemma number_value_fun v x y : number_value fe v x -> number_value fe v y -> x = y.
  Proof. intros H1 H2. apply (number_of_ok fe []) in H1, H2. congruence. Qed.
  Lemma goes_to_fun x b b' : goes_to fe locale vals strs x b -> goes_to fe locale vals strs x b' -> b = b'.
  Proof.
    intros H H'. destruct H as [ph sels v key body Hv Hk Hi Hb|ph sels v dec rules body Hv Hn Hr Hi Hb|ph sels k rules body Hv Hr Hi Hb];
      inversion H' as [ph' sels' v' key' body' Hv' Hk' Hi' Hb' E1 E2|ph' sels' v' dec' rules' body' Hv' Hn' Hr' Hi' Hb' E1 E2|ph' sels' k' rules' body' Hv' Hr' Hi' Hb' E1 E2];
      subst; rewrite Hv in Hv'; injection Hv' as <-.
    - congruence.
    - pose proof (number_value_fun _ _ _ Hn Hn'). congruence.
    - congruence.
  Qed.
  Lemma goes_to_simple x b : goes_to fe locale vals strs x b -> ~ simple x.
  Proof. intros G. destruct G; cbn; intros [E|E]; discriminate E. Qed.
  Lemma delayed_not_simple name r : ~ simple (SCmd (SId name :: SDelay :: r)).
  Proof. cbn. intros H. apply H. eauto. Qed.
  Lemma delayed_not_branch name r b : ~ goes_to fe locale vals strs (SCmd (SId name :: SDelay :: r)) b.
  Proof. intros H. inversion H. Qed.
  Lemma SId_inj l : forall l', map SId l = map SId l' -> l = l'.
  Proof. induction l as [|x l IH]; intros [|y l'] H; try discriminate; [reflexivity|]. injection H as -> H. f_equal. auto. Qed.
  Lemma shows_fun l cs : shows fe locale vals strs l cs -> forall cs', shows fe locale vals strs l cs' -> cs = cs'.
  Proof.
    induction 1 as [|x l cs Hx _ IH|x body l cs cs2 Hx Hb IHb _ IH|name args l cs _ IH]; intros cs' H'.
    - now inversion H'.
    - inversion H' as [|x' l' c' Hx' Hl' E1 E2|x' body' l' c' c2' Hx' Hb' Hl' E1 E2|name' args' l' c' Hl' E1 E2]; subst; auto.
      + now destruct (goes_to_simple _ _ Hx').
      + now destruct (delayed_not_simple _ _ Hx).
    - inversion H' as [|x' l' c' Hx' Hl' E1 E2|x' body' l' c' c2' Hx' Hb' Hl' E1 E2|name' args' l' c' Hl' E1 E2]; subst.
      + now destruct (goes_to_simple _ _ Hx).
      + rewrite (goes_to_fun _ _ _ Hx' Hx) in Hb'. f_equal; auto.
      + now destruct (delayed_not_branch _ _ _ Hx).
    - inversion H' as [|x' l' c' Hx' Hl' E1 E2|x' body' l' c' c2' Hx' Hb' Hl' E1 E2|name' args' l' c' Hl' E1 E2]; subst.
      + now destruct (delayed_not_simple _ _ Hx').
      + now destruct (delayed_not_branch _ _ _ Hx').
      + match goal with E : map SId _ = map SId _ |- _ => apply SId_inj in E; subst end. f_equal. auto.
  Qed.
  Lemma shows_prefix l cs' : shows_first fe locale vals strs l cs' -> forall cs, shows fe locale vals strs l cs -> exists r, cs = cs' ++ r.
  Proof.
    induction 1 as [l|x l cs' Hx _ IH|x body l cs' Hx _ IH|x body l cs1 cs2 Hx Hb _ IH|name args l cs' _ IH]; intros cs H'.
    - now exists cs.
    - inversion H' as [|x' l' c' Hx' Hl' E1 E2|x' body' l' c' c2' Hx' Hb' Hl' E1 E2|name' args' l' c' Hl' E1 E2]; subst; auto.
      + now destruct (goes_to_simple _ _ Hx').
      + now destruct (delayed_not_simple _ _ Hx).
    - inversion H' as [|x' l' c' Hx' Hl' E1 E2|x' body' l' c' c2' Hx' Hb' Hl' E1 E2|name' args' l' c' Hl' E1 E2]; subst.
      + now destruct (goes_to_simple _ _ Hx).
      + rewrite (goes_to_fun _ _ _ Hx' Hx) in Hb'. destruct (IH _ Hb') as (r & ->). exists (r ++ c2'). now rewrite app_assoc.
      + now destruct (delayed_not_branch _ _ _ Hx).
    - inversion H' as [|x' l' c' Hx' Hl' E1 E2|x' body' l' c' c2' Hx' Hb' Hl' E1 E2|name' args' l' c' Hl' E1 E2]; subst.
      + now destruct (goes_to_simple _ _ Hx).
      + rewrite (goes_to_fun _ _ _ Hx' Hx) in Hb'. rewrite (shows_fun _ _ Hb _ Hb'). destruct (IH _ Hl') as (r & ->). exists r. now rewrite app_assoc.
      + now destruct (delayed_not_branch _ _ _ Hx).
    - inversion H' as [|x' l' c' Hx' Hl' E1 E2|x' body' l' c' c2' Hx' Hb' Hl' E1 E2|name' args' l' c' Hl' E1 E2]; subst.
      + now destruct (delayed_not_simple _ _ Hx').
      + now destruct (delayed_not_branch _ _ _ Hx').
      + match goal with E : map SId _ = map SId _ |- _ => apply SId_inj in E; subst end. destruct (IH _ Hl') as (r & ->). now exists r.
  Qed.
End Unique.

(** ** Commands that are not delayed do not matter any more *)
Section Constant.
  Context {W : Type}.
  Variables (fe : fmtenv) (reg reg' : wregistry W) (fm : formatter) (vals : amap pvalue).
  Definition uses (fm : formatter) (name : ustr) : Prop := exists n ps l, In (n, ps) (fm_patterns fm) /\ In (PtCommand (VString name :: l)) ps.
  Hypothesis Hreg : forall name, uses fm name -> mget name reg' = mget name reg.
  Definition eq_rec (rec rec' : ustr -> nums -> W -> (nums * W) * fout ustr) : Prop := forall n ns w, rec' n ns w = rec n ns w.
  Lemma part_same rec rec' p ns w n ps : eq_rec rec rec' -> In (n, ps) (fm_patterns fm) -> In p ps ->
    wformat_part fe reg' fm vals rec' p ns w = wformat_part fe reg fm vals rec p ns w.
  Proof.
    intros Hrec Hn Hp. destruct p as [s|i|ph|ph sg gr|ph ld lt cal|ph c idx|strings]; try reflexivity; cbn [wformat_part].
    - destruct (mget ph vals) as [v|]; [|reflexivity].
      assert (Hf : forall dd rules, wfind_number_sign fe fm rec' dd rules idx ns w = wfind_number_sign fe fm rec dd rules idx ns w).
      { intros dd rules. unfold wfind_number_sign. destruct (fe_decimal fe (fm_locale fm) None) as [fdf|]; [|reflexivity].
        destruct (nth_error (fm_selectors fm) idx) as [sels|]; [|reflexivity]. destruct (mget _ sels) as [named|]; [|reflexivity].
        destruct (mget named (fm_patterns fm)) as [parts|]; [|reflexivity]. destruct (update_numbers parts (fdf dd) ns) as (ns1 & [u|e| |]); auto. }
      unfold wformat_complex. destruct c.
      + destruct (fe_cardinal fe (fm_locale fm)); [|reflexivity]. destruct (number_of fe (us "PatternPlural") v); auto.
      + destruct (fe_ordinal fe (fm_locale fm)); [|reflexivity]. destruct v; auto.
      + destruct (value_text v) as [s|]; [|reflexivity]. unfold wformat_select. destruct (nth_error (fm_selectors fm) idx) as [sels|]; [|reflexivity].
        destruct (mget s sels); auto.
    - unfold wformat_command. destruct strings as [|[name| | | | | | | | | | ] r]; try reflexivity.
      destruct (delayed_parameters vals r) as [ps'|e| |]; try reflexivity. cbn [wbind]. unfold call. rewrite Hreg; [reflexivity|]. unfold uses. eauto.
  Qed.
  Lemma parts_same rec rec' n all : eq_rec rec rec' -> In (n, all) (fm_patterns fm) -> forall ps, incl ps all -> forall ns w,
    wformat_parts fe reg' fm vals rec' ps ns w = wformat_parts fe reg fm vals rec ps ns w.
  Proof.
    intros Hrec Hn. induction ps as [|p ps IH]; intros Hi ns w; cbn [wformat_parts]; [reflexivity|].
    rewrite (part_same rec rec' p ns w n all Hrec Hn (Hi _ (or_introl eq_refl))). destruct (wformat_part fe reg fm vals rec p ns w) as ((ns1 & w1) & [s|e| |]); try reflexivity.
    rewrite IH; [reflexivity|]. intros q Hq. apply Hi. now right.
  Qed.
  Lemma pattern_same fuel : eq_rec (wformat_pattern fe reg fm vals fuel) (wformat_pattern fe reg' fm vals fuel).
  Proof.
    induction fuel as [|f IH]; intros n ns w; cbn [wformat_pattern]; [reflexivity|]. destruct (mget n (fm_patterns fm)) as [ps|] eqn:E; [|reflexivity].
    apply (parts_same _ _ n ps IH (mget_In _ _ _ E)). apply incl_refl.
  Qed.
  Lemma format_same fuel w : wformat fuel fe reg' fm vals w = wformat fuel fe reg fm vals w.
  Proof. unfold wformat. now rewrite pattern_same. Qed.
End Constant.
Lemma wreps_delays fe locale S ps l name r : wreps fe locale S ps l -> In (PtCommand (VString name :: r)) ps -> exists r', In (SCmd (SId name :: SDelay :: r')) l.
Proof.
  induction 1 as [|p g ps l Hp _ IH]; intros H; [destruct H|]. destruct H as [->|H].
  - inversion Hp as [p' g' Hp' E1 E2|]; subst. inversion Hp'; subst. match goal with H : cmd_parts _ = _ |- _ => apply (cmd_parts_iff _ name true r) in H as (args & -> & ->) end.
    eexists. left. reflexivity.
  - destruct (IH H) as (r' & Hr). exists r'. apply in_or_app. now right.
Qed.
Lemma uses_delays fe locale fm a name : wfm fe locale fm a -> uses fm name -> delays a name.
Proof.
  intros [Hp _] (n & ps & l & Hn & Hi). revert Hp. change (strings_of a) with (all_strings a). unfold delays. generalize (all_strings a) as strs.
  intros strs Hp. unfold pats in Hp. induction Hp as [|x y pl strs [H1 H2] HF IH]; [destruct Hn|]. destruct Hn as [->|Hn].
  - cbn in *. destruct (wreps_delays _ _ _ _ _ _ _ H2 Hi) as (r' & Hr). exists (fst y), (snd y), r'. split; [left; now destruct y|exact Hr].
  - destruct (IH Hn) as (n' & b & r' & H3 & H4). exists n', b, r'. split; [now right|exact H4].
Qed.
Theorem constant_text {W} d grammar fe (reg reg' : wregistry W) tag locale s a w0 w1 fm fm' vals fuel w : content_of d grammar s a ->
  wformatter_try_new d grammar fe reg tag locale s w0 = (w1, Ok fm) -> wafter fe reg fm fm' ->
  (forall name, delays a name -> mget name reg' = mget name reg) -> wformat fuel fe reg' fm' vals w = wformat fuel fe reg fm' vals w.
Proof.
  intros Hc Hb Ha Hd. apply format_same. intros name Hu. apply Hd. eapply uses_delays; [|exact Hu]. eapply after_wfm; [|exact Ha]. eapply build_wfm; eassumption.
Qed.

(** ** Commands without effects *)
Section Stateless.
  Context {W : Type}.
  Variables (fe : fmtenv) (reg : cregistry).
  Notation wreg := (without_effects reg : wregistry W).
  Lemma get_without name : mget name wreg = option_map without_effect (mget name reg).
  Proof. unfold without_effects. induction reg as [|(k, f) r IH]; cbn; [reflexivity|]. destruct (ueqb name k); [reflexivity|exact IH]. Qed.
  Lemma call_without name ps w : call wreg name ps w = (w, run_command reg name ps).
  Proof. unfold call, run_command, creg_command. rewrite get_without. destruct (mget name reg) as [f|]; reflexivity. Qed.
  Lemma wbind_pure {A B} (x : fout A) (f : A -> W -> wout W B) (g : A -> fout B) w : (forall a, f a w = (w, g a)) -> wbind (w, x) f = (w, bind x g).
  Proof. intros H. destruct x; cbn; auto. Qed.
  Lemma part_command_without tr i w : wpart_command wreg tr i w = (w, part_command reg tr i).
  Proof.
    unfold wpart_command. rewrite (wbind_pure _ _ (fun x => let '(name, delay, ps) := x in
      if delay : bool then Ok (PtCommand (VString name :: ps)) else let! s := run_command reg name ps in Ok (PtText s))).
    2:{ intros ((name & delay) & ps). destruct delay; [reflexivity|]. rewrite call_without. now destruct (run_command reg name ps). }
    f_equal. unfold read_command, part_command. destruct (ft (tree_children tr i)) as [[|c r]| | |]; try reflexivity. cbn [bind].
    destruct (ft (tree_node_type tr c)) as [ty| | |]; try reflexivity. cbn [bind]. destruct (negb (ntype_eqb ty NIdentifier)); [reflexivity|].
    destruct (first_token tr c) as [name| | |]; try reflexivity. cbn [bind]. set (z := match r with [] => Ok (false, []) | x :: r' => _ end).
    destruct z as [(delay & rest)| | |]; try reflexivity. cbn [bind]. destruct (command_parameters tr rest) as [ps| | |]; try reflexivity. cbn [bind].
    destruct delay; [reflexivity|]. unfold run_command. now destruct (map_err FCommand (creg_command reg name)).
  Qed.
  Lemma child_without locale known main tr i b w : wpart_child fe wreg locale known main tr i b w = (w, part_child fe reg locale known main tr i b).
  Proof.
    unfold wpart_child, part_child. apply wbind_pure. intros ty. destruct (ntype_eqb ty NText); [apply wbind_pure; reflexivity|].
    destruct (ntype_eqb ty NNumberSign && negb main); [reflexivity|]. destruct (ntype_eqb ty NPattern); [reflexivity|].
    destruct (ntype_eqb ty NCommand); [|reflexivity]. rewrite part_command_without. apply wbind_pure. reflexivity.
  Qed.
  Lemma parts_without locale known main tr cs : forall b w, wstring_parts fe wreg locale known main tr cs b w = (w, string_parts fe reg locale known main tr cs b).
  Proof.
    induction cs as [|c cs IH]; intros b w; cbn [wstring_parts string_parts]; [reflexivity|]. rewrite child_without. apply wbind_pure. intros (p & b1). cbn [fst snd].
    rewrite IH. apply wbind_pure. now intros (ps & b2).
  Qed.
  Lemma named_without locale tr ns : forall ps b w, wnamed_strings fe wreg locale tr ns ps b w = (w, named_strings fe reg locale tr ns ps b).
  Proof.
    induction ns as [|n ns IH]; intros ps b w; cbn [wnamed_strings named_strings]; [reflexivity|].
    destruct (ft (tree_first tr n)) as [o| | |]; try reflexivity. cbn [bind]. destruct (unwrap o) as [first| | |]; try reflexivity. cbn [bind].
    destruct (first_token tr first) as [id| | |]; try reflexivity. cbn [bind wbind]. destruct (mhas id ps); [reflexivity|].
    destruct (ft (tree_last tr n)) as [o'| | |]; try reflexivity. cbn [bind]. destruct (unwrap o') as [last| | |]; try reflexivity. cbn [bind].
    destruct (ft (tree_children tr last)) as [cs| | |]; try reflexivity. cbn [bind wbind]. rewrite parts_without. apply wbind_pure. intros (parts & b1). apply IH.
  Qed.
  Theorem build_without d grammar tag locale s w : wformatter_try_new d grammar fe wreg tag locale s w = (w, formatter_try_new d grammar fe reg tag locale s).
  Proof.
    unfold wformatter_try_new, formatter_try_new. apply wbind_pure. intros tr. unfold wformatter_of_tree, formatter_of_tree.
    destruct (negb (tr_has_grammar tr)); [reflexivity|]. apply wbind_pure. intros ty. destruct (negb (ntype_eqb ty NRoot)); [reflexivity|].
    apply wbind_pure. intros root. cbn zeta.
    match goal with |- wbind ?x _ = (_, bind ?y _) => assert (E : x = (w, y)) end.
    { destruct root as [|m [|g r]]; try reflexivity. apply wbind_pure. intros ns. apply named_without. }
    rewrite E. apply wbind_pure. intros (ps & b). cbn [fst snd]. destruct (unwrap (nth_error root 0)) as [m| | |]; try reflexivity. cbn [bind].
    apply wbind_pure. intros cs. rewrite parts_without. apply wbind_pure. now intros (parts & b2).
  Qed.

  Section Format.
    Variables (fm : formatter) (vals : amap pvalue).
    Definition lifted (x : fst_out ustr) (w : W) : (nums * W) * fout ustr := ((fst x, w), snd x).
    Definition lift_rec (rec : ustr -> nums -> W -> (nums * W) * fout ustr) (rec' : ustr -> nums -> fst_out ustr) : Prop :=
      forall n ns w, rec n ns w = lifted (rec' n ns) w.
    Lemma number_without rec rec' dd rules idx ns w : lift_rec rec rec' ->
      wfind_number_sign fe fm rec dd rules idx ns w = lifted (find_number_sign fe fm rec' dd rules idx ns) w.
    Proof.
      intros Hrec. unfold wfind_number_sign, find_number_sign. destruct (fe_decimal fe (fm_locale fm) None) as [fdf|]; [|reflexivity].
      destruct (nth_error (fm_selectors fm) idx) as [sels|]; [|reflexivity]. destruct (mget _ sels) as [named|]; [|reflexivity].
      destruct (mget named (fm_patterns fm)) as [parts|]; [|reflexivity]. destruct (update_numbers parts (fdf dd) ns) as (ns1 & [u|e| |]); auto.
    Qed.
    Lemma fpart_without rec rec' p ns w : lift_rec rec rec' -> wformat_part fe wreg fm vals rec p ns w = lifted (format_part fe reg fm vals rec' p ns) w.
    Proof.
      intros Hrec. destruct p as [s|i|ph|ph sg gr|ph ld lt cal|ph c idx|strings]; try reflexivity; cbn [wformat_part format_part].
      - destruct (mget ph vals) as [v|]; [|reflexivity]. unfold wformat_complex, format_complex. destruct c.
        + destruct (fe_cardinal fe (fm_locale fm)); [|reflexivity]. destruct (number_of fe (us "PatternPlural") v); try reflexivity. now apply number_without.
        + destruct (fe_ordinal fe (fm_locale fm)); [|reflexivity]. destruct v; try reflexivity. now apply number_without.
        + destruct (value_text v) as [s|]; [|reflexivity]. unfold wformat_select, format_select. destruct (nth_error (fm_selectors fm) idx) as [sels|]; [|reflexivity].
          destruct (mget s sels); [|reflexivity]. apply Hrec.
      - unfold lifted. cbn [fst snd].
        assert (E : wformat_command wreg vals strings w = (w, format_command reg vals strings)).
        { unfold wformat_command, format_command. destruct strings as [|[name| | | | | | | | | | ] r]; try reflexivity. apply wbind_pure. intros ps. apply call_without. }
        now rewrite E.
    Qed.
    Lemma fparts_without rec rec' : lift_rec rec rec' -> forall ps ns w, wformat_parts fe wreg fm vals rec ps ns w = lifted (format_parts fe reg fm vals rec' ps ns) w.
    Proof.
      intros Hrec. induction ps as [|p ps IH]; intros ns w; cbn [wformat_parts format_parts]; [reflexivity|]. rewrite (fpart_without rec rec' p ns w Hrec).
      destruct (format_part fe reg fm vals rec' p ns) as (ns1 & [s|e| |]); try reflexivity. cbn [lifted fst snd]. rewrite IH.
      destruct (format_parts fe reg fm vals rec' ps ns1) as (ns2 & [s'|e| |]); reflexivity.
    Qed.
    Lemma pattern_without fuel : lift_rec (wformat_pattern fe wreg fm vals fuel) (format_pattern fe reg fm vals fuel).
    Proof.
      induction fuel as [|f IH]; intros n ns w; cbn [wformat_pattern format_pattern]; [reflexivity|]. destruct (mget n (fm_patterns fm)) as [ps|]; [|reflexivity].
      now apply fparts_without.
    Qed.
    Theorem format_without fuel w : wformat fuel fe wreg fm vals w = (w, format fuel fe reg fm vals).
    Proof. unfold wformat, format. rewrite pattern_without. now destruct (format_pattern fe reg fm vals fuel (us "_") (fm_numbers fm)). Qed.
  End Format.
End Stateless.
