(** Proofs for C101: formatters in worlds that are related until something happens in one of them. *)
From Verif Require Import Base BaseFacts LexerModel LexerSpec TreeModel TreeSpec DocSpec ValueModel CommandModel IsoModel FormatterModel FormatterSpec FormatterProofs4 RegistryModel LocaliserModel
  LocaliserSpec LocaliserProofs CallsModel CallsSpec CallsProofs CallsProofs2 LocCallsModel LocCallsSpec ReenterModel ReenterSpec ReenterProofs.
Local Opaque us.

Section Until.
  Context {V W : Type}.
  (** [R]: the worlds are related. [L]: something else happened on the left, and no more is said. [S]: the left one has stopped. [F]:
      what then holds of the right one. *)
  Variables (R : V -> W -> Prop) (L S : V -> Prop) (F : W -> Prop) (reg1 : wregistry V) (reg2 : wregistry W).
  Definition until {X A} (x : V * outcome X A) (y : W * outcome X A) : Prop :=
    L (fst x) \/ (S (fst x) /\ snd x = Panic /\ F (fst y)) \/ (R (fst x) (fst y) /\ snd x = snd y).
  Definition meet (name : ustr) : Prop :=
    match mget name reg1, mget name reg2 with
    | Some f, Some g => forall ps v w, R v w -> until (f ps v) (g ps w)
    | None, None => True
    | _, _ => False
    end.
  Hypothesis HL : forall name, keeps L reg1 name.
  Hypothesis HF : forall name, keeps F reg2 name.
  Hypothesis Hall : forall name, meet name.

  Let KL v v' : Prop := v = v' /\ L v.
  Let KF w w' : Prop := w = w' /\ F w.
  Let relL name : related KL reg1 reg1 name := keeps_related L reg1 name (HL name).
  Let relF name : related KF reg2 reg2 name := keeps_related F reg2 name (HF name).

  Lemma until_ret {X A} v w (r : outcome X A) : R v w -> until (v, r) (w, r).
  Proof. intros H. right. right. now split. Qed.
  Lemma until_pure {A B} v w (r : fout A) (f : A -> V -> wout V B) g : R v w -> (forall a, until (f a v) (g a w)) -> until (wbind (v, r) f) (wbind (w, r) g).
  Proof. intros H Hf. destruct r as [a|e| |]; cbn; [apply Hf|now apply until_ret..]. Qed.
  Lemma until_bind {A B} (x : wout V A) y (f : A -> V -> wout V B) g : until x y -> (forall a v, L v -> L (fst (f a v))) -> (forall a w, F w -> F (fst (g a w))) ->
    (forall a v w, R v w -> until (f a v) (g a w)) -> until (wbind x f) (wbind y g).
  Proof.
    destruct x as (v & x), y as (w & y). intros Hu HfL HgF Hf. destruct Hu as [H|[(H1 & H2 & H3)|(H1 & H2)]]; cbn in *.
    - left. destruct x as [a|e| |]; cbn; [now apply HfL|exact H..].
    - subst x. right. left. cbn. split; [exact H1|]. split; [reflexivity|]. destruct y as [a|e| |]; cbn; [now apply HgF|exact H3..].
    - subst y. destruct x as [a|e| |]; cbn; [now apply Hf|now apply until_ret..].
  Qed.
  Lemma call_until name ps v w : R v w -> until (call reg1 name ps v) (call reg2 name ps w).
  Proof.
    intros Hr. pose proof (Hall name) as H. unfold meet in H. unfold call. destruct (mget name reg1) as [f|], (mget name reg2) as [g|]; try contradiction.
    - specialize (H (VString name :: ps) v w Hr). destruct (f (VString name :: ps) v) as (v' & x), (g (VString name :: ps) w) as (w' & y).
      destruct H as [H|[(H1 & H2 & H3)|(H1 & H2)]]; cbn in *.
      + now left.
      + subst x. right. left. cbn. now repeat split.
      + subst y. now apply until_ret.
    - now apply until_ret.
  Qed.

  (** ** Making a formatter *)
  Lemma command_until tr i v w : R v w -> until (wpart_command reg1 tr i v) (wpart_command reg2 tr i w).
  Proof.
    intros Hr. unfold wpart_command. apply until_pure; [exact Hr|]. intros ((name & delay) & ps). destruct delay; [now apply until_ret|].
    apply until_bind; [now apply call_until|auto|auto|]. intros s v2 w2 Hr2. now apply until_ret.
  Qed.
  Lemma child_until fe locale known main tr i b v w : R v w -> until (wpart_child fe reg1 locale known main tr i b v) (wpart_child fe reg2 locale known main tr i b w).
  Proof.
    intros Hr. unfold wpart_child. apply until_pure; [exact Hr|]. intros ty. destruct (ntype_eqb ty NText).
    { apply until_pure; [exact Hr|]. intros s. now apply until_ret. }
    destruct (_ && _); [now apply until_ret|]. destruct (ntype_eqb ty NPattern); [now apply until_ret|]. destruct (ntype_eqb ty NCommand); [|now apply until_ret].
    apply until_bind; [now apply command_until|auto|auto|]. intros p v2 w2 Hr2. now apply until_ret.
  Qed.
  Let parts_L fe locale known main tr cs b v : L v -> L (fst (wstring_parts fe reg1 locale known main tr cs b v)).
  Proof. intros H. exact (proj2 (proj1 (parts_rel KL reg1 reg1 relL fe locale known main tr cs b v v (conj eq_refl H)))). Qed.
  Let parts_F fe locale known main tr cs b w : F w -> F (fst (wstring_parts fe reg2 locale known main tr cs b w)).
  Proof. intros H. exact (proj2 (proj1 (parts_rel KF reg2 reg2 relF fe locale known main tr cs b w w (conj eq_refl H)))). Qed.
  Let named_L fe locale tr ns ps b v : L v -> L (fst (wnamed_strings fe reg1 locale tr ns ps b v)).
  Proof. intros H. exact (proj2 (proj1 (named_rel KL reg1 reg1 relL fe locale tr ns ps b v v (conj eq_refl H)))). Qed.
  Let named_F fe locale tr ns ps b w : F w -> F (fst (wnamed_strings fe reg2 locale tr ns ps b w)).
  Proof. intros H. exact (proj2 (proj1 (named_rel KF reg2 reg2 relF fe locale tr ns ps b w w (conj eq_refl H)))). Qed.
  (** What is kept by the first of two things and by all others is kept by both. *)
  Lemma bind_keeps {Y A B} (P : Y -> Prop) (x : wout Y A) (f : A -> Y -> wout Y B) : P (fst x) -> (forall a y, P y -> P (fst (f a y))) -> P (fst (wbind x f)).
  Proof. destruct x as (y & [a|e| |]); cbn; auto. Qed.
  Lemma parts_until fe locale known main tr cs : forall b v w, R v w -> until (wstring_parts fe reg1 locale known main tr cs b v) (wstring_parts fe reg2 locale known main tr cs b w).
  Proof.
    induction cs as [|c cs IH]; intros b v w Hr; cbn [wstring_parts]; [now apply until_ret|].
    apply until_bind; [now apply child_until| | |].
    - intros x v1 H1. apply bind_keeps; [now apply parts_L|auto].
    - intros x v1 H1. apply bind_keeps; [now apply parts_F|auto].
    - intros x v1 w1 Hr1. apply until_bind; [now apply IH|auto|auto|]. intros y v2 w2 Hr2. now apply until_ret.
  Qed.
  Lemma named_until fe locale tr ns : forall ps b v w, R v w -> until (wnamed_strings fe reg1 locale tr ns ps b v) (wnamed_strings fe reg2 locale tr ns ps b w).
  Proof.
    induction ns as [|n ns IH]; intros ps b v w Hr; cbn [wnamed_strings]; [now apply until_ret|].
    apply until_pure; [exact Hr|]. intros id. destruct (mhas id ps); [now apply until_ret|].
    apply until_pure; [exact Hr|]. intros cs. apply until_bind; [now apply parts_until| | |].
    - intros x v1 H1. now apply named_L.
    - intros x v1 H1. now apply named_F.
    - intros x v1 w1 Hr1. now apply IH.
  Qed.
  Theorem build_until d grammar fe tag locale s v w : R v w ->
    until (wformatter_try_new d grammar fe reg1 tag locale s v) (wformatter_try_new d grammar fe reg2 tag locale s w).
  Proof.
    intros Hr. unfold wformatter_try_new. apply until_pure; [exact Hr|]. intros tr. unfold wformatter_of_tree.
    destruct (negb _); [now apply until_ret|]. apply until_pure; [exact Hr|]. intros ty. destruct (negb _); [now apply until_ret|].
    apply until_pure; [exact Hr|]. intros root. cbv zeta. apply until_bind.
    - destruct root as [|a [|g r]]; [now apply until_ret..|]. apply until_pure; [exact Hr|]. intros ns. now apply named_until.
    - intros x v1 H1. apply bind_keeps; [exact H1|]. intros cs v2 H2. apply bind_keeps; [now apply parts_L|auto].
    - intros x v1 H1. apply bind_keeps; [exact H1|]. intros cs v2 H2. apply bind_keeps; [now apply parts_F|auto].
    - intros x v4 w4 Hr4. apply until_pure; [exact Hr4|]. intros cs. apply until_bind; [now apply parts_until|auto|auto|]. intros y v6 w6 Hr6. now apply until_ret.
  Qed.

  (** ** Formatting *)
  Section Format.
    Variables (fe : fmtenv) (fm : formatter) (vals : amap pvalue).
    Definition nuntil (x : (nums * V) * fout ustr) (y : (nums * W) * fout ustr) : Prop :=
      L (snd (fst x)) \/ (S (snd (fst x)) /\ snd x = Panic /\ F (snd (fst y))) \/ (fst (fst x) = fst (fst y) /\ R (snd (fst x)) (snd (fst y)) /\ snd x = snd y).
    Lemma nuntil_ret ns v w r : R v w -> nuntil ((ns, v), r) ((ns, w), r).
    Proof. intros H. right. right. now repeat split. Qed.
    Definition rec_until (f : ustr -> nums -> V -> (nums * V) * fout ustr) (g : ustr -> nums -> W -> (nums * W) * fout ustr) : Prop :=
      forall n ns v w, R v w -> nuntil (f n ns v) (g n ns w).
    Lemma number_until f g dd rules idx ns v w : rec_until f g -> R v w -> nuntil (wfind_number_sign fe fm f dd rules idx ns v) (wfind_number_sign fe fm g dd rules idx ns w).
    Proof.
      intros Hf Hr. unfold wfind_number_sign. destruct (fe_decimal fe (fm_locale fm) None) as [fdf|]; [|now apply nuntil_ret].
      destruct (nth_error (fm_selectors fm) idx) as [sels|]; [|now apply nuntil_ret]. destruct (mget _ sels) as [named|]; [|now apply nuntil_ret].
      destruct (mget named (fm_patterns fm)) as [parts|]; [|now apply nuntil_ret].
      destruct (update_numbers parts (fdf dd) ns) as (ns1 & [u|e| |]); [now apply Hf|now apply nuntil_ret..].
    Qed.
    Lemma fpart_until f g p ns v w : rec_until f g -> R v w -> nuntil (wformat_part fe reg1 fm vals f p ns v) (wformat_part fe reg2 fm vals g p ns w).
    Proof.
      intros Hf Hr. destruct p as [s|i|ph|ph sg gr|ph ld lt cal|ph c idx|strings]; cbn [wformat_part].
      1-5: (destruct (format_part fe [] fm vals _ _ ns) as (ns' & r); now apply nuntil_ret).
      - destruct (mget ph vals) as [x|]; [|now apply nuntil_ret]. unfold wformat_complex. destruct c.
        + destruct (fe_cardinal fe (fm_locale fm)); [|now apply nuntil_ret]. destruct (number_of fe (us "PatternPlural") x); [now apply number_until|now apply nuntil_ret..].
        + destruct (fe_ordinal fe (fm_locale fm)); [|now apply nuntil_ret]. destruct x; try (now apply nuntil_ret). now apply number_until.
        + destruct (value_text x) as [s|]; [|now apply nuntil_ret]. unfold wformat_select. destruct (nth_error (fm_selectors fm) idx) as [sels|]; [|now apply nuntil_ret].
          destruct (mget s sels); [now apply Hf|now apply nuntil_ret].
      - assert (G : until (wformat_command reg1 vals strings v) (wformat_command reg2 vals strings w)).
        { unfold wformat_command. destruct strings as [|[name| | | | | | | | | | ] r]; try (now apply until_ret). apply until_pure; [exact Hr|].
          intros ps'. now apply call_until. }
        destruct (wformat_command reg1 vals strings v) as (v' & x), (wformat_command reg2 vals strings w) as (w' & y).
        destruct G as [G|[(G1 & G2 & G3)|(G1 & G2)]]; [now left|right; left; now repeat split|right; right; now repeat split].
    Qed.
    Lemma fparts_until f g n all : rec_until f g -> rec_rel KL f f -> rec_rel KF g g -> In (n, all) (fm_patterns fm) -> forall ps, incl ps all -> forall ns v w, R v w ->
      nuntil (wformat_parts fe reg1 fm vals f ps ns v) (wformat_parts fe reg2 fm vals g ps ns w).
    Proof.
      intros Hf KLf KFg Hn. induction ps as [|p ps IH]; intros Hi ns v w Hr; cbn [wformat_parts]; [now apply nuntil_ret|].
      assert (Hi' : incl ps all) by (intros q Hq; exact (Hi q (or_intror Hq))).
      assert (RL : forall ns1 v1, L v1 -> L (snd (fst (wformat_parts fe reg1 fm vals f ps ns1 v1)))).
      { intros ns1 v1 H. exact (proj2 (proj1 (proj2 (fparts_rel KL reg1 reg1 fe fm vals (fun name _ => relL name) f f n all KLf Hn ps Hi' ns1 v1 v1 (conj eq_refl H))))). }
      assert (RF : forall ns1 w1, F w1 -> F (snd (fst (wformat_parts fe reg2 fm vals g ps ns1 w1)))).
      { intros ns1 w1 H. exact (proj2 (proj1 (proj2 (fparts_rel KF reg2 reg2 fe fm vals (fun name _ => relF name) g g n all KFg Hn ps Hi' ns1 w1 w1 (conj eq_refl H))))). }
      pose proof (fpart_until f g p ns v w Hf Hr) as G.
      destruct (wformat_part fe reg1 fm vals f p ns v) as ((ns1 & v1) & x), (wformat_part fe reg2 fm vals g p ns w) as ((ns2 & w1) & y).
      assert (EL : L v1 -> L (snd (fst (match (ns1, v1, x) with (ns1, w1, Ok s) => match wformat_parts fe reg1 fm vals f ps ns1 w1 with (x, Ok s') => (x, Ok (s ++ s')) | other => other end | other => other end)))).
      { intros H. destruct x as [s|e| |]; [|exact H..]. specialize (RL ns1 v1 H). now destruct (wformat_parts fe reg1 fm vals f ps ns1 v1) as (z & [s'|e| |]). }
      assert (EF : F w1 -> F (snd (fst (match (ns2, w1, y) with (ns1, w1, Ok s) => match wformat_parts fe reg2 fm vals g ps ns1 w1 with (x, Ok s') => (x, Ok (s ++ s')) | other => other end | other => other end)))).
      { intros H. destruct y as [s|e| |]; [|exact H..]. specialize (RF ns2 w1 H). now destruct (wformat_parts fe reg2 fm vals g ps ns2 w1) as (z & [s'|e| |]). }
      destruct G as [G|[(G1 & G2 & G3)|(G1 & G2 & G3)]]; cbn [fst snd] in *.
      - left. exact (EL G).
      - subst x. right. left. split; [exact G1|]. split; [reflexivity|]. exact (EF G3).
      - subst ns2 y. destruct x as [s|e| |]; try (now apply nuntil_ret).
        pose proof (IH Hi' ns1 v1 w1 G2) as G.
        destruct (wformat_parts fe reg1 fm vals f ps ns1 v1) as ((ns3 & v2) & x), (wformat_parts fe reg2 fm vals g ps ns1 w1) as ((ns4 & w2) & y).
        destruct G as [G|[(H1 & H2 & H3)|(H1 & H2 & H3)]]; cbn [fst snd] in *.
        + left. now destruct x.
        + subst x. right. left. split; [exact H1|]. split; [reflexivity|]. now destruct y.
        + subst ns4 y. destruct x; now apply nuntil_ret.
    Qed.
    Lemma pattern_until fuel : rec_until (wformat_pattern fe reg1 fm vals fuel) (wformat_pattern fe reg2 fm vals fuel).
    Proof.
      induction fuel as [|fl IH]; intros n ns v w Hr; cbn [wformat_pattern]; [now apply nuntil_ret|].
      destruct (mget n (fm_patterns fm)) as [ps|] eqn:Em; [|now apply nuntil_ret].
      apply (fparts_until _ _ n ps IH); [exact (pattern_rel KL reg1 reg1 fe fm vals (fun name _ => relL name) fl)|exact (pattern_rel KF reg2 reg2 fe fm vals (fun name _ => relF name) fl)|exact (mget_In _ _ _ Em)|apply incl_refl|exact Hr].
    Qed.
    Theorem format_until fuel v w : R v w -> let x := wformat fuel fe reg1 fm vals v in let y := wformat fuel fe reg2 fm vals w in
      L (fst x) \/ (S (fst x) /\ snd (snd x) = Panic /\ F (fst y)) \/ (R (fst x) (fst y) /\ snd x = snd y).
    Proof.
      intros Hr. unfold wformat. pose proof (pattern_until fuel (us "_") (fm_numbers fm) v w Hr) as G.
      destruct (wformat_pattern fe reg1 fm vals fuel (us "_") (fm_numbers fm) v) as ((ns1 & v1) & x), (wformat_pattern fe reg2 fm vals fuel (us "_") (fm_numbers fm) w) as ((ns2 & w1) & y).
      destruct G as [G|[(H1 & H2 & H3)|(H1 & H2 & H3)]]; cbn in *; [now left|right; left; now repeat split|right; right]. now subst.
    Qed.
  End Format.
End Until.
