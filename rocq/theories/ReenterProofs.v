(** Proofs for C100: formatters in related worlds. *)
From Verif Require Import Base BaseFacts LexerModel LexerSpec TreeModel TreeSpec DocSpec ValueModel CommandModel IsoModel FormatterModel FormatterSpec FormatterProofs4 RegistryModel LocaliserModel
  LocaliserSpec LocaliserProofs CallsModel CallsSpec CallsProofs CallsProofs2 LocCallsModel LocCallsSpec ReenterModel ReenterSpec.
Local Opaque us.

Section Related.
  Context {V W : Type}.
  Variables (R : V -> W -> Prop) (reg1 : wregistry V) (reg2 : wregistry W).
  Definition orel {A} (x : wout V A) (y : wout W A) : Prop := R (fst x) (fst y) /\ snd x = snd y.
  Definition related (name : ustr) : Prop :=
    match mget name reg1, mget name reg2 with
    | Some f, Some g => forall ps v w, R v w -> R (fst (f ps v)) (fst (g ps w)) /\ snd (f ps v) = snd (g ps w)
    | None, None => True
    | _, _ => False
    end.
  Lemma orel_ret {A} v w (x : fout A) : R v w -> orel (v, x) (w, x).
  Proof. now split. Qed.
  Lemma orel_bind {A B} (x : wout V A) y (f : A -> V -> wout V B) g : orel x y -> (forall a v w, R v w -> orel (f a v) (g a w)) -> orel (wbind x f) (wbind y g).
  Proof.
    destruct x as (v & x), y as (w & y). intros (Hr & He) Hf. cbn in *. subst y. destruct x as [a|e| |]; cbn; [now apply Hf|now split..].
  Qed.
  Lemma call_rel name ps v w : related name -> R v w -> orel (call reg1 name ps v) (call reg2 name ps w).
  Proof.
    unfold related, call. destruct (mget name reg1) as [f|], (mget name reg2) as [g|]; try contradiction.
    - intros H Hr. destruct (H (VString name :: ps) v w Hr) as (H1 & H2). destruct (f (VString name :: ps) v) as (v' & x), (g (VString name :: ps) w) as (w' & y).
      cbn in *. subst y. now split.
    - intros _ Hr. now split.
  Qed.

  Section Build.
    Hypothesis Hall : forall name, related name.
    Lemma command_rel tr i v w : R v w -> orel (wpart_command reg1 tr i v) (wpart_command reg2 tr i w).
    Proof.
      intros Hr. unfold wpart_command. apply orel_bind; [now apply orel_ret|]. intros ((name & delay) & ps) v1 w1 Hr1. destruct delay; [now apply orel_ret|].
      apply orel_bind; [now apply call_rel|]. intros s v2 w2 Hr2. now apply orel_ret.
    Qed.
    Lemma child_rel fe locale known main tr i b v w : R v w -> orel (wpart_child fe reg1 locale known main tr i b v) (wpart_child fe reg2 locale known main tr i b w).
    Proof.
      intros Hr. unfold wpart_child. apply orel_bind; [now apply orel_ret|]. intros ty v1 w1 Hr1. destruct (ntype_eqb ty NText).
      { apply orel_bind; [now apply orel_ret|]. intros s v2 w2 Hr2. now apply orel_ret. }
      destruct (_ && _); [now apply orel_ret|]. destruct (ntype_eqb ty NPattern); [now apply orel_ret|]. destruct (ntype_eqb ty NCommand); [|now apply orel_ret].
      apply orel_bind; [now apply command_rel|]. intros p v2 w2 Hr2. now apply orel_ret.
    Qed.
    Lemma parts_rel fe locale known main tr cs : forall b v w, R v w -> orel (wstring_parts fe reg1 locale known main tr cs b v) (wstring_parts fe reg2 locale known main tr cs b w).
    Proof.
      induction cs as [|c cs IH]; intros b v w Hr; cbn [wstring_parts]; [now apply orel_ret|].
      apply orel_bind; [now apply child_rel|]. intros x v1 w1 Hr1. apply orel_bind; [now apply IH|]. intros y v2 w2 Hr2. now apply orel_ret.
    Qed.
    Lemma named_rel fe locale tr ns : forall ps b v w, R v w -> orel (wnamed_strings fe reg1 locale tr ns ps b v) (wnamed_strings fe reg2 locale tr ns ps b w).
    Proof.
      induction ns as [|n ns IH]; intros ps b v w Hr; cbn [wnamed_strings]; [now apply orel_ret|].
      apply orel_bind; [now apply orel_ret|]. intros id v1 w1 Hr1. destruct (mhas id ps); [now apply orel_ret|].
      apply orel_bind; [now apply orel_ret|]. intros cs v2 w2 Hr2. apply orel_bind; [now apply parts_rel|]. intros x v3 w3 Hr3. now apply IH.
    Qed.
    Theorem build_rel d grammar fe tag locale s v w : R v w ->
      orel (wformatter_try_new d grammar fe reg1 tag locale s v) (wformatter_try_new d grammar fe reg2 tag locale s w).
    Proof.
      intros Hr. unfold wformatter_try_new. apply orel_bind; [now apply orel_ret|]. intros tr v1 w1 Hr1. unfold wformatter_of_tree.
      destruct (negb _); [now apply orel_ret|]. apply orel_bind; [now apply orel_ret|]. intros ty v2 w2 Hr2. destruct (negb _); [now apply orel_ret|].
      apply orel_bind; [now apply orel_ret|]. intros root v3 w3 Hr3. cbv zeta. apply orel_bind.
      { destruct root as [|a [|g r]]; [now apply orel_ret..|]. apply orel_bind; [now apply orel_ret|]. intros ns v4 w4 Hr4. now apply named_rel. }
      intros x v4 w4 Hr4. apply orel_bind; [now apply orel_ret|]. intros cs v5 w5 Hr5. apply orel_bind; [now apply parts_rel|]. intros y v6 w6 Hr6. now apply orel_ret.
    Qed.
  End Build.

  Section Format.
    Variables (fe : fmtenv) (fm : formatter) (vals : amap pvalue).
    Hypothesis Hused : forall name, uses fm name -> related name.
    Definition nrel (x : (nums * V) * fout ustr) (y : (nums * W) * fout ustr) : Prop := fst (fst x) = fst (fst y) /\ R (snd (fst x)) (snd (fst y)) /\ snd x = snd y.
    Lemma nrel_ret ns v w r : R v w -> nrel ((ns, v), r) ((ns, w), r).
    Proof. now repeat split. Qed.
    Definition rec_rel (f : ustr -> nums -> V -> (nums * V) * fout ustr) (g : ustr -> nums -> W -> (nums * W) * fout ustr) : Prop :=
      forall n ns v w, R v w -> nrel (f n ns v) (g n ns w).
    Lemma number_rel f g dd rules idx ns v w : rec_rel f g -> R v w -> nrel (wfind_number_sign fe fm f dd rules idx ns v) (wfind_number_sign fe fm g dd rules idx ns w).
    Proof.
      intros Hf Hr. unfold wfind_number_sign. destruct (fe_decimal fe (fm_locale fm) None) as [fdf|]; [|now apply nrel_ret].
      destruct (nth_error (fm_selectors fm) idx) as [sels|]; [|now apply nrel_ret]. destruct (mget _ sels) as [named|]; [|now apply nrel_ret].
      destruct (mget named (fm_patterns fm)) as [parts|]; [|now apply nrel_ret].
      destruct (update_numbers parts (fdf dd) ns) as (ns1 & [u|e| |]); [now apply Hf|now apply nrel_ret..].
    Qed.
    Lemma fpart_rel f g p ns v w n ps : rec_rel f g -> In (n, ps) (fm_patterns fm) -> In p ps -> R v w ->
      nrel (wformat_part fe reg1 fm vals f p ns v) (wformat_part fe reg2 fm vals g p ns w).
    Proof.
      intros Hf Hn Hp Hr. destruct p as [s|i|ph|ph sg gr|ph ld lt cal|ph c idx|strings]; cbn [wformat_part].
      1-5: (destruct (format_part fe [] fm vals _ _ ns) as (ns' & r); now apply nrel_ret).
      - destruct (mget ph vals) as [x|]; [|now apply nrel_ret]. unfold wformat_complex. destruct c.
        + destruct (fe_cardinal fe (fm_locale fm)); [|now apply nrel_ret]. destruct (number_of fe (us "PatternPlural") x); [now apply number_rel|now apply nrel_ret..].
        + destruct (fe_ordinal fe (fm_locale fm)); [|now apply nrel_ret]. destruct x; try (now apply nrel_ret). now apply number_rel.
        + destruct (value_text x) as [s|]; [|now apply nrel_ret]. unfold wformat_select. destruct (nth_error (fm_selectors fm) idx) as [sels|]; [|now apply nrel_ret].
          destruct (mget s sels); [now apply Hf|now apply nrel_ret].
      - assert (G : orel (wformat_command reg1 vals strings v) (wformat_command reg2 vals strings w)).
        { unfold wformat_command. destruct strings as [|[name| | | | | | | | | | ] r]; try (now apply orel_ret). apply orel_bind; [now apply orel_ret|].
          intros ps' v1 w1 Hr1. apply call_rel; [|exact Hr1]. apply Hused. unfold uses. eauto. }
        destruct (wformat_command reg1 vals strings v) as (v' & x), (wformat_command reg2 vals strings w) as (w' & y). destruct G as (G1 & G2). now repeat split.
    Qed.
    Lemma fparts_rel f g n all : rec_rel f g -> In (n, all) (fm_patterns fm) -> forall ps, incl ps all -> forall ns v w, R v w ->
      nrel (wformat_parts fe reg1 fm vals f ps ns v) (wformat_parts fe reg2 fm vals g ps ns w).
    Proof.
      intros Hf Hn. induction ps as [|p ps IH]; intros Hi ns v w Hr; cbn [wformat_parts]; [now apply nrel_ret|].
      pose proof (fpart_rel f g p ns v w n all Hf Hn (Hi _ (or_introl eq_refl)) Hr) as G.
      destruct (wformat_part fe reg1 fm vals f p ns v) as ((ns1 & v1) & x), (wformat_part fe reg2 fm vals g p ns w) as ((ns2 & w1) & y).
      destruct G as (G1 & G2 & G3). cbn in G1, G2, G3. subst ns2 y. destruct x as [s|e| |]; try (now apply nrel_ret).
      pose proof (IH (fun q Hq => Hi q (or_intror Hq)) ns1 v1 w1 G2) as G.
      destruct (wformat_parts fe reg1 fm vals f ps ns1 v1) as ((ns3 & v2) & x), (wformat_parts fe reg2 fm vals g ps ns1 w1) as ((ns4 & w2) & y).
      destruct G as (H1 & H2 & H3). cbn in H1, H2, H3. subst ns4 y. destruct x; now apply nrel_ret.
    Qed.
    Lemma pattern_rel fuel : rec_rel (wformat_pattern fe reg1 fm vals fuel) (wformat_pattern fe reg2 fm vals fuel).
    Proof.
      induction fuel as [|fl IH]; intros n ns v w Hr; cbn [wformat_pattern]; [now apply nrel_ret|].
      destruct (mget n (fm_patterns fm)) as [ps|] eqn:Em; [|now apply nrel_ret]. apply (fparts_rel _ _ n ps IH (mget_In _ _ _ Em)); [apply incl_refl|exact Hr].
    Qed.
    Theorem format_rel fuel v w : R v w ->
      R (fst (wformat fuel fe reg1 fm vals v)) (fst (wformat fuel fe reg2 fm vals w)) /\ snd (wformat fuel fe reg1 fm vals v) = snd (wformat fuel fe reg2 fm vals w).
    Proof.
      intros Hr. unfold wformat. pose proof (pattern_rel fuel (us "_") (fm_numbers fm) v w Hr) as G.
      destruct (wformat_pattern fe reg1 fm vals fuel (us "_") (fm_numbers fm) v) as ((ns1 & v1) & x), (wformat_pattern fe reg2 fm vals fuel (us "_") (fm_numbers fm) w) as ((ns2 & w1) & y).
      destruct G as (G1 & G2 & G3). cbn in *. now subst.
    Qed.
  End Format.
End Related.

(** Something that all commands keep. *)
Section Kept.
  Context {W : Type}.
  Variables (P : W -> Prop) (reg : wregistry W).
  Definition keeps (name : ustr) : Prop := forall f ps w, mget name reg = Some f -> P w -> P (fst (f ps w)).
  Lemma keeps_related name : keeps name -> related (fun v w => v = w /\ P v) reg reg name.
  Proof. unfold keeps, related. destruct (mget name reg) as [f|]; [|easy]. intros H ps v w (<- & Hp). split; [|reflexivity]. split; [reflexivity|]. now apply H. Qed.
  Lemma build_keeps d grammar fe tag locale s w : (forall name, keeps name) -> P w -> P (fst (wformatter_try_new d grammar fe reg tag locale s w)).
  Proof. intros H Hp. exact (proj2 (proj1 (build_rel _ reg reg (fun name => keeps_related name (H name)) d grammar fe tag locale s w w (conj eq_refl Hp)))). Qed.
  Lemma format_keeps fuel fe fm vals w : (forall name, uses fm name -> keeps name) -> P w -> P (fst (wformat fuel fe reg fm vals w)).
  Proof. intros H Hp. exact (proj2 (proj1 (format_rel _ reg reg fe fm vals (fun name Hu => keeps_related name (H name Hu)) fuel w w (conj eq_refl Hp)))). Qed.
End Kept.
