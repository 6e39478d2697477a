(** Proofs for C96: making a formatter fails with [FNoGrammar] for strings without grammar only. *)
From Verif Require Import Base BaseFacts LexerModel LexerSpec TreeModel TreeSpec DocSpec ValueModel CommandModel IsoModel FormatterModel FormatterSpec FormatterProofs4 FormatterProofs5
  RegistryModel LocaliserModel LocaliserSpec LocaliserProofs CallsModel CallsSpec CallsProofs2.
Local Opaque us.

Section NoGrammar.
  Context {W : Type}.
  Variables (fe : fmtenv) (reg : wregistry W) (locale : ustr).
  Local Notation nog x := (x <> Err FNoGrammar).
  Definition wnog {A} (x : wout W A) : Prop := nog (snd x).

  Lemma ft_nog {A} (x : outcome tree_error A) : nog (ft x).
  Proof. apply map_err_nog. discriminate. Qed.
  Lemma unwrap_nog {A} (o : option A) : nog (unwrap (E := formatter_error) o).
  Proof. destruct o; discriminate. Qed.
  Ltac nogs := repeat first [discriminate | solve [auto using ft_nog, unwrap_nog with nog] | apply nog_bind; [|intros ?] |
    match goal with
    | |- context [match ?x with pair _ _ => _ end] => is_var x; destruct x
    | |- context [if ?b then _ else _] => destruct b
    end].
  Create HintDb nog.
  Lemma first_token_nog tr i : nog (first_token tr i).
  Proof. unfold first_token. nogs. Qed.
  Lemma tokens_text_nog tr l : nog (tokens_text tr l).
  Proof. induction l as [|j l IH]; cbn [tokens_text]; nogs. Qed.
  Hint Resolve first_token_nog tokens_text_nog : nog.
  Lemma node_text_nog tr i : nog (node_text tr i).
  Proof. unfold node_text. nogs. Qed.
  Hint Resolve node_text_nog : nog.
  Lemma selector_pairs_nog tr cs : forall ps, nog (selector_pairs tr cs ps).
  Proof. induction cs as [|c cs IH]; intros ps; cbn [selector_pairs]; nogs. Qed.
  Hint Resolve selector_pairs_nog : nog.
  Lemma pattern_selectors_nog tr i : nog (pattern_selectors tr i).
  Proof. unfold pattern_selectors. nogs. Qed.
  Hint Resolve pattern_selectors_nog plural_checks_nog decimal_options_nog date_time_options_nog select_checks_nog : nog.
  Lemma plural_part_nog kw ph c known l b : nog (plural_part kw ph c known l b).
  Proof. unfold plural_part. nogs. Qed.
  Hint Resolve plural_part_nog : nog.
  Lemma part_pattern_nog known tr i b : nog (part_pattern fe locale known tr i b).
  Proof.
    unfold part_pattern. nogs. destruct a as [|p r]; [discriminate|]. nogs. destruct r as [|k r]; [discriminate|]. nogs.
  Qed.
  Lemma command_parameters_nog tr cs : nog (command_parameters tr cs).
  Proof. induction cs as [|c cs IH]; cbn [command_parameters]; nogs. Qed.
  Hint Resolve command_parameters_nog : nog.
  Lemma read_command_nog tr i : nog (read_command tr i).
  Proof.
    unfold read_command. nogs. destruct a as [|c r]; [discriminate|]. nogs. destruct r; nogs.
  Qed.

  Lemma wnog_bind {A B} (x : wout W A) (f : A -> W -> wout W B) : wnog x -> (forall a w, wnog (f a w)) -> wnog (wbind x f).
  Proof. unfold wnog. destruct x as [w [a|e| |]]; cbn; intros H1 H2; auto; congruence. Qed.
  Lemma call_nog name ps w : wnog (call reg name ps w).
  Proof. unfold wnog, call. destruct (mget name reg) as [f|]; [|discriminate]. destruct (f _ w). cbn [snd]. apply map_err_nog. discriminate. Qed.
  Lemma wpart_command_nog tr i w : wnog (wpart_command reg tr i w).
  Proof.
    unfold wpart_command. apply wnog_bind; [exact (read_command_nog tr i)|]. intros ((name & delay) & ps) w1. destruct delay; [discriminate|].
    apply wnog_bind; [apply call_nog|]. discriminate.
  Qed.
  Lemma wpart_child_nog known main tr i b w : wnog (wpart_child fe reg locale known main tr i b w).
  Proof.
    unfold wpart_child. apply wnog_bind; [apply (ft_nog (tree_node_type tr i))|]. intros ty w1. destruct (ntype_eqb _ _).
    { apply wnog_bind; [apply (node_text_nog tr i)|]. discriminate. }
    destruct (_ && _); [discriminate|]. destruct (ntype_eqb _ _); [apply (part_pattern_nog known tr i b)|]. destruct (ntype_eqb _ _); [|discriminate].
    apply wnog_bind; [apply wpart_command_nog|]. discriminate.
  Qed.
  Lemma wstring_parts_nog known main tr cs : forall b w, wnog (wstring_parts fe reg locale known main tr cs b w).
  Proof.
    induction cs as [|c cs IH]; intros b w; cbn [wstring_parts]; [discriminate|]. apply wnog_bind; [apply wpart_child_nog|]. intros x w1.
    apply wnog_bind; [apply IH|]. discriminate.
  Qed.
  Lemma wnamed_strings_nog tr ns : forall ps b w, wnog (wnamed_strings fe reg locale tr ns ps b w).
  Proof.
    induction ns as [|n ns IH]; intros ps b w; cbn [wnamed_strings]; [discriminate|]. apply wnog_bind.
    { unfold wnog; cbn [snd]. nogs. }
    intros id w1. destruct (mhas id ps); [discriminate|]. apply wnog_bind; [unfold wnog; cbn [snd]; nogs|]. intros cs w2.
    apply wnog_bind; [apply wstring_parts_nog|]. intros x w3. apply IH.
  Qed.
  Lemma wformatter_of_tree_nog tag tr w : tr_has_grammar tr = true -> wnog (wformatter_of_tree fe reg tag locale tr w).
  Proof.
    intros Hg. unfold wformatter_of_tree. rewrite Hg. cbn [negb]. apply wnog_bind; [apply (ft_nog (tree_node_type tr 0))|]. intros ty w1.
    destruct (negb _); [discriminate|]. apply wnog_bind; [apply (ft_nog (tree_children tr 0))|]. intros root w2. cbn zeta. apply wnog_bind.
    { destruct root as [|m [|g r]]; try discriminate. apply wnog_bind; [apply (ft_nog (tree_children tr g))|]. intros ns w3. apply wnamed_strings_nog. }
    intros x w3. apply wnog_bind; [unfold wnog; cbn [snd]; nogs|]. intros cs w4. apply wnog_bind; [apply wstring_parts_nog|]. discriminate.
  Qed.
End NoGrammar.

Lemma wno_grammar {W} d fe (reg : wregistry W) tag locale s w w' r : icu_ok d -> s <> [] ->
  wformatter_try_new d localiser_grammar fe reg tag locale s w = (w', r) -> (r = Err FNoGrammar <-> no_syntax s) /\ (r = Err FNoGrammar -> w' = w).
Proof.
  intros Hd Hs H. unfold wformatter_try_new in H. destruct (tree_try_new d s localiser_grammar) as [tr|e| |] eqn:Et; cbn [ft map_err wbind] in H.
  - destruct (tr_has_grammar tr) eqn:Eg.
    + pose proof (wformatter_of_tree_nog fe reg locale tag tr w Eg) as Hn. rewrite H in Hn. cbn in Hn. split; [|intros Hr; now destruct (Hn Hr)].
      split; [intros Hr; now destruct (Hn Hr)|]. intros Hp. destruct (proj1 (tree_grammar_iff d s tr Hd Et) Eg) as (c & Hc & Hc'). now destruct (Hp c Hc).
    + unfold wformatter_of_tree in H. rewrite Eg in H. injection H as <- <-. split; [|reflexivity]. split; [|reflexivity]. intros _ c Hc Hc'.
      assert (Ht : tr_has_grammar tr = true) by (apply (tree_grammar_iff d s tr Hd Et); eauto). congruence.
  - injection H as <- <-. split; [|discriminate]. split; [discriminate|]. intros Hn. destruct (tree_plain d s Hd Hs Hn) as (tr & Ht & _). change IcuExample.l10n_grammar with localiser_grammar in Ht. congruence.
  - injection H as <- <-. split; [|discriminate]. split; [discriminate|]. intros Hn. destruct (tree_plain d s Hd Hs Hn) as (tr & Ht & _). change IcuExample.l10n_grammar with localiser_grammar in Ht. congruence.
  - injection H as <- <-. split; [|discriminate]. split; [discriminate|]. intros Hn. destruct (tree_plain d s Hd Hs Hn) as (tr & Ht & _). change IcuExample.l10n_grammar with localiser_grammar in Ht. congruence.
Qed.
