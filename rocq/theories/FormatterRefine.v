(** The formatter built from a tree is the one described by the tree's content. *)
From Verif Require Import Base BaseFacts LexerModel LexerSpec TreeModel TreeSpec ValueModel CommandModel IsoModel
  FormatterModel FormatterAbs.

(** ** Reading nodes *)
Lemma leaf_type tr i ty ws : leaf_is tr i ty ws -> tree_node_type tr i = Ok ty.
Proof. intros (n & toks & Hn & Ht & _). unfold tree_node_type, node_at. now rewrite Hn; cbn; rewrite Ht. Qed.
Lemma branch_type tr i ty cs : branch_is tr i ty cs -> tree_node_type tr i = Ok ty.
Proof. intros (n & Hn & Ht & _). unfold tree_node_type, node_at. now rewrite Hn; cbn; rewrite Ht. Qed.
Lemma branch_children tr i ty cs : branch_is tr i ty cs -> tree_children tr i = Ok cs.
Proof. intros (n & Hn & _ & Hc & _). unfold tree_children, children_at, node_at. now rewrite Hn; cbn; rewrite Hc. Qed.

Lemma leaf_first tr i ty w ws : leaf_is tr i ty (w :: ws) -> first_token tr i = Ok w.
Proof.
  intros (n & toks & Hn & _ & _ & Ht & HF). unfold first_token, tree_tokens, node_at. rewrite Hn; cbn. rewrite Ht; cbn.
  inversion HF as [|j ? l ? (t & Hj & Hs) Hr]; subst. cbn. unfold tree_token. rewrite Hj. now cbn.
Qed.
Lemma leaf_text tr i ty ws : leaf_is tr i ty ws -> node_text tr i = Ok (List.concat ws).
Proof.
  intros (n & toks & Hn & _ & _ & Ht & HF). unfold node_text, tree_tokens, node_at. rewrite Hn; cbn. rewrite Ht; cbn.
  clear Hn Ht. induction HF as [|j w l l' (t & Hj & Hs) HF IH]; cbn; [reflexivity|].
  unfold tree_token. rewrite Hj; cbn. rewrite IH; cbn. now rewrite Hs.
Qed.

Lemma selector_pairs_abs tr cs sels m : Forall2 (selector_is tr) cs sels ->
  selector_pairs tr cs m = Ok (pairs_from m sels).
Proof.
  intros HF. revert m. induction HF as [|c x cs sels (a & b & Hb & Ha & Hbb) HF IH]; intros m; cbn [selector_pairs]; [reflexivity|].
  rewrite (branch_type _ _ _ _ Hb); cbn [ft map_err bind ntype_eqb negb].
  unfold tree_first. rewrite (branch_children _ _ _ _ Hb). cbn [bind ft map_err nth_error unwrap].
  unfold ident_is in *. rewrite (leaf_type _ _ _ _ Ha). cbn [ft map_err bind ntype_eqb negb].
  rewrite (leaf_first _ _ _ _ _ Ha). cbn [bind]. now rewrite IH.
Qed.

Lemma pattern_selectors_abs tr i a b cs sels : branch_is tr i NPattern (a :: b :: cs) ->
  Forall2 (selector_is tr) cs sels -> pattern_selectors tr i = Ok (pairs sels).
Proof.
  intros Hb HF. unfold pattern_selectors. rewrite (branch_children _ _ _ _ Hb). cbn [ft map_err bind skipn].
  now apply selector_pairs_abs.
Qed.

Lemma command_parameters_abs tr cs ps : Forall2 (param_is tr) cs ps -> command_parameters tr cs = cmd_args ps.
Proof.
  induction 1 as [|c p cs ps Hp HF IH]; cbn [command_parameters cmd_args fold_right]; [reflexivity|].
  destruct p as [w|]; cbn [param_is] in Hp; unfold ident_is in Hp;
    rewrite (leaf_type _ _ _ _ Hp); cbn [ft map_err bind ntype_eqb].
  - rewrite (leaf_first _ _ _ _ _ Hp). cbn [bind]. now rewrite IH.
  - reflexivity.
Qed.

Lemma part_command_abs reg tr i cs ps : branch_is tr i NCommand cs -> Forall2 (param_is tr) cs ps ->
  part_command reg tr i =
  (let! (name, delay, l) := cmd_parts ps in
   if delay : bool then Ok (PtCommand (VString name :: l)) else let! s := run_command reg name l in Ok (PtText s)).
Proof.
  intros Hb HF. unfold part_command. rewrite (branch_children _ _ _ _ Hb). cbn [ft map_err bind].
  destruct HF as [|c p cs ps Hp HF]; [reflexivity|].
  destruct p as [w|]; cbn [param_is] in Hp; unfold ident_is in Hp;
    rewrite (leaf_type _ _ _ _ Hp); cbn [ft map_err bind ntype_eqb negb cmd_parts]; [|reflexivity].
  rewrite (leaf_first _ _ _ _ _ Hp). cbn [bind].
  destruct HF as [|c2 p2 cs ps Hp2 HF]; [cbn; unfold run_command; now destruct (creg_command reg w)|].
  destruct p2 as [w2|]; cbn [param_is] in Hp2; unfold ident_is in Hp2;
    rewrite (leaf_type _ _ _ _ Hp2); cbn [ft map_err bind ntype_eqb negb cmd_parts].
  - rewrite (command_parameters_abs tr (c2 :: cs) (SId w2 :: ps)) by (constructor; [exact Hp2|exact HF]).
    destruct (cmd_args (SId w2 :: ps)); cbn [bind]; try reflexivity.
    unfold run_command. now destruct (creg_command reg w).
  - rewrite (command_parameters_abs tr cs ps HF). destruct (cmd_args ps); reflexivity.
Qed.

(** ** What the parts of a formatter stand for *)
Section Rep.
  Variables (fe : fmtenv) (reg : cregistry) (locale : ustr).

  Definition kw_of (c : complex) : ustr :=
    match c with KPlural => us "plural" | KOrdinal => us "ordinal" | KSelect => us "select" end.

  Inductive part_rep (S : list (amap ustr)) : ppart -> list sitem -> Prop :=
  | rep_text ws : part_rep S (PtText (List.concat ws)) (map SText ws)
  | rep_hash i : part_rep S (PtNumberSign i) [SHash]
  | rep_str ph : part_rep S (PtString ph) [SPat ph None]
  | rep_dec ph sels sign group : decimal_options ph (pairs sels) None None = Ok (sign, group) ->
      part_rep S (PtDecimal ph sign group) [SPat ph (Some (us "decimal", sels))]
  | rep_dt ph sels ld lt cal : date_time_options fe locale ph (pairs sels) None None None = Ok (ld, lt, cal) ->
      part_rep S (PtDateTime ph ld lt cal) [SPat ph (Some (us "date_time", sels))]
  | rep_complex ph c idx sels : nth_error S idx = Some (pairs sels) ->
      part_rep S (PtComplex ph c idx) [SPat ph (Some (kw_of c, sels))]
  | rep_cmd ps name l s : cmd_parts ps = Ok (name, false, l) -> run_command reg name l = Ok s ->
      part_rep S (PtText s) [SCmd ps]
  | rep_delay ps name l : cmd_parts ps = Ok (name, true, l) -> part_rep S (PtCommand (VString name :: l)) [SCmd ps].

  Inductive parts_rep (S : list (amap ustr)) : list ppart -> list sitem -> Prop :=
  | prep_nil : parts_rep S [] []
  | prep_cons p g ps l : part_rep S p g -> parts_rep S ps l -> parts_rep S (p :: ps) (g ++ l).

  Lemma part_rep_mono S S' p g : part_rep S p g -> part_rep (S ++ S') p g.
  Proof.
    destruct 1; try (econstructor; eassumption). constructor. rewrite nth_error_app1; [assumption|].
    apply nth_error_Some. congruence.
  Qed.
  Lemma parts_rep_mono S S' ps l : parts_rep S ps l -> parts_rep (S ++ S') ps l.
  Proof. induction 1; constructor; auto using part_rep_mono. Qed.

  Definition slot (p : ppart) : list nat := match p with PtNumberSign i => [i] | _ => [] end.
  Definition slots (ps : list ppart) : list nat := flat_map slot ps.

  Definition grows (b b' : bst) : Prop :=
    (exists k, fst b' = fst b ++ repeat [] k) /\ (exists s, snd b' = snd b ++ s).

  Lemma grows_refl b : grows b b.
  Proof. split; [exists 0; cbn|exists []]; now rewrite app_nil_r. Qed.
  Lemma grows_trans a b c : grows a b -> grows b c -> grows a c.
  Proof.
    intros ((k & Hk) & s & Hs) ((k' & Hk') & s' & Hs'). split.
    - exists (k + k'). rewrite Hk', Hk, <- app_assoc. f_equal. now rewrite repeat_app.
    - exists (s ++ s'). now rewrite Hs', Hs, <- app_assoc.
  Qed.
  Lemma grows_len a b : grows a b -> List.length (fst a) <= List.length (fst b).
  Proof. intros ((k & Hk) & _). rewrite Hk, app_length. lia. Qed.

  Definition built {A B} (x : fout unit) (y : fout (A * bst)) (P : A -> bst -> B -> Prop) (g : B) : Prop :=
    match x with
    | Ok _ => exists p b, y = Ok (p, b) /\ P p b g
    | Err e => y = Err e
    | Panic => y = Panic
    | NoFuel => y = NoFuel
    end.

  Definition good_part (b : bst) (p : ppart) (b' : bst) (g : list sitem) : Prop :=
    grows b b' /\ part_rep (snd b') p g /\
    (forall i, In i (slot p) -> List.length (fst b) <= i < List.length (fst b')).

  Lemma kw_built known ph kw sels b main :
    built (item_check fe reg locale known main (SPat ph (Some (kw, sels))))
      (if ueqb kw (us "decimal") then
         let! (sign, group) := decimal_options ph (pairs sels) None None in Ok (PtDecimal ph sign group, b)
       else if ueqb kw (us "date_time") then
         let! (ld, lt, cal) := date_time_options fe locale ph (pairs sels) None None None in
         Ok (PtDateTime ph ld lt cal, b)
       else if ueqb kw (us "ordinal") then plural_part kw ph KOrdinal known (pairs sels) b
       else if ueqb kw (us "plural") then plural_part kw ph KPlural known (pairs sels) b
       else if ueqb kw (us "select") then
         let! _ := select_checks ph known (pairs sels) in
         Ok (PtComplex ph KSelect (List.length (snd b)), (fst b, snd b ++ [pairs sels]))
       else Err (FInvalidKeyword kw ph))
      (good_part b) [SPat ph (Some (kw, sels))].
  Proof.
    cbn [item_check]. unfold kw_check.
    assert (Hpush : forall c, good_part b (PtComplex ph c (List.length (snd b))) (fst b, snd b ++ [pairs sels])
                                [SPat ph (Some (kw_of c, sels))]).
    { intros c. split; [|split].
      - split; [exists 0; cbn; now rewrite app_nil_r | now exists [pairs sels]].
      - constructor. cbn [snd]. rewrite nth_error_app2 by lia. now rewrite Nat.sub_diag.
      - intros i []. }
    destruct (ueqb_spec kw (us "decimal")) as [->|_].
    { destruct (decimal_options ph (pairs sels) None None) as [[sign group]| | |] eqn:E; cbn [bind built]; auto.
      do 2 eexists. split; [reflexivity|]. split; [apply grows_refl|]. split; [now constructor|intros i []]. }
    destruct (ueqb_spec kw (us "date_time")) as [->|_].
    { destruct (date_time_options fe locale ph (pairs sels) None None None) as [[[ld lt] cal]| | |] eqn:E;
        cbn [bind built]; auto.
      do 2 eexists. split; [reflexivity|]. split; [apply grows_refl|]. split; [now constructor|intros i []]. }
    destruct (ueqb_spec kw (us "ordinal")) as [->|_].
    { cbn [orb]. unfold plural_part. destruct (plural_checks _ ph known (pairs sels) false) as [o| | |]; cbn [bind built]; auto.
      destruct (negb o); cbn [built]; auto. do 2 eexists. split; [reflexivity|]. apply (Hpush KOrdinal). }
    destruct (ueqb_spec kw (us "plural")) as [->|_].
    { cbn [orb]. unfold plural_part. destruct (plural_checks _ ph known (pairs sels) false) as [o| | |]; cbn [bind built]; auto.
      destruct (negb o); cbn [built]; auto. do 2 eexists. split; [reflexivity|]. apply (Hpush KPlural). }
    cbn [orb].
    destruct (ueqb_spec kw (us "select")) as [->|_].
    { destruct (select_checks ph known (pairs sels)) as [o| | |]; cbn [bind built]; auto.
      do 2 eexists. split; [reflexivity|]. apply (Hpush KSelect). }
    reflexivity.
  Qed.

  Lemma items_check_texts known main ws : items_check fe reg locale known main (map SText ws) = Ok tt.
  Proof. induction ws; cbn; auto. Qed.
  Lemma items_check_one known main x : items_check fe reg locale known main [x] = item_check fe reg locale known main x.
  Proof. cbn. destruct (item_check fe reg locale known main x) as [[]| | |]; reflexivity. Qed.
  Lemma items_check_app known main a b :
    items_check fe reg locale known main (a ++ b) =
    (let! _ := items_check fe reg locale known main a in items_check fe reg locale known main b).
  Proof.
    induction a as [|x a IH]; cbn; [reflexivity|].
    destruct (item_check fe reg locale known main x); cbn; auto.
  Qed.

  Lemma child_built known main tr i g b : item_is tr i g ->
    built (items_check fe reg locale known main g) (part_child fe reg locale known main tr i b) (good_part b) g.
  Proof.
    destruct 1 as [ws Hws Hl|Hl|id a Hb Ha|id k sels a bb cs Hb Ha Hk HF|ps cs Hb HF]; unfold part_child.
    - rewrite items_check_texts. rewrite (leaf_type _ _ _ _ Hl). cbn [ft map_err bind ntype_eqb].
      rewrite (leaf_text _ _ _ _ Hl). cbn [bind built]. do 2 eexists. split; [reflexivity|].
      split; [apply grows_refl|]. split; [constructor|intros j []].
    - rewrite items_check_one. rewrite (leaf_type _ _ _ _ Hl). cbn [ft map_err bind ntype_eqb andb item_check].
      destruct main; cbn [negb built]; [reflexivity|]. do 2 eexists. split; [reflexivity|].
      split; [split; [exists 1; reflexivity|exists []; cbn; now rewrite app_nil_r]|]. split; [constructor|].
      cbn. intros j [<-|[]]. rewrite app_length; cbn; lia.
    - rewrite items_check_one. rewrite (branch_type _ _ _ _ Hb). cbn [ft map_err bind ntype_eqb andb item_check].
      unfold part_pattern. rewrite (branch_children _ _ _ _ Hb). cbn [ft map_err bind].
      unfold ident_is in Ha. rewrite (leaf_type _ _ _ _ Ha), (leaf_first _ _ _ _ _ Ha). cbn.
      do 2 eexists. split; [reflexivity|]. split; [apply grows_refl|]. split; [constructor|intros j []].
    - rewrite items_check_one. rewrite (branch_type _ _ _ _ Hb). cbn [ft map_err bind ntype_eqb andb].
      unfold part_pattern. rewrite (branch_children _ _ _ _ Hb). cbn [ft map_err bind].
      unfold ident_is in Ha, Hk. rewrite (leaf_type _ _ _ _ Ha), (leaf_first _ _ _ _ _ Ha).
      cbn [ft map_err bind ntype_eqb negb].
      rewrite (leaf_type _ _ _ _ Hk), (leaf_first _ _ _ _ _ Hk). cbn [ft map_err bind ntype_eqb negb].
      rewrite (pattern_selectors_abs _ _ _ _ _ _ Hb HF). cbn [bind].
      apply kw_built.
    - rewrite items_check_one. rewrite (branch_type _ _ _ _ Hb). cbn [ft map_err bind ntype_eqb andb].
      rewrite (part_command_abs reg _ _ _ _ Hb HF). cbn [item_check].
      destruct (cmd_parts ps) as [[[name []] l]| | |] eqn:E; cbn [bind built]; auto.
      + do 2 eexists. split; [reflexivity|]. split; [apply grows_refl|]. split; [now apply rep_delay|intros j []].
      + destruct (run_command reg name l) as [s| | |] eqn:E2; cbn [bind built]; auto.
        do 2 eexists. split; [reflexivity|]. split; [apply grows_refl|]. split; [now eapply rep_cmd; eauto|intros j []].
  Qed.

  Definition good_parts (b : bst) (ps : list ppart) (b' : bst) (l : list sitem) : Prop :=
    grows b b' /\ parts_rep (snd b') ps l /\
    (forall i, In i (slots ps) -> List.length (fst b) <= i < List.length (fst b')).

  Lemma parts_built known main tr cs ls b : Forall2 (item_is tr) cs ls ->
    built (items_check fe reg locale known main (List.concat ls)) (string_parts fe reg locale known main tr cs b)
      (good_parts b) (List.concat ls).
  Proof.
    intros HF. revert b. induction HF as [|c g cs ls Hc HF IH]; intros b; cbn [List.concat].
    - cbn. do 2 eexists. split; [reflexivity|]. split; [apply grows_refl|]. split; [constructor|intros j []].
    - cbn [string_parts]. rewrite items_check_app. pose proof (child_built known main tr c g b Hc) as Hg.
      destruct (items_check fe reg locale known main g) as [u| | |]; cbn [built bind] in Hg |- *; try now rewrite Hg.
      destruct Hg as (p & b1 & -> & Hgr & Hrep & Hsl). cbn [bind]. specialize (IH b1).
      destruct (items_check fe reg locale known main (List.concat ls)) as [u'| | |]; cbn [built bind] in IH |- *;
        try now rewrite IH.
      destruct IH as (ps & b2 & -> & Hgr2 & Hrep2 & Hsl2). cbn [bind]. do 2 eexists. split; [reflexivity|].
      split; [eapply grows_trans; eassumption|]. split.
      + constructor; [|assumption]. destruct Hgr2 as (_ & s & ->). now apply part_rep_mono.
      + cbn [slots flat_map]. intros i Hi. apply grows_len in Hgr, Hgr2. apply in_app_iff in Hi as [Hi|Hi].
        * apply Hsl in Hi. lia.
        * apply Hsl2 in Hi. lia.
  Qed.
End Rep.
