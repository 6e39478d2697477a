(** Simulation of the remaining parser states, and the refinement theorem. *)
From Verif Require Import Base BaseFacts LexerModel TreeModel TreeArena TreeMachine TreeRefine TreeRefine2.

Local Arguments at_focus : simpl never.
Local Arguments arena : simpl never.

(** Closing a pattern or command below a string. *)
Lemma focus_item c ri x it : item_tree it = x -> (match it with IText _ | IHash _ => False | _ => True end) ->
  (cfs c, Branch NString (trees (rev ri) ++ [x])) = focus_str (cfs c) (it :: ri).
Proof.
  intros <- H. destruct it; try contradiction; cbn [focus_str rev]; unfold string_tree, trees;
    rewrite map_app; reflexivity.
Qed.

Lemma sim_pattern ts m b fs x t rest c ri id : am_state m = APat c ri id -> start ts m b fs x t ->
  simT ts m t rest (step_pattern (at_focus b fs x) (List.length ts) t rest).
Proof.
  intros Hm [Hk Hg Hc]. rewrite Hm in Hc. destruct Hc as (Hst & Hns & -> & ->).
  destruct m as [a pa na]; cbn in Hm; subst a. specialize (Hg (or_introl eq_refl)).
  unfold step_pattern. types t.
  - eapply simT_ok with (m' := mk_am (APat c ri id) pa na); [exact Hk | intros _; exact Hg | | am].
    cbn. repeat split; assumption.
  - rewrite E_create_tok_branch by reflexivity. cbn [bind]. rewrite E_move_leaf by reflexivity. cbn [bind].
    change (set_state (at_focus ?b0 ?f ?y) ?st) with (at_focus (set_state b0 st) f y).
    eapply simT_ok with (m' := mk_am (AKey c ri id (List.length ts) []) pa na);
      [apply kept_state; apply (kept_machine _ _ _ _ Hk); reflexivity | intros _; exact Hg | | am].
    cbn. repeat split; assumption.
  - strs t; try (rewrite invalid_bad, Hst; apply futureT_err; am; fail).
    rewrite (E_end _ _ _ _ _ _ _ Hns). cbn [bind].
    eapply simT_ok with (m' := mk_am (AText c (IPat id None :: ri)) pa na).
    + apply kept_nested, kept_state; apply (kept_machine _ _ _ _ Hk); reflexivity.
    + intros _; exact Hg.
    + cbn [conc am_state]. split; [reflexivity|]. split; [reflexivity|]. apply focus_item; [reflexivity | exact I].
    + am.
  - rewrite invalid_bad, Hst. apply futureT_err. am.
Qed.

Lemma sim_keyword ts m b fs x t rest c ri id kw rs : am_state m = AKey c ri id kw rs -> start ts m b fs x t ->
  simT ts m t rest (step_keyword (at_focus b fs x) (List.length ts) t rest).
Proof.
  intros Hm [Hk Hg Hc]. rewrite Hm in Hc. destruct Hc as (Hst & Hns & -> & ->).
  destruct m as [a pa na]; cbn in Hm; subst a. specialize (Hg (or_introl eq_refl)).
  unfold step_keyword. types t.
  - eapply simT_ok with (m' := mk_am (AKey c ri id kw rs) pa na); [exact Hk | intros _; exact Hg | | am].
    cbn. repeat split; assumption.
  - (* selector *)
    rewrite E_create_branch by reflexivity. unfold fresh; cbn [bind allow_children].
    rewrite E_add_branch by reflexivity. cbn [bind]. rewrite E_move_leaf by reflexivity. cbn [bind app].
    assert (Ha : astep (mk_am (AKey c ri id kw rs) pa na) (List.length ts) t =
                 Ok (mk_am (ASel1 c ri id kw rs (List.length ts)) pa na)) by am.
    destruct rest as [|t1 rest]; [cbn [next_token bind]; eapply simT_end; [exact Ha | reflexivity]|].
    rewrite next_cons. cbn [bind]. rewrite push_focus.
    destruct (is_str t1 s_hash) eqn:E1; cbn [negb];
      [|rewrite invalid_bad; cbn [ps_state push_token]; rewrite Hst;
        eapply simT_err2; [exact Ha | unfold astep; cbn [am_state]; rewrite E1; reflexivity]].
    assert (Ha1 : astep (mk_am (ASel1 c ri id kw rs (List.length ts)) pa na) (S (List.length ts)) t1 =
                 Ok (mk_am (ASel2 c ri id kw rs (List.length ts)) pa na))
      by (unfold astep; cbn [am_state]; rewrite E1; reflexivity).
    assert (Hlen1 : List.length (ts ++ [t]) = S (List.length ts)) by (rewrite app_length, Nat.add_1_r; reflexivity).
    destruct rest as [|t2 rest].
    { cbn [next_token bind simT]. rewrite (futureT_ok _ _ _ _ _ Ha).
      rewrite (futureT_ok _ _ _ _ _ (eq_trans (f_equal (fun n => astep _ n t1) Hlen1) Ha1)). reflexivity. }
    rewrite next_cons. cbn [bind]. rewrite push_focus.
    change (ps_tokens (at_focus ?b0 ?f ?y)) with (ps_tokens b0).
    change (ps_tokens (push_token b t1)) with (ps_tokens b ++ [t1]).
    rewrite (k_tokens _ _ _ Hk).
    assert (Hlen2 : List.length ((ts ++ [t]) ++ [t1]) = S (S (List.length ts)))
      by (rewrite !app_length; cbn; lia).
    destruct (is_type t2 TIdentifier) eqn:E2; unfold is_type in E2; rewrite E2; cbn [negb].
    + rewrite E_add_branch by reflexivity. cbn [bind]. rewrite E_move_leaf by reflexivity. cbn [bind app].
      rewrite E_current. cbn [bind]. unfold node_at at 1. cbn [ps_nodes].
      change (ps_nodes (at_focus ?b0 ?f ?y)) with (arena f y). rewrite arena_at. cbn [unwrap bind head_node n_parent par].
      rewrite at_close. rewrite Hlen2.
      set (m' := mk_am (AKey c ri id kw ((List.length ts, S (S (List.length ts))) :: rs)) pa na).
      exists m', (((ts ++ [t]) ++ [t1]) ++ [t2]).
      assert (Hk' : kept (((ts ++ [t]) ++ [t1]) ++ [t2]) m' (push_token (push_token b t1) t2)).
      { apply push_kept; [apply push_kept; [|exact Hg]|exact Hg].
        apply (kept_machine _ _ _ _ Hk); reflexivity. }
      split.
      * eapply repr_intro; [exact Hk' | intros _; exact Hg|].
        cbn. repeat split; try assumption. rewrite map_app. reflexivity.
      * split; [exact (k_tokens _ _ _ Hk')|]. split; [cbn; lia|].
        rewrite (futureT_ok _ _ _ _ _ Ha).
        rewrite (futureT_ok _ _ _ _ _ (eq_trans (f_equal (fun n => astep _ n t1) Hlen1) Ha1)).
        apply futureT_ok. rewrite Hlen2. unfold astep; cbn [am_state]. unfold is_type; rewrite E2. reflexivity.
    + rewrite invalid_bad; cbn [ps_state push_token]; rewrite Hst. cbn [simT bad].
      rewrite (futureT_ok _ _ _ _ _ Ha).
      rewrite (futureT_ok _ _ _ _ _ (eq_trans (f_equal (fun n => astep _ n t1) Hlen1) Ha1)).
      apply futureT_err. unfold astep; cbn [am_state]. unfold is_type; rewrite E2. reflexivity.
  - assert (Hskip : is_str t s_close = false ->
      simT ts (mk_am (AKey c ri id kw rs) pa na) t rest
      (Ok (at_focus b ((NString, trees (rev ri)) :: cfs c) (Branch NPattern (ident id :: ident kw :: map sel_tree (rev rs))), rest))).
    { intros E. eapply simT_ok with (m' := mk_am (AKey c ri id kw rs) pa na); [exact Hk | intros _; exact Hg | | am].
      cbn. repeat split; assumption. }
    strs t; try (apply Hskip; reflexivity). clear Hskip.
    rewrite (E_end _ _ _ _ _ _ _ Hns). cbn [bind].
    eapply simT_ok with (m' := mk_am (AText c (IPat id (Some (kw, rev rs)) :: ri)) pa na).
    + apply kept_nested, kept_state; apply (kept_machine _ _ _ _ Hk); reflexivity.
    + intros _; exact Hg.
    + cbn [conc am_state]. split; [reflexivity|]. split; [reflexivity|]. apply focus_item; [reflexivity | exact I].
    + am.
  - rewrite invalid_bad, Hst. apply futureT_err. am.
Qed.

Lemma sim_literal_text ts m b fs x t rest : am_state m = ALit -> start ts m b fs x t ->
  simT ts m t rest (step_literal_text (at_focus b fs x) (List.length ts) t rest).
Proof.
  intros Hm [Hk Hg Hc]. rewrite Hm in Hc. destruct Hc as (Hst & Hns & (toks & ->)).
  destruct m as [a pa na]; cbn in Hm; subst a. specialize (Hg (or_introl eq_refl)).
  unfold step_literal_text. destruct (is_type t TGrammar && is_str t s_back) eqn:E.
  - assert (Ha : astep (mk_am ALit pa na) (List.length ts) t = Ok (mk_am ALitEsc pa na))
      by (unfold astep, gram; cbn [am_state]; rewrite E; reflexivity).
    apply andb_true_iff in E; destruct E as (_ & E). rewrite E.
    destruct rest as [|t1 rest]; [cbn [next_token bind]; eapply simT_end; [exact Ha | reflexivity]|].
    rewrite next_cons. cbn [bind]. rewrite push_focus, E_add_same. cbn [bind].
    eapply simT_ok2 with (m' := mk_am ALit pa na); [| | |exact Ha | reflexivity].
    + replace (ts ++ [t; t1]) with ((ts ++ [t]) ++ [t1]) by (rewrite <- app_assoc; reflexivity).
      apply push_kept; [apply (kept_machine _ _ _ _ Hk); reflexivity | exact Hg].
    + intros _; exact Hg.
    + cbn. repeat split; try assumption. eexists; reflexivity.
  - rewrite E_add_same. cbn [bind].
    eapply simT_ok with (m' := mk_am ALit pa na); [exact Hk | intros _; exact Hg | |].
    + cbn. repeat split; try assumption. eexists; reflexivity.
    + unfold astep, gram; cbn [am_state]; rewrite E; reflexivity.
Qed.

(** Focus of a command after its last parameter. *)
Lemma cmd_create_tok b fs rp ty tok fs' x : (fs', x) = focus_cmd fs rp -> allow_children ty = false ->
  create_node_add_token (at_focus b fs' x) ty tok =
  Ok (at_focus b ((NCommand, map param_tree (rev rp)) :: fs) (Leaf ty [tok])).
Proof.
  intros E Ha. destruct rp as [|[tk|tk] r]; cbn [focus_cmd rev app] in *; injection E as -> ->.
  - apply E_create_tok_branch; [reflexivity | exact Ha].
  - apply E_create_tok_branch; [reflexivity | exact Ha].
  - rewrite E_create_tok_leaf by (reflexivity || exact Ha). rewrite map_app. reflexivity.
Qed.

Lemma sim_command ts m b fs x t rest c ri rp : am_state m = ACmd c ri rp -> start ts m b fs x t ->
  simT ts m t rest (step_command (at_focus b fs x) (List.length ts) t rest).
Proof.
  intros Hm [Hk Hg Hc]. rewrite Hm in Hc. destruct Hc as (Hst & Hns & Hf).
  destruct m as [a pa na]; cbn in Hm; subst a. specialize (Hg (or_introl eq_refl)).
  unfold step_command. types t.
  - eapply simT_ok with (m' := mk_am (ACmd c ri rp) pa na); [exact Hk | intros _; exact Hg | | am].
    cbn. repeat split; assumption.
  - rewrite (cmd_create_tok _ _ _ _ _ _ _ Hf) by reflexivity. cbn [bind].
    rewrite E_move_leaf by reflexivity. cbn [bind].
    eapply simT_ok with (m' := mk_am (ACmd c ri (CId (List.length ts) :: rp)) pa na);
      [apply (kept_machine _ _ _ _ Hk); reflexivity | intros _; exact Hg | | am].
    cbn. repeat split; try assumption. rewrite map_app. reflexivity.
  - strs t.
    + (* backtick *)
      assert (Ha : astep (mk_am (ACmd c ri rp) pa na) (List.length ts) t = Ok (mk_am ACmdEsc pa na)) by am.
      destruct rest as [|t1 rest]; [cbn [next_token bind]; eapply simT_end; [exact Ha | reflexivity]|].
      rewrite next_cons. cbn [bind]. rewrite push_focus.
      rewrite (cmd_create_tok _ _ _ _ _ _ _ Hf) by reflexivity. cbn [bind].
      unfold push_nested.
      change (set_state (set_nested (at_focus ?b0 ?f ?y) ?n) ?st) with (at_focus (set_state (set_nested b0 n) st) f y).
      eapply simT_ok2 with (m' := mk_am ALit pa na); [| | |exact Ha | reflexivity].
      * replace (ts ++ [t; t1]) with ((ts ++ [t]) ++ [t1]) by (rewrite <- app_assoc; reflexivity).
        apply kept_state, kept_nested, push_kept; [apply (kept_machine _ _ _ _ Hk); reflexivity | exact Hg].
      * intros _; exact Hg.
      * cbn. repeat split; try discriminate. eexists; reflexivity.
    + rewrite invalid_bad, Hst. apply futureT_err. am.
    + (* number sign *)
      rewrite E_current. cbn [bind].
      destruct rp as [|[tk|tk] r]; cbn [focus_cmd rev] in Hf; injection Hf as -> ->.
      * rewrite E_children. cbn [bind map idxs List.length Nat.eqb negb]. rewrite invalid_bad, Hst.
        apply futureT_err. am.
      * rewrite E_children. cbn [bind]. rewrite idxs_length, map_length, app_length, rev_length. cbn [List.length].
        destruct r as [|p r].
        -- cbn [List.length Nat.add Nat.eqb negb]. cbn [rev app map].
           rewrite E_create_tok_branch by reflexivity. cbn [bind].
           eapply simT_ok with (m' := mk_am (ACmd c ri [CHash (List.length ts); CId tk]) pa na);
             [apply (kept_machine _ _ _ _ Hk); reflexivity | intros _; exact Hg | | am].
           cbn. repeat split; assumption.
        -- replace (Nat.eqb (List.length (p :: r) + 1) 1) with false
             by (symmetry; apply Nat.eqb_neq; cbn; lia).
           cbn [negb]. rewrite invalid_bad, Hst. apply futureT_err. am.
      * rewrite E_children_leaf. cbn [bind]. apply futureT_panic. am.
    + (* closing brace *)
      rewrite E_current. cbn [bind].
      destruct rp as [|[tk|tk] r]; cbn [focus_cmd rev] in Hf; injection Hf as -> ->.
      * rewrite E_children. cbn [bind map idxs List.length Nat.eqb]. rewrite invalid_bad, Hst.
        apply futureT_err. am.
      * rewrite E_children. cbn [bind]. rewrite idxs_length, map_length, app_length.
        replace (Nat.eqb (List.length (rev r) + List.length [CId tk]) 0) with false
          by (symmetry; apply Nat.eqb_neq; cbn; lia).
        rewrite (E_end _ _ _ _ _ _ _ Hns). cbn [bind].
        eapply simT_ok with (m' := mk_am (AText c (ICmd (rev (CId tk :: r)) :: ri)) pa na).
        -- apply kept_nested, kept_state; apply (kept_machine _ _ _ _ Hk); reflexivity.
        -- intros _; exact Hg.
        -- cbn [conc am_state]. split; [reflexivity|]. split; [reflexivity|]. apply focus_item; [reflexivity | exact I].
        -- am.
      * rewrite E_children_leaf. cbn [bind]. apply futureT_panic. am.
    + rewrite invalid_bad, Hst. apply futureT_err. am.
  - rewrite invalid_bad, Hst. apply futureT_err. am.
Qed.

Lemma sim_group ts m b fs x t rest main rn : am_state m = AGroup main rn -> start ts m b fs x t ->
  simT ts m t rest (step_named_group (at_focus b fs x) (List.length ts) t rest).
Proof.
  intros Hm [Hk Hg Hc]. rewrite Hm in Hc. destruct Hc as (Hst & Hns & -> & ->).
  destruct m as [a pa na]; cbn in Hm; subst a. specialize (Hg (or_introl eq_refl)).
  unfold step_named_group. types t.
  - eapply simT_ok with (m' := mk_am (AGroup main rn) pa na); [exact Hk | intros _; exact Hg | | am].
    cbn. repeat split; assumption.
  - rewrite invalid_bad, Hst. apply futureT_err. am.
  - strs t; try (rewrite invalid_bad, Hst; apply futureT_err; am; fail).
    rewrite E_create_branch by reflexivity. unfold fresh; cbn [bind allow_children].
    unfold push_nested.
    change (set_state (set_nested (at_focus ?b0 ?f ?y) ?n) ?st) with (at_focus (set_state (set_nested b0 n) st) f y).
    eapply simT_ok with (m' := mk_am (AName0 main rn) pa na);
      [apply kept_state, kept_nested; apply (kept_machine _ _ _ _ Hk); reflexivity | intros _; exact Hg | | am].
    unfold at_focus; cbn. rewrite Hns. repeat split.
  - rewrite invalid_bad, Hst. apply futureT_err. am.
Qed.

Lemma sim_name0 ts m b fs x t rest main rn : am_state m = AName0 main rn -> start ts m b fs x t ->
  simT ts m t rest (step_named_string (at_focus b fs x) (List.length ts) t rest).
Proof.
  intros Hm [Hk Hg Hc]. rewrite Hm in Hc. destruct Hc as (Hst & Hns & -> & ->).
  destruct m as [a pa na]; cbn in Hm; subst a. specialize (Hg (or_introl eq_refl)).
  unfold step_named_string. rewrite E_current. cbn [bind]. rewrite E_children.
  cbn [bind idxs List.length Nat.eqb negb].
  assert (Hbad : t_type t <> TIdentifier ->
     simT ts (mk_am (AName0 main rn) pa na) t rest (@invalid (pst * list token) (at_focus b (group_fs main rn) (Branch NNamedString [])) t)).
  { intros H. rewrite invalid_bad, Hst. apply futureT_err. am. destruct (t_type t); try reflexivity; contradiction. }
  types t; try (apply Hbad; discriminate).
  - change (ps_named (at_focus ?b0 ?f ?y)) with (ps_named b0).
    rewrite (k_nams _ _ _ Hk). cbn [am_nams].
    destruct (umem (t_string t) na) eqn:Eu; [apply futureT_err; am; rewrite Eu; reflexivity|].
    change (set_named (at_focus ?b0 ?f ?y) ?p) with (at_focus (set_named b0 p) f y).
    rewrite E_create_tok_branch by reflexivity. cbn [bind].
    rewrite E_move_leaf by reflexivity. cbn [bind app].
    assert (Ha : astep (mk_am (AName0 main rn) pa na) (List.length ts) t =
      Ok (mk_am (ANameId main rn (List.length ts) t) pa (t_string t :: na))) by (am; rewrite Eu; reflexivity).
    destruct rest as [|t1 rest]; [cbn [next_token bind]; eapply simT_end; [exact Ha | reflexivity]|].
    rewrite next_cons. cbn [bind]. rewrite push_focus.
    destruct (is_type t1 TWhiteSpace) eqn:E1; unfold is_type in E1; rewrite E1.
    + eapply simT_ok2 with (m' := mk_am (AName1 main rn (List.length ts)) pa (t_string t :: na));
        [| | |exact Ha | unfold astep; cbn [am_state]; unfold is_type; rewrite E1; reflexivity].
      * replace (ts ++ [t; t1]) with ((ts ++ [t]) ++ [t1]) by (rewrite <- app_assoc; reflexivity).
        apply push_kept; [|exact Hg]. exact (kept_nams _ _ _ _ _ _ Hk).
      * intros _; exact Hg.
      * cbn. repeat split; assumption.
    + rewrite invalid_bad. cbn [ps_state push_token set_named]. rewrite Hst.
      eapply simT_err2; [exact Ha|]. unfold astep; cbn [am_state]; unfold is_type; rewrite E1; reflexivity.
  - strs t; apply Hbad; discriminate.
Qed.

Lemma sim_name1 ts m b fs x t rest main rn id : am_state m = AName1 main rn id -> start ts m b fs x t ->
  simT ts m t rest (step_named_string (at_focus b fs x) (List.length ts) t rest).
Proof.
  intros Hm [Hk Hg Hc]. rewrite Hm in Hc. destruct Hc as (Hst & Hns & -> & ->).
  destruct m as [a pa na]; cbn in Hm; subst a. specialize (Hg (or_introl eq_refl)).
  unfold step_named_string. rewrite E_current. cbn [bind]. rewrite E_children.
  cbn [bind idxs List.length Nat.eqb negb]. types t.
  - eapply simT_ok with (m' := mk_am (AName1 main rn id) pa na); [exact Hk | intros _; exact Hg | | am].
    cbn. repeat split; assumption.
  - rewrite E_create_branch by reflexivity. unfold fresh; cbn [bind allow_children].
    unfold push_nested.
    change (set_nested (at_focus ?b0 ?f ?y) ?n) with (at_focus (set_nested b0 n) f y).
    rewrite E_create_tok_branch by reflexivity. cbn [bind].
    change (set_state (at_focus ?b0 ?f ?y) ?st) with (at_focus (set_state b0 st) f y).
    eapply simT_ok with (m' := mk_am (AText (CSub main rn id) [IText [List.length ts]]) pa na);
      [apply kept_state, kept_nested; apply (kept_machine _ _ _ _ Hk); reflexivity | intros _; exact Hg | | am].
    unfold at_focus; cbn. rewrite Hns. repeat split.
  - strs t.
    + assert (Ha : astep (mk_am (AName1 main rn id) pa na) (List.length ts) t = Ok (mk_am ADeadEsc pa na)) by am.
      destruct rest as [|t1 rest]; [cbn [next_token bind]; eapply simT_end; [exact Ha | reflexivity]|].
      rewrite next_cons. cbn [bind]. rewrite push_focus.
      rewrite E_create_branch by reflexivity. unfold fresh; cbn [bind allow_children].
      unfold push_nested.
      change (set_nested (at_focus ?b0 ?f ?y) ?n) with (at_focus (set_nested b0 n) f y).
      rewrite E_create_tok_branch by reflexivity. cbn [bind].
      eapply simT_ok2 with (m' := mk_am ADead pa na); [| | |exact Ha | reflexivity].
      * replace (ts ++ [t; t1]) with ((ts ++ [t]) ++ [t1]) by (rewrite <- app_assoc; reflexivity).
        apply kept_nested, push_kept; [apply (kept_machine _ _ _ _ Hk); reflexivity | exact Hg].
      * intros _; exact Hg.
      * cbn. repeat split; try assumption; try discriminate. eexists; reflexivity.
    + assert (Ha : astep (mk_am (AName1 main rn id) pa na) (List.length ts) t = Ok (mk_am (ADeadOpen t) pa na)) by am.
      destruct rest as [|t1 rest]; [cbn [next_token bind]; eapply simT_end; [exact Ha | reflexivity]|].
      rewrite next_cons. cbn [bind]. rewrite push_focus.
      unfold pattern_start, is_type.
      match goal with H : t_type t = TGrammar |- _ => rewrite H end. cbn [ttype_eqb].
      repeat match goal with H : is_str t _ = _ |- _ => rewrite H end. rewrite invalid_bad.
      cbn [ps_state push_token]. rewrite Hst.
      eapply simT_err2; [exact Ha | reflexivity].
    + rewrite E_create_branch by reflexivity. unfold fresh; cbn [bind allow_children].
      unfold push_nested.
      change (set_nested (at_focus ?b0 ?f ?y) ?n) with (at_focus (set_nested b0 n) f y).
      rewrite E_create_tok_branch by reflexivity. cbn [bind].
      change (set_state (at_focus ?b0 ?f ?y) ?st) with (at_focus (set_state b0 st) f y).
      eapply simT_ok with (m' := mk_am (AText (CSub main rn id) [IHash (List.length ts)]) pa na);
        [apply kept_state, kept_nested; apply (kept_machine _ _ _ _ Hk); reflexivity | intros _; exact Hg | | am].
      unfold at_focus; cbn. rewrite Hns. repeat split.
    + rewrite invalid_bad, Hst. apply futureT_err. am.
    + rewrite invalid_bad, Hst. apply futureT_err. am.
  - rewrite E_create_branch by reflexivity. unfold fresh; cbn [bind allow_children].
    unfold push_nested.
    change (set_nested (at_focus ?b0 ?f ?y) ?n) with (at_focus (set_nested b0 n) f y).
    rewrite E_create_tok_branch by reflexivity. cbn [bind].
    eapply simT_ok with (m' := mk_am ADead pa na);
      [apply kept_nested; apply (kept_machine _ _ _ _ Hk); reflexivity | intros _; exact Hg | | am].
    cbn. repeat split; try assumption; try discriminate. eexists; reflexivity.
Qed.

Lemma sim_dead ts m b fs x t rest : am_state m = ADead -> start ts m b fs x t ->
  simT ts m t rest (step_named_string (at_focus b fs x) (List.length ts) t rest).
Proof.
  intros Hm [Hk Hg Hc]. rewrite Hm in Hc. destruct Hc as (Hst & Hns & (toks & ->)).
  destruct m as [a pa na]; cbn in Hm; subst a.
  unfold step_named_string. rewrite E_current. cbn [bind]. rewrite E_children_leaf. cbn [bind].
  types t; try (apply futureT_panic; am; fail).
  strs t; try (apply futureT_panic; am; fail); rewrite invalid_bad, Hst; apply futureT_err; am.
Qed.

(** One iteration of the loop. *)
Lemma sim_step s0 m t rest : repr s0 m -> simT (ps_tokens s0) m t rest (tree_step s0 t rest).
Proof.
  intros Hr. destruct (repr_start _ _ t Hr) as (b & fs & x & Eq & Hs).
  unfold tree_step. change (push_token (if is_type t TGrammar then set_grammar s0 true else s0) t) with (pushed s0 t).
  rewrite Eq. change (ps_state (at_focus b fs x)) with (ps_state b).
  pose proof (st_conc _ _ _ _ _ _ Hs) as Hc.
  destruct (am_state m) as [c ri| | |c ri id|c ri id kw rs| | |c ri rp| | | |main rn|main rn| |main rn id| | |] eqn:Em;
    cbn [conc] in Hc; try contradiction; pose proof (proj1 Hc) as Hst; rewrite Hst.
  - destruct c as [|main rn nid]; cbn [cstate].
    + eapply sim_string; eassumption.
    + eapply sim_substring; eassumption.
  - eapply sim_pattern; eassumption.
  - eapply sim_keyword; eassumption.
  - eapply sim_command; eassumption.
  - eapply sim_literal_text; eassumption.
  - eapply sim_group; eassumption.
  - eapply sim_name0; eassumption.
  - eapply sim_name1; eassumption.
  - eapply sim_dead; eassumption.
Qed.

Lemma loop_refines : forall fuel s m ts, repr s m -> List.length ts < fuel ->
  tree_loop fuel s ts = future s m ts.
Proof.
  induction fuel as [|fuel IH]; intros s m ts Hr Hl; [lia|].
  cbn [tree_loop]. destruct ts as [|t rest]; [apply finish_repr; exact Hr|].
  pose proof (sim_step s m t rest Hr) as H. change (future s m (t :: rest)) with (futureT (ps_tokens s) m (t :: rest)).
  destruct (tree_step s t rest) as [(s', rest')|e| |]; cbn [simT bind] in *; try (symmetry; exact H); [|contradiction].
  destruct H as (m' & ts' & Hr' & Ht & Hlen & Hf). rewrite Hf, <- Ht.
  apply IH; [exact Hr'|]. cbn in Hl. lia.
Qed.

Lemma init_repr : repr tree_init am_init.
Proof.
  split; try reflexivity; [discriminate|].
  exists [(NRoot, [])], (string_tree []). split; [split; reflexivity|]. repeat split.
Qed.

(** The parser computes what the machine computes. *)
Theorem parse_refines ts : parse_tokens ts = result ts (aparse ts).
Proof. unfold parse_tokens. rewrite (loop_refines _ _ am_init); [reflexivity | apply init_repr | lia]. Qed.
