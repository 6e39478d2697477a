(** Simulation of each parser state by the machine. *)
From Verif Require Import Base BaseFacts LexerModel TreeModel TreeArena TreeMachine TreeRefine.

Local Arguments at_focus : simpl never.
Local Arguments arena : simpl never.

Ltac types t :=
  unfold is_type in *; destruct (t_type t) eqn:?; cbn [ttype_eqb negb andb] in *.
Ltac strs t :=
  let B1 := fresh "B" in let B2 := fresh "B" in let B3 := fresh "B" in let B4 := fresh "B" in
  destruct (gview t) as [(B1 & B2 & B3 & B4)|[(B1 & B2 & B3 & B4)|[(B1 & B2 & B3 & B4)|[(B1 & B2 & B3 & B4)|(B1 & B2 & B3 & B4)]]]];
  rewrite ?B1, ?B2, ?B3, ?B4 in *; cbn [negb andb] in *.
(** compute [astep] for a known machine state *)
Ltac am :=
  unfold astep, gram; cbn [am_state am_pats am_nams]; unfold is_type;
  repeat match goal with
  | H : t_type _ = _ |- _ => rewrite H
  | H : is_str _ _ = _ |- _ => rewrite H
  end; cbn [ttype_eqb negb andb]; try reflexivity.

Lemma invalid_bad {A} b fs x t : @invalid A (at_focus b fs x) t = bad (ps_state b) t.
Proof. reflexivity. Qed.

Lemma E_current b fs x : current_of (at_focus b fs x) = Ok (base fs).
Proof. reflexivity. Qed.

Lemma next_cons s t' rest : next_token s (t' :: rest) = Ok (List.length (ps_tokens s), t', push_token s t', rest).
Proof. reflexivity. Qed.

Lemma sim_pattern_start ts m1 b c ri fs x t' :
  am_state m1 = AOpen c ri -> ps_state b = cstate c -> ps_nested b = cnest c -> ps_grammar b = true ->
  kept (ts ++ [t']) m1 b -> (fs, x) = focus_str (cfs c) ri ->
  match pattern_start (at_focus b fs x) (List.length ts) t' with
  | Ok s' => exists m', astep m1 (List.length ts) t' = Ok m' /\ repr s' m' /\ ps_tokens s' = ts ++ [t']
  | Err e => astep m1 (List.length ts) t' = Err e
  | Panic | NoFuel => False
  end.
Proof.
  intros Hm Hst Hns Hg Hk Hf. destruct m1 as [a pa na]; cbn in Hm; subst a.
  unfold pattern_start. types t'.
  - rewrite invalid_bad, Hst. unfold bad. am.
  - (* identifier *)
    rewrite (str_create _ _ _ NPattern _ _ Hf). unfold fresh. cbn [bind allow_children].
    change (ps_patterns (at_focus b ((NString, trees (rev ri)) :: cfs c) (Branch NPattern []))) with (ps_patterns b).
    rewrite (k_pats _ _ _ Hk). cbn [am_pats].
    destruct (umem (t_string t') pa) eqn:Eu; [am; rewrite Eu; reflexivity|].
    rewrite E_current. cbn [bind].
    change (set_patterns (at_focus b ?f ?y) ?p) with (at_focus (set_patterns b p) f y).
    rewrite E_create_tok_branch by reflexivity. cbn [bind].
    rewrite E_move_leaf by reflexivity. cbn [bind].
    eexists; split; [am; rewrite Eu; reflexivity|]. split; [|exact (k_tokens _ _ _ Hk)].
    unfold push_nested.
    change (set_state (set_nested (at_focus ?b0 ?f ?y) ?n) ?st) with (at_focus (set_state (set_nested b0 n) st) f y).
    eapply repr_intro.
    + apply kept_state, kept_nested. exact (kept_pats _ _ _ _ _ _ Hk).
    + intros _; exact Hg.
    + unfold at_focus; cbn. rewrite Hst, Hns. repeat split.
  - (* grammar *)
    strs t'.
    + rewrite (str_create _ _ _ NText _ _ Hf). cbn [bind].
      eexists; split; [am|]. split; [|exact (k_tokens _ _ _ Hk)].
      unfold push_nested.
      change (set_state (set_nested (set_nested (at_focus ?b0 ?f ?y) ?n) ?n') ?st)
        with (at_focus (set_state (set_nested (set_nested b0 n) n') st) f y).
      eapply repr_intro.
      * apply kept_state, kept_nested, kept_nested. apply (kept_machine _ _ _ _ Hk); reflexivity.
      * intros _; exact Hg.
      * cbn. split; [reflexivity|]. split; [discriminate | eexists; reflexivity].
    + rewrite invalid_bad, Hst. unfold bad. am.
    + rewrite (str_create _ _ _ NCommand _ _ Hf). cbn [bind].
      eexists; split; [am|]. split; [|exact (k_tokens _ _ _ Hk)].
      unfold push_nested.
      change (set_state (set_nested (at_focus ?b0 ?f ?y) ?n) ?st) with (at_focus (set_state (set_nested b0 n) st) f y).
      eapply repr_intro.
      * apply kept_state, kept_nested. apply (kept_machine _ _ _ _ Hk); reflexivity.
      * intros _; exact Hg.
      * unfold at_focus; cbn. rewrite Hst, Hns. repeat split.
    + rewrite invalid_bad, Hst. unfold bad. am.
    + rewrite invalid_bad, Hst. unfold bad. am.
  - rewrite invalid_bad, Hst. unfold bad. am.
Qed.

(** Opening brace followed by the start of a pattern. *)
Lemma sim_open ts m b c ri fs x t rest :
  am_state m = AText c ri -> ps_state b = cstate c -> ps_nested b = cnest c -> ps_grammar b = true ->
  kept (ts ++ [t]) m b -> (fs, x) = focus_str (cfs c) ri ->
  astep m (List.length ts) t = Ok (mk_am (AOpen c ri) (am_pats m) (am_nams m)) ->
  simT ts m t rest (let! (nx, t', s1, rest') := next_token (at_focus b fs x) rest in
                    let! s2 := pattern_start s1 nx t' in Ok (s2, rest')).
Proof.
  intros Hm Hst Hns Hg Hk Hf Ha.
  destruct rest as [|t' rest]; [cbn [next_token bind]; eapply simT_end; [exact Ha | reflexivity]|].
  rewrite next_cons. cbn [bind]. rewrite push_focus.
  change (ps_tokens (at_focus b fs x)) with (ps_tokens b). rewrite (k_tokens _ _ _ Hk).
  set (m1 := mk_am (AOpen c ri) (am_pats m) (am_nams m)) in *.
  pose proof (sim_pattern_start (ts ++ [t]) m1 (push_token b t') c ri fs x t' eq_refl Hst Hns Hg
    (push_kept _ _ _ _ (kept_machine _ _ m1 _ Hk eq_refl eq_refl) Hg) Hf) as HP.
  destruct (pattern_start _ _ _) as [s2|e| |]; try contradiction; cbn [bind].
  - destruct HP as (m' & Ha' & Hr & Ht). exists m', ((ts ++ [t]) ++ [t']).
    split; [exact Hr|]. split; [exact Ht|]. split; [cbn; lia|].
    rewrite (futureT_ok _ _ _ _ _ Ha), (futureT_ok _ _ _ _ _ Ha'). reflexivity.
  - cbn. rewrite (futureT_ok _ _ _ _ _ Ha). apply futureT_err; exact HP.
Qed.

(** Backtick followed by any token. *)
Lemma sim_escape ts m b c ri fs x t rest :
  am_state m = AText c ri -> ps_state b = cstate c -> ps_nested b = cnest c -> ps_grammar b = true ->
  kept (ts ++ [t]) m b -> (fs, x) = focus_str (cfs c) ri ->
  astep m (List.length ts) t = Ok (mk_am (AEsc c ri) (am_pats m) (am_nams m)) ->
  simT ts m t rest (let! (nx, t', s1, rest') := next_token (at_focus b fs x) rest in
                    let! s2 := add_token s1 NText nx in Ok (s2, rest')).
Proof.
  intros Hm Hst Hns Hg Hk Hf Ha.
  destruct rest as [|t' rest]; [cbn [next_token bind]; eapply simT_end; [exact Ha | reflexivity]|].
  rewrite next_cons. cbn [bind]. rewrite push_focus.
  change (ps_tokens (at_focus b fs x)) with (ps_tokens b). rewrite (k_tokens _ _ _ Hk).
  rewrite (str_add_text _ _ _ _ _ _ Hf). cbn [bind].
  eapply simT_ok2; [| | |exact Ha | reflexivity].
  - replace (ts ++ [t; t']) with ((ts ++ [t]) ++ [t']) by (rewrite <- app_assoc; reflexivity).
    apply push_kept; [apply (kept_machine _ _ _ _ Hk); reflexivity | exact Hg].
  - intros _; exact Hg.
  - cbn. split; [exact Hst|]. split; [exact Hns|].
    rewrite app_length, Nat.add_1_r. symmetry; apply surjective_pairing.
Qed.

Lemma sim_string ts m b fs x t rest ri : am_state m = AText CMain ri -> start ts m b fs x t ->
  simT ts m t rest (step_string (at_focus b fs x) (List.length ts) t rest).
Proof.
  intros Hm [Hk Hg Hc]. rewrite Hm in Hc. destruct Hc as (Hst & Hns & Hf).
  destruct m as [a pa na]; cbn in Hm; subst a.
  assert (Htext : t_type t <> TGrammar ->
    simT ts (mk_am (AText CMain ri) pa na) t rest
      (let! s1 := add_token (at_focus b fs x) NText (List.length ts) in Ok (s1, rest))).
  { intros Hng. rewrite (str_add_text _ _ _ _ _ _ Hf). cbn [bind].
    eapply simT_ok with (m' := mk_am (AText CMain (add_text ri (List.length ts))) pa na).
    - apply (kept_machine _ _ _ _ Hk); reflexivity.
    - discriminate.
    - cbn. split; [exact Hst|]. split; [exact Hns|]. symmetry; apply surjective_pairing.
    - am. destruct (t_type t); try reflexivity; contradiction. }
  unfold step_string. unfold is_type in Hg |- *. destruct (t_type t) eqn:Ety; cbn [ttype_eqb] in *;
    try (apply Htext; discriminate).
  clear Htext. specialize (Hg (or_intror eq_refl)).
  strs t.
  - eapply sim_escape; try eassumption; [reflexivity | am].
  - eapply sim_open; try eassumption; [reflexivity | am].
  - change (set_current (at_focus b fs x) (Some 0)) with (set_current (at_focus b fs x) (Some (base []))).
    assert (E : set_current (at_focus b fs x) (Some (base [])) = at_focus b [] (Branch NRoot [string_tree (rev ri)])).
    { destruct ri as [|[toks|tk|id o|ps] r]; cbn [focus_str cfs] in Hf; injection Hf as -> ->;
        unfold string_tree, trees; cbn [rev]; rewrite ?map_app; unfold at_focus, set_current, set_nodes; cbn [ps_tokens ps_lengths ps_grammar ps_nodes ps_current ps_state ps_nested ps_named ps_patterns];
        rewrite ?arena_close; reflexivity. }
    rewrite E, E_create_branch by reflexivity. cbn [bind].
    change (set_state (at_focus ?b0 ?f ?y) ?st) with (at_focus (set_state b0 st) f y).
    eapply simT_ok with (m' := mk_am (AGroup (rev ri) []) pa na).
    + apply kept_state. apply (kept_machine _ _ _ _ Hk); reflexivity.
    + intros _; exact Hg.
    + cbn. repeat split. rewrite Hns; reflexivity.
    + am.
  - rewrite invalid_bad, Hst. apply futureT_err. am.
  - rewrite invalid_bad, Hst. apply futureT_err. am.
Qed.

Lemma last_idxs i l x : last_opt (idxs i (l ++ [x])) = Some (i + rsizes l).
Proof. rewrite idxs_app. cbn. apply last_opt_app. Qed.

(** The check for two neighbouring number signs, 237-245. *)
Definition multi_check (s : pst) : tout bool :=
  let! i := current_of s in
  let! n := node_at (ps_nodes s) i in
  let! parent := unwrap (n_parent n) in
  let! children := children_at (ps_nodes s) parent in
  match last_opt children with
  | Some l => let! ln := node_at (ps_nodes s) l in Ok (ntype_eqb (n_type ln) NNumberSign)
  | None => Ok false
  end.

Lemma multi_focus b ty cs fs x :
  multi_check (at_focus b ((ty, cs) :: fs) x) = Ok (ntype_eqb (rtype x) NNumberSign).
Proof.
  unfold multi_check, current_of, at_focus. cbn [ps_current ps_nodes set_current set_nodes unwrap bind].
  unfold node_at at 1. rewrite arena_at. cbn [unwrap bind].
  replace (n_parent (head_node (par ((ty, cs) :: fs)) (base ((ty, cs) :: fs)) x)) with (Some (base fs))
    by (destruct x; reflexivity).
  cbn [unwrap bind]. unfold children_at. rewrite arena_close. unfold node_at at 1. rewrite arena_at.
  cbn [unwrap bind head_node n_children]. rewrite last_idxs.
  rewrite <- arena_close. unfold node_at.
  replace (S (base fs) + rsizes cs) with (base ((ty, cs) :: fs)) by reflexivity.
  rewrite arena_at. destruct x; reflexivity.
Qed.

Lemma step_substring_eq s cur t rest :
  step_substring s cur t rest =
  if is_type t TGrammar then
    if is_str t s_hash then
      let! multi := multi_check s in
      if multi then Err (MultiNumberSign (t_start_grapheme t))
      else let! s1 := create_node_add_token s NNumberSign cur in Ok (s1, rest)
    else if is_str t s_back then
      let! (nx, t', s1, rest') := next_token s rest in
      let! s2 := add_token s1 NText nx in Ok (s2, rest')
    else if is_str t s_open then
      let! (nx, t', s1, rest') := next_token s rest in
      let! s2 := pattern_start s1 nx t' in Ok (s2, rest')
    else if is_str t s_close then
      let! s1 := move_to_container s in
      let! s2 := end_nested_state s1 in
      let! i := current_of s2 in
      let! children := children_at (ps_nodes s2) i in
      if negb (Nat.eqb (List.length children) 2) then invalid s2 t
      else let! s3 := end_nested_state s2 in Ok (s3, rest)
    else invalid s t
  else
    let! s1 := add_token s NText cur in Ok (s1, rest).
Proof.
  unfold step_substring, multi_check.
  destruct (is_type t TGrammar); [|reflexivity]. destruct (is_str t s_hash); [|reflexivity].
  destruct (current_of s) as [i| | |]; cbn [bind]; try reflexivity.
  destruct (node_at (ps_nodes s) i) as [n| | |]; cbn [bind]; try reflexivity.
  destruct (unwrap (n_parent n)) as [p| | |]; cbn [bind]; try reflexivity.
  destruct (children_at (ps_nodes s) p) as [cl| | |]; cbn [bind]; reflexivity.
Qed.

Lemma sim_substring ts m b fs x t rest main rn nid ri : am_state m = AText (CSub main rn nid) ri ->
  start ts m b fs x t -> simT ts m t rest (step_substring (at_focus b fs x) (List.length ts) t rest).
Proof.
  intros Hm [Hk Hg Hc]. rewrite Hm in Hc. destruct Hc as (Hst & Hns & Hf).
  destruct m as [a pa na]; cbn in Hm; subst a. specialize (Hg (or_introl eq_refl)).
  rewrite step_substring_eq.
  assert (Htext : t_type t <> TGrammar ->
    simT ts (mk_am (AText (CSub main rn nid) ri) pa na) t rest
      (let! s1 := add_token (at_focus b fs x) NText (List.length ts) in Ok (s1, rest))).
  { intros Hng. rewrite (str_add_text _ _ _ _ _ _ Hf). cbn [bind].
    eapply simT_ok with (m' := mk_am (AText (CSub main rn nid) (add_text ri (List.length ts))) pa na).
    - apply (kept_machine _ _ _ _ Hk); reflexivity.
    - intros _; exact Hg.
    - cbn. split; [exact Hst|]. split; [exact Hns|]. symmetry; apply surjective_pairing.
    - am. destruct (t_type t); try reflexivity; contradiction. }
  unfold is_type in *. destruct (t_type t) eqn:Ety; cbn [ttype_eqb] in *; try (apply Htext; discriminate).
  clear Htext. strs t.
  - eapply sim_escape; try eassumption; [reflexivity | am].
  - eapply sim_open; try eassumption; [reflexivity | am].
  - assert (Hmulti : multi_check (at_focus b fs x) = Ok (match ri with IHash _ :: _ => true | _ => false end)).
    { destruct ri as [|[toks|tk|id o|ps] r]; cbn [focus_str cfs] in Hf; injection Hf as -> ->;
        rewrite multi_focus; reflexivity. }
    rewrite Hmulti. cbn [bind].
    assert (Hok : match ri with IHash _ :: _ => true | _ => false end = false ->
      simT ts (mk_am (AText (CSub main rn nid) ri) pa na) t rest
        (let! s1 := create_node_add_token (at_focus b fs x) NNumberSign (List.length ts) in Ok (s1, rest))).
    { intros Hnh. rewrite (str_create_tok _ _ _ _ _ _ _ Hf) by reflexivity. cbn [bind].
      eapply simT_ok with (m' := mk_am (AText (CSub main rn nid) (IHash (List.length ts) :: ri)) pa na).
      - apply (kept_machine _ _ _ _ Hk); reflexivity.
      - intros _; exact Hg.
      - cbn. split; [exact Hst|]. split; [exact Hns|]. reflexivity.
      - am. destruct ri as [|[toks|tk|id o|ps] r]; try reflexivity; discriminate. }
    destruct ri as [|[toks|tk|id o|ps] r]; try (apply Hok; reflexivity).
    apply futureT_err. am.
  - rewrite (str_move _ _ _ _ _ Hf). cbn [bind cfs].
    rewrite (E_end _ _ _ _ _ _ _ Hns). cbn [bind].
    rewrite E_current. cbn [bind].
    rewrite E_children. cbn [bind idxs List.length Nat.eqb negb app].
    rewrite (E_end _ _ _ _ _ PNamedGroup []) by reflexivity. cbn [bind].
    eapply simT_ok with (m' := mk_am (AGroup main ((nid, rev ri) :: rn)) pa na).
    + repeat (apply kept_state || apply kept_nested). apply (kept_machine _ _ _ _ Hk); reflexivity.
    + intros _; exact Hg.
    + cbn. repeat split. rewrite map_app. reflexivity.
    + am.
  - rewrite invalid_bad, Hst. apply futureT_err. am.
Qed.
