(** The parser of [TreeModel] behaves exactly like the machine of [TreeMachine]. *)
From Verif Require Import Base BaseFacts LexerModel TreeModel TreeArena TreeMachine.

(** Focus inside a string: on the last leaf if there is one, on the string itself otherwise. *)
Definition focus_str (fs : list frame) (ri : list item) : list frame * rose :=
  match ri with
  | IText toks :: r => ((NString, trees (rev r)) :: fs, Leaf NText toks)
  | IHash t :: r => ((NString, trees (rev r)) :: fs, Leaf NNumberSign [t])
  | _ => (fs, string_tree (rev ri))
  end.
Definition focus_cmd (fs : list frame) (rp : list cparam) : list frame * rose :=
  match rp with
  | CHash t :: r => ((NCommand, map param_tree (rev r)) :: fs, Leaf NNumberSign [t])
  | _ => (fs, Branch NCommand (map param_tree (rev rp)))
  end.

Definition group_fs (main : list item) (rn : list named) : list frame :=
  [(NNamedGroup, map named_tree (rev rn)); (NRoot, [string_tree main])].

(** Concrete parser state, nested states and focus of a machine state at the head of the loop. *)
Definition conc (a : astate) (st : pstate) (ns : list pstate) (fs : list frame) (t : rose) : Prop :=
  match a with
  | AText c ri => st = cstate c /\ ns = cnest c /\ (fs, t) = focus_str (cfs c) ri
  | APat c ri id => st = PPattern /\ ns = cstate c :: cnest c /\
      fs = (NString, trees (rev ri)) :: cfs c /\ t = Branch NPattern [ident id]
  | AKey c ri id kw rs => st = PKeyword /\ ns = cstate c :: cnest c /\
      fs = (NString, trees (rev ri)) :: cfs c /\ t = Branch NPattern (ident id :: ident kw :: map sel_tree (rev rs))
  | ACmd c ri rp => st = PCommand /\ ns = cstate c :: cnest c /\
      (fs, t) = focus_cmd ((NString, trees (rev ri)) :: cfs c) rp
  | ALit => st = PLiteralText /\ ns <> [] /\ exists toks, t = Leaf NText toks
  | AGroup main rn => st = PNamedGroup /\ ns = [] /\
      fs = [(NRoot, [string_tree main])] /\ t = Branch NNamedGroup (map named_tree (rev rn))
  | AName0 main rn => st = PNamedString /\ ns = [PNamedGroup] /\
      fs = group_fs main rn /\ t = Branch NNamedString []
  | AName1 main rn id => st = PNamedString /\ ns = [PNamedGroup] /\
      fs = group_fs main rn /\ t = Branch NNamedString [ident id]
  | ADead => st = PNamedString /\ ns <> [] /\ exists toks, t = Leaf NText toks
  | AEsc _ _ | AOpen _ _ | ASel1 _ _ _ _ _ _ | ASel2 _ _ _ _ _ _ | ACmdEsc | ALitEsc | ANameId _ _ _ _
  | ADeadOpen _ | ADeadEsc => False
  end.

Definition plain (a : astate) : bool := match a with AText CMain _ => true | _ => false end.

(** The relation between parser and machine at the head of the loop. *)
Record repr (s : pst) (m : am) : Prop := mk_repr {
  r_lengths : ps_lengths s = lengths_of (ps_tokens s);
  r_gram : ps_grammar s = has_gram (ps_tokens s);
  r_plain : plain (am_state m) = false -> ps_grammar s = true;
  r_pats : forall k, mhas k (ps_patterns s) = umem k (am_pats m);
  r_nams : forall k, mhas k (ps_named s) = umem k (am_nams m);
  r_conc : exists fs t, focused s fs t /\ conc (am_state m) (ps_state s) (ps_nested s) fs t
}.

Definition result (ts : list token) (o : tout ast) : tout tree :=
  match o with Ok a => Ok (tree_of ts a) | Err e => Err e | Panic => Panic | NoFuel => NoFuel end.

(** Remaining run of the machine from a parser state. *)
Definition future (s : pst) (m : am) (rest : list token) : tout tree :=
  result (ps_tokens s ++ rest) (let! m' := arun m (List.length (ps_tokens s)) rest in afinish m').

Lemma lengths_snoc ts t : lengths_of (ts ++ [t]) =
  let l := lengths_of ts in mk_lengths (l_bytes l + t_length_bytes t) (l_characters l + t_length_characters t)
       (l_graphemes l + t_length_graphemes t) (S (l_tokens l)).
Proof. unfold lengths_of; rewrite fold_left_app; reflexivity. Qed.

Lemma has_gram_app a b : has_gram (a ++ b) = has_gram a || has_gram b.
Proof. apply existsb_app. Qed.

(** What is expected of one iteration. *)
Definition simulates (s0 : pst) (m : am) (t : token) (rest : list token) : Prop :=
  match tree_step s0 t rest with
  | Ok (s', rest') => exists m', repr s' m' /\ List.length rest' <= List.length rest /\
                      future s0 m (t :: rest) = future s' m' rest'
  | Err e => future s0 m (t :: rest) = Err e
  | Panic => future s0 m (t :: rest) = Panic
  | NoFuel => False
  end.

Lemma finish_repr s m : repr s m -> tree_finish s = future s m [].
Proof.
  intros [Hl Hg Hp Hpa Hna (fs & t & (Hn & Hc) & Hconc)].
  unfold future, tree_finish. cbn [arun bind]. rewrite app_nil_r.
  destruct m as [a pa na]; cbn [am_state afinish] in *. unfold afinish; cbn [am_state].
  destruct a as [c ri| | |c ri id|c ri id kw rs| | |c ri rp| | | |main rn|main rn| |main rn id| | |];
    cbn [conc] in Hconc; try contradiction.
  - destruct Hconc as (Hs & Hns & Hf). destruct c as [|main rn id]; cbn [cnest] in Hns; rewrite Hns;
      cbn [result]; [|reflexivity].
    unfold tree_of. rewrite <- Hl, <- Hg. f_equal. f_equal. rewrite Hn.
    unfold ast_tree. cbn [fst snd]. destruct ri as [|[toks|tk|id o|ps] r]; cbn [focus_str cfs] in Hf;
      injection Hf as -> ->; rewrite !arena_close; unfold string_tree; cbn [rev app trees map]; try reflexivity;
      unfold trees; rewrite map_app; reflexivity.
  - destruct Hconc as (Hs & Hns & Hf); rewrite Hns; reflexivity.
  - destruct Hconc as (Hs & Hns & Hf); rewrite Hns; reflexivity.
  - destruct Hconc as (Hs & Hns & Hf); rewrite Hns; reflexivity.
  - destruct Hconc as (Hs & Hns & Hf); destruct (ps_nested s); [contradiction | reflexivity].
  - destruct Hconc as (Hs & Hns & -> & ->); rewrite Hns; cbn [result].
    unfold tree_of. rewrite <- Hl, <- Hg. f_equal. f_equal. rewrite Hn, arena_close. reflexivity.
  - destruct Hconc as (Hs & Hns & Hf); rewrite Hns; reflexivity.
  - destruct Hconc as (Hs & Hns & Hf); rewrite Hns; reflexivity.
  - destruct Hconc as (Hs & Hns & Hf); destruct (ps_nested s); [contradiction | reflexivity].
Qed.

(** Pushed token. *)
Definition pushed (s0 : pst) (t : token) : pst :=
  push_token (if is_type t TGrammar then set_grammar s0 true else s0) t.

Lemma pushed_focused s0 t fs x : focused s0 fs x -> focused (pushed s0 t) fs x.
Proof. unfold pushed, focused; destruct (is_type t TGrammar); exact (fun H => H). Qed.

(** Facts kept by all changes to arena, state and nested states. *)
Record kept (ts : list token) (m : am) (s : pst) : Prop := mk_kept {
  k_tokens : ps_tokens s = ts;
  k_lengths : ps_lengths s = lengths_of ts;
  k_gram : ps_grammar s = has_gram ts;
  k_pats : forall k, mhas k (ps_patterns s) = umem k (am_pats m);
  k_nams : forall k, mhas k (ps_named s) = umem k (am_nams m)
}.

Lemma pushed_kept s0 m t : repr s0 m -> kept (ps_tokens s0 ++ [t]) m (pushed s0 t).
Proof.
  intros [Hl Hg Hp Hpa Hna _]. unfold pushed.
  split; destruct (is_type t TGrammar) eqn:E; cbn; try assumption; try reflexivity;
    try (rewrite lengths_snoc, Hl; reflexivity);
    rewrite has_gram_app; cbn; rewrite E, ?Hg, ?orb_true_r, ?orb_false_r; reflexivity.
Qed.

Lemma push_kept ts m s t : kept ts m s -> ps_grammar s = true -> kept (ts ++ [t]) m (push_token s t).
Proof.
  intros [Ht Hl Hg Hpa Hna] Htrue. split; cbn; try assumption.
  - rewrite Ht; reflexivity.
  - rewrite lengths_snoc, Hl; reflexivity.
  - rewrite has_gram_app, Hg, <- Hg, Htrue; reflexivity.
Qed.

(** Future of the machine from a token list. *)
Definition futureT (ts : list token) (m : am) (rest : list token) : tout tree :=
  result (ts ++ rest) (let! m' := arun m (List.length ts) rest in afinish m').

Lemma futureT_ok ts m t rest m1 : astep m (List.length ts) t = Ok m1 ->
  futureT ts m (t :: rest) = futureT (ts ++ [t]) m1 rest.
Proof.
  intros H; unfold futureT. cbn [arun]. rewrite H. cbn [bind].
  rewrite <- app_assoc, app_length, Nat.add_1_r. reflexivity.
Qed.
Lemma futureT_err ts m t rest e : astep m (List.length ts) t = Err e -> futureT ts m (t :: rest) = Err e.
Proof. intros H; unfold futureT; cbn [arun]; rewrite H; reflexivity. Qed.
Lemma futureT_panic ts m t rest : astep m (List.length ts) t = Panic -> futureT ts m (t :: rest) = Panic.
Proof. intros H; unfold futureT; cbn [arun]; rewrite H; reflexivity. Qed.

(** The five cases for the string of a grammar token. *)
Lemma gview t :
  (is_str t s_back = true /\ is_str t s_open = false /\ is_str t s_hash = false /\ is_str t s_close = false) \/
  (is_str t s_back = false /\ is_str t s_open = true /\ is_str t s_hash = false /\ is_str t s_close = false) \/
  (is_str t s_back = false /\ is_str t s_open = false /\ is_str t s_hash = true /\ is_str t s_close = false) \/
  (is_str t s_back = false /\ is_str t s_open = false /\ is_str t s_hash = false /\ is_str t s_close = true) \/
  (is_str t s_back = false /\ is_str t s_open = false /\ is_str t s_hash = false /\ is_str t s_close = false).
Proof.
  unfold is_str.
  destruct (ueqb (t_string t) s_back) eqn:E1; [apply ueqb_eq in E1; rewrite E1; left; repeat split|].
  destruct (ueqb (t_string t) s_open) eqn:E2; [apply ueqb_eq in E2; rewrite E2; right; left; repeat split|].
  destruct (ueqb (t_string t) s_hash) eqn:E3;
    [apply ueqb_eq in E3; rewrite E3; right; right; left; repeat split|].
  destruct (ueqb (t_string t) s_close) eqn:E4; [right; right; right; left; repeat split|].
  right; right; right; right; repeat split.
Qed.

(** The state at the start of an iteration, in focus form. *)
Record start (ts : list token) (m : am) (b : pst) (fs : list frame) (x : rose) (t : token) : Prop := mk_start {
  st_kept : kept (ts ++ [t]) m b;
  st_gram : plain (am_state m) = false \/ is_type t TGrammar = true -> ps_grammar b = true;
  st_conc : conc (am_state m) (ps_state b) (ps_nested b) fs x
}.

Lemma repr_start s0 m t : repr s0 m -> exists b fs x,
  pushed s0 t = at_focus b fs x /\ start (ps_tokens s0) m b fs x t.
Proof.
  intros H. pose proof (pushed_kept _ _ t H) as Hk. destruct H as [Hl Hg Hp Hpa Hna (fs & x & Hf & Hconc)].
  exists (pushed s0 t), fs, x. split; [apply focused_at, pushed_focused, Hf|].
  split; [exact Hk| |].
  - intros [Hpl|Ht].
    + unfold pushed; destruct (is_type t TGrammar); cbn; [reflexivity | exact (Hp Hpl)].
    + unfold pushed; rewrite Ht; reflexivity.
  - unfold pushed; destruct (is_type t TGrammar); exact Hconc.
Qed.

(** Non-arena changes keep what is kept. *)
Lemma kept_focus ts m b fs x : kept ts m b -> kept ts m (at_focus b fs x).
Proof. intros [H1 H2 H3 H4 H5]; split; assumption. Qed.
Lemma kept_state ts m b x : kept ts m b -> kept ts m (set_state b x).
Proof. intros [H1 H2 H3 H4 H5]; split; assumption. Qed.
Lemma kept_nested ts m b x : kept ts m b -> kept ts m (set_nested b x).
Proof. intros [H1 H2 H3 H4 H5]; split; assumption. Qed.
Lemma kept_machine ts m m' b : kept ts m b -> am_pats m' = am_pats m -> am_nams m' = am_nams m -> kept ts m' b.
Proof. intros [H1 H2 H3 H4 H5] E1 E2; split; try assumption; [rewrite E1 | rewrite E2]; assumption. Qed.

Lemma mhas_minsert {V} k k' (v : V) m : mhas k (minsert k' v m) = ueqb k k' || mhas k m.
Proof.
  unfold mhas. destruct (ueqb k k') eqn:E.
  - apply ueqb_eq in E; subst. rewrite mget_minsert_eq; reflexivity.
  - rewrite mget_minsert_ne; [reflexivity|]. intros H; subst; rewrite ueqb_refl in E; discriminate.
Qed.

Lemma kept_pats ts m b a k v : kept ts m b ->
  kept ts (mk_am a (k :: am_pats m) (am_nams m)) (set_patterns b (minsert k v (ps_patterns b))).
Proof.
  intros [H1 H2 H3 H4 H5]; split; try assumption. cbn. intros k'.
  rewrite mhas_minsert, H4. unfold umem; reflexivity.
Qed.
Lemma kept_nams ts m b a k v : kept ts m b ->
  kept ts (mk_am a (am_pats m) (k :: am_nams m)) (set_named b (minsert k v (ps_named b))).
Proof.
  intros [H1 H2 H3 H4 H5]; split; try assumption. cbn. intros k'.
  rewrite mhas_minsert, H5. unfold umem; reflexivity.
Qed.

Lemma repr_intro ts m b fs x : kept ts m b ->
  (plain (am_state m) = false -> ps_grammar b = true) ->
  conc (am_state m) (ps_state b) (ps_nested b) fs x -> repr (at_focus b fs x) m.
Proof.
  intros [H1 H2 H3 H4 H5] Hp Hc. split; cbn [ps_lengths ps_tokens ps_grammar ps_patterns ps_named at_focus set_current set_nodes];
    rewrite ?H1; try assumption.
  exists fs, x; split; [apply at_focused | exact Hc].
Qed.

(** Expected result of an iteration, in terms of tokens. *)
Definition simT (ts : list token) (m : am) (t : token) (rest : list token) (o : tout (pst * list token)) : Prop :=
  match o with
  | Ok (s', rest') => exists m' ts', repr s' m' /\ ps_tokens s' = ts' /\ List.length rest' <= List.length rest /\
                      futureT ts m (t :: rest) = futureT ts' m' rest'
  | Err e => futureT ts m (t :: rest) = Err e
  | Panic => futureT ts m (t :: rest) = Panic
  | NoFuel => False
  end.

Lemma simT_ok ts m t rest b fs x m' : kept (ts ++ [t]) m' b ->
  (plain (am_state m') = false -> ps_grammar b = true) ->
  conc (am_state m') (ps_state b) (ps_nested b) fs x ->
  astep m (List.length ts) t = Ok m' -> simT ts m t rest (Ok (at_focus b fs x, rest)).
Proof.
  intros Hk Hp Hc Ha. exists m', (ts ++ [t]). split; [exact (repr_intro _ _ _ _ _ Hk Hp Hc)|].
  split; [exact (k_tokens _ _ _ Hk)|]. split; [lia|]. apply futureT_ok; exact Ha.
Qed.

Lemma simT_ok2 ts m t t' rest b fs x m1 m' : kept (ts ++ [t; t']) m' b ->
  (plain (am_state m') = false -> ps_grammar b = true) ->
  conc (am_state m') (ps_state b) (ps_nested b) fs x ->
  astep m (List.length ts) t = Ok m1 -> astep m1 (S (List.length ts)) t' = Ok m' ->
  simT ts m t (t' :: rest) (Ok (at_focus b fs x, rest)).
Proof.
  intros Hk Hp Hc Ha Ha'. exists m', (ts ++ [t; t']). split; [exact (repr_intro _ _ _ _ _ Hk Hp Hc)|].
  split; [exact (k_tokens _ _ _ Hk)|]. split; [cbn; lia|].
  rewrite (futureT_ok _ _ _ _ _ Ha), (futureT_ok _ _ _ _ m').
  - rewrite <- app_assoc; reflexivity.
  - rewrite app_length, Nat.add_1_r; exact Ha'.
Qed.

Lemma simT_err2 ts m t t' rest m1 e :
  astep m (List.length ts) t = Ok m1 -> astep m1 (S (List.length ts)) t' = Err e ->
  simT ts m t (t' :: rest) (Err e).
Proof.
  intros Ha Ha'. cbn. rewrite (futureT_ok _ _ _ _ _ Ha). apply futureT_err.
  rewrite app_length, Nat.add_1_r; exact Ha'.
Qed.

Lemma simT_end ts m t m1 :
  astep m (List.length ts) t = Ok m1 -> afinish m1 = Err EndedAbruptly -> simT ts m t [] (Err EndedAbruptly).
Proof. intros Ha Ha'. cbn. rewrite (futureT_ok _ _ _ _ _ Ha). unfold futureT; cbn. rewrite Ha'; reflexivity. Qed.

Lemma push_focus b fs x t : push_token (at_focus b fs x) t = at_focus (push_token b t) fs x.
Proof. reflexivity. Qed.

(** Adding text / creating nodes in the focus of a string. *)
Lemma str_add_text b fs ri tok fs' x : (fs', x) = focus_str fs ri ->
  add_token (at_focus b fs' x) NText tok =
  Ok (at_focus b (fst (focus_str fs (add_text ri tok))) (snd (focus_str fs (add_text ri tok)))).
Proof.
  destruct ri as [|[toks|tk|id o|ps] r]; cbn [focus_str add_text fst snd rev app]; intros E; injection E as -> ->.
  - apply (E_add_branch b fs NString []); reflexivity.
  - apply E_add_same.
  - rewrite E_add_leaf by reflexivity. unfold trees; rewrite map_app; reflexivity.
  - unfold string_tree. rewrite E_add_branch by reflexivity. reflexivity.
  - unfold string_tree. rewrite E_add_branch by reflexivity. reflexivity.
Qed.

Lemma str_create b fs ri ty fs' x : (fs', x) = focus_str fs ri ->
  create_node (at_focus b fs' x) ty = Ok (at_focus b ((NString, trees (rev ri)) :: fs) (fresh ty)).
Proof.
  destruct ri as [|[toks|tk|id o|ps] r]; cbn [focus_str rev app]; intros E; injection E as -> ->.
  - apply (E_create_branch b fs NString []); reflexivity.
  - rewrite E_create_leaf by reflexivity. unfold trees; rewrite map_app; reflexivity.
  - rewrite E_create_leaf by reflexivity. unfold trees; rewrite map_app; reflexivity.
  - unfold string_tree. rewrite E_create_branch by reflexivity. reflexivity.
  - unfold string_tree. rewrite E_create_branch by reflexivity. reflexivity.
Qed.

Lemma str_create_tok b fs ri ty tok fs' x : (fs', x) = focus_str fs ri -> allow_children ty = false ->
  create_node_add_token (at_focus b fs' x) ty tok = Ok (at_focus b ((NString, trees (rev ri)) :: fs) (Leaf ty [tok])).
Proof.
  intros E Ha. unfold create_node_add_token. rewrite (str_create _ _ _ ty _ _ E). cbn [bind].
  unfold current_of; cbn [ps_current at_focus set_current unwrap bind].
  unfold fresh; rewrite Ha. rewrite (push_leaf _ ((NString, trees (rev ri)) :: fs) ty []) by reflexivity. reflexivity.
Qed.

Lemma str_move b fs ri fs' x : (fs', x) = focus_str fs ri ->
  move_to_container (at_focus b fs' x) = Ok (at_focus b fs (string_tree (rev ri))).
Proof.
  destruct ri as [|[toks|tk|id o|ps] r]; cbn [focus_str rev app]; intros E; injection E as -> ->.
  - apply E_move_branch; reflexivity.
  - rewrite E_move_leaf by reflexivity. unfold string_tree, trees; rewrite map_app; reflexivity.
  - rewrite E_move_leaf by reflexivity. unfold string_tree, trees; rewrite map_app; reflexivity.
  - apply E_move_branch; reflexivity.
  - apply E_move_branch; reflexivity.
Qed.
