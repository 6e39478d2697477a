(** The node arena of the parser as the preorder layout of a rose tree with a focus on its rightmost
    path. Proof device for [TreeModel]. *)
From Verif Require Import Base BaseFacts LexerModel TreeModel.

Inductive rose := Leaf (ty : ntype) (toks : list nat) | Branch (ty : ntype) (cs : list rose).

Fixpoint rsize (t : rose) : nat :=
  match t with
  | Leaf _ _ => 1
  | Branch _ cs => S ((fix go l := match l with [] => 0 | x :: r => rsize x + go r end) cs)
  end.
Fixpoint rsizes (l : list rose) : nat := match l with [] => 0 | x :: r => rsize x + rsizes r end.

Definition rtype (t : rose) : ntype := match t with Leaf ty _ => ty | Branch ty _ => ty end.

(** Indices of sibling subtrees when the first one is at [i]. *)
Fixpoint idxs (i : nat) (l : list rose) : list nat :=
  match l with [] => [] | x :: r => i :: idxs (i + rsize x) r end.

(** Preorder layout of a subtree whose root is at index [i] with parent [p]. *)
Fixpoint layout (p : option nat) (i : nat) (t : rose) : list node :=
  match t with
  | Leaf ty toks => [mk_node ty p None (Some toks)]
  | Branch ty cs =>
    mk_node ty p (Some (idxs (S i) cs)) None ::
    (fix go j l := match l with [] => [] | x :: r => layout (Some i) j x ++ go (j + rsize x) r end) (S i) cs
  end.
Fixpoint layouts (p : option nat) (j : nat) (l : list rose) : list node :=
  match l with [] => [] | x :: r => layout p j x ++ layouts p (j + rsize x) r end.

Lemma rsize_branch ty cs : rsize (Branch ty cs) = S (rsizes cs).
Proof. cbn; f_equal. Qed.

Lemma layout_branch p i ty cs :
  layout p i (Branch ty cs) = mk_node ty p (Some (idxs (S i) cs)) None :: layouts (Some i) (S i) cs.
Proof.
  cbn [layout]. f_equal. generalize (S i) as j.
  induction cs as [|x r IH]; intros j; [reflexivity|]. cbn [layouts]. rewrite <- IH. reflexivity.
Qed.

Section RoseInd.
  Variable P : rose -> Prop.
  Hypothesis HL : forall ty toks, P (Leaf ty toks).
  Hypothesis HB : forall ty cs, Forall P cs -> P (Branch ty cs).
  Fixpoint rose_ind' (t : rose) : P t :=
    match t with
    | Leaf ty toks => HL ty toks
    | Branch ty cs => HB ty cs ((fix go l : Forall P l :=
        match l with [] => Forall_nil P | x :: r => Forall_cons x (rose_ind' x) (go r) end) cs)
    end.
End RoseInd.

Lemma rsize_pos t : 0 < rsize t.
Proof. destruct t; cbn; lia. Qed.

Lemma layout_length t : forall p i, List.length (layout p i t) = rsize t.
Proof.
  induction t as [ty toks | ty cs IH] using rose_ind'; intros p i; [reflexivity|].
  rewrite layout_branch, rsize_branch; cbn [List.length]; f_equal.
  generalize (S i) as j. generalize (Some i) as q.
  induction IH as [|x r Hx _ IHr]; intros q j; [reflexivity|].
  cbn; rewrite app_length, Hx, IHr; reflexivity.
Qed.

Lemma layouts_length l : forall p j, List.length (layouts p j l) = rsizes l.
Proof.
  induction l as [|x r IH]; intros p j; [reflexivity|]. cbn; rewrite app_length, layout_length, IH; reflexivity.
Qed.

Lemma rsizes_app a b : rsizes (a ++ b) = rsizes a + rsizes b.
Proof. induction a as [|x a IH]; cbn; lia. Qed.

Lemma idxs_app a b : forall i, idxs i (a ++ b) = idxs i a ++ idxs (i + rsizes a) b.
Proof.
  induction a as [|x a IH]; intros i; cbn; [f_equal; lia|]. rewrite IH; do 3 f_equal; lia.
Qed.

Lemma layouts_app p a b : forall i, layouts p i (a ++ b) = layouts p i a ++ layouts p (i + rsizes a) b.
Proof.
  induction a as [|x a IH]; intros i; cbn; [f_equal; lia|]. rewrite IH, <- app_assoc; do 3 f_equal; lia.
Qed.

(** Context: frames from the innermost to the root; each frame is a container with its finished
    children; the focus is its last child. *)
Definition frame := (ntype * list rose)%type.

Fixpoint base (fs : list frame) : nat :=
  match fs with [] => 0 | (_, cs) :: r => S (base r + rsizes cs) end.

Definition par (fs : list frame) : option nat := match fs with [] => None | _ :: r => Some (base r) end.

Fixpoint ctx (fs : list frame) : list node :=
  match fs with
  | [] => []
  | (ty, cs) :: r =>
    ctx r ++ mk_node ty (par r) (Some (idxs (S (base r)) cs ++ [base fs])) None ::
    layouts (Some (base r)) (S (base r)) cs
  end.

Definition arena (fs : list frame) (t : rose) : list node := ctx fs ++ layout (par fs) (base fs) t.

Lemma ctx_length fs : List.length (ctx fs) = base fs.
Proof.
  induction fs as [|(ty, cs) r IH]; [reflexivity|]. cbn [ctx base]. rewrite app_length, IH. cbn.
  rewrite layouts_length; lia.
Qed.

(** Closing a frame does not change the arena. *)
Lemma arena_close ty cs fs t : arena ((ty, cs) :: fs) t = arena fs (Branch ty (cs ++ [t])).
Proof.
  unfold arena; cbn [ctx par]. rewrite layout_branch, <- app_assoc. f_equal. cbn [app]. f_equal.
  - rewrite idxs_app. cbn. reflexivity.
  - rewrite layouts_app. cbn. rewrite app_nil_r. reflexivity.
Qed.

Lemma arena_length fs t : List.length (arena fs t) = base fs + rsize t.
Proof. unfold arena; rewrite app_length, ctx_length, layout_length; reflexivity. Qed.

Definition head_node (p : option nat) (i : nat) (t : rose) : node :=
  match t with
  | Leaf ty toks => mk_node ty p None (Some toks)
  | Branch ty cs => mk_node ty p (Some (idxs (S i) cs)) None
  end.

Lemma arena_at fs t : nth_error (arena fs t) (base fs) = Some (head_node (par fs) (base fs) t).
Proof.
  unfold arena. rewrite nth_error_app2 by (rewrite ctx_length; lia).
  rewrite ctx_length, Nat.sub_diag. destruct t; reflexivity.
Qed.

Definition focused (s : pst) (fs : list frame) (t : rose) : Prop :=
  ps_nodes s = arena fs t /\ ps_current s = Some (base fs).

(** A new node of a type. *)
Definition fresh (ty : ntype) : rose := if allow_children ty then Branch ty [] else Leaf ty [].

(** Types that are containers have no tokens, and the other way round. *)
Lemma fresh_layout ty p i : allow_tokens ty = negb (allow_children ty) ->
  layout p i (fresh ty) = [mk_node ty p (if allow_children ty then Some [] else None)
                             (if allow_tokens ty then Some [] else None)].
Proof. intros ->; unfold fresh; destruct (allow_children ty); reflexivity. Qed.

Lemma kinds_disjoint ty : allow_tokens ty = negb (allow_children ty).
Proof. destruct ty; reflexivity. Qed.

Lemma lset_mid {A} (a b : list A) x y n : List.length a = n -> lset (a ++ x :: b) n y = a ++ y :: b.
Proof.
  intros <-. induction a as [|z a IH]; [reflexivity|]. cbn. f_equal; exact IH.
Qed.

Lemma insert_arena fs ty cs ty' :
  insert (arena fs (Branch ty cs)) (base fs) ty' =
  Ok (arena ((ty, cs) :: fs) (fresh ty'), base ((ty, cs) :: fs)).
Proof.
  unfold insert. rewrite arena_length, rsize_branch.
  unfold arena at 1 2. rewrite layout_branch, <- app_assoc. cbn [app].
  unfold node_at. rewrite nth_error_app2 by (rewrite ctx_length; lia).
  rewrite ctx_length, Nat.sub_diag. cbn [nth_error unwrap bind n_children n_type n_parent n_tokens].
  rewrite lset_mid by apply ctx_length.
  unfold arena; cbn [ctx par base]. rewrite (fresh_layout ty') by apply kinds_disjoint.
  replace (base fs + S (rsizes cs)) with (S (base fs + rsizes cs)) by lia.
  rewrite <- app_assoc. cbn [app]. reflexivity.
Qed.

Lemma move_branch s fs ty cs : focused s fs (Branch ty cs) -> allow_children ty = true ->
  move_to_container s = Ok s.
Proof.
  intros (Hn & Hc) Ha. unfold move_to_container, current_of, node_at. rewrite Hc, Hn.
  cbn [unwrap bind]. rewrite arena_at. cbn. rewrite Ha. reflexivity.
Qed.

Lemma move_leaf s f fs ty toks : focused s (f :: fs) (Leaf ty toks) -> allow_children ty = false ->
  move_to_container s = Ok (set_current s (Some (base fs))).
Proof.
  intros (Hn & Hc) Ha. unfold move_to_container, current_of, node_at. rewrite Hc, Hn.
  cbn [unwrap bind]. rewrite arena_at. cbn. rewrite Ha. reflexivity.
Qed.

(** After leaving a leaf the focus is the container. *)
Lemma focused_up s ty cs fs t : focused s ((ty, cs) :: fs) t ->
  focused (set_current s (Some (base fs))) fs (Branch ty (cs ++ [t])).
Proof. intros (Hn & Hc); split; cbn; [rewrite Hn; apply arena_close | reflexivity]. Qed.

Lemma create_branch s fs ty cs ty' : focused s fs (Branch ty cs) -> allow_children ty = true ->
  create_node s ty' = Ok (set_current (set_nodes s (arena ((ty, cs) :: fs) (fresh ty'))) (Some (base ((ty, cs) :: fs)))).
Proof.
  intros H Ha. unfold create_node. rewrite (move_branch _ _ _ _ H Ha). cbn [bind].
  destruct H as (Hn & Hc). unfold current_of. rewrite Hc, Hn. cbn [unwrap bind].
  rewrite insert_arena. reflexivity.
Qed.

Lemma create_leaf s fs ty cs tyl toks ty' : focused s ((ty, cs) :: fs) (Leaf tyl toks) ->
  allow_children tyl = false ->
  create_node s ty' = Ok (set_current (set_nodes s (arena ((ty, cs ++ [Leaf tyl toks]) :: fs) (fresh ty')))
                            (Some (base ((ty, cs ++ [Leaf tyl toks]) :: fs)))).
Proof.
  intros H Ha. unfold create_node. rewrite (move_leaf _ _ _ _ _ H Ha). cbn [bind].
  destruct (focused_up _ _ _ _ _ H) as (Hn & Hc). unfold current_of. rewrite Hc, Hn. cbn [unwrap bind].
  rewrite insert_arena. reflexivity.
Qed.

Lemma push_leaf s fs ty toks tok : ps_nodes s = arena fs (Leaf ty toks) ->
  push_node_token s (base fs) tok = Ok (set_nodes s (arena fs (Leaf ty (toks ++ [tok])))).
Proof.
  intros Hn. unfold push_node_token, node_at. rewrite Hn, arena_at. cbn [head_node bind unwrap n_tokens].
  unfold arena. cbn [layout]. rewrite lset_mid by apply ctx_length. reflexivity.
Qed.

(** The [set_*] functions commute; states are compared by their fields. *)
Lemma pst_eta s : s = mk_pst (ps_tokens s) (ps_lengths s) (ps_grammar s) (ps_nodes s) (ps_current s)
                       (ps_state s) (ps_nested s) (ps_named s) (ps_patterns s).
Proof. destruct s; reflexivity. Qed.

(** The whole state given by its non-arena part and the focus. *)
Definition at_focus (s : pst) (fs : list frame) (t : rose) : pst :=
  set_current (set_nodes s (arena fs t)) (Some (base fs)).

Lemma focused_at s fs t : focused s fs t -> s = at_focus s fs t.
Proof. intros (Hn & Hc). rewrite (pst_eta s) at 1. rewrite Hn, Hc. reflexivity. Qed.

Lemma at_focused s fs t : focused (at_focus s fs t) fs t.
Proof. split; reflexivity. Qed.

Lemma at_at s fs t fs' t' : at_focus (at_focus s fs t) fs' t' = at_focus s fs' t'.
Proof. reflexivity. Qed.

Lemma at_close s ty cs fs t :
  set_current (at_focus s ((ty, cs) :: fs) t) (Some (base fs)) = at_focus s fs (Branch ty (cs ++ [t])).
Proof.
  unfold at_focus, set_current, set_nodes.
  cbn [ps_tokens ps_lengths ps_grammar ps_nodes ps_current ps_state ps_nested ps_named ps_patterns].
  rewrite arena_close. reflexivity.
Qed.

(** Equations for the tree operations on [at_focus]. *)
Lemma E_move_branch s fs ty cs : allow_children ty = true ->
  move_to_container (at_focus s fs (Branch ty cs)) = Ok (at_focus s fs (Branch ty cs)).
Proof. intros H; exact (move_branch _ _ _ _ (at_focused s fs (Branch ty cs)) H). Qed.

Lemma E_move_leaf s ty cs fs tyl toks : allow_children tyl = false ->
  move_to_container (at_focus s ((ty, cs) :: fs) (Leaf tyl toks)) =
  Ok (at_focus s fs (Branch ty (cs ++ [Leaf tyl toks]))).
Proof. intros H; rewrite (move_leaf _ _ _ _ _ (at_focused _ _ _) H), at_close; reflexivity. Qed.

Lemma E_create_branch s fs ty cs ty' : allow_children ty = true ->
  create_node (at_focus s fs (Branch ty cs)) ty' = Ok (at_focus s ((ty, cs) :: fs) (fresh ty')).
Proof. intros H; rewrite (create_branch _ _ _ _ ty' (at_focused _ _ _) H); reflexivity. Qed.

Lemma E_create_leaf s fs ty cs tyl toks ty' : allow_children tyl = false ->
  create_node (at_focus s ((ty, cs) :: fs) (Leaf tyl toks)) ty' =
  Ok (at_focus s ((ty, cs ++ [Leaf tyl toks]) :: fs) (fresh ty')).
Proof. intros H; rewrite (create_leaf _ _ _ _ _ _ ty' (at_focused _ _ _) H); reflexivity. Qed.

Lemma E_create_tok_branch s fs ty cs ty' tok : allow_children ty = true -> allow_children ty' = false ->
  create_node_add_token (at_focus s fs (Branch ty cs)) ty' tok =
  Ok (at_focus s ((ty, cs) :: fs) (Leaf ty' [tok])).
Proof.
  intros H H'. unfold create_node_add_token. rewrite E_create_branch by exact H.
  cbn [bind current_of]. unfold current_of; cbn [ps_current at_focus set_current unwrap bind].
  unfold fresh; rewrite H'. rewrite (push_leaf _ ((ty, cs) :: fs) ty' []) by reflexivity. reflexivity.
Qed.

Lemma E_create_tok_leaf s fs ty cs tyl toks ty' tok : allow_children tyl = false -> allow_children ty' = false ->
  create_node_add_token (at_focus s ((ty, cs) :: fs) (Leaf tyl toks)) ty' tok =
  Ok (at_focus s ((ty, cs ++ [Leaf tyl toks]) :: fs) (Leaf ty' [tok])).
Proof.
  intros H H'. unfold create_node_add_token. rewrite E_create_leaf by exact H.
  unfold current_of; cbn [ps_current at_focus set_current unwrap bind].
  unfold fresh; rewrite H'. rewrite (push_leaf _ ((ty, cs ++ [Leaf tyl toks]) :: fs) ty' []) by reflexivity.
  reflexivity.
Qed.

Lemma E_add_same s fs ty toks tok :
  add_token (at_focus s fs (Leaf ty toks)) ty tok = Ok (at_focus s fs (Leaf ty (toks ++ [tok]))).
Proof.
  unfold add_token, current_of; cbn [ps_current at_focus set_current unwrap bind ps_nodes set_nodes].
  unfold node_at. rewrite arena_at. cbn [unwrap bind head_node n_type].
  replace (ntype_eqb ty ty) with true by (destruct ty; reflexivity).
  rewrite (push_leaf _ fs ty toks) by reflexivity. reflexivity.
Qed.

Lemma E_add_branch s fs ty cs ty' tok : allow_children ty = true -> allow_children ty' = false ->
  add_token (at_focus s fs (Branch ty cs)) ty' tok = Ok (at_focus s ((ty, cs) :: fs) (Leaf ty' [tok])).
Proof.
  intros H H'. unfold add_token, current_of.
  cbn [ps_current at_focus set_current unwrap bind ps_nodes set_nodes].
  unfold node_at. rewrite arena_at. cbn [unwrap bind head_node n_type].
  replace (ntype_eqb ty ty') with false by (destruct ty, ty'; try reflexivity; discriminate).
  apply E_create_tok_branch; assumption.
Qed.

Lemma E_add_leaf s fs ty cs tyl toks ty' tok : allow_children tyl = false -> allow_children ty' = false ->
  ntype_eqb tyl ty' = false ->
  add_token (at_focus s ((ty, cs) :: fs) (Leaf tyl toks)) ty' tok =
  Ok (at_focus s ((ty, cs ++ [Leaf tyl toks]) :: fs) (Leaf ty' [tok])).
Proof.
  intros H H' Hd. unfold add_token, current_of.
  cbn [ps_current at_focus set_current unwrap bind ps_nodes set_nodes].
  unfold node_at. rewrite arena_at. cbn [unwrap bind head_node n_type]. rewrite Hd.
  apply E_create_tok_leaf; assumption.
Qed.

(** Ending a nested state closes the focus. *)
Lemma E_end s ty cs fs t x r : ps_nested s = x :: r ->
  end_nested_state (at_focus s ((ty, cs) :: fs) t) =
  Ok (at_focus (set_nested (set_state s x) r) fs (Branch ty (cs ++ [t]))).
Proof.
  intros Hn. unfold end_nested_state. cbn [ps_nested at_focus set_current set_nodes]. rewrite Hn.
  unfold current_of; cbn [ps_current set_nested set_state at_focus set_current unwrap bind ps_nodes set_nodes].
  unfold node_at. rewrite arena_at. cbn [unwrap bind].
  replace (n_parent (head_node (par ((ty, cs) :: fs)) (base ((ty, cs) :: fs)) t)) with (Some (base fs))
    by (destruct t; reflexivity).
  rewrite <- at_close. reflexivity.
Qed.

Lemma E_children s fs ty cs : children_at (ps_nodes (at_focus s fs (Branch ty cs))) (base fs) = Ok (idxs (S (base fs)) cs).
Proof. unfold children_at, node_at. cbn [ps_nodes at_focus set_current set_nodes]. rewrite arena_at. reflexivity. Qed.

Lemma E_children_leaf s fs ty toks : children_at (ps_nodes (at_focus s fs (Leaf ty toks))) (base fs) = Panic.
Proof. unfold children_at, node_at. cbn [ps_nodes at_focus set_current set_nodes]. rewrite arena_at. reflexivity. Qed.

Lemma idxs_length i l : List.length (idxs i l) = List.length l.
Proof. revert i; induction l as [|x l IH]; intros i; cbn; [reflexivity | rewrite IH; reflexivity]. Qed.
