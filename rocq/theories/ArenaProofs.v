(** Size of syntax trees: an invariant of the machine of [TreeMachine], and the layout of the nodes. *)
From Verif Require Import Base BaseFacts LexerModel TreeModel TreeArena TreeMachine TreeGrammar TreeRefine3 ArenaSpec.
From Coq Require Import Sorted.

(** ** Tokens and levels of a layout *)
Fixpoint rtoks (t : rose) : list nat :=
  match t with
  | Leaf _ toks => toks
  | Branch _ cs => (fix go l := match l with [] => [] | x :: r => rtoks x ++ go r end) cs
  end.
Fixpoint rheight (t : rose) : nat :=
  match t with
  | Leaf _ _ => 0
  | Branch _ cs => (fix go l := match l with [] => 0 | x :: r => Nat.max (S (rheight x)) (go r) end) cs
  end.
Lemma rtoks_branch ty cs : rtoks (Branch ty cs) = flat_map rtoks cs.
Proof. cbn. induction cs as [|x r IH]; [reflexivity|]. cbn. now rewrite IH. Qed.
Lemma rheight_branch ty cs h : Forall (fun x => S (rheight x) <= h) cs -> rheight (Branch ty cs) <= h.
Proof. cbn [rheight]. induction 1 as [|x r Hx _ IH]; [lia|]. apply Nat.max_lub; [exact Hx|exact IH]. Qed.
Lemma rheight_child ty cs x : In x cs -> S (rheight x) <= rheight (Branch ty cs).
Proof.
  cbn [rheight]. induction cs as [|y r IH]; intros H; [destruct H|]. destruct H as [->|H]; [apply Nat.le_max_l|].
  etransitivity; [exact (IH H)|apply Nat.le_max_r].
Qed.

Definition ntoks (n : node) : list nat := match n_tokens n with Some l => l | None => [] end.
Lemma layout_toks t : forall p i, flat_map ntoks (layout p i t) = rtoks t.
Proof.
  induction t as [ty toks | ty cs IH] using rose_ind'; intros p i.
  - cbn. apply app_nil_r.
  - rewrite layout_branch, rtoks_branch. cbn [flat_map ntoks n_tokens app]. generalize (S i) as j. generalize (Some i) as q.
    induction IH as [|x r Hx _ IHr]; intros q j; [reflexivity|]. cbn. rewrite flat_map_app, Hx, IHr. reflexivity.
Qed.

Lemma layout_level nodes t : forall p i k pre post, nodes = pre ++ layout p i t ++ post -> List.length pre = i -> level nodes i k ->
  forall j, i <= j < i + rsize t -> exists k', k' <= k + rheight t /\ level nodes j k'.
Proof.
  induction t as [ty toks | ty cs IH] using rose_ind'; intros p i k pre post E Hi Hk j Hj.
  - cbn in Hj. assert (j = i) as -> by lia. exists k. split; [lia|exact Hk].
  - rewrite rsize_branch in Hj. destruct (Nat.eq_dec j i) as [->|Hne]; [exists k; split; [lia|exact Hk]|].
    rewrite layout_branch in E. cbn [app] in E.
    assert (G : forall l j0 pre0 post0, (forall x, In x l -> In x cs) -> Forall (fun t => forall p i k pre post, nodes = pre ++ layout p i t ++ post ->
        List.length pre = i -> level nodes i k -> forall j, i <= j < i + rsize t -> exists k', k' <= k + rheight t /\ level nodes j k') l ->
      nodes = pre0 ++ layouts (Some i) j0 l ++ post0 -> List.length pre0 = j0 -> j0 <= j < j0 + rsizes l ->
      exists k', k' <= k + rheight (Branch ty cs) /\ level nodes j k').
    { induction l as [|x r IHr]; intros j0 pre0 post0 Hin Hf E0 Hp Hj0; [cbn in Hj0; lia|]. cbn [layouts rsizes] in *. inversion Hf as [|? ? Hx Hr]; subst x0 l.
      destruct (Nat.lt_ge_cases j (j0 + rsize x)) as [Hlt|Hge].
      - assert (Hlev : level nodes j0 (S k)).
        { destruct (layout (Some i) j0 x) as [|n rest] eqn:El; [destruct x; discriminate El|].
          apply (lv_child nodes j0 n i k).
          - rewrite E0, nth_error_app2 by lia. rewrite Hp, Nat.sub_diag. reflexivity.
          - destruct x; cbn in El; injection El as <- _; reflexivity.
          - exact Hk. }
        rewrite <- app_assoc in E0.
        destruct (Hx (Some i) j0 (S k) pre0 (layouts (Some i) (j0 + rsize x) r ++ post0) E0 Hp Hlev j) as (k' & Hk' & Hl'); [lia|].
        exists k'. split; [|exact Hl']. pose proof (rheight_child ty cs x (Hin x (or_introl eq_refl))). lia.
      - apply (IHr (j0 + rsize x) (pre0 ++ layout (Some i) j0 x) post0).
        + intros y Hy. apply Hin. now right.
        + exact Hr.
        + rewrite E0. now rewrite <- !app_assoc.
        + rewrite app_length, layout_length. lia.
        + lia. }
    apply (G cs (S i) (pre ++ [mk_node ty p (Some (idxs (S i) cs)) None]) post); [auto|exact IH| | |lia].
    + rewrite E. now rewrite <- app_assoc.
    + rewrite app_length. cbn. lia.
Qed.

(** ** The machine *)
Definition item_toks (x : item) : list nat := rtoks (item_tree x).
Definition items_toks (l : list item) : list nat := flat_map item_toks l.
Definition named_toks (x : named) : list nat := fst x :: items_toks (snd x).
Definition item_size (x : item) : nat := rsize (item_tree x).
Definition items_size (l : list item) : nat := list_sum (map item_size l).
Definition named_size (x : named) : nat := 3 + items_size (snd x).
Definition nameds_size (l : list named) : nat := list_sum (map named_size l).

Definition ctx_toks (c : actx) : list nat :=
  match c with CMain => [] | CSub main rn id => items_toks main ++ flat_map named_toks (rev rn) ++ [id] end.
Definition ctx_size (c : actx) : nat :=
  match c with CMain => 2 | CSub main rn id => 6 + items_size main + nameds_size rn end.
Definition sels_toks (l : list (nat * nat)) : list nat := flat_map (fun x => [fst x; snd x]) l.
Definition param_tok (p : cparam) : nat := match p with CId t | CHash t => t end.

Definition held (s : astate) : list nat :=
  match s with
  | AText c ri | AEsc c ri | AOpen c ri => ctx_toks c ++ items_toks (rev ri)
  | APat c ri id => ctx_toks c ++ items_toks (rev ri) ++ [id]
  | AKey c ri id kw rs => ctx_toks c ++ items_toks (rev ri) ++ [id; kw] ++ sels_toks (rev rs)
  | ASel1 c ri id kw rs a | ASel2 c ri id kw rs a => ctx_toks c ++ items_toks (rev ri) ++ [id; kw] ++ sels_toks (rev rs) ++ [a]
  | ACmd c ri rp => ctx_toks c ++ items_toks (rev ri) ++ map param_tok (rev rp)
  | AGroup main rn | AName0 main rn => items_toks main ++ flat_map named_toks (rev rn)
  | ANameId main rn id _ | AName1 main rn id => items_toks main ++ flat_map named_toks (rev rn) ++ [id]
  | _ => []
  end.
(** Nodes made so far, those of the pattern being read included. *)
Definition made_nodes (s : astate) : nat :=
  match s with
  | AText c ri => ctx_size c + items_size ri
  | AEsc c ri | AOpen c ri => 1 + ctx_size c + items_size ri
  | APat c ri _ => 2 + ctx_size c + items_size ri
  | AKey c ri _ _ rs => 3 + 3 * List.length rs + ctx_size c + items_size ri
  | ASel1 c ri _ _ rs _ => 4 + 3 * List.length rs + ctx_size c + items_size ri
  | ASel2 c ri _ _ rs _ => 5 + 3 * List.length rs + ctx_size c + items_size ri
  | ACmd c ri rp => 1 + List.length rp + ctx_size c + items_size ri
  | AGroup main rn => 3 + items_size main + nameds_size rn
  | AName0 main rn => 4 + items_size main + nameds_size rn
  | ANameId main rn _ _ => 5 + items_size main + nameds_size rn
  | AName1 main rn _ => 6 + items_size main + nameds_size rn
  | _ => 0
  end.
Definition dead (s : astate) : bool :=
  match s with ACmdEsc | ALit | ALitEsc | ADeadOpen _ | ADeadEsc | ADead => true | _ => false end.
Definition needed (ts : list token) (l : list nat) : Prop := forall j t, nth_error ts j = Some t -> meaningful t -> In j l.

Record ainv (s : astate) (ts : list token) : Prop := {
  ai_size : made_nodes s <= List.length ts + 2;
  ai_sorted : StronglySorted lt (held s ++ [List.length ts]);
  ai_needed : needed ts (held s)
}.
Definition live (s : astate) (ts : list token) : Prop := dead s = true \/ ainv s ts.

Lemma sorted_snoc l i : StronglySorted lt (l ++ [i]) <-> StronglySorted lt l /\ Forall (fun j => j < i) l.
Proof.
  induction l as [|x l IH]; cbn [app].
  - split; [intros _; split; constructor|intros _; repeat constructor].
  - split.
    + intros H. inversion H as [|? ? Hs Hf]; subst. apply IH in Hs as (Hs & Hl). apply Forall_app in Hf as (Hf & Hx).
      inversion Hx; subst. split; constructor; assumption.
    + intros (H & Hf). inversion H as [|? ? Hs Hx]; subst. inversion Hf; subst. constructor; [apply IH; split; assumption|].
      apply Forall_app. split; [assumption|repeat constructor; assumption].
Qed.
Lemma sorted_up l i : StronglySorted lt (l ++ [i]) -> StronglySorted lt (l ++ [S i]).
Proof. rewrite !sorted_snoc. intros (H1 & H2). split; [exact H1|]. eapply Forall_impl; [|exact H2]. cbn. lia. Qed.
Lemma sorted_take l i : StronglySorted lt (l ++ [i]) -> StronglySorted lt ((l ++ [i]) ++ [S i]).
Proof.
  intros H. rewrite sorted_snoc. split; [exact H|]. apply sorted_snoc in H as (_ & H). apply Forall_app. split; [|repeat constructor].
  eapply Forall_impl; [|exact H]. cbn. lia.
Qed.

Lemma needed_skip ts t l : needed ts l -> ~ meaningful t -> needed (ts ++ [t]) l.
Proof.
  intros H Ht j t' Hj Hm. destruct (Nat.lt_ge_cases j (List.length ts)) as [Hlt|Hge].
  - rewrite nth_error_app1 in Hj by exact Hlt. eauto.
  - rewrite nth_error_app2 in Hj by exact Hge. destruct (j - List.length ts) as [|m]; [|destruct m; discriminate]. injection Hj as <-. contradiction.
Qed.
Lemma needed_take ts t l : needed ts l -> needed (ts ++ [t]) (l ++ [List.length ts]).
Proof.
  intros H j t' Hj Hm. apply in_or_app. destruct (Nat.lt_ge_cases j (List.length ts)) as [Hlt|Hge].
  - rewrite nth_error_app1 in Hj by exact Hlt. left. eauto.
  - right. assert (j < List.length (ts ++ [t])) by (apply nth_error_Some; congruence). rewrite app_length in H0. cbn in H0. left. lia.
Qed.

Lemma skip s s' ts t : ainv s ts -> ~ meaningful t -> held s' = held s -> made_nodes s' <= S (made_nodes s) -> ainv s' (ts ++ [t]).
Proof.
  intros [H1 H2 H3] Hm E Hn. split.
  - rewrite app_length. cbn. lia.
  - rewrite app_length. cbn. rewrite E, Nat.add_1_r. now apply sorted_up.
  - rewrite E. now apply needed_skip.
Qed.
Lemma take s s' ts t : ainv s ts -> held s' = held s ++ [List.length ts] -> made_nodes s' <= S (made_nodes s) -> ainv s' (ts ++ [t]).
Proof.
  intros [H1 H2 H3] E Hn. split.
  - rewrite app_length. cbn. lia.
  - rewrite app_length. cbn. rewrite E, Nat.add_1_r. now apply sorted_take.
  - rewrite E. now apply needed_take.
Qed.

Lemma items_toks_app a b : items_toks (a ++ b) = items_toks a ++ items_toks b.
Proof. apply flat_map_app. Qed.
Lemma sum_rev l : list_sum (rev l) = list_sum l.
Proof. induction l as [|x l IH]; [reflexivity|]. cbn [rev]. rewrite list_sum_app, IH. unfold list_sum. cbn [fold_right]. lia. Qed.
Lemma items_size_rev l : items_size (rev l) = items_size l.
Proof. unfold items_size. rewrite map_rev. apply sum_rev. Qed.
Lemma nameds_size_rev l : nameds_size (rev l) = nameds_size l.
Proof. unfold nameds_size. rewrite map_rev. apply sum_rev. Qed.
Lemma items_size_cons x l : items_size (x :: l) = item_size x + items_size l.
Proof. reflexivity. Qed.
Lemma nameds_size_cons x l : nameds_size (x :: l) = named_size x + nameds_size l.
Proof. reflexivity. Qed.
Lemma add_text_toks ri i : items_toks (rev (add_text ri i)) = items_toks (rev ri) ++ [i].
Proof.
  unfold add_text. destruct ri as [|[toks| | |] r]; cbn [rev]; rewrite ?items_toks_app; try reflexivity.
  cbn. now rewrite !app_nil_r, <- app_assoc.
Qed.
Lemma add_text_size ri i : items_size (add_text ri i) <= S (items_size ri).
Proof. unfold add_text. destruct ri as [|[toks| | |] r]; rewrite ?items_size_cons; cbn [item_size item_tree rsize]; lia. Qed.
Lemma sels_tree_toks l : flat_map rtoks (map sel_tree l) = sels_toks l.
Proof. induction l as [|x l IH]; [reflexivity|]. cbn. now rewrite IH. Qed.
Lemma sels_tree_size l : rsizes (map sel_tree l) = 3 * List.length l.
Proof. induction l as [|x l IH]; [reflexivity|]. cbn. rewrite IH. lia. Qed.
Lemma pars_tree_toks l : flat_map rtoks (map param_tree l) = map param_tok l.
Proof. induction l as [|x l IH]; [reflexivity|]. cbn. rewrite IH. now destruct x. Qed.
Lemma pars_tree_size l : rsizes (map param_tree l) = List.length l.
Proof. induction l as [|x l IH]; [reflexivity|]. cbn. rewrite IH. now destruct x. Qed.
Lemma pat_toks id kw sels : item_toks (IPat id (Some (kw, sels))) = id :: kw :: sels_toks sels.
Proof. unfold item_toks. cbn [item_tree]. rewrite rtoks_branch. cbn. now rewrite sels_tree_toks. Qed.
Lemma pat_size id kw sels : item_size (IPat id (Some (kw, sels))) = 3 + 3 * List.length sels.
Proof. unfold item_size. cbn [item_tree]. rewrite rsize_branch. cbn [rsizes ident rsize]. rewrite sels_tree_size. lia. Qed.
Lemma cmd_toks ps : item_toks (ICmd ps) = map param_tok ps.
Proof. unfold item_toks. cbn [item_tree]. now rewrite rtoks_branch, pars_tree_toks. Qed.
Lemma cmd_size ps : item_size (ICmd ps) = 1 + List.length ps.
Proof. unfold item_size. cbn [item_tree]. now rewrite rsize_branch, pars_tree_size. Qed.

Lemma type_eq t ty : is_type t ty = true -> t_type t = ty.
Proof. unfold is_type. destruct (t_type t), ty; cbn; congruence. Qed.
Lemma mean_gram t : is_type t TGrammar = true -> ~ meaningful t.
Proof. intros H%type_eq [[H1|H1] _]; congruence. Qed.
Lemma mean_white t : is_type t TWhiteSpace = true -> ~ meaningful t.
Proof. intros H%type_eq [[H1|H1] _]; congruence. Qed.
Lemma mean_hash t : is_str t s_hash = true -> ~ meaningful t.
Proof. intros H%is_str_eq [_ H1]. apply H1. exact H. Qed.
Lemma mean_rest t : is_type t TIdentifier = false -> is_type t TGrammar = false -> is_type t TSyntax = false -> ~ meaningful t.
Proof. unfold is_type. intros H1 H2 H3 [[H|H] _]; rewrite H in *; discriminate. Qed.
Lemma mean_close t x : gram t x = true -> ~ meaningful t.
Proof. intros H. apply andb_prop in H as (H & _). now apply mean_gram. Qed.

Lemma hash_size i : item_size (IHash i) = 1. Proof. reflexivity. Qed.
Lemma text_size l : item_size (IText l) = 1. Proof. reflexivity. Qed.
Lemma plain_size i : item_size (IPat i None) = 2. Proof. reflexivity. Qed.
Ltac sizes := cbn [am_state made_nodes ctx_size List.length]; rewrite ?items_size_rev, ?nameds_size_rev, ?items_size_cons, ?nameds_size_cons, ?pat_size, ?cmd_size, ?hash_size, ?text_size, ?plain_size, ?app_length, ?rev_length;
  unfold named_size; cbn [snd List.length]; rewrite ?items_size_rev;
  repeat match goal with |- context [items_size (add_text ?r ?i)] => let H := fresh in pose proof (add_text_size r i) as H; revert H; generalize (items_size (add_text r i)); intros end;
  try change (items_size []) with 0; try change (nameds_size []) with 0; lia.
Ltac toks := cbn [am_state held ctx_toks rev]; rewrite ?add_text_toks, ?items_toks_app, ?flat_map_app, ?map_app; cbn [flat_map map app items_toks];
  rewrite ?pat_toks, ?cmd_toks, ?map_app, ?app_nil_r, <- ?app_assoc; reflexivity.

Lemma astep_inv m t m' ts : live (am_state m) ts -> astep m (List.length ts) t = Ok m' -> live (am_state m') (ts ++ [t]).
Proof.
  intros [Hd|HI] E.
  - left. unfold astep in E. destruct (am_state m); try discriminate Hd; cbn in E; unfold bad in E;
      repeat match type of E with (if ?b then _ else _) = _ => destruct b end; try discriminate E; injection E as <-; reflexivity.
  - unfold astep, bad in E. destruct (am_state m) as [c ri|c ri|c ri|c ri id|c ri id kw rs|c ri id kw rs a|c ri id kw rs a|c ri rp| | | |main rn|main rn|main rn id t0|main rn id|t0| |] eqn:Es.
    + destruct (is_type t TGrammar) eqn:Eg.
      * pose proof (mean_gram _ Eg) as Hm. destruct (is_str t s_back); [injection E as <-; right; refine (skip _ _ _ _ HI Hm _ _); [toks|sizes]|].
        destruct (is_str t s_open); [injection E as <-; right; refine (skip _ _ _ _ HI Hm _ _); [toks|sizes]|].
        destruct (is_str t s_hash).
        -- destruct c as [|main rn id]; [injection E as <-; right; refine (skip _ _ _ _ HI Hm _ _); [toks|sizes]|].
           destruct ri as [|[]]; try discriminate E; injection E as <-; right; refine (take _ _ _ _ HI _ _); try (toks; fail); sizes.
        -- destruct c as [|main rn id]; [discriminate E|]. destruct (is_str t s_close); [|discriminate E]. injection E as <-. right.
           refine (skip _ _ _ _ HI Hm _ _); [toks|sizes].
      * injection E as <-. right. refine (take _ _ _ _ HI _ _); [toks|sizes].
    + injection E as <-. right. refine (take _ _ _ _ HI _ _); [toks|sizes].
    + destruct (is_type t TIdentifier).
      * destruct (umem _ _); [discriminate E|]. injection E as <-. right. refine (take _ _ _ _ HI _ _); [toks|sizes].
      * destruct (is_type t TGrammar) eqn:Eg; [|discriminate E]. pose proof (mean_gram _ Eg) as Hm.
        destruct (is_str t s_back); [injection E as <-; now left|]. destruct (is_str t s_hash); [|discriminate E].
        injection E as <-. right. refine (skip _ _ _ _ HI Hm _ _); [toks|sizes].
    + destruct (is_type t TIdentifier); [injection E as <-; right; refine (take _ _ _ _ HI _ _); [toks|sizes]|].
      destruct (is_type t TWhiteSpace) eqn:Ew; [injection E as <-; right; refine (skip _ _ _ _ HI (mean_white _ Ew) _ _); [toks|sizes]|].
      destruct (gram t s_close) eqn:Eg; [|discriminate E]. injection E as <-. right. refine (skip _ _ _ _ HI (mean_close _ _ Eg) _ _); [toks|sizes].
    + destruct (is_type t TIdentifier); [injection E as <-; right; refine (take _ _ _ _ HI _ _); [toks|sizes]|].
      destruct (is_type t TWhiteSpace) eqn:Ew; [injection E as <-; right; refine (skip _ _ _ _ HI (mean_white _ Ew) _ _); [toks|sizes]|].
      destruct (is_type t TGrammar) eqn:Eg; [|discriminate E]. pose proof (mean_gram _ Eg) as Hm.
      destruct (is_str t s_close); injection E as <-; right; refine (skip _ _ _ _ HI Hm _ _); solve [toks|sizes].
    + destruct (is_str t s_hash) eqn:Eh; [|discriminate E]. injection E as <-. right. refine (skip _ _ _ _ HI (mean_hash _ Eh) _ _); [toks|sizes].
    + destruct (is_type t TIdentifier); [|discriminate E]. injection E as <-. right. refine (take _ _ _ _ HI _ _); [|sizes].
      cbn [am_state held rev]. unfold sels_toks. rewrite flat_map_app. cbn [flat_map fst snd app]. rewrite <- !app_assoc. cbn [app]. now rewrite <- !app_assoc.
    + destruct (is_type t TIdentifier); [injection E as <-; right; refine (take _ _ _ _ HI _ _); [toks|sizes]|].
      destruct (is_type t TGrammar) eqn:Eg.
      * pose proof (mean_gram _ Eg) as Hm. destruct (is_str t s_back); [injection E as <-; now left|].
        destruct (is_str t s_close).
        -- destruct rp as [|[x|x] rp]; try discriminate E. injection E as <-. right. refine (skip _ _ _ _ HI Hm _ _); [toks|sizes].
        -- destruct (is_str t s_hash); [|discriminate E]. destruct rp as [|[x|x] [|y rp]]; try discriminate E. injection E as <-. right.
           refine (take _ _ _ _ HI _ _); [toks|sizes].
      * destruct (is_type t TWhiteSpace) eqn:Ew; [|discriminate E]. injection E as <-. right. refine (skip _ _ _ _ HI (mean_white _ Ew) _ _); [toks|sizes].
    + injection E as <-. now left.
    + destruct (gram t s_back); injection E as <-; now left.
    + injection E as <-. now left.
    + destruct (is_type t TGrammar) eqn:Eg.
      * destruct (is_str t s_open); [|discriminate E]. injection E as <-. right. refine (skip _ _ _ _ HI (mean_gram _ Eg) _ _); [toks|sizes].
      * destruct (is_type t TWhiteSpace) eqn:Ew; [|discriminate E]. injection E as <-. right. refine (skip _ _ _ _ HI (mean_white _ Ew) _ _); [toks|sizes].
    + destruct (is_type t TIdentifier); [|discriminate E]. destruct (umem _ _); [discriminate E|]. injection E as <-. right. refine (take _ _ _ _ HI _ _); [toks|sizes].
    + destruct (is_type t TWhiteSpace) eqn:Ew; [|discriminate E]. injection E as <-. right. refine (skip _ _ _ _ HI (mean_white _ Ew) _ _); [toks|sizes].
    + destruct (is_type t TIdentifier) eqn:Ei; [injection E as <-; right; refine (take _ _ _ _ HI _ _); [toks|sizes]|].
      destruct (is_type t TGrammar) eqn:Eg.
      * destruct (is_str t s_hash); [injection E as <-; right; refine (take _ _ _ _ HI _ _); [toks|sizes]|].
        destruct (is_str t s_open); [injection E as <-; now left|]. destruct (is_str t s_back); [injection E as <-; now left|discriminate E].
      * destruct (is_type t TSyntax) eqn:Ey; [injection E as <-; now left|]. injection E as <-. right.
        refine (skip _ _ _ _ HI (mean_rest _ Ei Eg Ey) _ _); [toks|sizes].
    + discriminate E.
    + injection E as <-. now left.
    + destruct (_ && _); discriminate E.
Qed.

Lemma arun_inv ts : forall m m' done, live (am_state m) done -> arun m (List.length done) ts = Ok m' -> live (am_state m') (done ++ ts).
Proof.
  induction ts as [|t ts IH]; intros m m' done HI E; cbn [arun] in E.
  - injection E as <-. now rewrite app_nil_r.
  - destruct (astep m (List.length done) t) as [m1|e| |] eqn:E1; try discriminate E. cbn [bind] in E.
    change (t :: ts) with ([t] ++ ts). rewrite app_assoc. apply (IH m1); [apply (astep_inv m); assumption|].
    rewrite app_length. cbn. now rewrite Nat.add_1_r.
Qed.

Lemma init_live : live (am_state am_init) [].
Proof. right. split; [cbn; lia|cbn; repeat constructor|]. intros j t Hj. destruct j; discriminate Hj. Qed.

(** ** The tree of the machine *)
Lemma string_toks l : rtoks (string_tree l) = items_toks l.
Proof. unfold string_tree, trees. rewrite rtoks_branch. unfold items_toks, item_toks. induction l as [|x l IH]; [reflexivity|]. cbn. now rewrite IH. Qed.
Lemma string_size l : rsize (string_tree l) = 1 + items_size l.
Proof. unfold string_tree, trees. rewrite rsize_branch. change (1 + items_size l) with (S (items_size l)). f_equal. induction l as [|x l IH]; [reflexivity|]. cbn [map rsizes]. now rewrite IH. Qed.
Lemma nameds_toks l : flat_map rtoks (map named_tree l) = flat_map named_toks l.
Proof.
  induction l as [|x l IH]; [reflexivity|]. cbn [map flat_map]. rewrite IH. f_equal. unfold named_tree. rewrite rtoks_branch.
  cbn [flat_map]. rewrite string_toks, app_nil_r. reflexivity.
Qed.
Lemma nameds_tree_size l : rsizes (map named_tree l) = nameds_size l.
Proof.
  induction l as [|x l IH]; [reflexivity|]. cbn [map rsizes]. rewrite IH, nameds_size_cons. f_equal. unfold named_tree. rewrite rsize_branch.
  cbn [rsizes]. rewrite string_size. unfold named_size. cbn. lia.
Qed.

Lemma aparse_small ts a : aparse ts = Ok a ->
  rsize (ast_tree a) <= List.length ts + 2 /\ StronglySorted lt (rtoks (ast_tree a) ++ [List.length ts]) /\ needed ts (rtoks (ast_tree a)).
Proof.
  unfold aparse. destruct (arun am_init 0 ts) as [m|e| |] eqn:E; cbn [bind]; try discriminate. intros Hf.
  pose proof (arun_inv ts am_init m [] init_live E) as HI. cbn [app] in HI. unfold afinish in Hf.
  destruct (am_state m) as [c ri| | | | | | | | | | |main rn| | | | | |]; try discriminate Hf.
  - destruct c; [|discriminate Hf]. injection Hf as <-. destruct HI as [HI|[H1 H2 H3]]; [discriminate HI|]. cbn [held ctx_toks app] in H2, H3.
    unfold ast_tree. cbn [fst snd]. rewrite rtoks_branch, rsize_branch. cbn [flat_map rsizes]. rewrite string_toks, string_size, app_nil_r, items_size_rev.
    split; [cbn in H1; lia|]. split; assumption.
  - injection Hf as <-. destruct HI as [HI|[H1 H2 H3]]; [discriminate HI|]. cbn [held] in H2, H3.
    unfold ast_tree. cbn [fst snd]. rewrite rtoks_branch, rsize_branch. cbn [flat_map rsizes]. rewrite rtoks_branch, rsize_branch, string_toks, string_size, app_nil_r, nameds_toks, nameds_tree_size, nameds_size_rev.
    split; [cbn in H1; lia|]. split; assumption.
Qed.

Lemma item_height x : rheight (item_tree x) <= 2.
Proof.
  destruct x as [toks|tok|id [[kw sels]|]|ps]; cbn [item_tree].
  - cbn; lia.
  - cbn; lia.
  - apply rheight_branch. constructor; [cbn; lia|]. constructor; [cbn; lia|]. apply Forall_forall. intros y Hy. apply in_map_iff in Hy as (s & <- & _). cbn. lia.
  - cbn; lia.
  - etransitivity; [apply (rheight_branch _ _ 1)|lia]. apply Forall_forall. intros y Hy. apply in_map_iff in Hy as (s & <- & _). destruct s; cbn; lia.
Qed.
Lemma string_height l : rheight (string_tree l) <= 3.
Proof. apply rheight_branch. apply Forall_forall. intros y Hy. apply in_map_iff in Hy as (x & <- & _). pose proof (item_height x). lia. Qed.
Lemma ast_height a : rheight (ast_tree a) <= 6.
Proof.
  apply rheight_branch. constructor; [pose proof (string_height (fst a)); lia|]. destruct (snd a) as [l|]; constructor; [|constructor].
  apply le_n_S. apply rheight_branch. apply Forall_forall. intros y Hy. apply in_map_iff in Hy as (x & <- & _).
  apply le_n_S. apply rheight_branch. constructor; [cbn; lia|]. constructor; [|constructor]. pose proof (string_height (snd x)). lia.
Qed.

Theorem parse_small ts tr : parse_tokens ts = Ok tr -> small_tree tr.
Proof.
  rewrite parse_refines. destruct (aparse ts) as [a|e| |] eqn:E; cbn; try discriminate. intros H; injection H as <-.
  destruct (aparse_small _ _ E) as (H1 & H2 & H3). apply sorted_snoc in H2 as (H2 & H4).
  assert (Hu : used_tokens (tree_of ts a) = rtoks (ast_tree a)) by apply layout_toks.
  split; rewrite ?Hu; cbn [tr_nodes tr_tokens tree_of].
  - rewrite arena_length. exact H1.
  - intros i Hi. rewrite arena_length in Hi.
    destruct (layout_level (arena [] (ast_tree a)) (ast_tree a) None 0 0 [] []) with (j := i) as (k & Hk & Hl).
    + now rewrite app_nil_r.
    + reflexivity.
    + constructor.
    + cbn in *. lia.
    + exists k. split; [|exact Hl]. pose proof (ast_height a). lia.
  - exact H2.
  - intros j Hj. rewrite Forall_forall in H4. exact (H4 j Hj).
  - exact H3.
Qed.
