(** What the arena of an accepted string denotes, and its well-formedness. *)
From Verif Require Import Base BaseFacts LexerModel LexerSpec TreeModel TreeSpec TreeArena TreeMachine TreeRefine TreeRefine3
  TreeGrammar TreeGrammar2.

Lemma layouts_split cs1 x cs2 p j :
  layouts p j (cs1 ++ x :: cs2) = layouts p j cs1 ++ layout p (j + rsizes cs1) x ++ layouts p (j + rsizes cs1 + rsize x) cs2.
Proof. rewrite layouts_app. reflexivity. Qed.

(** Subtrees of an arena. *)
Definition sub_at (A : list node) (p : option nat) (i : nat) (t : rose) : Prop :=
  exists pre post, A = pre ++ layout p i t ++ post /\ List.length pre = i.

Lemma sub_head A p i t : sub_at A p i t -> nth_error A i = Some (head_node p i t).
Proof.
  intros (pre & post & -> & Hl). rewrite nth_error_app2 by lia. rewrite Hl, Nat.sub_diag. destruct t; reflexivity.
Qed.

Lemma sub_children_gen p0 post i pre0 : forall cs2 cs1 A,
  A = pre0 ++ layouts p0 i (cs1 ++ cs2) ++ post -> List.length pre0 = i ->
  Forall2 (fun c x => sub_at A p0 c x) (idxs (i + rsizes cs1) cs2) cs2.
Proof.
  induction cs2 as [|x cs2 IH]; intros cs1 A HA Hl; cbn [idxs]; constructor.
  - exists (pre0 ++ layouts p0 i cs1), (layouts p0 (i + rsizes cs1 + rsize x) cs2 ++ post). split.
    + rewrite HA, layouts_split, <- !app_assoc. reflexivity.
    + rewrite app_length, layouts_length. lia.
  - replace (i + rsizes cs1 + rsize x) with (i + rsizes (cs1 ++ [x])) by (rewrite rsizes_app; cbn; lia).
    apply IH; [rewrite HA, <- app_assoc; reflexivity | exact Hl].
Qed.

Lemma sub_children A p i ty cs : sub_at A p i (Branch ty cs) ->
  Forall2 (fun c x => sub_at A (Some i) c x) (idxs (S i) cs) cs.
Proof.
  intros (pre & post & HA & Hl). rewrite layout_branch in HA.
  replace (S i) with (S i + rsizes []) at 1 by (cbn; lia).
  apply (sub_children_gen (Some i) post (S i) (pre ++ [mk_node ty p (Some (idxs (S i) cs)) None]) cs []).
  - rewrite HA. cbn [app]. rewrite <- app_assoc. reflexivity.
  - rewrite app_length, Hl. cbn. lia.
Qed.

Lemma Forall2_impl_In {A B} (P Q : A -> B -> Prop) l l' :
  (forall a b, In b l' -> P a b -> Q a b) -> Forall2 P l l' -> Forall2 Q l l'.
Proof. intros H HF; induction HF; constructor; [apply H; [left|] | apply IHHF; intros; apply H; [right|]]; auto. Qed.

Lemma Forall2_map_r {A B C} (P : A -> C -> Prop) (f : B -> C) l l' :
  Forall2 (fun a b => P a (f b)) l l' -> Forall2 P l (map f l').
Proof. induction 1; constructor; auto. Qed.
Lemma Forall2_map_r_inv {A B C} (P : A -> C -> Prop) (f : B -> C) l l' :
  Forall2 P l (map f l') -> Forall2 (fun a b => P a (f b)) l l'.
Proof.
  revert l; induction l' as [|b l' IH]; cbn; intros l H; inversion H; subst; constructor; auto.
Qed.

(** ** Valid token indices in an abstract syntax tree *)
Definition good_tok (T : list token) (ty : ttype) (i : nat) : Prop := exists t, nth_error T i = Some t /\ t_type t = ty.
Definition valid (T : list token) (i : nat) : Prop := i < List.length T.
Definition hash_tok (T : list token) (i : nat) : Prop := exists t, nth_error T i = Some t /\ t_string t = us "#".

Definition pok (T : list token) (p : cparam) : Prop := match p with CId i => valid T i | CHash i => hash_tok T i end.
Definition iok (T : list token) (x : item) : Prop :=
  match x with
  | IText toks => toks <> [] /\ Forall (valid T) toks
  | IHash i => hash_tok T i
  | IPat id None => valid T id
  | IPat id (Some (k, sels)) => valid T id /\ valid T k /\ Forall (fun x => valid T (fst x) /\ valid T (snd x)) sels
  | ICmd ps => Forall (pok T) ps
  end.
Definition nok (T : list token) (x : named) : Prop := valid T (fst x) /\ Forall (iok T) (snd x).
Definition cok (T : list token) (c : actx) : Prop :=
  match c with CMain => True | CSub main rn id => Forall (iok T) main /\ Forall (nok T) rn /\ valid T id end.
Definition sok (T : list token) (a : astate) : Prop :=
  match a with
  | AText c ri | AEsc c ri | AOpen c ri => cok T c /\ Forall (iok T) ri
  | APat c ri id => cok T c /\ Forall (iok T) ri /\ valid T id
  | AKey c ri id kw rs => cok T c /\ Forall (iok T) ri /\ valid T id /\ valid T kw /\
      Forall (fun x => valid T (fst x) /\ valid T (snd x)) rs
  | ASel1 c ri id kw rs a | ASel2 c ri id kw rs a => cok T c /\ Forall (iok T) ri /\ valid T id /\ valid T kw /\
      Forall (fun x => valid T (fst x) /\ valid T (snd x)) rs /\ valid T a
  | ACmd c ri rp => cok T c /\ Forall (iok T) ri /\ Forall (pok T) rp
  | AGroup main rn | AName0 main rn => Forall (iok T) main /\ Forall (nok T) rn
  | ANameId main rn id _ | AName1 main rn id => Forall (iok T) main /\ Forall (nok T) rn /\ valid T id
  | _ => True
  end.
Definition aok (T : list token) (a : ast) : Prop :=
  Forall (iok T) (fst a) /\ match snd a with None => True | Some l => Forall (nok T) l end.

Lemma iok_add_text T ri i : valid T i -> Forall (iok T) ri -> Forall (iok T) (add_text ri i).
Proof.
  intros Hi H. destruct ri as [|[toks|tk|id o|ps] r]; cbn [add_text];
    try (constructor; [split; [discriminate | auto] | assumption]).
  inversion H as [|y z H1 H3]; subst; destruct H1 as (H1 & H2). constructor; [|assumption].
  split; [destruct toks; discriminate | apply Forall_app; auto].
Qed.

Lemma sok_step T m i t m' : nth_error T i = Some t -> sok T (am_state m) -> astep m i t = Ok m' -> sok T (am_state m').
Proof.
  intros Hi H Ha. assert (Hv : valid T i) by (apply nth_error_Some; congruence).
  destruct m as [a pa na]; unfold astep in Ha; cbn [am_state am_pats am_nams] in *.
  destruct a as [c ri|c ri|c ri|c ri id|c ri id kw rs|c ri id kw rs b|c ri id kw rs b|c ri rp| | | |main rn|main rn|main rn id tid|main rn id|t0| |];
    cbn [sok] in H.
  - destruct (is_type t TGrammar).
    + destruct (is_str t s_back); [injection Ha as <-; exact H|].
      destruct (is_str t s_open); [injection Ha as <-; exact H|].
      destruct (is_str t s_hash) eqn:Eh.
      * destruct c as [|main rn id].
        -- injection Ha as <-. cbn. split; [apply Forall_rev; apply H | constructor].
        -- assert (Hg : m' = mk_am (AText (CSub main rn id) (IHash i :: ri)) pa na)
             by (destruct ri as [|[toks|tk|id' o|ps'] r]; try discriminate; injection Ha as <-; reflexivity).
           subst m'. cbn. split; [apply H|]. constructor; [|apply H].
           exists t; split; [exact Hi | apply is_str_eq; exact Eh].
      * destruct c as [|main rn id]; [discriminate|]. destruct (is_str t s_close); [|discriminate].
        injection Ha as <-. cbn. destruct H as ((H1 & H2 & H3) & H4). split; [exact H1|].
        constructor; [split; [exact H3 | apply Forall_rev; exact H4] | exact H2].
    + injection Ha as <-. split; [apply H | apply iok_add_text; [exact Hv | apply H]].
  - injection Ha as <-. split; [apply H | apply iok_add_text; [exact Hv | apply H]].
  - destruct (is_type t TIdentifier).
    + destruct (umem _ _); [discriminate|]. injection Ha as <-. cbn. repeat split; try apply H; exact Hv.
    + destruct (is_type t TGrammar); [|discriminate].
      destruct (is_str t s_back); [injection Ha as <-; exact I|].
      destruct (is_str t s_hash); [|discriminate]. injection Ha as <-. cbn. repeat split; try apply H. constructor.
  - destruct (is_type t TIdentifier); [injection Ha as <-; cbn; repeat split; try apply H; [exact Hv | constructor]|].
    destruct (is_type t TWhiteSpace); [injection Ha as <-; exact H|].
    destruct (gram t s_close); [|discriminate]. injection Ha as <-. cbn. split; [apply H|].
    constructor; [apply H | apply H].
  - destruct (is_type t TIdentifier); [injection Ha as <-; cbn; repeat split; try apply H; exact Hv|].
    destruct (is_type t TWhiteSpace); [injection Ha as <-; exact H|].
    destruct (is_type t TGrammar); [|discriminate].
    destruct (is_str t s_close); injection Ha as <-; [|exact H]. cbn. split; [apply H|].
    constructor; [|apply H]. cbn. repeat split; try apply H. apply Forall_rev; apply H.
  - destruct (is_str t s_hash); [|discriminate]. injection Ha as <-. exact H.
  - destruct (is_type t TIdentifier); [|discriminate]. injection Ha as <-. cbn.
    destruct H as (H1 & H2 & H3 & H4 & H5 & H6). repeat split; try assumption. constructor; [split; assumption | assumption].
  - destruct (is_type t TIdentifier).
    { injection Ha as <-. cbn. repeat split; try apply H. constructor; [exact Hv | apply H]. }
    destruct (is_type t TGrammar).
    + destruct (is_str t s_back); [injection Ha as <-; exact I|].
      destruct (is_str t s_close).
      * assert (Hg : m' = mk_am (AText c (ICmd (rev rp) :: ri)) pa na)
          by (destruct rp as [|[k|k] r]; try discriminate; injection Ha as <-; reflexivity).
        subst m'. cbn. split; [apply H|]. constructor; [|apply H]. cbn. apply Forall_rev. apply H.
      * destruct (is_str t s_hash) eqn:Eh; [|discriminate].
        assert (Hg : m' = mk_am (ACmd c ri (CHash i :: rp)) pa na)
          by (destruct rp as [|[k|k] [|k' r]]; try discriminate; injection Ha as <-; reflexivity).
        subst m'. cbn. repeat split; try apply H. constructor; [|apply H].
        exists t; split; [exact Hi | apply is_str_eq; exact Eh].
    + destruct (is_type t TWhiteSpace); [|discriminate]. injection Ha as <-. exact H.
  - injection Ha as <-; exact I.
  - destruct (gram t s_back); injection Ha as <-; exact I.
  - injection Ha as <-; exact I.
  - destruct (is_type t TGrammar); [destruct (is_str t s_open); [|discriminate]; injection Ha as <-; exact H|].
    destruct (is_type t TWhiteSpace); [|discriminate]. injection Ha as <-; exact H.
  - destruct (is_type t TIdentifier); [|discriminate]. destruct (umem _ _); [discriminate|].
    injection Ha as <-. cbn. repeat split; try apply H; exact Hv.
  - destruct (is_type t TWhiteSpace); [|discriminate]. injection Ha as <-; exact H.
  - destruct (is_type t TIdentifier).
    { injection Ha as <-. split; [exact H|]. constructor; [|constructor]. split; [discriminate | auto]. }
    destruct (is_type t TGrammar).
    { destruct (is_str t s_hash) eqn:Eh.
      { injection Ha as <-. split; [exact H|]. constructor; [|constructor]. exists t; split; [exact Hi | apply is_str_eq; exact Eh]. }
      destruct (is_str t s_open); [injection Ha as <-; exact I|].
      destruct (is_str t s_back); [|discriminate]. injection Ha as <-; exact I. }
    destruct (is_type t TSyntax); injection Ha as <-; [exact I | exact H].
  - discriminate.
  - injection Ha as <-; exact I.
  - destruct (is_type t TGrammar && negb (is_str t s_hash) && negb (is_str t s_open) && negb (is_str t s_back)); discriminate.
Qed.

Lemma sok_run T pre post m m' : T = pre ++ post -> sok T (am_state m) -> arun m (List.length pre) post = Ok m' -> sok T (am_state m').
Proof.
  revert pre m; induction post as [|t post IH]; intros pre m HT Hs Hr; cbn [arun] in Hr.
  - injection Hr as <-. exact Hs.
  - destruct (astep m (List.length pre) t) as [m1|e| |] eqn:E; cbn [bind] in Hr; try discriminate.
    apply (IH (pre ++ [t]) m1).
    + rewrite HT, <- app_assoc; reflexivity.
    + eapply sok_step; [|exact Hs | exact E]. rewrite HT, nth_error_app2, Nat.sub_diag by lia. reflexivity.
    + rewrite len_snoc. exact Hr.
Qed.

Lemma aparse_ok T a : aparse T = Ok a -> aok T a.
Proof.
  unfold aparse. destruct (arun am_init 0 T) as [m|e| |] eqn:E; cbn [bind]; try discriminate.
  intros Hf. assert (Hs : sok T (am_state m)).
  { apply (sok_run T [] T am_init m); [reflexivity | split; [exact I | constructor] | exact E]. }
  unfold afinish in Hf. destruct m as [st pa na]; cbn [am_state] in *.
  destruct st as [c ri|c ri|c ri|c ri id|c ri id kw rs|c ri id kw rs b|c ri id kw rs b|c ri rp| | | |main rn|main rn|main rn id tid|main rn id|t0| |]; try discriminate.
  - destruct c; [|discriminate]. injection Hf as <-. split; [apply Forall_rev; apply Hs | exact I].
  - injection Hf as <-. split; [apply Hs | apply Forall_rev; apply Hs].
Qed.

(** ** The arena denotes the content *)
Section Denotes.
  Variables (T : list token) (a : ast).
  Let tr := tree_of T a.

  Lemma valid_tok i : valid T i -> exists t, nth_error (tr_tokens tr) i = Some t /\ t_string t = tok T i.
  Proof.
    intros H. cbn. unfold tok. destruct (nth_error T i) as [t|] eqn:E; [eauto|].
    apply nth_error_None in E. unfold valid in H. lia.
  Qed.

  Lemma leaf_of p i ty toks : sub_at (tr_nodes tr) p i (Leaf ty toks) -> Forall (valid T) toks ->
    leaf_is tr i ty (map (tok T) toks).
  Proof.
    intros H HF. apply sub_head in H. eexists; exists toks. split; [exact H|]. repeat split.
    apply Forall2_map_r. clear H. induction HF as [|k toks Hk HF IH]; constructor; [apply valid_tok; exact Hk | exact IH].
  Qed.

  Lemma branch_of p i ty cs : sub_at (tr_nodes tr) p i (Branch ty cs) -> branch_is tr i ty (idxs (S i) cs).
  Proof. intros H. apply sub_head in H. eexists. split; [exact H|]. repeat split. Qed.

  Lemma ident_of p i k : sub_at (tr_nodes tr) p i (ident k) -> valid T k -> ident_is tr i (tok T k).
  Proof. intros H Hk. apply (leaf_of _ _ _ [k]) in H; [exact H | auto]. Qed.

  Lemma hash_leaf_of p i k : sub_at (tr_nodes tr) p i (Leaf NNumberSign [k]) -> hash_tok T k ->
    leaf_is tr i NNumberSign [us "#"].
  Proof.
    intros H (t & Ht & Hs). assert (Hv : valid T k) by (apply nth_error_Some; congruence).
    apply leaf_of in H; [|auto]. cbn [map] in H. unfold tok in H. rewrite Ht, Hs in H. exact H.
  Qed.

  Lemma param_of p i x : sub_at (tr_nodes tr) p i (param_tree x) -> pok T x -> param_is tr i (sparam_of T x).
  Proof.
    destruct x as [k|k]; cbn [param_tree pok sparam_of param_is]; intros H Hk; [eapply ident_of | eapply hash_leaf_of]; eassumption.
  Qed.

  Lemma selector_of p i x : sub_at (tr_nodes tr) p i (sel_tree x) -> valid T (fst x) /\ valid T (snd x) ->
    selector_is tr i (sel_of T x).
  Proof.
    intros H (H1 & H2). pose proof (branch_of _ _ _ _ H) as HB. apply sub_children in H. cbn [idxs] in *.
    inversion H as [|? ? ? ? Ha H']; subst. inversion H' as [|? ? ? ? Hb _]; subst.
    eexists; eexists. split; [exact HB|]. split; eapply ident_of; eassumption.
  Qed.

  Lemma item_of p i x : sub_at (tr_nodes tr) p i (item_tree x) -> iok T x -> item_is tr i (sitem_of T x).
  Proof.
    destruct x as [toks|k|id [[k sels]|]|ps]; cbn [item_tree iok sitem_of]; intros H Hk.
    - destruct Hk as (Hne & HF). rewrite <- map_map. constructor; [destruct toks; [contradiction | discriminate]|].
      eapply leaf_of; eassumption.
    - constructor. eapply hash_leaf_of; eassumption.
    - destruct Hk as (H1 & H2 & H3). pose proof (branch_of _ _ _ _ H) as HB. apply sub_children in H. cbn [idxs] in *.
      inversion H as [|? ? ? ? Ha H']; subst. inversion H' as [|? ? ? ? Hb Hs]; subst.
      eapply it_kw; [exact HB | eapply ident_of; eassumption | eapply ident_of; eassumption |].
      apply Forall2_map_r. apply Forall2_map_r_inv in Hs. revert Hs. apply Forall2_impl_In. intros c x Hx Hc.
      eapply selector_of; [exact Hc|]. rewrite Forall_forall in H3. apply H3; exact Hx.
    - pose proof (branch_of _ _ _ _ H) as HB. apply sub_children in H. cbn [idxs] in *.
      inversion H as [|? ? ? ? Ha H']; subst.
      eapply it_pat; [exact HB | eapply ident_of; eassumption].
    - pose proof (branch_of _ _ _ _ H) as HB. apply sub_children in H.
      eapply it_cmd; [exact HB|]. apply Forall2_map_r. apply Forall2_map_r_inv in H. revert H. apply Forall2_impl_In. intros c x Hx Hc.
      eapply param_of; [exact Hc|]. rewrite Forall_forall in Hk. apply Hk; exact Hx.
  Qed.

  Lemma string_of p i l : sub_at (tr_nodes tr) p i (string_tree l) -> Forall (iok T) l -> string_is tr i (sitems T l).
  Proof.
    intros H HF. pose proof (branch_of _ _ _ _ H) as HB. apply sub_children in H.
    eexists; exists (map (sitem_of T) l). split; [exact HB|]. split; [|unfold sitems; rewrite flat_map_concat_map; reflexivity].
    apply Forall2_map_r. apply Forall2_map_r_inv in H. revert H. apply Forall2_impl_In. intros c x Hx Hc.
    eapply item_of; [exact Hc|]. rewrite Forall_forall in HF. apply HF; exact Hx.
  Qed.

  Lemma named_of p i x : sub_at (tr_nodes tr) p i (named_tree x) -> nok T x -> named_is tr i (snamed T x).
  Proof.
    intros H (H1 & H2). pose proof (branch_of _ _ _ _ H) as HB. apply sub_children in H. cbn [idxs] in *.
    inversion H as [|? ? ? ? Ha H']; subst. inversion H' as [|? ? ? ? Hb _]; subst.
    eexists; eexists. split; [exact HB|]. split; [eapply ident_of; eassumption | eapply string_of; eassumption].
  Qed.

  Lemma tree_of_is : aok T a -> tree_is tr (sast_of T a).
  Proof.
    intros (H1 & H2). assert (H : sub_at (tr_nodes tr) None 0 (ast_tree a)).
    { exists [], []. cbn. rewrite app_nil_r. auto. }
    unfold tree_is, sast_of; cbn [fst snd]. pose proof (branch_of _ _ _ _ H) as HB. apply sub_children in H.
    destruct (snd a) as [l|]; cbn [option_map]; cbn [idxs] in *.
    - inversion H as [|? ? ? ? Ha H']; subst. inversion H' as [|? ? ? ? Hb _]; subst.
      eexists; eexists. split; [exact HB|]. split; [eapply string_of; eassumption|].
      split; [eapply branch_of; exact Hb|]. apply sub_children in Hb.
      apply Forall2_map_r. apply Forall2_map_r_inv in Hb. revert Hb. apply Forall2_impl_In. intros c x Hx Hc.
      eapply named_of; [exact Hc|]. rewrite Forall_forall in H2. apply H2; exact Hx.
    - inversion H as [|? ? ? ? Ha H']; subst. split; [exact HB | eapply string_of; eassumption].
  Qed.
End Denotes.

(** ** Well-formed arena *)

Inductive wf_rose (T : list token) : rose -> Prop :=
| wr_leaf ty toks : allow_children ty = false -> toks <> [] -> Forall (valid T) toks -> wf_rose T (Leaf ty toks)
| wr_branch ty cs : allow_children ty = true -> Forall (wf_rose T) cs -> wf_rose T (Branch ty cs).

Lemma container_allow ty : container ty <-> allow_children ty = true.
Proof. destruct ty; cbn; split; try tauto; discriminate. Qed.

(** Local well-formedness of every node of a laid out subtree. *)
Definition node_ok (T : list token) (A : list node) (i : nat) (n : node) : Prop :=
    (container (n_type n) -> n_tokens n = None /\ exists cs, n_children n = Some cs) /\
    (~ container (n_type n) -> n_children n = None /\ exists ts, n_tokens n = Some ts /\ ts <> [] /\
       forall j, In j ts -> j < List.length T) /\
    (forall cs, n_children n = Some cs -> NoDup cs /\
       forall c, In c cs -> i < c /\ exists m, nth_error A c = Some m /\ n_parent m = Some i).

Lemma idxs_ge i l c : In c (idxs i l) -> i <= c.
Proof.
  revert i; induction l as [|x l IH]; cbn; intros i H; [contradiction|].
  destruct H as [->|H]; [lia|]. apply IH in H. pose proof (rsize_pos x). lia.
Qed.
Lemma idxs_NoDup i l : NoDup (idxs i l).
Proof.
  revert i; induction l as [|x l IH]; cbn; intros i; constructor; auto.
  intros H; apply idxs_ge in H. pose proof (rsize_pos x). lia.
Qed.

Lemma sub_range A p i t k n : sub_at A p i t -> i <= k < i + rsize t -> nth_error A k = Some n ->
  nth_error (layout p i t) (k - i) = Some n.
Proof.
  intros (pre & post & -> & Hl) Hk Hn. rewrite nth_error_app2 in Hn by lia. rewrite Hl in Hn.
  rewrite nth_error_app1 in Hn by (rewrite layout_length; lia). exact Hn.
Qed.

Lemma children_cover A q cs : forall i k, i <= k < i + rsizes cs ->
  Forall2 (fun c x => sub_at A q c x) (idxs i cs) cs ->
  exists c x, In c (idxs i cs) /\ In x cs /\ sub_at A q c x /\ c <= k < c + rsize x.
Proof.
  induction cs as [|x cs IH]; intros i k Hk HF; cbn in *; [lia|].
  inversion HF as [|? ? ? ? Hx HF']; subst.
  destruct (Nat.lt_ge_cases k (i + rsize x)) as [Hlt|Hge].
  - exists i, x. repeat split; auto; lia.
  - destruct (IH (i + rsize x) k) as (c & y & H1 & H2 & H3 & H4); [lia | exact HF'|].
    exists c, y. auto.
Qed.

Lemma sub_nodes_ok T t : wf_rose T t -> forall A p i, sub_at A p i t ->
  forall k n, i <= k < i + rsize t -> nth_error A k = Some n ->
  node_ok T A k n /\
  (i < k -> exists q m cs, i <= q /\ n_parent n = Some q /\ nth_error A q = Some m /\ n_children m = Some cs /\ In k cs).
Proof.
  induction t as [ty toks | ty cs IH] using rose_ind'; intros Hw A p i Hs k n Hk Hn.
  - cbn [rsize] in Hk. assert (k = i) by lia; subst k. rewrite (sub_head _ _ _ _ Hs) in Hn. injection Hn as <-.
    inversion Hw as [? ? Hac Hne HF | ]; subst. split; [|intros; lia].
    split; [|split]; cbn.
    + intros Hc. apply container_allow in Hc. congruence.
    + intros _. split; [reflexivity|]. exists toks. repeat split; auto. rewrite Forall_forall in HF. exact HF.
    + discriminate.
  - rewrite rsize_branch in Hk. inversion Hw as [|? ? Hac HF]; subst.
    pose proof (sub_children _ _ _ _ _ Hs) as HC. pose proof (sub_head _ _ _ _ Hs) as Hh. cbn [head_node] in Hh.
    destruct (Nat.eq_dec k i) as [->|Hne].
    + rewrite Hh in Hn. injection Hn as <-. split; [|intros; lia]. split; [|split]; cbn.
      * intros _. split; [reflexivity | eauto].
      * intros Hc. exfalso; apply Hc. apply container_allow. exact Hac.
      * intros cs' E. injection E as <-. split; [apply idxs_NoDup|]. intros c Hc. split; [apply idxs_ge in Hc; lia|].
        assert (HIn : exists x, sub_at A (Some i) c x).
        { clear - HC Hc. remember (idxs (S i) cs) as l eqn:E. clear E. induction HC as [|c' x l cs Hx HC IH]; [contradiction|].
          destruct Hc as [->|Hc]; [eauto | auto]. }
        destruct HIn as (x & Hx). apply sub_head in Hx. eexists. split; [exact Hx|]. destruct x; reflexivity.
    + destruct (children_cover A (Some i) cs (S i) k) as (c & x & Hc & Hx & Hsx & Hkx); [lia | exact HC |].
      rewrite Forall_forall in IH, HF. destruct (IH x Hx (HF x Hx) A (Some i) c Hsx k n Hkx Hn) as (Hok & Hpar).
      split; [exact Hok|]. intros Hik. destruct (Nat.eq_dec c k) as [->|Hck].
      * apply sub_head in Hsx. rewrite Hn in Hsx. injection Hsx as ->.
        exists i; eexists; eexists. split; [lia|]. split; [destruct x; reflexivity|]. split; [exact Hh|]. split; [reflexivity | exact Hc].
      * destruct Hpar as (q & m & cs' & Hq & H1 & H2 & H3 & H4); [lia|].
        assert (Hci : i < c) by (apply idxs_ge in Hc; lia).
        exists q, m, cs'. repeat split; auto. lia.
Qed.

Lemma wf_ident T k : valid T k -> wf_rose T (ident k).
Proof. intros H; constructor; [reflexivity | discriminate | auto]. Qed.

Lemma hash_valid T k : hash_tok T k -> valid T k.
Proof. intros (t & H & _). apply nth_error_Some; congruence. Qed.

Lemma wf_item T x : iok T x -> wf_rose T (item_tree x).
Proof.
  destruct x as [toks|k|id [[k sels]|]|ps]; cbn [item_tree iok]; intros H.
  - constructor; [reflexivity | apply H | apply H].
  - constructor; [reflexivity | discriminate |]. constructor; [apply hash_valid; exact H | constructor].
  - destruct H as (H1 & H2 & H3). constructor; [reflexivity|]. constructor; [apply wf_ident; exact H1|].
    constructor; [apply wf_ident; exact H2|]. apply Forall_map. revert H3. apply Forall_impl. intros x (Ha & Hb).
    constructor; [reflexivity|]. constructor; [apply wf_ident; exact Ha|]. constructor; [apply wf_ident; exact Hb | constructor].
  - constructor; [reflexivity|]. constructor; [apply wf_ident; exact H | constructor].
  - constructor; [reflexivity|]. apply Forall_map. revert H. apply Forall_impl. intros [k|k] Hk; cbn in *.
    + apply wf_ident; exact Hk.
    + constructor; [reflexivity | discriminate |]. constructor; [apply hash_valid; exact Hk | constructor].
Qed.

Lemma wf_string T l : Forall (iok T) l -> wf_rose T (string_tree l).
Proof. intros H. constructor; [reflexivity|]. apply Forall_map. revert H. apply Forall_impl. apply wf_item. Qed.

Lemma wf_ast T a : aok T a -> wf_rose T (ast_tree a).
Proof.
  intros (H1 & H2). constructor; [reflexivity|]. constructor; [apply wf_string; exact H1|].
  destruct (snd a) as [l|]; [|constructor]. constructor; [|constructor].
  constructor; [reflexivity|]. apply Forall_map. revert H2. apply Forall_impl. intros x (Ha & Hb).
  constructor; [reflexivity|]. constructor; [apply wf_ident; exact Ha|]. constructor; [apply wf_string; exact Hb | constructor].
Qed.

Lemma tree_of_wf T a : aok T a -> wf_arena (tree_of T a).
Proof.
  intros Ha. set (A := tr_nodes (tree_of T a)).
  assert (Hs : sub_at A None 0 (ast_tree a)). { exists [], []. cbn. rewrite app_nil_r. auto. }
  pose proof (sub_nodes_ok T _ (wf_ast T a Ha) A None 0 Hs) as HN.
  assert (Hlen : List.length A = rsize (ast_tree a)).
  { unfold A. cbn [tr_nodes tree_of]. rewrite arena_length. reflexivity. }
  assert (HR : forall k n, nth_error A k = Some n -> 0 <= k < 0 + rsize (ast_tree a)).
  { intros k n Hk. split; [lia|]. rewrite <- Hlen. cbn [Nat.add]. apply nth_error_Some. congruence. }
  split; fold A; cbn [tr_tokens tree_of].
  - eexists. split; [apply (sub_head _ _ _ _ Hs)|]. split; reflexivity.
  - apply sub_children in Hs. inversion Hs as [|? ? ? ? Hm _]; subst. eexists. split; [apply (sub_head _ _ _ _ Hm)|]. split; reflexivity.
  - intros i n Hn. destruct (HN i n (HR i n Hn) Hn) as ((H1 & H2 & _) & _). split; assumption.
  - intros i n cs c Hn Hcs Hc. destruct (HN i n (HR i n Hn) Hn) as ((_ & _ & H3) & _). apply (H3 cs Hcs). exact Hc.
  - intros i n cs Hn Hcs. destruct (HN i n (HR i n Hn) Hn) as ((_ & _ & H3) & _). apply (H3 cs Hcs).
  - intros c m Hm Hc. destruct (HN c m (HR c m Hm) Hm) as (_ & H). destruct (H Hc) as (q & n & cs & _ & H1 & H2 & H3 & H4).
    exists q, n, cs. auto.
Qed.

(** ** The parser as a whole *)
Theorem parse_sound ts tr : parse_tokens ts = Ok tr ->
  wf_arena tr /\ tr_tokens tr = ts /\ tr_has_grammar tr = has_gram ts /\
  exists c, cwf c /\ map seg_of ts = cprint c /\ tree_is tr (ccontent c).
Proof.
  rewrite parse_refines. destruct (aparse ts) as [a|e| |] eqn:E; cbn; try discriminate. intros H; injection H as <-.
  pose proof (aparse_ok _ _ E) as Ha. split; [apply tree_of_wf; exact Ha|]. split; [reflexivity|]. split; [reflexivity|].
  destruct (aparse_sound _ _ E) as (c & H1 & H2 & H3). exists c. split; [exact H1|]. split; [exact H2|].
  rewrite <- H3. apply tree_of_is. exact Ha.
Qed.

Theorem parse_complete ts c : cwf c -> map seg_of ts = cprint c ->
  exists tr, parse_tokens ts = Ok tr /\ tr_tokens tr = ts /\ tr_has_grammar tr = has_gram ts /\ tree_is tr (ccontent c).
Proof.
  intros Hc Hts. destruct (aparse_complete ts c Hc Hts) as (a & E & Hcon).
  exists (tree_of ts a). rewrite parse_refines, E. repeat split. rewrite <- Hcon. apply tree_of_is. apply aparse_ok; exact E.
Qed.
