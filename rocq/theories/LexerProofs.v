(** Proofs about the lexer model. *)
From Verif Require Import Base BaseFacts LexerModel LexerSpec.
Local Arguments Nat.sub : simpl never.

Lemma ttype_eqb_eq a b : ttype_eqb a b = true <-> a = b.
Proof. destruct a, b; cbn; split; congruence. Qed.
Lemma ttype_eqb_neq a b : ttype_eqb a b = false <-> a <> b.
Proof. destruct a, b; cbn; split; congruence. Qed.

Lemma char_mem_In c l : char_mem c l = true <-> In c l.
Proof.
  unfold char_mem; rewrite existsb_exists; split.
  - intros (x & Hx & He); apply N.eqb_eq in He; subst; exact Hx.
  - intros H; exists c; split; [exact H | apply N.eqb_refl].
Qed.

Lemma char_type_class d g c : class_of d g c (char_type d g c).
Proof.
  unfold char_type; destruct (white_space d c) eqn:Hw; [constructor; exact Hw|].
  destruct (syntax d c) eqn:Hs; [|constructor; assumption].
  destruct (char_mem c g) eqn:Hm.
  - apply char_mem_In in Hm; constructor; assumption.
  - constructor; try assumption; intros H; apply char_mem_In in H; congruence.
Qed.

Lemma class_unique d g c t t' : class_of d g c t -> class_of d g c t' -> t = t'.
Proof. destruct 1; destruct 1; congruence. Qed.

Lemma class_char_type d g c t : class_of d g c t -> char_type d g c = t.
Proof. intros H; exact (class_unique _ _ _ _ _ (char_type_class d g c) H). Qed.

(** Functional form of the specification: maximal runs, computed from the right. *)
Fixpoint runs (d : icu) (g : list uchar) (s : ustr) : list segment :=
  match s with
  | [] => []
  | c :: r =>
    match runs d g r with
    | (ty, w) :: l =>
      if ttype_eqb (char_type d g c) ty && negb (ttype_eqb ty TGrammar)
      then (ty, c :: w) :: l else (char_type d g c, [c]) :: (ty, w) :: l
    | [] => [(char_type d g c, [c])]
    end
  end.

(** Attach the run [w] (of type [ty]) in front of the runs of the rest. *)
Definition attach (ty : ttype) (w : ustr) (l : list segment) : list segment :=
  match l with
  | (ty', w') :: r =>
    if ttype_eqb ty ty' && negb (ttype_eqb ty TGrammar) then (ty, w ++ w') :: r
    else (ty, w) :: (ty', w') :: r
  | [] => [(ty, w)]
  end.

Lemma runs_cons d g c r : runs d g (c :: r) = attach (char_type d g c) [c] (runs d g r).
Proof.
  cbn; destruct (runs d g r) as [|(ty, w) l]; cbn; [reflexivity|].
  destruct (ttype_eqb (char_type d g c) ty) eqn:E; cbn; [|reflexivity].
  apply ttype_eqb_eq in E; subst; destruct (ttype_eqb _ TGrammar); reflexivity.
Qed.

(** Tokens decorated with positions. *)
Fixpoint decorate (d : icu) (b c gr : nat) (l : list segment) : list token :=
  match l with
  | [] => []
  | (ty, w) :: r =>
    mk_token w ty b c gr (blen w) (List.length w) (breaks d w - 1) (b + blen w) ::
    decorate d (b + blen w) (c + List.length w) (gr + (breaks d w - 1)) r
  end.

Lemma decorate_positions d l b c gr : positions d b c gr (decorate d b c gr l).
Proof.
  revert b c gr; induction l as [|(ty, w) l IH]; intros b c gr; cbn; [exact I|].
  repeat split; apply IH.
Qed.

Lemma decorate_seg d l b c gr : map seg_of (decorate d b c gr l) = l.
Proof. revert b c gr; induction l as [|(ty, w) l IH]; intros; cbn; [reflexivity | rewrite IH; reflexivity]. Qed.

Lemma decorate_string d l b c gr : map t_string (decorate d b c gr l) = map snd l.
Proof. revert b c gr; induction l as [|(ty, w) l IH]; intros; cbn; [reflexivity | rewrite IH; reflexivity]. Qed.

(** ** The iterator computes [attach] of the current run to the runs of the rest. *)

(** State of the iterator with current run [w], remaining characters [r]. *)
Definition lx_at (g : list uchar) (total b c gr : nat) (ty : ttype) (w r : ustr) : lexer :=
  mk_lexer false (char_indices_from (b + blen w) r) g
    (b + blen (removelast w)) (c + (List.length w - 1)) total ty w b c gr.

(** The [start_byte] field is overwritten before it is read, so it is left free here. *)
Definition lx_rel (g : list uchar) (total b c gr : nat) (ty : ttype) (w r : ustr) (l : lexer) : Prop :=
  lx_end_reached l = false /\
  lx_iter l = char_indices_from (b + blen w) r /\
  lx_grammar l = g /\ lx_length_bytes l = total /\
  lx_token_type l = ty /\ lx_token_string l = w /\
  lx_token_start_byte l = b /\ lx_token_start_character l = c /\ lx_token_start_grapheme l = gr /\
  lx_start_character l + 1 = c + List.length w /\ w <> [].

Lemma loop_spec d g total r : forall ty w b c gr l,
  lx_rel g total b c gr ty w r l -> total = b + blen w + blen r ->
  match attach ty w (runs d g r) with
  | (ty0, w0) :: rest =>
    fst (lexer_loop d (lx_iter l) l) =
      mk_token w0 ty0 b c gr (blen w0) (List.length w0) (breaks d w0 - 1) (b + blen w0) /\
    let l' := snd (lexer_loop d (lx_iter l) l) in
    match rest with
    | [] => lx_end_reached l' = true
    | _ :: _ => exists ty1 w1 r1,
        lx_rel g total (b + blen w0) (c + List.length w0) (gr + (breaks d w0 - 1)) ty1 w1 r1 l' /\
        total = b + blen w0 + blen w1 + blen r1 /\
        attach ty1 w1 (runs d g r1) = rest /\ (List.length r1 < List.length r)%nat
    end
  | [] => False
  end.
Proof.
  induction r as [|x r IH]; intros ty w b c gr l Hrel Htot.
  - destruct Hrel as (He & Hi & Hg & Ht & Hty & Hw & Hb & Hc & Hgr & Hsc & Hne).
    cbn [runs attach]. rewrite Hi; cbn [char_indices_from lexer_loop lexer_token].
    cbn [blen] in Htot. cbn.
    split; [|reflexivity].
    rewrite Hw, Hty, Hb, Hc, Hgr, Ht. f_equal; lia.
  - destruct Hrel as (He & Hi & Hg & Ht & Hty & Hw & Hb & Hc & Hgr & Hsc & Hne).
    rewrite runs_cons.
    cbn [blen] in Htot.
    set (tx := char_type d g x).
    (* shape of the continuation when the run is extended *)
    assert (Hext : lx_rel g total b c gr ty (w ++ [x]) r
                     (lexer_push (lexer_advance l (char_indices_from (b + blen w + clen x) r) (b + blen w)) x)).
    { unfold lx_rel, lexer_push, lexer_advance; cbn.
      rewrite blen_app, app_length; cbn.
      rewrite He, Hg, Ht, Hty, Hw, Hb, Hc, Hgr.
      repeat split; try reflexivity; try lia.
      - f_equal; lia.
      - destruct w; discriminate. }
    (* result when a token is emitted *)
    assert (Hemit : forall nt,
       fst (lexer_token d (lexer_advance l (char_indices_from (b + blen w + clen x) r) (b + blen w)) nt x) =
         mk_token w ty b c gr (blen w) (List.length w) (breaks d w - 1) (b + blen w) /\
       lx_rel g total (b + blen w) (c + List.length w) (gr + (breaks d w - 1)) nt [x] r
         (snd (lexer_token d (lexer_advance l (char_indices_from (b + blen w + clen x) r) (b + blen w)) nt x))).
    { intros nt; unfold lx_rel, lexer_token, lexer_advance; cbn.
      rewrite He, Hg, Ht, Hty, Hw, Hb, Hc, Hgr.
      split; [f_equal; lia|].
      repeat split; try reflexivity; try lia; try discriminate.
      rewrite Nat.add_0_r; reflexivity. }
    rewrite Hi; cbn [char_indices_from lexer_loop].
    rewrite Hg. fold tx.
    assert (Hlt : ty = tx -> tx <> TGrammar ->
      attach ty w (attach tx [x] (runs d g r)) = attach ty (w ++ [x]) (runs d g r)).
    { intros -> Hng. apply ttype_eqb_neq in Hng.
      destruct (runs d g r) as [|(ty1, w1) l1]; cbn.
      - rewrite (proj2 (ttype_eqb_eq tx tx) eq_refl), Hng; reflexivity.
      - destruct (ttype_eqb tx ty1) eqn:E1; rewrite ?Hng; cbn;
          rewrite (proj2 (ttype_eqb_eq tx tx) eq_refl), ?Hng; cbn.
        + rewrite <- app_assoc; reflexivity.
        + reflexivity. }
    assert (Hne' : (ty <> tx \/ tx = TGrammar) ->
      attach ty w (attach tx [x] (runs d g r)) = (ty, w) :: attach tx [x] (runs d g r)).
    { intros Hd.
      assert (Hf : ttype_eqb ty tx && negb (ttype_eqb ty TGrammar) = false).
      { destruct Hd as [Hd|Hd].
        - apply ttype_eqb_neq in Hd; rewrite Hd; reflexivity.
        - rewrite Hd; destruct ty; reflexivity. }
      destruct (runs d g r) as [|(ty1, w1) l1]; cbn; [rewrite Hf; reflexivity|].
      destruct (ttype_eqb tx ty1 && negb (ttype_eqb tx TGrammar)); cbn; rewrite Hf; reflexivity. }
    assert (Hgo_emit : (ty <> tx \/ tx = TGrammar) ->
      match attach ty w (attach tx [x] (runs d g r)) with
      | (ty0, w0) :: rest =>
        fst (lexer_token d (lexer_advance l (char_indices_from (b + blen w + clen x) r) (b + blen w)) tx x) =
          mk_token w0 ty0 b c gr (blen w0) (List.length w0) (breaks d w0 - 1) (b + blen w0) /\
        let l' := snd (lexer_token d (lexer_advance l (char_indices_from (b + blen w + clen x) r) (b + blen w)) tx x) in
        match rest with
        | [] => lx_end_reached l' = true
        | _ :: _ => exists ty1 w1 r1,
            lx_rel g total (b + blen w0) (c + List.length w0) (gr + (breaks d w0 - 1)) ty1 w1 r1 l' /\
            total = b + blen w0 + blen w1 + blen r1 /\
            attach ty1 w1 (runs d g r1) = rest /\ (List.length r1 < List.length (x :: r))%nat
        end
      | [] => False
      end).
    { intros Hd; rewrite (Hne' Hd).
      destruct (Hemit tx) as (H1 & H2). split; [exact H1|]. cbn zeta.
      destruct (attach tx [x] (runs d g r)) as [|s0 rest0] eqn:Ea.
      - exfalso. destruct (runs d g r) as [|(ty1, w1) l1]; cbn in Ea; [discriminate|].
        destruct (_ && _); discriminate.
      - exists tx, [x], r. split; [exact H2|]. split; [cbn [blen]; lia|]. split; [exact Ea|].
        cbn [List.length]; lia. }
    assert (Hgo_ext : ty = tx -> tx <> TGrammar ->
      match attach ty w (attach tx [x] (runs d g r)) with
      | (ty0, w0) :: rest =>
        fst (lexer_loop d (char_indices_from (b + blen w + clen x) r)
              (lexer_push (lexer_advance l (char_indices_from (b + blen w + clen x) r) (b + blen w)) x)) =
          mk_token w0 ty0 b c gr (blen w0) (List.length w0) (breaks d w0 - 1) (b + blen w0) /\
        let l' := snd (lexer_loop d (char_indices_from (b + blen w + clen x) r)
              (lexer_push (lexer_advance l (char_indices_from (b + blen w + clen x) r) (b + blen w)) x)) in
        match rest with
        | [] => lx_end_reached l' = true
        | _ :: _ => exists ty1 w1 r1,
            lx_rel g total (b + blen w0) (c + List.length w0) (gr + (breaks d w0 - 1)) ty1 w1 r1 l' /\
            total = b + blen w0 + blen w1 + blen r1 /\
            attach ty1 w1 (runs d g r1) = rest /\ (List.length r1 < List.length (x :: r))%nat
        end
      | [] => False
      end).
    { intros He1 He2; rewrite (Hlt He1 He2).
      assert (Htot' : total = b + blen (w ++ [x]) + blen r) by (rewrite blen_app; cbn; lia).
      specialize (IH _ _ _ _ _ _ Hext Htot'). cbn [lexer_push lexer_advance lx_iter] in IH.
      destruct (attach ty (w ++ [x]) (runs d g r)) as [|(ty0, w0) rest]; [exact IH|].
      destruct IH as (I1 & I2); split; [exact I1|]. cbn zeta in *.
      destruct rest as [|s1 rest]; [exact I2|].
      destruct I2 as (ty1 & w1 & r1 & J1 & J2 & J3 & J4).
      exists ty1, w1, r1; repeat split; try assumption; try apply J1. cbn [List.length]; lia. }
    assert (Hat : lx_token_type (lexer_advance l (char_indices_from (b + blen w + clen x) r) (b + blen w)) = ty)
      by (cbn; exact Hty).
    destruct tx eqn:Etx; rewrite ?Hat.
    + destruct (ttype_eqb ty TWhiteSpace) eqn:E; cbn [negb].
      * apply ttype_eqb_eq in E; apply Hgo_ext; [exact E | discriminate].
      * apply ttype_eqb_neq in E; apply Hgo_emit; left; exact E.
    + destruct (ttype_eqb ty TIdentifier) eqn:E; cbn [negb].
      * apply ttype_eqb_eq in E; apply Hgo_ext; [exact E | discriminate].
      * apply ttype_eqb_neq in E; apply Hgo_emit; left; exact E.
    + apply Hgo_emit; right; reflexivity.
    + destruct (ttype_eqb ty TSyntax) eqn:E; cbn [negb].
      * apply ttype_eqb_eq in E; apply Hgo_ext; [exact E | discriminate].
      * apply ttype_eqb_neq in E; apply Hgo_emit; left; exact E.
Qed.

Lemma collect_spec d g total : forall fuel r ty w b c gr l,
  List.length r + 1 < fuel ->
  lx_rel g total b c gr ty w r l -> total = b + blen w + blen r ->
  lexer_collect d fuel l = Ok (decorate d b c gr (attach ty w (runs d g r))).
Proof.
  induction fuel as [|fuel IH]; intros r ty w b c gr l Hf Hrel Htot; [lia|].
  pose proof (loop_spec d g total r ty w b c gr l Hrel Htot) as HL.
  cbn [lexer_collect]. unfold lexer_next.
  destruct Hrel as (He & _). rewrite He.
  destruct (lexer_loop d (lx_iter l) l) as (t, l') eqn:EL. cbn [fst snd] in HL.
  destruct (attach ty w (runs d g r)) as [|(ty0, w0) rest]; [contradiction|].
  destruct HL as (Ht & Hr). cbn zeta in Hr.
  destruct rest as [|s1 rest].
  - destruct fuel as [|fuel]; [lia|]. cbn [lexer_collect]. unfold lexer_next. rewrite Hr.
    cbn. rewrite Ht. reflexivity.
  - destruct Hr as (ty1 & w1 & r1 & J1 & J2 & J3 & J4).
    rewrite (IH r1 ty1 w1 _ _ _ l' ltac:(lia) J1 J2).
    rewrite J3. cbn [bind]. rewrite Ht. reflexivity.
Qed.

Lemma collect_fuel d : forall fuel l ts,
  lexer_collect d fuel l = Ok ts -> forall fuel', fuel <= fuel' -> lexer_collect d fuel' l = Ok ts.
Proof.
  induction fuel as [|fuel IH]; intros l ts H fuel' Hle; [discriminate|].
  destruct fuel' as [|fuel']; [lia|]. cbn [lexer_collect] in *.
  destruct (lexer_next d l) as ([t|], l'); [|exact H].
  apply bind_Ok in H; destruct H as (ts' & H1 & H2).
  rewrite (IH _ _ H1 fuel') by lia. exact H2.
Qed.

Theorem tokenise_runs d s g : s <> [] -> g <> [] ->
  tokenise d s g = Ok (decorate d 0 0 0 (runs d g s)).
Proof.
  intros Hs Hg. destruct s as [|c r]; [contradiction|]. destruct g as [|g0 g']; [contradiction|].
  unfold tokenise, lexer_try_new. cbn [char_indices char_indices_from].
  unfold char_indices; cbn [char_indices_from bind].
  rewrite runs_cons.
  set (g := g0 :: g').
  assert (Hrel : lx_rel g (blen (c :: r)) 0 0 0 (char_type d g c) [c] r
            (mk_lexer false (char_indices_from (0 + clen c) r) g 0 0 (blen (c :: r)) (char_type d g c) [c] 0 0 0)).
  { unfold lx_rel; cbn. repeat split; try lia; try discriminate. rewrite Nat.add_0_r. reflexivity. }
  apply (collect_spec d g (blen (c :: r))); [cbn [List.length] in *; lia | exact Hrel | cbn [blen]; lia].
Qed.

(** ** The runs form a segmentation, and the only one. *)

Lemma runs_concat d g s : List.concat (map snd (runs d g s)) = s.
Proof.
  induction s as [|c s IH]; [reflexivity|]. cbn [runs].
  destruct (runs d g s) as [|(ty, w) l]; cbn in *; [rewrite <- IH; reflexivity|].
  destruct (_ && _); cbn; rewrite IH; reflexivity.
Qed.

Lemma runs_good d g s : Forall (good_segment d g) (runs d g s).
Proof.
  assert (H1 : forall c, good_segment d g (char_type d g c, [c])).
  { intros c; repeat split; cbn; [discriminate|]. constructor; [apply char_type_class | constructor]. }
  induction s as [|c s IH]; [constructor|]. cbn [runs].
  destruct (runs d g s) as [|(ty, w) l]; [constructor; auto|].
  inversion IH as [|? ? Hw Hl]; subst.
  destruct (ttype_eqb (char_type d g c) ty && negb (ttype_eqb ty TGrammar)) eqn:E;
    [|constructor; auto].
  apply andb_true_iff in E; destruct E as (E1 & E2).
  apply ttype_eqb_eq in E1; apply negb_true_iff, ttype_eqb_neq in E2.
  constructor; [|exact Hl].
  destruct Hw as (Ha & Hb & Hc); cbn in *.
  repeat split; cbn; [discriminate | constructor; [rewrite <- E1; apply char_type_class | exact Hb] | contradiction].
Qed.

Lemma maximal_hd x y l : fst x = fst y -> maximal (x :: l) -> maximal (y :: l).
Proof.
  intros E H; inversion H as [|x0 Hx|x0 z l0 Hd Hm]; subst; [constructor|].
  constructor; [rewrite <- E; exact Hd | exact Hm].
Qed.

Lemma runs_maximal d g s : maximal (runs d g s).
Proof.
  induction s as [|c s IH]; [constructor|]. cbn [runs].
  destruct (runs d g s) as [|(ty, w) l]; [constructor|].
  destruct (ttype_eqb (char_type d g c) ty && negb (ttype_eqb ty TGrammar)) eqn:E.
  - apply (maximal_hd (ty, w)); [reflexivity | exact IH].
  - constructor; [|exact IH]. cbn.
    apply andb_false_iff in E; destruct E as [E|E].
    + left; apply ttype_eqb_neq; exact E.
    + apply negb_false_iff, ttype_eqb_eq in E; subst.
      destruct (ttype_eqb (char_type d g c) TGrammar) eqn:E2.
      * right; apply ttype_eqb_eq; exact E2.
      * left; apply ttype_eqb_neq; exact E2.
Qed.

Lemma runs_segmentation d g s : segmentation d g s (runs d g s).
Proof. repeat split; [apply runs_concat | apply runs_good | apply runs_maximal]. Qed.

(** runs of a homogeneous block in front of a rest that does not continue it *)
Lemma runs_block d g ty w s :
  good_segment d g (ty, w) ->
  runs d g (w ++ s) =
    match runs d g s with
    | (ty', w') :: l => if ttype_eqb ty ty' && negb (ttype_eqb ty TGrammar) then (ty, w ++ w') :: l
                        else (ty, w) :: (ty', w') :: l
    | [] => [(ty, w)]
    end.
Proof.
  intros (Hne & Hall & Hg); cbn in *.
  induction w as [|c w IH]; [contradiction|].
  inversion Hall as [|? ? Hc Hw]; subst.
  pose proof (class_char_type _ _ _ _ Hc) as Ect.
  change ((c :: w) ++ s) with (c :: (w ++ s)). rewrite runs_cons, Ect.
  destruct w as [|c' w].
  - cbn [app]. destruct (runs d g s) as [|(ty', w') l]; cbn; reflexivity.
  - assert (Hng : ty <> TGrammar) by (intros E; apply Hg in E; discriminate).
    rewrite (IH ltac:(discriminate) Hw ltac:(congruence)).
    pose proof (proj2 (ttype_eqb_neq ty TGrammar) Hng) as En.
    destruct (runs d g s) as [|(ty', w') l]; cbn.
    + rewrite (proj2 (ttype_eqb_eq ty ty) eq_refl), En; reflexivity.
    + destruct (ttype_eqb ty ty') eqn:E; rewrite En; cbn;
        rewrite (proj2 (ttype_eqb_eq ty ty) eq_refl), ?En; reflexivity.
Qed.

Lemma segmentation_runs d g l : Forall (good_segment d g) l -> maximal l ->
  runs d g (List.concat (map snd l)) = l.
Proof.
  induction l as [|(ty, w) l IH]; intros Hg Hm; [reflexivity|].
  inversion Hg as [|? ? H1 H2]; subst. cbn [map snd List.concat].
  rewrite (runs_block _ _ _ _ _ H1).
  assert (Hm' : maximal l) by (inversion Hm; subst; [constructor | assumption]).
  rewrite (IH H2 Hm').
  destruct l as [|(ty', w') l]; [reflexivity|].
  inversion Hm as [| |x y l0 Hd Hm0]; subst. cbn in Hd.
  destruct (ttype_eqb ty ty') eqn:E; cbn; [|reflexivity].
  apply ttype_eqb_eq in E; destruct Hd as [Hd|Hd]; [contradiction|].
  rewrite Hd; reflexivity.
Qed.

Lemma segmentation_unique d g s l : segmentation d g s l -> l = runs d g s.
Proof. intros (Hc & Hg & Hm); subst; symmetry; apply segmentation_runs; assumption. Qed.

(** ** Consequences for [tokenise] *)

Lemma tokenise_Ok d s g ts : tokenise d s g = Ok ts ->
  s <> [] /\ g <> [] /\ ts = decorate d 0 0 0 (runs d g s).
Proof.
  intros H. destruct g as [|g0 g].
  { cbn in H; discriminate. }
  destruct s as [|c s]; [cbn in H; discriminate|].
  rewrite tokenise_runs in H by discriminate.
  injection H as <-; repeat split; discriminate.
Qed.

Lemma tokenise_segmentation d s g ts : tokenise d s g = Ok ts ->
  segmentation d g s (map seg_of ts) /\ positions d 0 0 0 ts.
Proof.
  intros H; apply tokenise_Ok in H; destruct H as (_ & _ & ->).
  rewrite decorate_seg; split; [apply runs_segmentation | apply decorate_positions].
Qed.

Lemma tokenise_unique d s g ts l : tokenise d s g = Ok ts -> segmentation d g s l -> l = map seg_of ts.
Proof.
  intros H Hl; apply tokenise_Ok in H; destruct H as (_ & _ & ->).
  rewrite decorate_seg; apply segmentation_unique; exact Hl.
Qed.

Lemma tokenise_of_segments d g l : l <> [] -> g <> [] -> Forall (good_segment d g) l -> maximal l ->
  tokenise d (List.concat (map snd l)) g = Ok (decorate d 0 0 0 l).
Proof.
  intros Hne Hg Hgood Hmax.
  rewrite tokenise_runs; [rewrite segmentation_runs by assumption; reflexivity | | exact Hg].
  destruct l as [|(ty, w) l]; [contradiction|].
  inversion Hgood as [|? ? (H1 & _) _]; subst; cbn in *. destruct w; [contradiction | discriminate].
Qed.

Lemma tokenise_errors d s g :
  (g = [] -> tokenise d s g = Err NoGrammar) /\
  (g <> [] -> s = [] -> tokenise d s g = Err EmptyString) /\
  (g <> [] -> s <> [] -> exists ts, tokenise d s g = Ok ts).
Proof.
  split; [intros ->; reflexivity|]. split.
  - intros Hg ->; destruct g; [contradiction | reflexivity].
  - intros Hg Hs; rewrite tokenise_runs by assumption; eauto.
Qed.

Lemma runs_count d g s : List.length (runs d g s) <= List.length s.
Proof.
  induction s as [|c s IH]; [apply le_n|]. cbn [runs].
  destruct (runs d g s) as [|(ty, w) l]; [cbn; lia|]. destruct (_ && _); cbn in *; lia.
Qed.

Lemma runs_nonempty d g s : s <> [] -> runs d g s <> [].
Proof.
  destruct s as [|c s]; [congruence|]. intros _; cbn.
  destruct (runs d g s) as [|(ty, w) l]; [discriminate|]. destruct (_ && _); discriminate.
Qed.

Lemma decorate_length d l b c gr : List.length (decorate d b c gr l) = List.length l.
Proof. revert b c gr; induction l as [|(ty, w) l IH]; intros; cbn; [reflexivity | rewrite IH; reflexivity]. Qed.

Lemma tokenise_count d s g ts : tokenise d s g = Ok ts -> 1 <= List.length ts <= List.length s.
Proof.
  intros H; apply tokenise_Ok in H; destruct H as (Hs & _ & ->).
  rewrite decorate_length; split; [|apply runs_count].
  pose proof (runs_nonempty d g s Hs) as Hr; destruct (runs d g s); [contradiction | cbn; lia].
Qed.

(** After the end has been reached every further call returns [None] and changes nothing. *)
Fixpoint next_many (d : icu) (n : nat) (l : lexer) : list (option token) :=
  match n with
  | O => []
  | S n' => let (o, l') := lexer_next d l in o :: next_many d n' l'
  end.

Lemma next_none d l l' : lexer_next d l = (None, l') -> l' = l /\ lx_end_reached l = true.
Proof.
  unfold lexer_next; destruct (lx_end_reached l); intros H.
  - injection H as <-; split; reflexivity.
  - destruct (lexer_loop d (lx_iter l) l); discriminate.
Qed.

Lemma next_fused d l l' n : lexer_next d l = (None, l') -> next_many d n l' = repeat None n.
Proof.
  intros H; pose proof (next_none _ _ _ H) as (-> & He).
  induction n as [|n IH]; [reflexivity|]. cbn. unfold lexer_next at 1. rewrite He, IH; reflexivity.
Qed.

(** The calls of [next] on a fresh lexer: the tokens in order, then [None] for ever. *)
Lemma collect_many d : forall fuel l ts, lexer_collect d fuel l = Ok ts ->
  forall n, next_many d (List.length ts + n) l = map Some ts ++ repeat None n.
Proof.
  induction fuel as [|fuel IH]; intros l ts H n; [discriminate|].
  cbn [lexer_collect] in H. destruct (lexer_next d l) as ([t|], l') eqn:E.
  - apply bind_Ok in H; destruct H as (ts' & H1 & H2); injection H2 as <-.
    cbn [List.length Nat.add next_many map app]. rewrite E, (IH _ _ H1); reflexivity.
  - injection H as <-. cbn [List.length Nat.add map app].
    destruct n as [|n]; [reflexivity|]. cbn [next_many]. rewrite E, (next_fused _ _ _ _ E); reflexivity.
Qed.

Lemma tokenise_next_many d s g ts : tokenise d s g = Ok ts ->
  exists l, lexer_try_new d s g = Ok l /\
    forall n, next_many d (List.length ts + n) l = map Some ts ++ repeat None n.
Proof.
  unfold tokenise; intros H; apply bind_Ok in H; destruct H as (l & H1 & H2).
  exists l; split; [exact H1|]. exact (collect_many _ _ _ _ H2).
Qed.

(** Grapheme positions are sums of earlier grapheme lengths. *)
Lemma positions_grapheme d ts : forall b c gr, positions d b c gr ts ->
  forall i t, nth_error ts i = Some t ->
  t_start_grapheme t = gr + sum (map t_length_graphemes (firstn i ts)) /\
  t_start_byte t = b + sum (map t_length_bytes (firstn i ts)) /\
  t_start_character t = c + sum (map t_length_characters (firstn i ts)).
Proof.
  induction ts as [|t0 ts IH]; intros b c gr H i t Hi; [destruct i; discriminate|].
  destruct H as (H1 & H2 & H3 & H4 & H5 & H6 & H7 & H8).
  destruct i as [|i]; cbn in Hi.
  - injection Hi as <-; cbn; lia.
  - specialize (IH _ _ _ H8 _ _ Hi). destruct IH as (I1 & I2 & I3). cbn [firstn map sum fold_right].
    fold (sum (map t_length_graphemes (firstn i ts))).
    fold (sum (map t_length_bytes (firstn i ts))).
    fold (sum (map t_length_characters (firstn i ts))).
    rewrite H4, H5, H6. lia.
Qed.

Lemma positions_total_graphemes d ts : forall b c gr, positions d b c gr ts ->
  sum (map t_length_graphemes ts) = sum (map (fun t => breaks d (t_string t) - 1) ts).
Proof.
  induction ts as [|t0 ts IH]; intros b c gr H; [reflexivity|].
  destruct H as (H1 & H2 & H3 & H4 & H5 & H6 & H7 & H8).
  cbn. fold (sum (map t_length_graphemes ts)). rewrite H6, (IH _ _ _ H8). reflexivity.
Qed.

Lemma positions_last_end d ts : forall b c gr, positions d b c gr ts -> ts <> [] ->
  exists t, last_opt ts = Some t /\ t_end_byte t = b + blen (List.concat (map t_string ts)).
Proof.
  induction ts as [|t0 ts IH]; intros b c gr H Hne; [contradiction|].
  destruct H as (H1 & H2 & H3 & H4 & H5 & H6 & H7 & H8).
  cbn [map List.concat]. rewrite blen_app.
  destruct ts as [|t1 ts].
  - exists t0; split; [reflexivity|]. cbn. lia.
  - destruct (IH _ _ _ H8 ltac:(discriminate)) as (t & Ht & He).
    exists t; split; [|rewrite He; lia].
    unfold last_opt in *; cbn [List.length] in *.
    replace (S (S (List.length ts)) - 1) with (S (S (List.length ts) - 1)) by lia. exact Ht.
Qed.

(** Neighbouring tokens are contiguous. *)
Lemma positions_contiguous d ts : forall b c gr, positions d b c gr ts ->
  forall i t t', nth_error ts i = Some t -> nth_error ts (S i) = Some t' ->
  t_start_byte t' = t_end_byte t /\
  t_start_byte t' = t_start_byte t + t_length_bytes t /\
  t_start_character t' = t_start_character t + t_length_characters t.
Proof.
  induction ts as [|t0 ts IH]; intros b c gr H i t t' Hi Hi'; [destruct i; discriminate|].
  destruct H as (H1 & H2 & H3 & H4 & H5 & H6 & H7 & H8).
  destruct i as [|i]; cbn in Hi, Hi'.
  - injection Hi as <-. destruct ts as [|t1 ts]; [discriminate|]. injection Hi' as <-.
    destruct H8 as (K1 & K2 & _). lia.
  - exact (IH _ _ _ H8 _ _ _ Hi Hi').
Qed.
