(** Proofs for C89. *)
From Verif Require Import Base BaseFacts LexerModel LexerSpec LexerProofs LexerProofs2 TokenSpec.

Lemma decorate_app d l l' : forall b c gr,
  decorate d b c gr (l ++ l') = decorate d b c gr l ++
    decorate d (b + blen (List.concat (map snd l))) (c + List.length (List.concat (map snd l)))
      (gr + sum (map (fun x => breaks d (snd x) - 1) l)) l'.
Proof.
  induction l as [|(ty, w) l IH]; intros b c gr; cbn [app map List.concat decorate].
  - cbn. rewrite !Nat.add_0_r. reflexivity.
  - rewrite IH. cbn [snd sum fold_right]. unfold sum. rewrite blen_app, app_length, !Nat.add_assoc. reflexivity.
Qed.

Lemma decorate_graphemes d l b c gr :
  map t_length_graphemes (decorate d b c gr l) = map (fun x => breaks d (snd x) - 1) l.
Proof. revert b c gr; induction l as [|(ty, w) l IH]; intros; cbn; [reflexivity | rewrite IH; reflexivity]. Qed.

Lemma decorate_moved d l : forall b c gr b' c' gr',
  decorate d (b + b') (c + c') (gr + gr') l = map (moved b c gr) (decorate d b' c' gr' l).
Proof.
  induction l as [|(ty, w) l IH]; intros; cbn; [reflexivity|].
  rewrite <- !Nat.add_assoc, IH. reflexivity.
Qed.

Lemma maximal_app l x y r : maximal (l ++ [x]) -> maximal (y :: r) -> (fst x <> fst y \/ fst x = TGrammar) ->
  maximal (l ++ x :: y :: r).
Proof.
  intros Hl Hr Hd. induction l as [|z l IH]; cbn in *; [constructor; assumption|].
  destruct l as [|z' l]; cbn in *.
  - inversion Hl; subst. constructor; [assumption|]. constructor; assumption.
  - inversion Hl; subst. constructor; [assumption | apply IH; assumption].
Qed.

Lemma maximal_same x y l : fst x = fst y -> forall a, maximal (a ++ x :: l) -> maximal (a ++ y :: l).
Proof.
  intros E. induction a as [|z a IH]; cbn; intros H.
  - exact (maximal_hd x y l E H).
  - destruct a as [|z' a]; cbn in *; inversion H; subst; constructor; try assumption.
    + rewrite <- E; assumption.
    + apply IH; assumption.
    + apply IH; assumption.
Qed.

Lemma list_last {A} (l : list A) : l <> [] -> exists a x, l = a ++ [x].
Proof. intros H; destruct (exists_last H) as (a & x & E); eauto. Qed.

Lemma last_class d g ty w : good_segment d g (ty, w) -> exists w' c, w = w' ++ [c] /\ class_of d g c ty.
Proof.
  intros (Hne & Hall & _); cbn in *. destruct (list_last w Hne) as (w' & c & ->).
  exists w', c; split; [reflexivity|]. apply Forall_app in Hall. destruct Hall as (_ & H). inversion H; assumption.
Qed.

Lemma first_class d g ty w : good_segment d g (ty, w) -> exists c w', w = c :: w' /\ class_of d g c ty.
Proof.
  intros (Hne & Hall & _); cbn in *. destruct w as [|c w]; [contradiction|].
  exists c, w; split; [reflexivity|]. inversion Hall; assumption.
Qed.

Lemma concat_last (a : list segment) (x : segment) :
  List.concat (map snd (a ++ [x])) = List.concat (map snd a) ++ snd x.
Proof. rewrite map_app, concat_app. cbn. rewrite app_nil_r. reflexivity. Qed.

(** Runs of a concatenation. *)
Lemma runs_apart d g s t : s <> [] -> t <> [] -> apart d g s t -> runs d g (s ++ t) = runs d g s ++ runs d g t.
Proof.
  intros Hs Ht Ha. symmetry. apply segmentation_unique.
  destruct (runs_segmentation d g s) as (S1 & S2 & S3). destruct (runs_segmentation d g t) as (T1 & T2 & T3).
  split; [rewrite map_app, concat_app; exact (f_equal2 (@app N) S1 T1)|]. split; [apply Forall_app; auto|].
  destruct (list_last _ (runs_nonempty d g s Hs)) as (a & x & Ea).
  destruct (runs d g t) as [|y r] eqn:Et; [exfalso; exact (runs_nonempty d g t Ht Et)|].
  rewrite Ea in *. rewrite <- app_assoc. cbn [app]. apply maximal_app; try assumption.
  destruct x as (tx, wx), y as (ty, wy); cbn [fst].
  apply Forall_app in S2. destruct S2 as (_ & Hx). inversion Hx as [|? ? Hx' _]; subst.
  inversion T2 as [|? ? Hy _]; subst.
  destruct (last_class _ _ _ _ Hx') as (w1 & c1 & -> & C1).
  destruct (first_class _ _ _ _ Hy) as (c2 & w2 & -> & C2).
  rewrite concat_last in *; cbn [snd] in *.
  destruct (Ha (List.concat (map snd a) ++ w1) c1 c2 (w2 ++ List.concat (map snd r))) as (u & v & U & V & D).
  - rewrite app_assoc; reflexivity.
  - reflexivity.
  - rewrite (class_unique _ _ _ _ _ C1 U), (class_unique _ _ _ _ _ C2 V). exact D.
Qed.

Lemma runs_merge d g s t a tx wx ty wy r : runs d g s = a ++ [(tx, wx)] -> runs d g t = (ty, wy) :: r ->
  ~ (tx <> ty \/ tx = TGrammar) -> runs d g (s ++ t) = a ++ (tx, wx ++ wy) :: r.
Proof.
  intros Es Et Hn. symmetry. apply segmentation_unique.
  destruct (runs_segmentation d g s) as (S1 & S2 & S3). destruct (runs_segmentation d g t) as (T1 & T2 & T3).
  rewrite Es in *; rewrite Et in *.
  assert (Hng : tx <> TGrammar) by tauto.
  assert (E : tx = ty). { destruct (ttype_eqb tx ty) eqn:E; [apply ttype_eqb_eq; exact E | apply ttype_eqb_neq in E; tauto]. }
  subst ty.
  split; [|split].
  - rewrite <- S1, <- T1, concat_last. rewrite map_app, concat_app. cbn. rewrite !app_assoc. reflexivity.
  - apply Forall_app in S2. destruct S2 as (Ha & Hx). inversion Hx as [|? ? (X1 & X2 & X3) _]; subst.
    inversion T2 as [|? ? (Y1 & Y2 & Y3) Hr]; subst. cbn [fst snd] in *.
    apply Forall_app; split; [assumption|]. constructor; [|assumption]. split; [|split]; cbn [fst snd].
    + destruct wx; [contradiction | discriminate].
    + apply Forall_app; auto.
    + intros; contradiction.
  - clear S1 S2 T1 T2. destruct r as [|z r].
    + apply (maximal_same (tx, wx)); [reflexivity | exact S3].
    + inversion T3; subst. apply maximal_app; [|assumption|assumption].
      apply (maximal_same (tx, wx)); [reflexivity | exact S3].
Qed.

Lemma app_nonnil {A} (s t : list A) : s <> [] -> s ++ t <> [].
Proof. destruct s; [contradiction | discriminate]. Qed.

Lemma concat_tokens d s t g ts us : tokenise d s g = Ok ts -> tokenise d t g = Ok us -> apart d g s t ->
  tokenise d (s ++ t) g =
    Ok (ts ++ map (moved (blen s) (List.length s) (sum (map t_length_graphemes ts))) us).
Proof.
  intros Hs Ht Ha. apply tokenise_Ok in Hs; apply tokenise_Ok in Ht.
  destruct Hs as (Ns & Ng & ->), Ht as (Nt & _ & ->).
  rewrite tokenise_runs; [|apply app_nonnil; assumption|assumption].
  rewrite runs_apart by assumption. rewrite decorate_app, runs_concat, decorate_graphemes.
  rewrite <- decorate_moved, !Nat.add_0_r, !Nat.add_0_l. reflexivity.
Qed.

Lemma moved_list d l : forall b c gr b' c' gr',
  Forall2 (moved_to b c) (decorate d b' c' gr' l) (decorate d (b + b') (c + c') gr l) /\
  map t_start_grapheme (decorate d (b + b') (c + c') gr l) =
  map (fun t => gr + (t_start_grapheme t - gr')) (decorate d b' c' gr' l).
Proof.
  assert (H : forall b c gr b' c' gr' z, Forall2 (moved_to b c) (decorate d b' c' (gr' + z) l) (decorate d (b + b') (c + c') (gr + z) l) /\
    map t_start_grapheme (decorate d (b + b') (c + c') (gr + z) l) =
    map (fun t => gr + (t_start_grapheme t - gr')) (decorate d b' c' (gr' + z) l)).
  { induction l as [|(ty, w) l IH]; intros; cbn; [split; constructor|].
    rewrite <- !Nat.add_assoc. destruct (IH b c gr (b' + blen w) (c' + List.length w) gr' (z + (breaks d w - 1))) as (I1 & I2).
    split.
    - constructor; [|exact I1]. eexists; reflexivity.
    - rewrite I2. f_equal. lia. }
  intros. specialize (H b c gr b' c' gr' 0). rewrite !Nat.add_0_r in H. exact H.
Qed.

Lemma merge_tokens d s t g a x y b : tokenise d s g = Ok (a ++ [x]) -> tokenise d t g = Ok (y :: b) -> ~ apart d g s t ->
  exists z b', tokenise d (s ++ t) g = Ok (a ++ z :: b') /\
    t_type z = t_type x /\ t_type z = t_type y /\ t_string z = t_string x ++ t_string y /\
    t_start_byte z = t_start_byte x /\ t_start_character z = t_start_character x /\
    t_start_grapheme z = t_start_grapheme x /\
    Forall2 (moved_to (blen s) (List.length s)) b b'.
Proof.
  intros Hs Ht Ha. apply tokenise_Ok in Hs; apply tokenise_Ok in Ht.
  destruct Hs as (Ns & Ng & Es), Ht as (Nt & _ & Et).
  destruct (list_last _ (runs_nonempty d g s Ns)) as (l & (tx, wx) & El).
  destruct (runs d g t) as [|(ty, wy) r] eqn:Er; [exfalso; exact (runs_nonempty d g t Nt Er)|].
  rewrite El in Es. rewrite decorate_app in Es. cbn [decorate] in Es. cbn [decorate] in Et.
  apply app_inj_tail in Es. destruct Es as (-> & ->). injection Et as -> ->.
  assert (Hn : ~ (tx <> ty \/ tx = TGrammar)).
  { intros D. apply Ha. intros s' u v t' -> ->.
    pose proof (runs_segmentation d g (s' ++ [u])) as (S1 & S2 & _).
    pose proof (runs_segmentation d g (v :: t')) as (T1 & T2 & _).
    rewrite El in *; rewrite Er in *.
    apply Forall_app in S2. destruct S2 as (_ & Hx). inversion Hx as [|? ? Hx' _]; subst.
    inversion T2 as [|? ? Hy _]; subst.
    destruct (last_class _ _ _ _ Hx') as (w1 & c1 & -> & C1).
    destruct (first_class _ _ _ _ Hy) as (c2 & w2 & -> & C2).
    rewrite concat_last in S1; cbn [snd] in S1. rewrite app_assoc in S1. apply app_inj_tail in S1.
    destruct S1 as (_ & ->). cbn in T1. injection T1 as -> _. exists tx, ty; auto. }
  pose proof (runs_merge _ _ _ _ _ _ _ _ _ _ El Er Hn) as Em.
  assert (E : tx = ty). { destruct (ttype_eqb tx ty) eqn:E; [apply ttype_eqb_eq; exact E | apply ttype_eqb_neq in E; tauto]. }
  eexists _, _. split.
  { rewrite tokenise_runs; [|apply app_nonnil; assumption|assumption]. rewrite Em, decorate_app. cbn [decorate]. reflexivity. }
  cbn [t_type t_string t_start_byte t_start_character t_start_grapheme]. repeat (split; [first [reflexivity | assumption]|]).
  assert (Es : s = List.concat (map snd l) ++ wx).
  { rewrite <- (runs_concat d g s), El, concat_last. reflexivity. }
  rewrite Es, !blen_app, !app_length, !Nat.add_0_l.
  match goal with |- Forall2 _ (decorate _ ?b' ?c' ?g' _) (decorate _ ?b2 ?c2 ?g2 _) =>
    replace b2 with (blen (List.concat (map snd l)) + blen wx + b') by lia;
    replace c2 with (List.length (List.concat (map snd l)) + List.length wx + c') by lia
  end.
  apply moved_list.
Qed.

Lemma apart_dec d g s t : apart d g s t \/ ~ apart d g s t.
Proof.
  destruct s as [|s0 s1].
  { left. intros s' x y t' E. symmetry in E. apply app_eq_nil in E. destruct E; discriminate. }
  destruct (list_last (s0 :: s1) ltac:(discriminate)) as (p & x & Ep). rewrite Ep.
  destruct t as [|y t]; [left; intros s' u v t' _ E; discriminate|].
  destruct (ttype_eqb (char_type d g x) (char_type d g y) && negb (ttype_eqb (char_type d g x) TGrammar)) eqn:D.
  - right. intros H. destruct (H p x y t eq_refl eq_refl) as (a & b & A & B & C).
    apply class_char_type in A; apply class_char_type in B. subst.
    apply andb_true_iff in D. destruct D as (D1 & D2). apply ttype_eqb_eq in D1. rewrite D1 in C.
    apply negb_true_iff, ttype_eqb_neq in D2. rewrite D1 in D2. tauto.
  - left. intros s' u v t' E1 E2. apply app_inj_tail in E1. destruct E1 as (_ & <-). injection E2 as <- _.
    exists (char_type d g x), (char_type d g y). split; [apply char_type_class|]. split; [apply char_type_class|].
    apply andb_false_iff in D. destruct D as [D|D].
    + left. apply ttype_eqb_neq; exact D.
    + right. apply negb_false_iff, ttype_eqb_eq in D. exact D.
Qed.

Lemma prefix_tokens d s t g ts : tokenise d s g = Ok ts ->
  exists a x z b w, ts = a ++ [x] /\ tokenise d (s ++ t) g = Ok (a ++ z :: b) /\
    t_type z = t_type x /\ t_string z = t_string x ++ w /\ t_start_byte z = t_start_byte x /\
    t_start_character z = t_start_character x /\ t_start_grapheme z = t_start_grapheme x.
Proof.
  intros H.
  assert (Hne : ts <> []). { pose proof (tokenise_count _ _ _ _ H). destruct ts; [cbn in *; lia | discriminate]. }
  destruct (list_last ts Hne) as (a & x & ->).
  destruct t as [|t0 t1].
  { exists a, x, x, [], []. rewrite !app_nil_r. repeat split; assumption. }
  pose proof (tokenise_Ok _ _ _ _ H) as (Ns & Ng & _).
  pose proof (tokenise_runs d (t0 :: t1) g ltac:(discriminate) Ng) as Ht.
  set (us := decorate d 0 0 0 (runs d g (t0 :: t1))) in *.
  destruct (apart_dec d g s (t0 :: t1)) as [Ha|Ha].
  - rewrite (concat_tokens _ _ _ _ _ _ H Ht Ha). rewrite <- app_assoc. cbn [app].
    exists a, x, x. eexists; exists []. rewrite app_nil_r. repeat split.
  - destruct us as [|y b] eqn:Eu.
    { pose proof (tokenise_count _ _ _ _ Ht). cbn in *; lia. }
    destruct (merge_tokens _ _ _ _ _ _ _ _ H Ht Ha) as (z & b' & E & T1 & _ & S1 & B & C & G & _).
    exists a, x, z, b', (t_string y). repeat split; assumption.
Qed.

(** What tokens depend on. *)
Lemma runs_grammar d s g g' : same_grammar d s g g' -> runs d g s = runs d g' s.
Proof.
  induction s as [|c s IH]; intros H; [reflexivity|].
  rewrite !runs_cons, IH; [|intros x Hx; apply H; right; exact Hx].
  f_equal. unfold char_type. destruct (white_space d c) eqn:W; [reflexivity|]. destruct (syntax d c) eqn:Y; [|reflexivity].
  specialize (H c (or_introl eq_refl) W Y).
  destruct (char_mem c g) eqn:M, (char_mem c g') eqn:M'; try reflexivity; exfalso.
  - apply char_mem_In, H, char_mem_In in M. congruence.
  - apply char_mem_In, H, char_mem_In in M'. congruence.
Qed.

Lemma grammar_tokens d s g g' : g <> [] -> g' <> [] -> same_grammar d s g g' -> tokenise d s g = tokenise d s g'.
Proof.
  intros Hg Hg' H. destruct s as [|c s].
  - destruct g, g'; try contradiction; reflexivity.
  - rewrite !tokenise_runs by (try discriminate; assumption). rewrite (runs_grammar _ _ _ _ H). reflexivity.
Qed.

Lemma runs_data d d' g s : (forall c, In c s -> white_space d c = white_space d' c /\ syntax d c = syntax d' c) ->
  runs d g s = runs d' g s.
Proof.
  induction s as [|c s IH]; intros H; [reflexivity|].
  rewrite !runs_cons, IH; [|intros x Hx; apply H; right; exact Hx].
  f_equal. unfold char_type. destruct (H c (or_introl eq_refl)) as (-> & ->). reflexivity.
Qed.

Lemma decorate_data d d' l : (forall x, In x l -> breaks d (snd x) = breaks d' (snd x)) ->
  forall b c gr, decorate d b c gr l = decorate d' b c gr l.
Proof.
  induction l as [|(ty, w) l IH]; intros H b c gr; [reflexivity|].
  cbn [decorate]. pose proof (H (ty, w) (or_introl eq_refl)) as E; cbn [snd] in E. rewrite <- E.
  rewrite IH; [reflexivity | intros x Hx; apply H; right; exact Hx].
Qed.

Lemma data_tokens d d' s g : same_data d d' s -> tokenise d s g = tokenise d' s g.
Proof.
  intros (H1 & H2). destruct g as [|g0 g]; [reflexivity|]. destruct s as [|c s]; [reflexivity|].
  rewrite !tokenise_runs by discriminate. rewrite <- (runs_data d d') by assumption.
  rewrite (decorate_data d d'); [reflexivity|].
  intros x Hx. apply in_split in Hx. destruct Hx as (l1 & l2 & E).
  apply (H2 (List.concat (map snd l1)) (snd x) (List.concat (map snd l2))).
  rewrite <- (runs_concat d (g0 :: g) (c :: s)), E, map_app, concat_app. reflexivity.
Qed.

Lemma Forall2_len {A B} (R : A -> B -> Prop) l l' : Forall2 R l l' -> List.length l = List.length l'.
Proof. induction 1; cbn; congruence. Qed.

(** The tokens of a concatenation are those of its parts only if the parts are apart. *)
Lemma concat_only d s t g ts us b c gr : tokenise d s g = Ok ts -> tokenise d t g = Ok us ->
  tokenise d (s ++ t) g = Ok (ts ++ map (moved b c gr) us) -> apart d g s t.
Proof.
  intros Hs Ht Hst. destruct (apart_dec d g s t) as [Ha|Ha]; [exact Ha|exfalso].
  pose proof (tokenise_count _ _ _ _ Hs) as Ns. pose proof (tokenise_count _ _ _ _ Ht) as Nt.
  destruct (list_last ts) as (a & x & ->); [destruct ts; [cbn in Ns; lia | discriminate]|].
  destruct us as [|y r]; [cbn in Nt; lia|].
  destruct (merge_tokens _ _ _ _ _ _ _ _ Hs Ht Ha) as (z & b' & E & _ & _ & _ & _ & _ & _ & F).
  rewrite Hst in E. injection E as E. apply Forall2_len in F. apply (f_equal (@List.length _)) in E.
  rewrite !app_length in E. cbn in E. rewrite map_length in E. lia.
Qed.
