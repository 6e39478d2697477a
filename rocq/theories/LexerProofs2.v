(** Statements about the lexer in the form used by [PropertiesLexer]. *)
From Verif Require Import Base BaseFacts LexerModel LexerSpec LexerProofs.

Lemma positions_own d ts : forall b c gr, positions d b c gr ts -> forall t, In t ts ->
  t_length_bytes t = blen (t_string t) /\ t_length_characters t = List.length (t_string t) /\
  t_end_byte t = t_start_byte t + t_length_bytes t.
Proof.
  induction ts as [|t0 ts IH]; intros b c gr H t Ht; [contradiction|].
  destruct H as (H1 & H2 & H3 & H4 & H5 & H6 & H7 & H8).
  destruct Ht as [->|Ht]; [lia | exact (IH _ _ _ H8 _ Ht)].
Qed.

Lemma seg_strings ts : map snd (map seg_of ts) = map t_string ts.
Proof. rewrite map_map; reflexivity. Qed.

Lemma lossless : forall d s g ts, tokenise d s g = Ok ts ->
  List.concat (map t_string ts) = s /\
  (forall t, nth_error ts 0 = Some t -> t_start_byte t = 0 /\ t_start_character t = 0) /\
  (forall i t t', nth_error ts i = Some t -> nth_error ts (S i) = Some t' ->
     t_start_byte t' = t_end_byte t /\
     t_start_byte t' = t_start_byte t + t_length_bytes t /\
     t_start_character t' = t_start_character t + t_length_characters t) /\
  (forall t, In t ts -> t_length_bytes t = blen (t_string t) /\
     t_length_characters t = List.length (t_string t) /\
     t_end_byte t = t_start_byte t + t_length_bytes t) /\
  exists t, last_opt ts = Some t /\ t_end_byte t = blen s.
Proof.
  intros d s g ts H. pose proof (tokenise_segmentation _ _ _ _ H) as ((Hc & _) & Hp).
  rewrite seg_strings in Hc. split; [exact Hc|]. split.
  { intros t Ht; destruct ts as [|t0 ts]; [discriminate|]. injection Ht as ->.
    destruct Hp as (H1 & H2 & _); split; assumption. }
  split; [exact (positions_contiguous _ _ _ _ _ Hp)|].
  split; [exact (positions_own _ _ _ _ _ Hp)|].
  destruct (positions_last_end _ _ _ _ _ Hp) as (t & Ht & He).
  { intros ->; pose proof (tokenise_count _ _ _ _ H) as Hl; cbn in Hl; lia. }
  exists t; split; [exact Ht|]. rewrite He, Hc; reflexivity.
Qed.

Lemma homogeneous : forall d s g ts t, tokenise d s g = Ok ts -> In t ts ->
  t_string t <> [] /\
  Forall (fun c => class_of d g c (t_type t)) (t_string t) /\
  (t_type t = TGrammar -> exists c, t_string t = [c] /\ In c g).
Proof.
  intros d s g ts t H Ht. pose proof (tokenise_segmentation _ _ _ _ H) as ((_ & Hg & _) & _).
  rewrite Forall_forall in Hg. specialize (Hg (seg_of t) (in_map _ _ _ Ht)).
  destruct Hg as (H1 & H2 & H3); cbn in *. split; [exact H1|]. split; [exact H2|].
  intros E; specialize (H3 E). destruct (t_string t) as [|c [|c' r]]; try discriminate.
  exists c; split; [reflexivity|]. inversion H2 as [|? ? Hc _]; subst. rewrite E in Hc.
  inversion Hc; assumption.
Qed.

Lemma class_functional : forall d g c,
  exists ty, class_of d g c ty /\ forall ty', class_of d g c ty' -> ty' = ty.
Proof.
  intros d g c; exists (char_type d g c); split; [apply char_type_class|].
  intros ty' H; exact (class_unique _ _ _ _ _ H (char_type_class d g c)).
Qed.

Lemma unique_segmentation : forall d s g ts, tokenise d s g = Ok ts ->
  segmentation d g s (map seg_of ts) /\
  forall l, segmentation d g s l -> l = map seg_of ts.
Proof.
  intros d s g ts H; split; [exact (proj1 (tokenise_segmentation _ _ _ _ H))|].
  intros l Hl; exact (tokenise_unique _ _ _ _ _ H Hl).
Qed.

Lemma retokenise : forall d g l, l <> [] -> g <> [] -> Forall (good_segment d g) l -> maximal l ->
  exists ts, tokenise d (List.concat (map snd l)) g = Ok ts /\ map seg_of ts = l.
Proof.
  intros d g l H1 H2 H3 H4; eexists; split; [exact (tokenise_of_segments _ _ _ H1 H2 H3 H4)|].
  apply decorate_seg.
Qed.

Lemma grapheme_positions : forall d s g ts i t, tokenise d s g = Ok ts -> nth_error ts i = Some t ->
  t_start_grapheme t = sum (map t_length_graphemes (firstn i ts)).
Proof.
  intros d s g ts i t H Hi.
  exact (proj1 (positions_grapheme _ _ _ _ _ (proj2 (tokenise_segmentation _ _ _ _ H)) _ _ Hi)).
Qed.

Lemma total_additive d ts : ts <> [] ->
  (forall a t b, ts = a ++ t :: b -> b <> [] ->
     breaks d (List.concat (map t_string (t :: b))) - 1 =
     (breaks d (t_string t) - 1) + (breaks d (List.concat (map t_string b)) - 1)) ->
  sum (map (fun t => breaks d (t_string t) - 1) ts) = breaks d (List.concat (map t_string ts)) - 1.
Proof.
  induction ts as [|t ts IH]; intros Hne H; [contradiction|].
  destruct ts as [|t1 ts].
  - cbn. rewrite app_nil_r; lia.
  - rewrite (H [] t (t1 :: ts) eq_refl ltac:(discriminate)).
    rewrite <- IH; [reflexivity | discriminate|].
    intros a t' b E; apply (H (t :: a)); rewrite E; reflexivity.
Qed.

Lemma total_graphemes : forall d s g ts, tokenise d s g = Ok ts ->
  (forall a t b, ts = a ++ t :: b -> b <> [] ->
     breaks d (List.concat (map t_string (t :: b))) - 1 =
     (breaks d (t_string t) - 1) + (breaks d (List.concat (map t_string b)) - 1)) ->
  sum (map t_length_graphemes ts) = breaks d s - 1.
Proof.
  intros d s g ts H Ha. pose proof (tokenise_segmentation _ _ _ _ H) as ((Hc & _) & Hp).
  rewrite seg_strings in Hc. rewrite (positions_total_graphemes _ _ _ _ _ Hp), (total_additive _ _ ) by
    (exact Ha || (intros ->; pose proof (tokenise_count _ _ _ _ H) as Hl; cbn in Hl; lia)).
  rewrite Hc; reflexivity.
Qed.

Lemma construction : forall d s g,
  (lexer_try_new d s g = Err NoGrammar <-> g = []) /\
  (lexer_try_new d s g = Err EmptyString <-> g <> [] /\ s = []) /\
  ((exists l, lexer_try_new d s g = Ok l) <-> g <> [] /\ s <> []).
Proof.
  intros d s g.
  assert (Hok : forall (c : uchar) r (g0 : uchar) g', exists l, lexer_try_new d (c :: r) (g0 :: g') = Ok l)
    by (intros; eexists; reflexivity).
  destruct g as [|g0 g].
  { cbn. split; [tauto|]. split; [split; [discriminate | intros (H & _); congruence]|].
    split; [intros (l & H); discriminate | intros (H & _); congruence]. }
  destruct s as [|c s].
  { cbn. split; [split; [discriminate | discriminate]|].
    split; [split; [intros _; split; [discriminate | reflexivity] | reflexivity]|].
    split; [intros (l & H); discriminate | intros (_ & H); congruence]. }
  pose proof (Hok c s g0 g) as Hl. destruct Hl as (l & Hl); rewrite Hl.
  split; [split; discriminate|]. split; [split; [discriminate | intros (_ & H); discriminate]|].
  split; [intros _; split; discriminate | intros _; eauto].
Qed.

Lemma iteration : forall d s g l, lexer_try_new d s g = Ok l ->
  exists ts, tokenise d s g = Ok ts /\ 1 <= List.length ts <= List.length s /\
  forall n, next_many d (List.length ts + n) l = map Some ts ++ repeat None n.
Proof.
  intros d s g l H. pose proof (proj1 (proj2 (proj2 (construction d s g))) (ex_intro _ l H)) as (Hg & Hs).
  destruct (proj2 (proj2 (tokenise_errors d s g)) Hg Hs) as (ts & Ht).
  exists ts; split; [exact Ht|]. split; [exact (tokenise_count _ _ _ _ Ht)|].
  destruct (tokenise_next_many _ _ _ _ Ht) as (l' & Hl' & Hn).
  rewrite H in Hl'; injection Hl' as <-; exact Hn.
Qed.
