(** Every accepted string has one reading, and is documented exactly if that reading is tidy. *)
From Verif Require Import Base BaseFacts LexerModel LexerSpec LexerProofs IcuExample TreeModel TreeSpec TreeArena TreeMachine TreeProofs
  TreeProofs4 DocSpec DocProofs OnlySpec.

Local Notation rn d := (runs d l10n_grammar).
Local Opaque l10n_grammar us.

(** ** One reading *)
Lemma us_distinct : us "{" <> us "}" /\ us "{" <> us "#" /\ us "{" <> us "`" /\ us "}" <> us "#" /\ us "}" <> us "`" /\ us "#" <> us "`".
Proof. rewrite us_open, us_close, us_hash, us_back. repeat split; discriminate. Qed.

Lemma wprint_inj ws : forall ws' x x' t t', fst x <> TWhiteSpace -> fst x' <> TWhiteSpace ->
  wprint ws ++ x :: t = wprint ws' ++ x' :: t' -> ws = ws' /\ x = x' /\ t = t'.
Proof.
  induction ws as [|w ws IH]; intros [|w' ws'] x x' t t' H H'; cbn [wprint map app]; intros E.
  - injection E as -> ->. auto.
  - injection E as -> _. now destruct H.
  - injection E as <- _. now destruct H'.
  - injection E as -> E. destruct (IH ws' x x' t t' H H' E) as (-> & -> & ->). auto.
Qed.

Lemma kprint_inj l : forall l' t t', Forall kwf l -> Forall kwf l' ->
  flat_map kprint l ++ g_ (us "}") :: t = flat_map kprint l' ++ g_ (us "}") :: t' -> l = l' /\ t = t'.
Proof.
  induction l as [|k l IH]; intros [|k' l'] t t' H H' E.
  - cbn in E. injection E as ->. auto.
  - inversion H' as [|? ? Hk _]; subst. destruct k'; cbn in E, Hk; injection E; intros; try discriminate; try congruence.
  - inversion H as [|? ? Hk _]; subst. destruct k; cbn in E, Hk; injection E; intros; try discriminate; try congruence.
  - inversion H as [|? ? Hk Hl]; subst. inversion H' as [|? ? Hk' Hl']; subst.
    destruct k, k'; cbn [flat_map kprint app] in E; unfold g_ in E; try discriminate E.
    + injection E as -> E. destruct (IH _ _ _ Hl Hl' E) as (-> & ->). auto.
    + injection E as -> E. destruct (IH _ _ _ Hl Hl' E) as (-> & ->). auto.
    + injection E as -> -> -> E. destruct (IH _ _ _ Hl Hl' E) as (-> & ->). auto.
Qed.

Lemma qprint_inj l : forall l' t t',
  flat_map qprint l ++ g_ (us "}") :: t = flat_map qprint l' ++ g_ (us "}") :: t' -> l = l' /\ t = t'.
Proof.
  destruct us_distinct as (_ & _ & _ & D & _).
  induction l as [|k l IH]; intros [|k' l'] t t' E.
  - cbn in E. injection E as ->. auto.
  - destruct k'; cbn in E; injection E; intros; try discriminate; try congruence.
  - destruct k; cbn in E; injection E; intros; try discriminate; try congruence.
  - destruct k, k'; cbn [flat_map qprint app] in E; unfold g_ in E; try discriminate E.
    + injection E as -> E. destruct (IH _ _ _ E) as (-> & ->). auto.
    + injection E as -> E. destruct (IH _ _ _ E) as (-> & ->). auto.
    + injection E as E. destruct (IH _ _ _ E) as (-> & ->). auto.
Qed.

Lemma pprint_inj p p' t t' : pwf p -> pwf p' -> pprint p ++ t = pprint p' ++ t' -> p = p' /\ t = t'.
Proof.
  destruct us_distinct as (D1 & D2 & D3 & D4 & D5 & D6). intros H H' E.
  destruct p as [x|x| |id ws kw|qs], p' as [x'|x'| |id' ws' kw'|qs']; cbn [pprint app pwf] in *; unfold g_ in *;
    try (exfalso; congruence);
    try (exfalso; injection E as E1 _; rewrite E1 in H; now apply H);
    try (exfalso; injection E as E1 _; rewrite <- E1 in H'; now apply H').
  - injection E as <- <-. auto.
  - injection E as -> ->. auto.
  - injection E as ->. auto.
  - assert (G : ws = ws' /\ kw = kw' /\ t = t').
    { injection E as _ E. rewrite <- ?app_assoc in E. destruct kw as [[k l]|], kw' as [[k' l']|]; cbn [app] in E; rewrite <- ?app_assoc in E; cbn [app] in E;
        apply wprint_inj in E; try discriminate; destruct E as (-> & E1 & E2).
      - injection E1 as ->. apply kprint_inj in E2 as (-> & ->); auto.
      - discriminate.
      - discriminate.
      - auto. }
    destruct G as (-> & -> & ->). injection E as ->. auto.
  - injection E as E. rewrite <- !app_assoc in E. cbn [app] in E. apply qprint_inj in E as (-> & ->). auto.
Qed.

(** What follows the pieces is not the start of a piece. *)
Definition apart (r : list segment) (p : piece) : Prop :=
  match r, pprint p with x :: _, y :: _ => x <> y | _, _ => True end.
Lemma pieces_inj l : forall l' r r', Forall pwf l -> Forall pwf l' -> Forall (apart r') l -> Forall (apart r) l' ->
  pieces_print l ++ r = pieces_print l' ++ r' -> l = l' /\ r = r'.
Proof.
  induction l as [|p l IH]; intros [|p' l'] r r' H H' A A' E.
  - auto.
  - exfalso. inversion A' as [|? ? Ap _]; subst. cbn [pieces_print flat_map app] in E. unfold apart in Ap. subst r.
    destruct p' as [x|x| |id ws kw|qs]; cbn in Ap; now apply Ap.
  - exfalso. inversion A as [|? ? Ap _]; subst. cbn [pieces_print flat_map app] in E. unfold apart in Ap. subst r'.
    destruct p as [x|x| |id ws kw|qs]; cbn in Ap; now apply Ap.
  - inversion H; subst. inversion H'; subst. inversion A; subst. inversion A'; subst. unfold pieces_print in E. cbn [flat_map] in E.
    rewrite <- !app_assoc in E. apply pprint_inj in E as (-> & E); auto. fold (pieces_print l) (pieces_print l') in E.
    apply IH in E as (-> & ->); auto.
Qed.

Lemma apart_close r l : Forall pwf l -> Forall (apart (g_ (us "}") :: r)) l.
Proof.
  destruct us_distinct as (D1 & D2 & D3 & D4 & D5 & D6).
  intros H. eapply Forall_impl; [|exact H]. intros p Hp. unfold apart. destruct p; cbn in *; unfold g_; try congruence. intros <-. now apply Hp.
Qed.
Lemma apart_hash r l : Forall pwf l -> Forall (fun p => is_hash p = false) l -> Forall (apart (g_ (us "#") :: r)) l.
Proof.
  destruct us_distinct as (D1 & D2 & D3 & D4 & D5 & D6).
  intros H H'. rewrite Forall_forall in *. intros p Hp. specialize (H p Hp). specialize (H' p Hp). unfold apart.
  destruct p; cbn in *; unfold g_; try congruence. intros <-. now apply H.
Qed.

Lemma sub_head l : sub_ok l -> exists x t, pieces_print l = x :: t /\ fst x <> TWhiteSpace.
Proof.
  intros (_ & _ & H). destruct l as [|[[[] w]|x| |id ws kw|qs] l]; try contradiction; cbn; eexists _, _; (split; [reflexivity|discriminate]).
Qed.

Lemma gprint_inj l : forall l', Forall gwf l -> Forall gwf l' -> flat_map gprint l = flat_map gprint l' -> l = l'.
Proof.
  induction l as [|x l IH]; intros [|x' l'] H H' E.
  - reflexivity.
  - destruct x'; discriminate.
  - destruct x; discriminate.
  - inversion H as [|? ? Hx Hl]; subst. inversion H' as [|? ? Hx' Hl']; subst.
    destruct x as [w|id w ws sub], x' as [w'|id' w' ws' sub']; try discriminate; cbn [flat_map gprint app] in E.
    + injection E as -> E. now rewrite (IH _ Hl Hl' E).
    + injection E as -> -> E. rewrite <- !app_assoc in E. cbn [gwf] in Hx, Hx'.
      assert (G : ws = ws' /\ pieces_print sub ++ g_ (us "}") :: flat_map gprint l = pieces_print sub' ++ g_ (us "}") :: flat_map gprint l').
      { destruct (sub_head _ Hx) as (x & t & Ex & Fx). destruct (sub_head _ Hx') as (x' & t' & Ex' & Fx').
        rewrite Ex, Ex' in *. cbn [app] in *. apply wprint_inj in E as (-> & -> & E); auto. split; [reflexivity|]. now rewrite E. }
      clear E. destruct G as (-> & E). destruct Hx as (Hp & _), Hx' as (Hp' & _).
      apply pieces_inj in E as (-> & E); auto using apart_close.
      injection E as E. now rewrite (IH _ Hl Hl' E).
Qed.

Theorem cprint_inj c c' : cwf c -> cwf c' -> cprint c = cprint c' -> c = c'.
Proof.
  destruct c as [m g], c' as [m' g']. intros ((Hm & Hh) & Hg & _) ((Hm' & Hh') & Hg' & _) E. unfold cprint in E. cbn [c_main c_group] in *.
  apply pieces_inj in E as (-> & E); auto; try (destruct g'; [now apply apart_hash|apply Forall_forall; intros; exact I]);
    try (destruct g; [now apply apart_hash|apply Forall_forall; intros; exact I]).
  destruct g as [g|], g' as [g'|]; try discriminate; [|reflexivity]. injection E as E. now rewrite (gprint_inj _ _ Hg Hg' E).
Qed.

Theorem reading_unique d s c c' : reading d s c -> reading d s c' -> c = c'.
Proof.
  intros (H1 & H2) (H3 & H4). apply cprint_inj; auto. now rewrite (segmentation_unique _ _ _ _ H2), (segmentation_unique _ _ _ _ H4).
Qed.

(** ** Documented strings have a tidy reading *)
Section WithIcu.
  Variable d : icu.
  Hypothesis Hd : icu_ok d.
  Hypothesis Hsp : white_space d (ch " ") = true.

  Lemma sels_tidy sels : ktidy (flat_map (fun x : ustr * (ustr * ustr) => [KWs (fst x); KSel (fst (snd x)) TGrammar (snd (snd x))]) sels).
  Proof. induction sels; cbn; auto. Qed.
  Lemma params_tidy ps : atidy (flat_map (fun p : ustr * ustr => [QWs (fst p); QId (snd p)]) ps).
  Proof. induction ps; cbn; auto. Qed.
  Lemma to_piece_tidy x : ptidy (to_piece x).
  Proof.
    destruct x as [c| |id [[[w k] sels]|]|name delay ps]; cbn; try reflexivity; try exact I.
    - apply sels_tidy.
    - destruct delay as [[|c w]|]; cbn; try apply params_tidy. destruct ps as [|p ps]; cbn; [exact I|]. apply params_tidy.
  Qed.
  Lemma to_pieces_tidy s : Forall ptidy (to_pieces d s).
  Proof.
    assert (Ht : forall w, Forall ptidy (text_pieces d w)) by (intros w; unfold text_pieces; apply Forall_map, Forall_forall; intros; exact I).
    unfold to_pieces. apply Forall_app. split; [apply Ht|]. induction (ds_rest s) as [|[x w] l IH]; [constructor|].
    cbn [flat_map fst snd]. apply Forall_app. split; [|exact IH]. constructor; [apply to_piece_tidy|apply Ht].
  Qed.
  Lemma to_cst_tidy e : doc_wf d e -> tidy (to_cst d e).
  Proof.
    intros (_ & H). split; [apply to_pieces_tidy|]. unfold to_cst. cbn [c_group]. destruct (d_group e) as [[w l]|]; cbn [option_map fst snd]; [|exact I].
    destruct H as (_ & H & _). split.
    - destruct l as [|x l]; [now destruct H|]. apply Exists_app. right. cbn [flat_map]. apply Exists_app. left. left. exact I.
    - apply Forall_app. split; [destruct w; repeat constructor|]. clear H. induction l as [|x l IH]; [constructor|]. cbn [flat_map].
      apply Forall_app. split; [|exact IH]. constructor; [apply to_pieces_tidy|destruct (dn_after x); repeat constructor].
  Qed.
End WithIcu.
