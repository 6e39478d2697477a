(** A documented pattern string with unique names is accepted exactly when its named strings are supported. *)
From Verif Require Import Base BaseFacts LexerModel LexerSpec LexerProofs IcuExample TreeModel TreeSpec TreeArena TreeMachine TreeRefine
  TreeRefine3 TreeGrammar TreeGrammar2 TreeProofs TreeProofs2 TreeProofs3 DocSpec DocProofs TreeProofs4.

Definition fails {A} (o : tout A) : Prop := forall a, o <> Ok a.

Lemma fails_bind {A B} (o : tout A) (f : A -> tout B) : fails o -> fails (let! x := o in f x).
Proof. intros H b. destruct o; cbn; try discriminate. exfalso. eapply H; reflexivity. Qed.

Lemma arun_fails m i t r m' : astep m i t = Ok m' -> fails (let! x := arun m' (S i) r in afinish x) ->
  fails (let! x := arun m i (t :: r) in afinish x).
Proof. intros H. rewrite (step_ok _ _ _ _ _ H). auto. Qed.

Lemma arun_fails_now m i t r : fails (astep m i t) -> fails (let! x := arun m i (t :: r) in afinish x).
Proof. intros H. apply fails_bind. cbn [arun]. apply fails_bind. exact H. Qed.

Lemma dead_fails m i t : am_state m = ADead -> fails (astep m i t).
Proof. intros H a. unfold astep. rewrite H. destruct (_ && _)%bool; discriminate. Qed.
Lemma dead_open_fails m i t t0 : am_state m = ADeadOpen t0 -> fails (astep m i t).
Proof. intros H a. unfold astep. rewrite H. discriminate. Qed.

Lemma wrong_start B P N id w ws sub rest ts : open_group B P N -> NoDup P -> NoDup (N ++ [id]) ->
  match sub with PText (TIdentifier, _) :: _ | PText (TWhiteSpace, _) :: _ | PHash :: _ => False | _ => True end -> Forall pwf sub ->
  segs ts = B ++ header id w ws ++ pieces_print sub ++ g_ (us "}") :: rest -> fails (aparse ts).
Proof.
  intros Ho HP HN Hsub Hpwf Hs. rewrite app_assoc in Hs. apply segs_app_inv in Hs. destruct Hs as (pre & l & -> & Hpre & Hl).
  destruct (reach_header B P N pre id w ws Ho HP HN Hpre) as (main & rn & id' & R).
  unfold aparse. rewrite arun_app, R. cbn [bind Nat.add].
  assert (Hnext : forall x y z, segs l = x :: y :: z -> exists t t' l', l = t :: t' :: l' /\ seg_of t = x /\ seg_of t' = y).
  { intros x y z E. apply segs_cons_inv in E. destruct E as (t & l1 & -> & Ht & E). apply segs_cons_inv in E.
    destruct E as (t' & l2 & -> & Ht' & _). exists t, t', l2. auto. }
  assert (Hlast : exists y z, pieces_print (tl sub) ++ g_ (us "}") :: rest = y :: z).
  { destruct (pieces_print (tl sub)); cbn; eauto. }
  destruct Hlast as (y & z & Hyz).
  destruct sub as [|p sub].
  - cbn in Hl. apply segs_cons_inv in Hl. destruct Hl as (t & l1 & -> & Ht & _).
    apply arun_fails_now. intros a. one Ht. discriminate.
  - cbn [tl] in Hyz. unfold pieces_print in Hl; cbn [flat_map] in Hl. fold (pieces_print sub) in Hl. rewrite <- app_assoc, Hyz in Hl.
    destruct p as [[[] s]|x| |pid pws kw|qs]; try contradiction.
    + inversion Hpwf as [|? ? Hg _]; subst. exfalso. apply Hg; reflexivity.
    + destruct (Hnext _ _ _ Hl) as (t & t' & l' & -> & Ht & Ht').
      eapply arun_fails; [one Ht|]. apply arun_fails_now. apply dead_fails; reflexivity.
    + cbn [pprint app] in Hl. apply segs_cons_inv in Hl. destruct Hl as (t & l1 & -> & Ht & Hl).
      apply segs_cons_inv in Hl. destruct Hl as (t' & l2 & -> & Ht' & Hl). apply segs_cons_inv in Hl. destruct Hl as (t2 & l3 & -> & Ht2 & _).
      eapply arun_fails; [one Ht|]. eapply arun_fails; [reflexivity|]. apply arun_fails_now. apply dead_fails; reflexivity.
    + cbn [pprint app] in Hl. destruct (Hnext _ _ _ Hl) as (t & t' & l' & -> & Ht & Ht').
      eapply arun_fails; [one Ht|]. apply arun_fails_now. eapply dead_open_fails; reflexivity.
    + cbn [pprint app] in Hl. destruct (Hnext _ _ _ Hl) as (t & t' & l' & -> & Ht & Ht').
      eapply arun_fails; [one Ht|]. apply arun_fails_now. eapply dead_open_fails; reflexivity.
Qed.

Lemma hash_twice main rn id ri P N i t t' r : seg_of t = g_ (us "#") -> seg_of t' = g_ (us "#") ->
  fails (let! x := arun (mk_am (AText (CSub main rn id) ri) P N) i (t :: t' :: r) in afinish x).
Proof.
  intros Ht Ht'. destruct (hash_head ri) eqn:E.
  - apply arun_fails_now. intros a. one Ht. destruct ri as [|[] ?]; try discriminate.
  - eapply arun_fails; [|apply arun_fails_now; instantiate (1 := mk_am (AText (CSub main rn id) (IHash i :: ri)) P N)].
    + one Ht. destruct ri as [|[] ?]; try discriminate; reflexivity.
    + intros a. one Ht'. discriminate.
Qed.

Lemma double_hash B P N id w ws a b rest ts : open_group B P N -> NoDup (P ++ spats (map pcontent a)) -> NoDup (N ++ [id]) ->
  (a = [] \/ sub_ok a) ->
  segs ts = B ++ header id w ws ++ pieces_print (a ++ PHash :: PHash :: b) ++ rest -> fails (aparse ts).
Proof.
  intros Ho HP HN Ha Hs. rewrite TreeGrammar.pieces_print_app in Hs. rewrite <- app_assoc in Hs.
  unfold pieces_print at 2 in Hs; cbn [flat_map pprint app] in Hs. fold (pieces_print b) in Hs.
  destruct Ha as [->|Ha].
  - cbn [pieces_print flat_map app] in Hs. rewrite app_assoc in Hs. apply segs_app_inv in Hs. destruct Hs as (pre & l & -> & Hpre & Hl).
    cbn in HP. rewrite app_nil_r in HP.
    destruct (reach_header B P N pre id w ws Ho HP HN Hpre) as (main & rn & id' & R).
    unfold aparse. rewrite arun_app, R. cbn [bind Nat.add].
    apply segs_cons_inv in Hl. destruct Hl as (t & l1 & -> & Ht & Hl). apply segs_cons_inv in Hl. destruct Hl as (t' & l2 & -> & Ht' & Hl).
    eapply arun_fails; [one Ht|]. apply arun_fails_now. intros x. one Ht'. discriminate.
  - rewrite !app_assoc in Hs. apply segs_app_inv in Hs. destruct Hs as (pre & l & -> & Hpre & Hl).
    rewrite <- app_assoc in Hpre.
    destruct (reach_sub _ _ _ pre (os B P N id w ws a Ho Ha) HP HN Hpre) as (main & rn & id' & ri & R).
    unfold aparse. rewrite arun_app, R. cbn [bind Nat.add].
    apply segs_cons_inv in Hl. destruct Hl as (t & l1 & -> & Ht & Hl). apply segs_cons_inv in Hl. destruct Hl as (t' & l2 & -> & Ht' & Hl).
    apply hash_twice; assumption.
Qed.

Lemma nhp_or l : no_hash_pair l \/ exists a b, l = a ++ PHash :: PHash :: b /\ no_hash_pair a.
Proof.
  induction l as [|p l IH]; [left; constructor|]. destruct IH as [IH|(a & b & -> & Ha)].
  - destruct l as [|q l]; [left; constructor|]. destruct (is_hash p && is_hash q)%bool eqn:E; [|left; constructor; assumption].
    right. apply andb_prop in E. destruct p, q; try (destruct E; discriminate). exists [], l. split; [reflexivity | constructor].
  - destruct a as [|q a].
    + right. exists [p], b. split; [reflexivity | constructor].
    + destruct (is_hash p && is_hash q)%bool eqn:E.
      * right. apply andb_prop in E. destruct p, q; try (destruct E; discriminate). exists [], (a ++ PHash :: PHash :: b).
        split; [reflexivity | constructor].
      * right. exists (p :: q :: a), b. split; [reflexivity | constructor; assumption].
Qed.

Lemma Forall_or_first {A} (P : A -> Prop) (dec : forall x, P x \/ ~ P x) l :
  Forall P l \/ exists l1 x l2, l = l1 ++ x :: l2 /\ Forall P l1 /\ ~ P x.
Proof.
  induction l as [|x l IH]; [left; constructor|]. destruct (dec x) as [H|H].
  - destruct IH as [IH|(l1 & y & l2 & -> & H1 & H2)]; [left; constructor; assumption|].
    right. exists (x :: l1), y, l2. split; [reflexivity|]. split; [constructor; assumption | assumption].
  - right. exists [], x, l. split; [reflexivity|]. split; [constructor | exact H].
Qed.

Lemma hash_apart_dec l : hash_apart l \/ ~ hash_apart l.
Proof.
  induction l as [|(x, w) l IH]; [left; exact I|].
  cbn. destruct x; auto. destruct w; auto. destruct l as [|(y, v) l]; auto. destruct y; auto.
Qed.

Section WithIcu.
  Variable d : icu.
  Hypothesis Hd : icu_ok d.
  Local Notation rn := (runs d l10n_grammar).

  Lemma starts_plain_dec s : starts_plain d s \/ ~ starts_plain d s.
  Proof.
    unfold starts_plain. destruct (ds_text s) as [|c t].
    - destruct (ds_rest s) as [|([]&?) ?]; auto.
    - destruct (white_space d c), (syntax d c); auto; right; intros (? & ?); discriminate.
  Qed.

  Lemma nhp_rest l : no_hash_pair (flat_map (fun x => to_piece (fst x) :: text_pieces d (snd x)) l) -> hash_apart l.
  Proof.
    induction l as [|(x, w) l IH]; intros H; [exact I|]. cbn [flat_map fst snd app] in H.
    assert (Hl : hash_apart l).
    { apply IH. clear IH. revert H. change (to_piece x :: text_pieces d w ++ ?y) with ((to_piece x :: text_pieces d w) ++ y).
      generalize (to_piece x :: text_pieces d w). intros t. induction t as [|p t IHt]; intros H; [exact H|]. apply IHt.
      cbn in H. inversion H; subst; [|assumption]. destruct (t ++ _); [constructor | discriminate]. }
    cbn. destruct x; auto. destruct w; auto. destruct l as [|(y, v) l]; auto. destruct y; auto.
    cbn in H. inversion H; subst. discriminate.
  Qed.

  Lemma first_text_type c t : exists s l, rn (c :: t) = (char_type d l10n_grammar c, s) :: l.
  Proof.
    rewrite runs_cons. destruct (rn t) as [|(ty, v) l]; cbn; [eauto|]. destruct (_ && _)%bool; eauto.
  Qed.

  Lemma sub_inv st B P N id w ws rest ts : named_wf d (mk_dnamed id w st []) ->
    open_group B P N -> NoDup (P ++ spats (str_content st)) -> NoDup (N ++ [id]) ->
    segs ts = B ++ header id w ws ++ pieces_print (to_pieces d st) ++ g_ (us "}") :: rest ->
    ~ (starts_plain d st /\ hash_apart (ds_rest st)) -> fails (aparse ts).
  Proof.
    intros (_ & _ & Hst & _ & Hfirst) Ho HP HN Hs Hn. cbn [dn_str] in *.
    rewrite <- (str_spats d st Hst) in HP.
    destruct (starts_plain_dec st) as [Hp|Hp].
    - destruct (nhp_or (to_pieces d st)) as [Ha|(a & b & Hab & Ha)].
      + exfalso. apply Hn. split; [exact Hp|]. apply nhp_rest. revert Ha. unfold to_pieces. generalize (text_pieces d (ds_text st)).
        intros t. induction t as [|p t IHt]; intros H; [exact H|]. apply IHt.
        cbn in H. inversion H; subst; [|assumption]. destruct (t ++ _); [constructor | discriminate].
      + rewrite Hab in Hs. eapply (double_hash B P N id w ws a b _ ts Ho); [| exact HN | | exact Hs].
        * rewrite Hab, map_app, spats_app, app_assoc in HP. apply NoDup_app_remove_r in HP. exact HP.
        * destruct a as [|p a]; [left; reflexivity | right].
          pose proof (str_pwf d st Hst) as Hw. rewrite Hab in Hw. apply Forall_app in Hw. destruct Hw as (Hw & _).
          split; [exact Hw|]. split; [exact Ha|].
          unfold to_pieces in Hab. unfold starts_plain in Hp. destruct (ds_text st) as [|c t].
          -- cbn in Hab. destruct (ds_rest st) as [|([]&?) ?]; try contradiction. cbn in Hab. injection Hab as <- _. exact I.
          -- unfold text_pieces in Hab. destruct (first_text_type c t) as (s & l & E). rewrite E in Hab. cbn in Hab. injection Hab as <- _.
             unfold char_type. destruct Hp as (-> & ->). exact I.
    - eapply (wrong_start B P N id w ws (to_pieces d st) rest ts Ho); [apply NoDup_app_remove_r in HP; exact HP | exact HN | | apply str_pwf; assumption | exact Hs].
      unfold to_pieces. unfold starts_plain in Hp. destruct (ds_text st) as [|c t].
      + cbn. destruct (ds_rest st) as [|(x, w') r]; [exact I|]. cbn. destruct x as [c| |pid [[[w1 k] sels]|]|name delay ps]; cbn; auto.
      + unfold text_pieces. destruct (first_text_type c t) as (s & l & E). rewrite E. cbn. unfold char_type. rewrite Hfirst in *.
        destruct (syntax d c); [destruct (char_mem c _); exact I|]. apply Hp. auto.
  Qed.

  Theorem doc_accepted_iff e : doc_wf d e -> unique_names e -> dprint e <> [] ->
    ((exists tr, tree_try_new d (dprint e) l10n_grammar = Ok tr) <-> supported d e).
  Proof.
    intros Hw Hu Hne. split.
    - intros (tr & Htr). unfold supported. destruct (d_group e) as [(w0, l)|] eqn:Eg; [|exact I].
      destruct (Forall_or_first (fun x => starts_plain d (dn_str x) /\ hash_apart (ds_rest (dn_str x)))) with (l := l) as [H|(l1 & x & l2 & -> & H1 & H2)];
        [|exact H|exfalso].
      { intros x. destruct (starts_plain_dec (dn_str x)), (hash_apart_dec (ds_rest (dn_str x))); tauto. }
      destruct Hw as (Hm & Hg). pose proof (doc_runs d Hd e (conj Hm Hg)) as Hr. rewrite Eg in Hg. destruct Hg as (Hg1 & _ & Hg2).
      apply Forall_app in Hg2. destruct Hg2 as (Hl1 & Hx). inversion Hx as [|? ? Hx1 _]; subst. clear Hx.
      unfold tree_try_new in Htr. rewrite tokenise_runs in Htr by (auto; discriminate). cbn [map_err bind] in Htr.
      set (ts := decorate d 0 0 0 (rn (dprint e))) in *.
      assert (Hs : segs ts = cprint (to_cst d e)) by (unfold segs, ts; rewrite decorate_seg; exact Hr).
      rewrite parse_refines in Htr. destruct (aparse ts) as [a|er| |] eqn:Ea; cbn in Htr; try discriminate.
      unfold cprint, to_cst in Hs. rewrite Eg in Hs. cbn [option_map c_main c_group fst snd] in Hs.
      rewrite !flat_map_app in Hs. cbn [flat_map] in Hs. unfold to_gparts at 2 in Hs. rewrite flat_map_app in Hs. cbn [flat_map] in Hs.
      destruct Hu as (N1 & N2). unfold placeholder_names, string_names, group_of, doc_content in N1, N2. rewrite Eg in N1, N2.
      cbn [fst snd option_map] in N1, N2. rewrite map_app in N1, N2. cbn [map] in N1, N2.
      rewrite map_app in N2. rewrite flat_map_app in N1. cbn [map flat_map fst snd named_content] in N1, N2.
      set (gl := ws_part w0 ++ flat_map (to_gparts d) l1) in *.
      assert (Egl : flat_map gcontent gl = map (fun x => (dn_id x, map pcontent (to_pieces d (dn_str x)))) l1).
      { unfold gl. rewrite flat_map_app, ws_part_content, group_content. reflexivity. }
      assert (Ho : open_group (pieces_print (to_pieces d (d_main e)) ++ g_ (us "#") :: flat_map gprint gl)
        (spats (map pcontent (to_pieces d (d_main e))) ++ flat_map (fun x => spats (snd x)) (flat_map gcontent gl))
        (map fst (flat_map gcontent gl))).
      { constructor.
        - destruct Hm as (Hm1 & Hm2). split; [apply str_pwf; assumption|]. unfold to_pieces. apply Forall_app. split; [apply text_no_hash|].
          clear -Hm2. induction Hm2 as [|(y, w) l H _ IH]; [constructor|]. cbn [flat_map fst snd] in *. apply Forall_app. split; [|exact IH].
          constructor; [|apply text_no_hash]. destruct (is_hash (to_piece y)) eqn:E; [|reflexivity]. apply to_piece_hash in E. contradiction.
        - unfold gl. apply Forall_app. split; [destruct w0; repeat constructor|].
          clear -H1 Hl1 Hd. induction Hl1 as [|y l Hy _ IH]; [constructor|]. inversion H1 as [|? ? (S1 & S2) S3]; subst. cbn [flat_map].
          apply Forall_app. split; [|apply IH; exact S3]. destruct Hy as (_ & _ & Hy & _). constructor.
          + cbn [gwf]. apply sub_sub_ok; assumption.
          + destruct (dn_after y); repeat constructor. }
      assert (E1 : flat_map (fun x => spats (snd x)) (flat_map gcontent gl) = flat_map (fun x => spats (snd x)) (map named_content l1)).
      { rewrite Egl. clear -Hl1. induction Hl1 as [|y l (_ & _ & Hy & _) _ IH]; [reflexivity|]. cbn [map flat_map snd]. rewrite IH. f_equal. apply str_spats; exact Hy. }
      assert (E2 : map fst (flat_map gcontent gl) = map fst (map named_content l1)).
      { rewrite Egl, !map_map. reflexivity. }
      rewrite E1, E2, (str_spats d _ (proj1 Hm)) in Ho.
      change (dn_id x :: ?r) with ([dn_id x] ++ r) in N2. rewrite app_assoc in N1, N2.
      apply NoDup_app_remove_r in N2. rewrite app_assoc in N1. apply NoDup_app_remove_r in N1.
      eapply (sub_inv (dn_str x) _ _ _ (dn_id x) (dn_ws x) [] _ ts); [| exact Ho | exact N1 | exact N2 | | exact H2 | exact Ea].
      + destruct Hx1 as (X1 & X2 & X3 & X4 & X5). split; [exact X1|]. split; [exact X2|]. split; [exact X3|]. split; [constructor | exact X5].
      + rewrite Hs. unfold gl. rewrite flat_map_app. unfold header. cbn [gprint wprint map app].
        rewrite <- !app_assoc. cbn [app]. rewrite <- !app_assoc. cbn [app]. rewrite <- ?app_assoc. reflexivity.
    - intros Hsup. destruct (doc_accepted d Hd e Hw Hu Hsup Hne) as (tr & a & H & _). exists tr; exact H.
  Qed.
End WithIcu.
