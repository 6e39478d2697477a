(** Every prefix of an accepted token sequence is accepted or unterminated; the grammar is unambiguous. *)
From Verif Require Import Base BaseFacts LexerModel LexerSpec TreeModel TreeSpec TreeArena TreeMachine TreeRefine TreeRefine3
  TreeGrammar TreeGrammar2 TreeProofs TreeProofs2.

Local Opaque us.

Lemma cut_flat_map {A B} (f : A -> list B) l : forall a b, flat_map f l = a ++ b -> b <> [] ->
  exists l1 x l2 i j, l = l1 ++ x :: l2 /\ a = flat_map f l1 ++ i /\ f x = i ++ j /\ j <> [] /\ b = j ++ flat_map f l2.
Proof.
  induction l as [|x l IH]; intros a b H Hb; cbn in H.
  - symmetry in H. apply app_eq_nil in H. destruct H; contradiction.
  - assert (Hsplit : (exists j, f x = a ++ j /\ j <> [] /\ b = j ++ flat_map f l) \/ (exists a', a = f x ++ a' /\ flat_map f l = a' ++ b)).
    { clear IH. revert a H. induction (f x) as [|y r IHr]; intros a H; cbn in *.
      - right. exists a. auto.
      - destruct a as [|z a]; cbn in *.
        + left. exists (y :: r). repeat split; [discriminate|]. symmetry; exact H.
        + injection H as -> H. destruct (IHr a H) as [(j & H1 & H2 & H3)|(a' & H1 & H2)].
          * left. exists j. rewrite H1. auto.
          * right. exists a'. rewrite H1. auto. }
    destruct Hsplit as [(j & H1 & H2 & H3)|(a' & -> & H2)].
    + exists [], x, l, a, j. auto.
    + destruct (IH a' b H2 Hb) as (l1 & x' & l2 & i & j & -> & -> & H3 & H4 & H5).
      exists (x :: l1), x', l2, i, j. cbn. rewrite app_assoc. auto.
Qed.

Lemma cut_app {A} (x y a b : list A) : x ++ y = a ++ b ->
  (exists j, x = a ++ j /\ j <> [] /\ b = j ++ y) \/ (exists a', a = x ++ a' /\ y = a' ++ b).
Proof.
  revert a; induction x as [|z x IH]; intros a H; cbn in *.
  - right. exists a. auto.
  - destruct a as [|w a]; cbn in *.
    + left. exists (z :: x). repeat split; [discriminate | symmetry; exact H].
    + injection H as -> H. destruct (IH a H) as [(j & H1 & H2 & H3)|(a' & H1 & H2)].
      * left. exists j. rewrite H1. auto.
      * right. exists a'. rewrite H1. auto.
Qed.

Lemma main_ok_prefix a b : main_ok (a ++ b) -> main_ok a.
Proof. intros (H1 & H2). apply Forall_app in H1, H2. split; [apply H1 | apply H2]. Qed.

Lemma no_hash_prefix a b : no_hash_pair (a ++ b) -> no_hash_pair a.
Proof.
  induction a as [|x a IH]; cbn; intros H; [constructor|]. destruct a as [|y a]; [constructor|].
  cbn in *. inversion H; subst. constructor; auto.
Qed.

Lemma sub_ok_prefix x a b : sub_ok ((x :: a) ++ b) -> sub_ok (x :: a).
Proof.
  intros (H1 & H2 & H3). split; [apply Forall_app in H1; apply H1|]. split; [apply no_hash_prefix in H2; exact H2|]. exact H3.
Qed.

Definition rejected_or_cst (l : list segment) : Prop := (exists c, cwf c /\ l = cprint c) \/ unterminated l.

Lemma gprint_named id w ws sub : gprint (GNamed id w ws sub) = header id w ws ++ pieces_print sub ++ [g_ (us "}")].
Proof. reflexivity. Qed.

Theorem prefix_cases c l r : cwf c -> cprint c = l ++ r -> rejected_or_cst l.
Proof.
  intros Hw Hc. destruct r as [|r0 r].
  { left. exists c. split; [exact Hw|]. rewrite app_nil_r in Hc. symmetry; exact Hc. }
  destruct c as [ps g]. destruct Hw as (Hm & Hg & N1 & N2).
  unfold cprint in Hc; cbn [c_main c_group] in *.
  unfold placeholder_names, string_names, group_of, ccontent in N1, N2. cbn [fst snd c_main c_group] in N1, N2.
  apply cut_app in Hc. destruct Hc as [(j & Hj & Hjn & _)|(a' & Ha & Hc)].
  - (* cut in the main string *)
    unfold pieces_print in Hj. destruct (cut_flat_map pprint ps l j Hj Hjn) as (l1 & p & l2 & i & k & -> & -> & Hp & Hk & _).
    assert (HN : NoDup (spats (map pcontent l1) ++ spats [pcontent p])).
    { rewrite map_app, spats_app, <- app_assoc in N1. cbn [map] in N1. change (pcontent p :: map pcontent l2) with ([pcontent p] ++ map pcontent l2) in N1.
      rewrite spats_app, <- app_assoc in N1. rewrite app_assoc in N1. apply NoDup_app_remove_r in N1. exact N1. }
    destruct i as [|i0 i].
    + left. exists (mk_cst l1 None). rewrite app_nil_r. unfold cwf, cprint, placeholder_names, string_names; cbn. rewrite !app_nil_r.
      split; [|reflexivity]. split; [apply main_ok_prefix in Hm; exact Hm|]. split; [exact I|]. split; [|constructor].
      apply NoDup_app_remove_r in HN. exact HN.
    + right. apply (un_piece _ (spats (map pcontent l1)) [] p (i0 :: i) k).
      * split; [left; constructor; apply main_ok_prefix in Hm; exact Hm|]. split; [|constructor].
        apply NoDup_app_remove_r in HN. exact HN.
      * destruct Hm as (Hm & _). apply Forall_app in Hm. destruct Hm as (_ & Hm). inversion Hm; assumption.
      * exact HN.
      * exact Hp.
      * discriminate.
      * exact Hk.
  - destruct g as [gl|]; [|destruct a'; discriminate]. cbn [option_map] in N1, N2.
    destruct a' as [|h a'].
    + left. exists (mk_cst ps None). rewrite app_nil_r in Ha. subst l. unfold cwf, cprint, placeholder_names, string_names; cbn. rewrite !app_nil_r.
      split; [|reflexivity]. split; [exact Hm|]. split; [exact I|]. split; [|constructor]. apply NoDup_app_remove_r in N1. exact N1.
    + injection Hc as <- Hc. subst l.
      destruct (cut_flat_map gprint gl a' (r0 :: r) Hc) as (gl1 & g & gl2 & i & k & -> & -> & Hgp & Hk & _); [discriminate|].
      rewrite flat_map_app in N1, N2. rewrite flat_map_app, app_assoc in N1. rewrite map_app in N2. cbn [flat_map] in N1, N2.
      rewrite flat_map_app in N1. rewrite map_app in N2.
      set (P := spats (map pcontent ps) ++ flat_map (fun x => spats (snd x)) (flat_map gcontent gl1)) in *.
      set (N := map fst (flat_map gcontent gl1)) in *.
      apply Forall_app in Hg. destruct Hg as (Hg1 & Hg2).
      assert (Hog : open_group (pieces_print ps ++ g_ (us "#") :: flat_map gprint gl1) P N) by (constructor; assumption).
      assert (HP : NoDup P) by (apply NoDup_app_remove_r in N1; exact N1).
      assert (HN : NoDup N) by (apply NoDup_app_remove_r in N2; exact N2).
      destruct i as [|i0 i].
      * left. exists (mk_cst ps (Some gl1)). rewrite app_nil_r.
        split; [|reflexivity]. split; [exact Hm|]. split; [exact Hg1|]. split; [exact HP | exact HN].
      * right. destruct g as [w|id w ws sub].
        { exfalso. cbn in Hgp. destruct i; destruct k; try contradiction; discriminate. }
        inversion Hg2 as [|? ? Hsub _]; subst. cbn [gwf] in Hsub.
        cbn [gcontent map fst snd flat_map] in N1, N2. rewrite app_nil_r in N1.
        rewrite app_assoc in N1, N2.
        apply NoDup_app_remove_r in N1. apply NoDup_app_remove_r in N2.
        rewrite gprint_named in Hgp.
        replace (pieces_print ps ++ g_ (us "#") :: flat_map gprint gl1 ++ i0 :: i)
          with ((pieces_print ps ++ g_ (us "#") :: flat_map gprint gl1) ++ i0 :: i) by (rewrite <- app_assoc; reflexivity).
        apply cut_app in Hgp. destruct Hgp as [(j & Hj & _ & _)|(b & Hb & Hgp)].
        { apply (un_name _ P N id w ws (i0 :: i) j); auto; discriminate. }
        rewrite Hb. apply cut_app in Hgp. destruct Hgp as [(j & Hj & Hjn & _)|(b' & Hb' & Hgp)].
        -- unfold pieces_print in Hj. destruct (cut_flat_map pprint sub b j Hj Hjn) as (s1 & p & s2 & i1 & k1 & -> & -> & Hp & Hk1 & _).
           destruct s1 as [|p1 s1].
           { assert (i1 = []).
             { destruct Hsub as (_ & _ & Hf). cbn in Hf. destruct p as [[[] s]|x| |id0 ws0 kw0|qs]; try contradiction;
                 cbn in Hp; destruct i1 as [|y [|z i1]]; auto; destruct k1; try contradiction; discriminate. }
             subst i1. cbn [flat_map app]. rewrite app_nil_r.
             apply (un_name _ P N id w ws (header id w ws) []); auto; [rewrite app_nil_r; reflexivity | discriminate]. }
           assert (Hs1 : sub_ok (p1 :: s1)) by (eapply sub_ok_prefix; exact Hsub).
           assert (Hos : open_sub ((pieces_print ps ++ g_ (us "#") :: flat_map gprint gl1) ++ header id w ws ++ pieces_print (p1 :: s1))
                     (P ++ spats (map pcontent (p1 :: s1))) (N ++ [id])) by (constructor; assumption).
           rewrite map_app, spats_app, app_assoc in N1. cbn [map] in N1. 
           change (pcontent p :: map pcontent s2) with ([pcontent p] ++ map pcontent s2) in N1.
           rewrite spats_app, app_assoc in N1. apply NoDup_app_remove_r in N1.
           destruct i1 as [|y i1].
           ++ rewrite app_nil_r. eapply un_sub; [exact Hos | apply NoDup_app_remove_r in N1; exact N1 | exact N2].
           ++ rewrite !app_assoc. eapply (un_piece _ _ _ p (y :: i1) k1).
              ** split; [right; rewrite <- app_assoc; exact Hos|]. split; [apply NoDup_app_remove_r in N1; exact N1 | exact N2].
              ** destruct Hsub as (Hsub & _). apply Forall_app in Hsub. destruct Hsub as (_ & Hsub). inversion Hsub; assumption.
              ** exact N1.
              ** exact Hp.
              ** discriminate.
              ** exact Hk1.
        -- assert (b' = []).
           { destruct b' as [|y b']; [reflexivity|]. destruct b'; destruct k; try contradiction; discriminate. }
           subst b'. rewrite app_nil_r in Hb'. subst b.
           assert (Hos : open_sub ((pieces_print ps ++ g_ (us "#") :: flat_map gprint gl1) ++ header id w ws ++ pieces_print sub)
                     (P ++ spats (map pcontent sub)) (N ++ [id])) by (constructor; assumption).
           eapply un_sub; [exact Hos | exact N1 | exact N2].
Qed.

(** The grammar is unambiguous up to layout. *)
Theorem unambiguous c c' : cwf c -> cwf c' -> cprint c = cprint c' -> ccontent c = ccontent c'.
Proof.
  intros H H' E. destruct (aparse_complete (map fake (cprint c)) c H (segs_fake _)) as (a & E1 & H1).
  destruct (aparse_complete (map fake (cprint c)) c' H') as (a' & E2 & H2); [rewrite segs_fake; exact E|].
  rewrite E1 in E2. injection E2 as <-. rewrite <- H1. exact H2.
Qed.

(** Unterminated sequences are not concrete syntax. *)
Theorem unterminated_not_cst l : unterminated l -> forall c, cwf c -> l <> cprint c.
Proof.
  intros Hu c Hc E. destruct (aparse_complete (map fake l) c Hc) as (a & H & _); [rewrite segs_fake; exact E|].
  rewrite aparse_unterminated in H; [discriminate|]. rewrite segs_fake; exact Hu.
Qed.
