(** Building: named strings and the whole formatter; formatting simulates the abstract evaluation. *)
From Verif Require Import Base BaseFacts LexerModel LexerSpec TreeModel TreeSpec ValueModel CommandModel IsoModel
  FormatterModel FormatterAbs FormatterRefine.
Local Opaque us.

Section Build.
  Variables (fe : fmtenv) (reg : cregistry) (locale : ustr).
  Notation parts_rep := (parts_rep fe reg locale).

  Definition pats_rep (S : list (amap ustr)) (pats : amap (list ppart)) (strs : amap (list sitem)) : Prop :=
    Forall2 (fun x y => fst x = fst y /\ parts_rep S (snd x) (snd y)) pats strs.
  Definition slots_sep (pats : amap (list ppart)) : Prop :=
    forall k k' ps ps' i, In (k, ps) pats -> In (k', ps') pats -> In i (slots ps) -> In i (slots ps') -> k = k'.
  Definition slots_below (n : nat) (pats : amap (list ppart)) : Prop :=
    forall k ps i, In (k, ps) pats -> In i (slots ps) -> i < n.

  Lemma pats_rep_mono S S' pats strs : pats_rep S pats strs -> pats_rep (S ++ S') pats strs.
  Proof. induction 1 as [|x y l l' [H1 H2] HF IH]; constructor; auto. split; auto. now apply parts_rep_mono. Qed.
  Lemma pats_rep_keys S pats strs : pats_rep S pats strs -> mkeys pats = mkeys strs.
  Proof. induction 1 as [|x y l l' [H1 H2] HF IH]; cbn; [reflexivity|]. unfold mkeys in IH. now rewrite H1, IH. Qed.
  Lemma pats_rep_get S pats strs k : pats_rep S pats strs ->
    match mget k pats, mget k strs with
    | Some ps, Some l => parts_rep S ps l
    | None, None => True
    | _, _ => False
    end.
  Proof.
    induction 1 as [|[a ps] [b l] pats strs [H1 H2] HF IH]; cbn in *; [trivial|]. subst b.
    now destruct (ueqb k a).
  Qed.

  Definition good_pats (b : bst) (pats : amap (list ppart)) (b' : bst) (strs : amap (list sitem)) : Prop :=
    grows b b' /\ pats_rep (snd b') pats strs /\ slots_sep pats /\ slots_below (List.length (fst b')) pats /\
    NoDup (mkeys pats).

  Lemma named_built tr ns l : Forall2 (named_is tr) ns l ->
    forall pats strs b0 b, good_pats b0 pats b strs ->
    match group_check fe reg locale (mkeys pats) l with
    | Ok known => exists pats' b', named_strings fe reg locale tr ns pats b = Ok (pats', b') /\
                    good_pats b0 pats' b' (strs ++ l) /\ known = mkeys pats'
    | Err e => named_strings fe reg locale tr ns pats b = Err e
    | Panic => named_strings fe reg locale tr ns pats b = Panic
    | NoFuel => named_strings fe reg locale tr ns pats b = NoFuel
    end.
  Proof.
    induction 1 as [|n [id x] ns l (a & s & Hb & Ha & Hs) HF IH]; intros pats strs b0 b Hg.
    - cbn. rewrite app_nil_r. eauto.
    - cbn [group_check named_strings]. unfold tree_first, tree_last. rewrite (branch_children _ _ _ _ Hb).
      cbn [ft map_err bind nth_error unwrap fst snd] in *. unfold ident_is in Ha. rewrite (leaf_first _ _ _ _ _ Ha).
      cbn [bind].
      assert (Hm : umem id (mkeys pats) = mhas id pats).
      { destruct (mhas id pats) eqn:E.
        - apply umem_In, mget_keys. now apply mhas_true in E.
        - apply umem_nIn, mget_None_keys. now apply mhas_false in E. }
      rewrite Hm. destruct (mhas id pats) eqn:E; [reflexivity|].
      unfold last_opt; cbn [List.length Nat.sub nth_error ft map_err bind unwrap].
      destruct Hs as (cs & ls & Hbs & Hcs & <-). rewrite (branch_children _ _ _ _ Hbs). cbn [ft map_err bind].
      pose proof (parts_built fe reg locale (mkeys pats) false tr cs ls b Hcs) as Hp.
      destruct (items_check fe reg locale (mkeys pats) false (List.concat ls)) as [u| | |]; cbn [built bind] in Hp |- *;
        try now rewrite Hp.
      destruct Hp as (ps & b1 & -> & Hgr & Hrep & Hsl). cbn [bind].
      apply mhas_false in E. rewrite (mkeys_minsert_new _ _ _ E).
      assert (Hg1 : good_pats b0 (pats ++ [(id, ps)]) b1 (strs ++ [(id, List.concat ls)])).
      { destruct Hg as (Hg0 & Hpr & Hsep & Hbel & Hnd). split; [eapply grows_trans; eassumption|].
        split. { apply Forall2_app. { destruct Hgr as (_ & s' & ->). now apply pats_rep_mono. } constructor; [|constructor]. now split. }
        pose proof (grows_len _ _ Hgr) as Hlen.
        split.
        { intros k k' p p' i H1 H2 H3 H4. apply in_app_iff in H1 as [H1|[H1|[]]]; apply in_app_iff in H2 as [H2|[H2|[]]].
          - eauto.
          - injection H2 as <- <-. apply Hsl in H4. specialize (Hbel _ _ _ H1 H3). lia.
          - injection H1 as <- <-. apply Hsl in H3. specialize (Hbel _ _ _ H2 H4). lia.
          - congruence. }
        split.
        { intros k p i H1 H3. apply in_app_iff in H1 as [H1|[H1|[]]].
          - specialize (Hbel _ _ _ H1 H3). lia.
          - injection H1 as <- <-. apply Hsl in H3. lia. }
        unfold mkeys. rewrite map_app. cbn.
        pose proof (minsert_NoDup id ps pats Hnd) as Hnd'. rewrite (mkeys_minsert_new _ _ _ E) in Hnd'.
        unfold mkeys in Hnd'. now rewrite map_app in Hnd'. }
      specialize (IH _ _ _ _ Hg1). unfold mkeys in IH at 1. rewrite map_app in IH. cbn [map fst] in IH.
      fold (mkeys pats) in IH. now rewrite <- app_assoc in IH.
  Qed.

  (** A formatter for a content: same strings, separate number slots. *)
  Record fm_rep (fm : formatter) (a : sast) : Prop := {
    fr_pats : pats_rep (fm_selectors fm) (fm_patterns fm) (strings_of a);
    fr_sep : slots_sep (fm_patterns fm);
    fr_below : slots_below (List.length (fm_numbers fm)) (fm_patterns fm);
    fr_empty : exists k, fm_numbers fm = repeat [] k;
    fr_locale : fm_locale fm = locale;
    fr_nodup : NoDup (mkeys (fm_patterns fm))
  }.

  Lemma init_good : good_pats ([], []) [(us "_", [])] ([], []) [(us "_", [])].
  Proof.
    split; [apply grows_refl|]. split; [constructor; [split; [reflexivity|constructor]|constructor]|].
    split; [intros k k' p p' i [H|[]] [H'|[]] H3; congruence|].
    split; [intros k p i [H|[]] H3; injection H as <- <-; destruct H3|].
    constructor; [intros []|constructor].
  Qed.

  Lemma main_built tag tr m cs ls pats b l : branch_is tr m NString cs -> Forall2 (item_is tr) cs ls ->
    good_pats ([], []) pats b ((us "_", []) :: l) ->
    match items_check fe reg locale (mkeys pats) true (List.concat ls) with
    | Ok _ => exists fm, (let! cs := ft (tree_children tr m) in
                let! (parts, b2) := string_parts fe reg locale (mkeys pats) true tr cs b in
                Ok (mk_formatter tag locale (minsert (us "_") parts pats) (fst b2) (snd b2))) = Ok fm /\
                (forall o, group_of (List.concat ls, o) = l -> fm_rep fm (List.concat ls, o)) /\ fm_tag fm = tag
    | r => (let! cs := ft (tree_children tr m) in
            let! (parts, b2) := string_parts fe reg locale (mkeys pats) true tr cs b in
            Ok (mk_formatter tag locale (minsert (us "_") parts pats) (fst b2) (snd b2)))
           = (let! _ := r in Err FNeverReached)
    end.
  Proof.
    intros Hb HF Hg. rewrite (branch_children _ _ _ _ Hb). cbn [ft map_err bind].
    pose proof (parts_built fe reg locale (mkeys pats) true tr cs ls b HF) as Hp.
    destruct (items_check fe reg locale (mkeys pats) true (List.concat ls)) as [u| | |]; cbn [built bind] in Hp |- *;
        try now rewrite Hp.
    destruct Hp as (ps & b2 & -> & Hgr & Hrep & Hsl). cbn [bind]. eexists. split; [reflexivity|]. split; [|reflexivity].
    intros o Ho. destruct Hg as (Hg0 & Hpr & Hsep & Hbel & Hnd).
    unfold pats_rep in Hpr. inversion Hpr as [|[k0 ps0] y pats' strs' [Hk0 Hps0] Hpr']; subst. cbn in Hk0, Hps0. subst k0.
    cbn [minsert]. rewrite ueqb_refl. pose proof (grows_len _ _ Hgr) as Hlen. constructor; cbn.
    - constructor; [now split|]. destruct Hgr as (_ & s' & ->). now apply pats_rep_mono.
    - intros k k' p p' i H1 H2 H3 H4. destruct H1 as [H1|H1], H2 as [H2|H2].
      + congruence.
      + injection H1 as <- <-. apply Hsl in H3. specialize (Hbel k' p' i (or_intror H2) H4). lia.
      + injection H2 as <- <-. apply Hsl in H4. specialize (Hbel k p i (or_intror H1) H3). lia.
      + exact (Hsep k k' p p' i (or_intror H1) (or_intror H2) H3 H4).
    - intros k p i [H1|H1] H3.
      + injection H1 as <- <-. apply Hsl in H3. lia.
      + specialize (Hbel k p i (or_intror H1) H3). lia.
    - destruct Hg0 as ((k1 & Hk1) & _). destruct Hgr as ((k2 & Hk2) & _). exists (k1 + k2). now rewrite Hk2, Hk1, repeat_app.
    - reflexivity.
    - exact Hnd.
  Qed.

  Theorem formatter_built tag tr a : tree_is tr a -> tr_has_grammar tr = true ->
    match content_check fe reg locale a with
    | Ok _ => exists fm, formatter_of_tree fe reg tag locale tr = Ok fm /\ fm_rep fm a /\ fm_tag fm = tag
    | Err e => formatter_of_tree fe reg tag locale tr = Err e
    | Panic => formatter_of_tree fe reg tag locale tr = Panic
    | NoFuel => formatter_of_tree fe reg tag locale tr = NoFuel
    end.
  Proof.
    intros Ht Hgm. destruct a as [m o]. unfold tree_is in Ht. cbn [fst snd] in Ht.
    unfold formatter_of_tree, content_check. rewrite Hgm. cbn [negb].
    destruct o as [l|].
    - destruct Ht as (g & cs & Hr & (mcs & ls & Hbm & HFm & <-) & Hgb & HF).
      rewrite (branch_type _ _ _ _ Hr), (branch_children _ _ _ _ Hr). cbn [ft map_err bind ntype_eqb negb].
      rewrite (branch_children _ _ _ _ Hgb). cbn [ft map_err bind nth_error unwrap].
      pose proof (named_built tr cs l HF _ _ _ _ init_good) as Hn. cbn [group_of snd fst].
      change (mkeys [(us "_", [])]) with [us "_"] in Hn. unfold bst in *.
      destruct (group_check fe reg locale [us "_"] l) as [known| | |]; cbn [bind] in *; try now rewrite Hn.
      destruct Hn as (pats' & b' & -> & Hg & ->). cbn [bind nth_error unwrap].
      pose proof (main_built tag tr 1 mcs ls pats' b' l Hbm HFm Hg) as Hm.
      destruct (items_check fe reg locale (mkeys pats') true (List.concat ls)) as [u| | |]; cbn [bind] in *; auto.
      destruct Hm as (fm & Hfm & Hrep & Htag). exists fm. split; [exact Hfm|]. split; [|exact Htag]. now apply Hrep.
    - destruct Ht as (Hr & (mcs & ls & Hbm & HFm & <-)).
      rewrite (branch_type _ _ _ _ Hr), (branch_children _ _ _ _ Hr). cbn [ft map_err bind ntype_eqb negb nth_error unwrap group_of snd group_check fst].
      pose proof (main_built tag tr 1 mcs ls [(us "_", [])] ([], []) [] Hbm HFm init_good) as Hm.
      change (mkeys [(us "_", [])]) with [us "_"] in Hm. unfold bst in *. change (mkeys [(us "_", [])]) with [us "_"].
      destruct (items_check fe reg locale [us "_"] true (List.concat ls)) as [u| | |]; cbn [bind] in *; auto.
      destruct Hm as (fm & Hfm & Hrep & Htag). exists fm. split; [exact Hfm|]. split; [|exact Htag]. now apply Hrep.
  Qed.
End Build.
