(** The meaning of the errors of the parser. *)
From Verif Require Import Base BaseFacts LexerModel LexerSpec LexerProofs LexerProofs2 IcuExample TreeModel TreeSpec TreeArena TreeMachine
  TreeRefine TreeRefine3 TreeGrammar TreeGrammar2 TreeProofs TreeProofs2 TreeProofs3 TreeProofs4 DocSpec SyntaxErrorSpec SyntaxErrorProofs.
Local Opaque us.

Lemma arun_err m i ts e : arun m i ts = Err e ->
  exists pre t post m1, ts = pre ++ t :: post /\ arun m i pre = Ok m1 /\ astep m1 (i + List.length pre) t = Err e.
Proof.
  revert m i; induction ts as [|t ts IH]; intros m i H; cbn [arun] in H; [discriminate|].
  destruct (astep m i t) as [m1|e1| |] eqn:E; cbn [bind] in H; try discriminate.
  - apply IH in H. destruct H as (pre & t' & post & m2 & -> & H1 & H2). exists (t :: pre), t', post, m2.
    cbn [arun List.length app]. rewrite E. cbn [bind]. rewrite <- Nat.add_succ_comm. auto.
  - injection H as <-. exists [], t, ts, m. cbn. rewrite Nat.add_0_r. auto.
Qed.

Lemma last_step pre t m : arun am_init 0 (pre ++ [t]) = Ok m ->
  exists m0, arun am_init 0 pre = Ok m0 /\ astep m0 (List.length pre) t = Ok m.
Proof.
  rewrite arun_app. destruct (arun am_init 0 pre) as [m0|e| |]; cbn [bind]; try discriminate. cbn [arun Nat.add]. intros H.
  exists m0. split; [reflexivity|]. destruct (astep m0 (List.length pre) t); cbn [bind] in H; try discriminate. exact H.
Qed.

(** The step that led to a state. *)
Definition before (a : astate) (b : astate) (t : token) : Prop :=
  match a with
  | ANameId main rn _ tid => b = AName0 main rn /\ t = tid
  | ADeadOpen t0 => (exists main rn id, b = AName1 main rn id) /\ t = t0 /\ seg_of t = g_ (us "{")
  | ADeadEsc => (exists main rn id, b = AName1 main rn id) /\ seg_of t = g_ (us "`")
  | ACmdEsc => (exists c ri rp, b = ACmd c ri rp) /\ seg_of t = g_ (us "`")
  | ALit => ((exists c ri, b = AOpen c ri) /\ seg_of t = g_ (us "`")) \/ b = ACmdEsc \/ b = ALit \/ b = ALitEsc
  | ALitEsc => b = ALit
  | _ => True
  end.

Lemma step_before m0 i t m : astep m0 i t = Ok m -> before (am_state m) (am_state m0) t.
Proof.
  intros Ha. destruct m0 as [a pa na]; unfold astep, bad in Ha; cbn [am_state am_pats am_nams] in *.
  destruct a as [c ri|c ri|c ri|c ri id|c ri id kw rs|c ri id kw rs b|c ri id kw rs b|c ri rp| | | |main rn|main rn|main rn id tid|main rn id|t0| |];
    repeat match type of Ha with
    | context [if ?b then _ else _] => destruct b eqn:?; try discriminate Ha
    end;
    try discriminate Ha; try (injection Ha as <-; cbn [am_state before]; exact I);
    try (destruct c; [|try (destruct ri as [|[] ?])]; try discriminate Ha; injection Ha as <-; exact I);
    try (injection Ha as <-; cbn [am_state before]; auto 7; fail).
  all: try (destruct ri as [|[] ?]; try discriminate Ha; injection Ha as <-; exact I).
  all: try (destruct rp as [|[k|k] [|? ?]]; try discriminate Ha; injection Ha as <-; exact I).
  all: injection Ha as <-; cbn [am_state before].
  - left. split; [eauto|]. apply seg_grammar; assumption.
  - split; [eauto|]. apply seg_grammar; assumption.
  - split; [eauto|]. split; [reflexivity|]. apply seg_grammar; assumption.
  - split; [eauto|]. apply seg_grammar; assumption.
Qed.

Lemma reach_before pre m : arun am_init 0 pre = Ok m -> am_state m <> AText CMain [] ->
  exists pre0 t m0, pre = pre0 ++ [t] /\ arun am_init 0 pre0 = Ok m0 /\ astep m0 (List.length pre0) t = Ok m /\
    before (am_state m) (am_state m0) t.
Proof.
  intros R Hne. assert (Hp : pre <> []) by (intros ->; injection R as <-; apply Hne; reflexivity).
  destruct (exists_last Hp) as (pre0 & t & ->). apply last_step in R. destruct R as (m0 & R0 & Hs).
  exists pre0, t, m0. split; [reflexivity|]. split; [exact R0|]. split; [exact Hs | eapply step_before; exact Hs].
Qed.

Lemma position_at d ts : forall b c gr pre t post, positions d b c gr ts -> ts = pre ++ t :: post ->
  t_start_grapheme t = gr + graphemes d (segs pre).
Proof.
  induction ts as [|t0 ts IH]; intros b c gr pre t post Hp E; [destruct pre; discriminate|].
  destruct Hp as (_ & _ & H3 & _ & _ & _ & _ & H8). destruct pre as [|p pre]; injection E as -> E.
  - cbn. lia.
  - rewrite (IH _ _ _ pre t post H8 E). unfold graphemes. cbn [segs map sum fold_right seg_of snd]. unfold segs, sum. lia.
Qed.

Section Errors.
  Variable d : icu.
  Hypothesis Hd : icu_ok d.
  Hypothesis Hw : has_words d.
  Variable ts : list token.
  Hypothesis Hpos : positions d 0 0 0 ts.
  Hypothesis Hgood : Forall (good_segment d l10n_grammar) (segs ts).
  Hypothesis Hmax : maximal (segs ts).

  Lemma reach_viable pre post m : ts = pre ++ post -> arun am_init 0 pre = Ok m -> ~ dead (am_state m) -> viable d (segs pre).
  Proof.
    intros E R Hm. rewrite E, segs_app in Hgood, Hmax. apply Forall_app in Hgood.
    apply (alive_viable d Hd Hw pre m); [apply Hgood | eapply maximal_app_l; exact Hmax | exact R | exact Hm].
  Qed.

  Lemma grapheme_at pre t post : ts = pre ++ t :: post -> t_start_grapheme t = graphemes d (segs pre).
  Proof. intros E. exact (position_at d ts 0 0 0 pre t post Hpos E). Qed.

  (** The construct of a state. *)
  Lemma hstr_kind T c ri B ps pats nams : hstr T c ri B ps pats nams ->
    match c with CMain => open_main B pats nams | CSub _ _ _ => open_sub B pats nams end.
  Proof.
    intros (B0 & P0 & Hc & HB & HP & _ & _ & Hk). destruct c as [|main rn id].
    - destruct Hc as (-> & -> & ->). rewrite HB, HP. constructor. exact Hk.
    - apply hctx_group in Hc. destruct Hc as (B1 & N & w & ws & Hg & -> & ->). rewrite HB, HP, <- app_assoc.
      constructor; assumption.
  Qed.
  Lemma hstr_inside T c ri B ps pats nams : hstr T c ri B ps pats nams ->
    inside (cstate c) B /\ inside (cstate c) (B ++ [g_ (us "{")]).
  Proof. intros H. apply hstr_kind in H. destruct c; split; exists B, pats, nams; auto. Qed.
  Lemma hstr_string T c ri B ps pats nams : hstr T c ri B ps pats nams -> NoDup pats -> NoDup nams -> open_string B pats nams.
  Proof. intros H H1 H2. split; [eapply hstr_open; exact H | auto]. Qed.

  Lemma state_inside pre m : arun am_init 0 pre = Ok m ->
    match am_state m with
    | AText c _ | AOpen c _ => inside (cstate c) (segs pre)
    | APat _ _ _ => inside PPattern (segs pre)
    | AKey _ _ _ _ _ | ASel1 _ _ _ _ _ _ | ASel2 _ _ _ _ _ _ => inside PKeyword (segs pre)
    | ACmd _ _ _ => inside PCommand (segs pre)
    | AGroup _ _ => inside PNamedGroup (segs pre)
    | AName0 _ _ | ANameId _ _ _ _ | AName1 _ _ _ => inside PNamedString (segs pre)
    | _ => True
    end.
  Proof.
    intros R. pose proof (hist_reach pre pre [] m (eq_sym (app_nil_r _)) R) as (N1 & N2 & H).
    destruct m as [a pa na]; cbn [am_state am_pats am_nams] in *. apply NoDup_rev in N1. apply NoDup_rev in N2.
    destruct a as [c ri|c ri|c ri|c ri id|c ri id kw rs|c ri id kw rs b|c ri id kw rs b|c ri rp| | | |main rn|main rn|main rn id tid|main rn id|t0| |];
      try exact I.
    - destruct H as (ps & H). apply hstr_inside in H. apply H.
    - destruct H as (ps & B & H & ->). apply hstr_inside in H. apply H.
    - destruct H as (ps & B & pats & ws & H & Hp & ->). rewrite Hp in N1. apply NoDup_app_remove_r in N1.
      exists B, pats, (rev na), (tok pre id), ws. split; [eapply hstr_string; eassumption | reflexivity].
    - destruct H as (ps & B & pats & ws & ks & H & Hp & Hk & _ & ->). rewrite Hp in N1. apply NoDup_app_remove_r in N1.
      exists B, pats, (rev na), (tok pre id), ws, (tok pre kw), ks, []. split; [eapply hstr_string; eassumption|].
      split; [exact Hk|]. rewrite app_nil_r. auto.
    - destruct H as (ps & B & pats & ws & ks & H & Hp & Hk & _ & ->). rewrite Hp in N1. apply NoDup_app_remove_r in N1.
      exists B, pats, (rev na), (tok pre id), ws, (tok pre kw), ks, [(TIdentifier, tok pre b)]. split; [eapply hstr_string; eassumption|].
      split; [exact Hk|]. eauto.
    - destruct H as (ps & B & pats & ws & ks & ty & H & Hp & Hk & _ & ->). rewrite Hp in N1. apply NoDup_app_remove_r in N1.
      exists B, pats, (rev na), (tok pre id), ws, (tok pre kw), ks, [(TIdentifier, tok pre b); (ty, us "#")].
      split; [eapply hstr_string; eassumption|]. split; [exact Hk|]. eauto 7.
    - destruct H as (ps & B & qs & H & Hq & Hok & ->). exists B, (rev pa), (rev na), qs.
      split; [eapply hstr_string; eassumption|]. split; [|reflexivity]. rewrite <- Hq.
      destruct Hok as [->|[Hok|(h & name & ->)]]; [left; reflexivity | right; left; exact Hok | right; right; eexists; reflexivity].
    - destruct H as (ps & gl & Hm & _ & (Hg & _) & -> & _). eexists; eexists. constructor; assumption.
    - destruct H as (ps & gl & Hm & _ & (Hg & _) & -> & _).
      eexists (pieces_print ps ++ g_ (us "#") :: flat_map gprint gl), _, _, []. split; [constructor; assumption|].
      split; [rewrite <- app_assoc; reflexivity | auto].
    - destruct H as (ps & gl & Hm & _ & (Hg & _) & -> & _).
      eexists (pieces_print ps ++ g_ (us "#") :: flat_map gprint gl), _, _, [(TIdentifier, tok pre id)]. split; [constructor; assumption|].
      split; [rewrite <- app_assoc; reflexivity | eauto].
    - destruct H as (ps & gl & w & ws & Hm & _ & (Hg & _) & -> & _).
      eexists (pieces_print ps ++ g_ (us "#") :: flat_map gprint gl), _, _, ((TIdentifier, tok pre id) :: (TWhiteSpace, w) :: wprint ws).
      split; [constructor; assumption|]. split; [rewrite <- app_assoc; reflexivity | eauto 7].
  Qed.

  Lemma token_case pre t post st : ts = pre ++ t :: post -> fault d (segs pre) (seg_of t) -> inside st (segs pre) ->
    tree_reports d (segs ts) (InvalidToken st (t_start_grapheme t) (t_string t)).
  Proof.
    intros E Hf Hi. apply reports_truth. rewrite (grapheme_at pre t post E).
    apply (says_token d (segs ts) st (segs pre) (seg_of t) (segs post)); [|exact Hf | exact Hi].
    rewrite E, segs_app. reflexivity.
  Qed.

  (** A named string that does not start with a word or number sign. *)
  Lemma start_fault pre post m B P N id w ws y0 y : ts = pre ++ post -> arun am_init 0 pre = Ok m ->
    open_group B P N -> NoDup P -> NoDup (N ++ [id]) ->
    (exists z, y0 = (TSyntax, z)) \/ y0 = g_ (us "`") \/ y0 = g_ (us "{") ->
    segs pre = B ++ header id w ws ++ y0 :: y -> fault d (B ++ header id w ws) y0.
  Proof.
    intros E R Hg N1 N2 Hy HS. rewrite app_assoc in HS. change (y0 :: y) with ([y0] ++ y) in HS. rewrite app_assoc in HS.
    apply segs_app_inv in HS. destruct HS as (l1 & l2 & Ep & H1 & H2).
    apply segs_app_inv in H1. destruct H1 as (l0 & l3 & -> & H0 & H3).
    apply segs_cons_inv in H3. destruct H3 as (ty & l4 & -> & Hty & H4). apply segs_nil_inv in H4. subst l4.
    assert (R1 : exists m1, arun am_init 0 (l0 ++ [ty]) = Ok m1) by (rewrite Ep in R; eapply arun_ok_prefix; exact R).
    destruct R1 as (m1 & R1). pose proof R1 as R2. apply last_step in R2. destruct R2 as (m0 & R0 & Hs0).
    destruct (reach_header B P N l0 id w ws Hg N1 N2 H0) as (main' & rn' & id' & R3).
    rewrite R0 in R3. injection R3 as ->. split.
    - rewrite <- H0. apply (reach_viable l0 ([ty] ++ l2 ++ post) (mk_am (AName1 main' rn' id') (rev P) (rev (N ++ [id])))).
      + rewrite E, Ep. repeat (rewrite <- !app_assoc; cbn [app]). reflexivity.
      + exact R0.
      + intros [].
    - rewrite <- H0, <- Hty. change [seg_of ty] with (segs [ty]). rewrite <- segs_app. apply (dead_not_viable d _ m1 R1).
      assert (Hst : exists a, dead a /\ astep (mk_am (AName1 main' rn' id') (rev P) (rev (N ++ [id]))) (List.length l0) ty =
        Ok (mk_am a (rev P) (rev (N ++ [id])))).
      { destruct Hy as [(z & Hy)|[Hy|Hy]]; rewrite Hy in Hty.
        - exists ADead. split; [exact I|]. one Hty.
        - exists ADeadEsc. split; [exact I|]. one Hty.
        - exists (ADeadOpen ty). split; [exact I|]. one Hty. }
      destruct Hst as (a & Ha & Hst). rewrite Hst in Hs0. injection Hs0 as <-. exact Ha.
  Qed.

  Lemma step_reports pre t post m e : ts = pre ++ t :: post -> arun am_init 0 pre = Ok m ->
    astep m (List.length pre) t = Err e -> tree_reports d (segs ts) e.
  Proof.
    intros E R Ha.
    assert (Hnv : ~ viable d (segs pre ++ [seg_of t])).
    { apply (step_not_viable d pre t m R). rewrite Ha. apply fails_err. }
    assert (Hf : ~ dead (am_state m) -> fault d (segs pre) (seg_of t)).
    { intros Hm. split; [eapply reach_viable; eassumption | exact Hnv]. }
    pose proof (state_inside pre m R) as Hi.
    pose proof (hist_reach pre pre [] m (eq_sym (app_nil_r _)) R) as (N1 & N2 & H).
    pose proof (reach_before pre m R) as Hb.
    destruct m as [a pa na]; unfold astep, bad in Ha; cbn [am_state am_pats am_nams] in *.
    destruct a as [c ri|c ri|c ri|c ri id|c ri id kw rs|c ri id kw rs b|c ri id kw rs b|c ri rp| | | |main rn|main rn|main rn id tid|main rn id|t0| |];
      cbn [dead] in Hf; try specialize (Hf (fun x => x)).
    - (* string *)
      destruct (is_type t TGrammar) eqn:Eg; [|discriminate].
      destruct (is_str t s_back) eqn:Eb; [discriminate|]. destruct (is_str t s_open) eqn:Eo; [discriminate|].
      destruct (is_str t s_hash) eqn:Eh.
      + destruct c as [|main rn id]; [discriminate|]. destruct ri as [|[toks|k|k o|ps] ri]; try discriminate Ha.
        injection Ha as <-. rewrite (grapheme_at pre t post E). apply reports_truth.
        assert (Es : seg_of t = g_ (us "#")) by (apply seg_grammar; assumption). rewrite Es in Hf.
        apply (says_number_sign d (segs ts) (segs pre) (segs post)); [rewrite E, segs_app; cbn [segs map]; rewrite Es; reflexivity | exact Hf | | exact Hi].
        destruct H as (ps & B0 & P0 & _ & HB & _ & _ & Hh & Hk). cbn [hash_head] in Hh.
        destruct (rev ps) as [|p r] eqn:Er; [discriminate|]. destruct p; try discriminate Hh.
        apply (f_equal (@rev _)) in Er. rewrite rev_involutive in Er. cbn [rev] in Er.
        exists (B0 ++ pieces_print (rev r)). rewrite HB, Er, pieces_print_app, app_assoc. reflexivity.
      + destruct c as [|main rn id]; [|destruct (is_str t s_close); [discriminate|]]; injection Ha as <-;
          eapply token_case; eassumption.
    - discriminate Ha.
    - (* opening brace *)
      destruct (is_type t TIdentifier) eqn:Ei.
      + destruct (umem (t_string t) pa) eqn:Eu; [|discriminate]. injection Ha as <-. apply reports_truth.
        destruct H as (ps & B & H & HS).
        assert (Es : seg_of t = (TIdentifier, t_string t)) by (unfold seg_of; rewrite (is_type_eq _ _ Ei); reflexivity).
        apply (says_pattern d (segs ts) B (rev pa) (rev na) (t_string t) (segs post)).
        * rewrite E, segs_app, HS, <- app_assoc. cbn [segs map app]. rewrite Es. reflexivity.
        * eapply hstr_string; [exact H | apply NoDup_rev; exact N1 | apply NoDup_rev; exact N2].
        * apply in_rev. rewrite rev_involutive. apply umem_In. exact Eu.
        * rewrite <- HS, <- Es. exact Hf.
      + destruct (is_type t TGrammar); [|injection Ha as <-; eapply token_case; eassumption].
        destruct (is_str t s_back); [discriminate|]. destruct (is_str t s_hash); [discriminate|].
        injection Ha as <-; eapply token_case; eassumption.
    - (* placeholder *)
      destruct (is_type t TIdentifier); [discriminate|]. destruct (is_type t TWhiteSpace); [discriminate|].
      destruct (gram t s_close); [discriminate|]. injection Ha as <-. eapply token_case; eassumption.
    - destruct (is_type t TIdentifier); [discriminate|]. destruct (is_type t TWhiteSpace); [discriminate|].
      destruct (is_type t TGrammar); [destruct (is_str t s_close); discriminate|].
      injection Ha as <-. eapply token_case; eassumption.
    - destruct (is_str t s_hash); [discriminate|]. injection Ha as <-. eapply token_case; eassumption.
    - destruct (is_type t TIdentifier); [discriminate|]. injection Ha as <-. eapply token_case; eassumption.
    - (* command *)
      destruct (is_type t TIdentifier); [discriminate|].
      destruct (is_type t TGrammar).
      + destruct (is_str t s_back); [discriminate|]. destruct (is_str t s_close).
        * destruct rp as [|[k|k] rp]; try discriminate. injection Ha as <-. eapply token_case; eassumption.
        * destruct (is_str t s_hash).
          -- destruct rp as [|[k|k] [|p rp]]; try discriminate; injection Ha as <-; eapply token_case; eassumption.
          -- injection Ha as <-. eapply token_case; eassumption.
      + destruct (is_type t TWhiteSpace); [discriminate|]. injection Ha as <-. eapply token_case; eassumption.
    - discriminate.
    - destruct (gram t s_back); discriminate.
    - discriminate.
    - (* named group *)
      destruct (is_type t TGrammar).
      + destruct (is_str t s_open); [discriminate|]. injection Ha as <-. eapply token_case; eassumption.
      + destruct (is_type t TWhiteSpace); [discriminate|]. injection Ha as <-. eapply token_case; eassumption.
    - (* name *)
      destruct (is_type t TIdentifier) eqn:Ei; [|injection Ha as <-; eapply token_case; eassumption].
      destruct (umem (t_string t) na) eqn:Eu; [|discriminate]. injection Ha as <-. apply reports_truth.
      destruct H as (ps & gl & Hm & _ & (Hg & _) & HS & HP & HN).
      assert (Es : seg_of t = (TIdentifier, t_string t)) by (unfold seg_of; rewrite (is_type_eq _ _ Ei); reflexivity).
      assert (HS' : segs pre = (pieces_print ps ++ g_ (us "#") :: flat_map gprint gl) ++ [g_ (us "{")]) by (rewrite HS, <- app_assoc; reflexivity).
      eapply (says_named d (segs ts) (pieces_print ps ++ g_ (us "#") :: flat_map gprint gl) _ _ (t_string t) (segs post)).
      + rewrite E, segs_app, HS', <- app_assoc. cbn [segs map app]. rewrite Es. reflexivity.
      + constructor; assumption.
      + rewrite <- HN. apply in_rev. rewrite rev_involutive. apply umem_In. exact Eu.
      + rewrite <- HS', <- Es. exact Hf.
    - (* white space after the name *)
      destruct (is_type t TWhiteSpace); [discriminate|]. injection Ha as <-.
      destruct Hb as (pre0 & t1 & m0 & Ep & R0 & Hs & (Hm0 & ->)); [discriminate|].
      destruct H as (ps & gl & Hm & _ & (Hg & _) & HS & HP & HN).
      assert (HS0 : segs pre0 ++ [seg_of tid] =
        ((pieces_print ps ++ g_ (us "#") :: flat_map gprint gl) ++ [g_ (us "{")]) ++ [(TIdentifier, tok pre id)]).
      { change (segs pre0 ++ [seg_of tid]) with (segs pre0 ++ segs [tid]). rewrite <- segs_app, <- Ep, HS.
        repeat (rewrite <- !app_assoc; cbn [app]). reflexivity. }
      apply app_inj_tail in HS0. destruct HS0 as (HS0 & Htid).
      assert (Hstr : t_string tid = tok pre id) by (apply (f_equal snd) in Htid; exact Htid).
      rewrite (grapheme_at pre0 tid (t :: post)) by (rewrite E, Ep, <- app_assoc; reflexivity).
      rewrite HS0, Hstr.
      assert (HS2 : segs pre = (pieces_print ps ++ g_ (us "#") :: flat_map gprint gl) ++ [g_ (us "{"); (TIdentifier, tok pre id)])
        by (rewrite HS, <- app_assoc; reflexivity).
      eapply (reports_name d (segs ts) (pieces_print ps ++ g_ (us "#") :: flat_map gprint gl) _ _ (tok pre id) (seg_of t) (segs post)).
      + constructor; assumption.
      + rewrite E, segs_app, HS2, <- app_assoc. reflexivity.
      + rewrite <- HS2. exact Hf.
    - (* start of a named string *)
      destruct (is_type t TIdentifier); [discriminate|].
      destruct (is_type t TGrammar).
      + destruct (is_str t s_hash); [discriminate|]. destruct (is_str t s_open); [discriminate|].
        destruct (is_str t s_back); [discriminate|]. injection Ha as <-. eapply token_case; eassumption.
      + destruct (is_type t TSyntax); discriminate.
    - (* after a brace at the start of a named string *)
      injection Ha as <-.
      destruct Hb as (pre0 & t1 & m0 & Ep & R0 & Hs & ((main & rn & id & Hm0) & -> & Ht)); [discriminate|].
      apply (token_case pre0 t0 (t :: post)).
      + rewrite E, Ep, <- app_assoc; reflexivity.
      + split.
        * apply (reach_viable pre0 (t0 :: t :: post) m0); [rewrite E, Ep, <- app_assoc; reflexivity | exact R0 |].
          rewrite Hm0. intros [].
        * change [seg_of t0] with (segs [t0]). rewrite <- segs_app, <- Ep. apply (dead_not_viable d pre _ R). exact I.
      + pose proof (state_inside pre0 m0 R0) as Hi0. rewrite Hm0 in Hi0. exact Hi0.
    - discriminate.
    - (* after a word that is no word *)
      destruct (is_type t TGrammar && negb (is_str t s_hash) && negb (is_str t s_open) && negb (is_str t s_back)) eqn:Eg; [|discriminate].
      injection Ha as <-.
      destruct H as (main & rn & id & B & Hc & HS). apply hctx_group in Hc. destruct Hc as (B0 & N & w & ws & Hg & HB & HN).
      rewrite (grapheme_at pre t post E).
      assert (Hy : exists y0 y, dead_start (y0 :: y) /\ segs pre = B ++ y0 :: y).
      { destruct HS as [(z & HS)|(z & HS)]; eexists; eexists; (split; [|exact HS]); [left | right]; eauto. }
      destruct Hy as (y0 & y & Hy & HS').
      rewrite HB in HS'. rewrite <- app_assoc in HS'.
      assert (Hfirst : fault d (B0 ++ header (tok pre id) w ws) y0).
      { eapply (start_fault pre (t :: post) _ B0 (rev pa) N); [exact E | exact R | exact Hg | apply NoDup_rev; exact N1 | | | exact HS'].
        - rewrite <- HN. apply NoDup_rev; exact N2.
        - destruct Hy as [(z & Hy)|(z & Hy)]; injection Hy as -> _; [left; eauto | right; left; reflexivity]. }
      rewrite HS'. change (t_string t) with (snd (seg_of t)).
      apply (reports_start d (segs ts) B0 (rev pa) N (tok pre id) w ws y0 y (seg_of t) (segs post)); [exact Hg | exact Hy | | exact Hfirst].
      rewrite E, segs_app, HS'. repeat (rewrite <- !app_assoc; cbn [app]). reflexivity.
  Qed.
  (** Where a literal text pattern began. *)
  Lemma literal_history pre : forall m, arun am_init 0 pre = Ok m ->
    am_state m = ALit \/ am_state m = ALitEsc \/ am_state m = ACmdEsc ->
    exists p1 t p2 m1 m2, pre = p1 ++ t :: p2 /\ arun am_init 0 p1 = Ok m1 /\ seg_of t = g_ (us "`") /\
      arun am_init 0 (p1 ++ [t]) = Ok m2 /\ dead (am_state m2) /\
      ((exists c ri, am_state m1 = AOpen c ri) \/ exists c ri rp, am_state m1 = ACmd c ri rp).
  Proof.
    induction pre as [|t pre IH] using rev_ind; intros m R Hm.
    - injection R as <-. destruct Hm as [Hm|[Hm|Hm]]; discriminate Hm.
    - pose proof R as R'. apply last_step in R'. destruct R' as (m0 & R0 & Hs). pose proof (step_before _ _ _ _ Hs) as Hb.
      assert (Hdead : dead (am_state m)) by (destruct Hm as [->|[-> | ->]]; exact I).
      assert (Hrec : am_state m0 = ALit \/ am_state m0 = ALitEsc \/ am_state m0 = ACmdEsc ->
        exists p1 u p2 m1 m2, pre ++ [t] = p1 ++ u :: p2 /\ arun am_init 0 p1 = Ok m1 /\ seg_of u = g_ (us "`") /\
          arun am_init 0 (p1 ++ [u]) = Ok m2 /\ dead (am_state m2) /\
          ((exists c ri, am_state m1 = AOpen c ri) \/ exists c ri rp, am_state m1 = ACmd c ri rp)).
      { intros H0. destruct (IH m0 R0 H0) as (p1 & u & p2 & m1 & m2 & -> & H1). exists p1, u, (p2 ++ [t]), m1, m2.
        split; [rewrite <- app_assoc; reflexivity | exact H1]. }
      destruct Hm as [Hm|[Hm|Hm]]; rewrite Hm in Hb; cbn [before] in Hb.
      + destruct Hb as [((c & ri & H0) & Ht)|[H0|[H0|H0]]]; [|apply Hrec; auto..].
        exists pre, t, [], m0, m. do 5 (split; [first [reflexivity | assumption]|]). left; eauto.
      + apply Hrec. auto.
      + destruct Hb as ((c & ri & rp & H0) & Ht). exists pre, t, [], m0, m. do 5 (split; [first [reflexivity | assumption]|]).
        right; eauto.
  Qed.

  Lemma finish_reports m e : arun am_init 0 ts = Ok m -> afinish m = Err e -> tree_reports d (segs ts) e.
  Proof.
    intros R Hfin. assert (He : e = EndedAbruptly).
    { unfold afinish in Hfin. destruct (am_state m) as [[]| | | | | | | | | | | | | | | | |]; congruence. }
    subst e.
    pose proof (hist_reach ts ts [] m (eq_sym (app_nil_r _)) R) as (N1 & N2 & H).
    apply NoDup_rev in N1. apply NoDup_rev in N2.
    assert (Hcases : ~ dead (am_state m) \/ (am_state m = ALit \/ am_state m = ALitEsc \/ am_state m = ACmdEsc) \/
      (exists t0, am_state m = ADeadOpen t0) \/ am_state m = ADeadEsc \/ am_state m = ADead).
    { destruct (am_state m); cbn [dead]; eauto 7; left; intros []. }
    destruct Hcases as [Ha|[Hl|[(t0 & Hm)|[Hm|Hm]]]].
    - apply reports_truth. apply says_end.
      + apply (reach_viable ts [] m); [rewrite app_nil_r; reflexivity | exact R | exact Ha].
      + intros c Hc Hs. destruct (aparse_complete ts c Hc Hs) as (a & Hp & _). unfold aparse in Hp. rewrite R in Hp. cbn [bind] in Hp. congruence.
    - destruct (literal_history ts m R Hl) as (p1 & t & p2 & m1 & m2 & E & R1 & Ht & R2 & Hdead & Hm1).
      assert (Hf : fault d (segs p1) (g_ (us "`"))).
      { split.
        - apply (reach_viable p1 (t :: p2) m1 E R1). destruct Hm1 as [(c & ri & ->)|(c & ri & rp & ->)]; intros [].
        - rewrite <- Ht. change [seg_of t] with (segs [t]). rewrite <- segs_app. exact (dead_not_viable d _ m2 R2 Hdead). }
      pose proof (hist_reach p1 p1 [] m1 (eq_sym (app_nil_r _)) R1) as (K1 & K2 & K).
      apply NoDup_rev in K1. apply NoDup_rev in K2.
      destruct Hm1 as [(c & ri & Hm1)|(c & ri & rp & Hm1)]; rewrite Hm1 in K.
      + destruct K as (ps & B & Hs & HS). rewrite HS in Hf.
        eapply (reports_literal d (segs ts) B _ _ (segs p2)); [eapply hstr_string; eassumption | | exact Hf].
        rewrite E, segs_app, HS. cbn [segs map]. rewrite Ht, <- app_assoc. reflexivity.
      + destruct K as (ps & B & qs & Hs & _ & _ & HS). rewrite HS in Hf.
        eapply (reports_command_literal d (segs ts) B _ _ qs (segs p2)); [eapply hstr_string; eassumption | | exact Hf].
        rewrite E, segs_app, HS. cbn [segs map]. rewrite Ht. repeat (rewrite <- !app_assoc; cbn [app]). reflexivity.
    - destruct (reach_before ts m R) as (pre0 & t1 & m0 & Ep & R0 & Hs & Hb); [rewrite Hm; discriminate|].
      rewrite Hm in Hb. destruct Hb as ((main & rn & id & Hm0) & -> & Ht).
      pose proof (hist_reach pre0 pre0 [] m0 (eq_sym (app_nil_r _)) R0) as (K1 & K2 & K).
      apply NoDup_rev in K1. apply NoDup_rev in K2. rewrite Hm0 in K. apply hctx_group in K.
      destruct K as (B0 & N & w & ws & Hg & HB & HN). rewrite HN in K2.
      assert (HS : segs ts = B0 ++ header (tok pre0 id) w ws ++ [g_ (us "{")]).
      { rewrite Ep, segs_app, HB, <- app_assoc. cbn [segs map]. rewrite Ht. reflexivity. }
      eapply (reports_start_end d (segs ts) B0 _ N); [exact Hg | right; right; reflexivity | exact HS |].
      eapply (start_fault ts [] m B0 _ N); [rewrite app_nil_r; reflexivity | exact R | exact Hg | exact K1 | exact K2 | right; right; reflexivity | exact HS].
    - rewrite Hm in H. destruct H as (main & rn & id & B & Hc & HS). apply hctx_group in Hc.
      destruct Hc as (B0 & N & w & ws & Hg & -> & HN). rewrite HN in N2. rewrite <- app_assoc in HS.
      eapply (reports_start_end d (segs ts) B0 _ N); [exact Hg | right; left; reflexivity | exact HS |].
      eapply (start_fault ts [] m B0 _ N); [rewrite app_nil_r; reflexivity | exact R | exact Hg | exact N1 | exact N2 | right; left; reflexivity | exact HS].
    - rewrite Hm in H. destruct H as (main & rn & id & B & Hc & HS). apply hctx_group in Hc.
      destruct Hc as (B0 & N & w & ws & Hg & -> & HN). rewrite HN in N2.
      destruct HS as [(z & HS)|(z & HS)]; rewrite <- app_assoc in HS.
      + eapply (reports_start_end d (segs ts) B0 _ N); [exact Hg | left; left; eauto | exact HS |].
        eapply (start_fault ts [] m B0 _ N); [rewrite app_nil_r; reflexivity | exact R | exact Hg | exact N1 | exact N2 | left; eauto | exact HS].
      + eapply (reports_start_end d (segs ts) B0 _ N); [exact Hg | left; right; eauto | exact HS |].
        eapply (start_fault ts [] m B0 _ N); [rewrite app_nil_r; reflexivity | exact R | exact Hg | exact N1 | exact N2 | right; left; reflexivity | exact HS].
  Qed.
End Errors.

Theorem tree_reports_all d s l e : icu_ok d -> has_words d -> s <> [] -> segmentation d l10n_grammar s l ->
  tree_try_new d s l10n_grammar = Err e -> tree_reports d l e.
Proof.
  intros Hd Hw Hs Hl He.
  destruct (tree_of_string d s l10n_grammar l Hs ltac:(discriminate) Hl) as (ts & Hts & Htok & Htree). rewrite Htree in He.
  pose proof (tokenise_segmentation _ _ _ _ Htok) as ((_ & Hg & Hm) & Hp).
  rewrite parse_refines in He. assert (Ha : aparse ts = Err e) by (destruct (aparse ts); cbn in He; congruence).
  rewrite <- Hts. change (map seg_of ts) with (segs ts).
  unfold aparse in Ha. destruct (arun am_init 0 ts) as [m|e1| |] eqn:R; cbn [bind] in Ha; try discriminate.
  - exact (finish_reports d Hd Hw ts Hg Hm m e R Ha).
  - injection Ha as ->. apply arun_err in R. destruct R as (pre & t & post & m & E & R & Hst). cbn [Nat.add] in Hst.
    exact (step_reports d Hd Hw ts Hp Hg Hm pre t post m e E R Hst).
Qed.

Lemma sound_tree_says d l e : sound_tree_error e -> tree_reports d l e -> tree_says d l e.
Proof. intros H Hr. destruct Hr; first [assumption | contradiction]. Qed.
