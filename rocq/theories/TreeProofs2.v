(** Panics, unterminated strings, duplicates. *)
From Verif Require Import Base BaseFacts LexerModel LexerSpec TreeModel TreeSpec TreeArena TreeMachine TreeRefine TreeRefine3
  TreeGrammar TreeGrammar2 TreeProofs.

(** ** Reaching the states in the middle of a string *)

Lemma reach_main B P N pre : open_main B P N -> NoDup P -> segs pre = B ->
  exists ri, arun am_init 0 pre = Ok (mk_am (AText CMain ri) (rev P) (rev N)).
Proof.
  intros Ho HP Hpre. destruct Ho as [ps (Hw & Hh)].
  destruct (run_pieces pre CMain [] ps Hw Hh [] pre [] [] []) as (ri & R & _).
  - rewrite app_nil_r; reflexivity.
  - exact Hpre.
  - exact I.
  - rewrite app_nil_r. apply NoDup_rev; exact HP.
  - exists ri. rewrite app_nil_r in R. exact R.
Qed.

Lemma reach_group B P N pre : open_group B P N -> NoDup P -> NoDup N -> segs pre = B ->
  exists main rn, arun am_init 0 pre = Ok (mk_am (AGroup main rn) (rev P) (rev N)).
Proof.
  intros Ho HP HN Hpre. destruct Ho as [ps gl Hm Hg].
  apply segs_app_inv in Hpre. destruct Hpre as (m1 & m2 & -> & H1 & H2).
  apply segs_cons_inv in H2. destruct H2 as (t & l & -> & Ht & Hl).
  destruct (reach_main _ _ _ m1 (om ps Hm)) as (ri & R); [apply NoDup_app_remove_r in HP; exact HP | exact H1|].
  rewrite arun_app, R. cbn [bind Nat.add].
  rewrite (step_ok _ _ _ _ (mk_am (AGroup (rev ri) []) (rev (spats (map pcontent ps))) [])) by (one Ht).
  destruct (run_group (m1 ++ t :: l) (rev ri) gl Hg [] (m1 ++ [t]) l [] (rev (spats (map pcontent ps))) []) as (rn & R2 & Hn).
  { rewrite app_nil_r, <- app_assoc; reflexivity. }
  { exact Hl. }
  { rewrite <- rev_app_distr. apply NoDup_rev. exact HP. }
  { rewrite app_nil_r. apply NoDup_rev. exact HN. }
  exists (rev ri), rn. rewrite len_snoc in R2. rewrite R2, app_nil_r, rev_app_distr. reflexivity.
Qed.

Lemma reach_header B P N pre id w ws : open_group B P N -> NoDup P -> NoDup (N ++ [id]) -> segs pre = B ++ header id w ws ->
  exists main rn id', arun am_init 0 pre = Ok (mk_am (AName1 main rn id') (rev P) (rev (N ++ [id]))).
Proof.
  intros Ho HP HN Hpre. apply segs_app_inv in Hpre. destruct Hpre as (m1 & m2 & -> & H1 & H2).
  destruct (reach_group B P N m1 Ho HP) as (main & rn & R); [apply NoDup_app_remove_r in HN; exact HN | exact H1|].
  destruct (run_header (m1 ++ m2) main rn m1 m2 [] (rev P) (rev N) id w ws) as (id' & R2 & _).
  { rewrite app_nil_r; reflexivity. }
  { exact H2. }
  { intros Hin. apply in_rev in Hin. apply NoDup_rev in HN. rewrite rev_app_distr in HN. cbn in HN. inversion HN; subst.
    apply in_rev in Hin. contradiction. }
  exists main, rn, id'. rewrite arun_app, R. cbn [bind Nat.add]. rewrite R2, rev_app_distr. reflexivity.
Qed.

Lemma reach_sub B P N pre : open_sub B P N -> NoDup P -> NoDup N -> segs pre = B ->
  exists main rn id' ri, arun am_init 0 pre = Ok (mk_am (AText (CSub main rn id') ri) (rev P) (rev N)).
Proof.
  intros Ho HP HN Hpre. destruct Ho as [B P N id w ws sub Ho Hs]. rewrite app_assoc in Hpre.
  apply segs_app_inv in Hpre. destruct Hpre as (m1 & m2 & -> & H1 & H2).
  destruct (reach_header B P N m1 id w ws Ho) as (main & rn & id' & R);
    [apply NoDup_app_remove_r in HP; exact HP | exact HN | exact H1|].
  destruct (run_sub (m1 ++ m2) main rn id' (rev P) (rev (N ++ [id])) m1 m2 [] sub) as (ri & R2 & _).
  { rewrite app_nil_r; reflexivity. }
  { exact H2. }
  { exact Hs. }
  { rewrite <- rev_app_distr. apply NoDup_rev; exact HP. }
  exists main, rn, id', ri. rewrite arun_app, R. cbn [bind Nat.add]. rewrite R2, <- rev_app_distr. reflexivity.
Qed.

Lemma reach_open B P N pre : open_string B P N -> segs pre = B ->
  exists c ri, arun am_init 0 pre = Ok (mk_am (AText c ri) (rev P) (rev N)).
Proof.
  intros ([Ho|Ho] & HP & HN) Hpre.
  - destruct (reach_main _ _ _ _ Ho HP Hpre) as (ri & R). eauto.
  - destruct (reach_sub _ _ _ _ Ho HP HN Hpre) as (main & rn & id & ri & R). eauto.
Qed.

(** Conversely the history of a state is one of these sequences. *)
Lemma hctx_group T main rn id B pats nams : hctx T (CSub main rn id) B pats nams ->
  exists B0 N w ws, open_group B0 pats N /\ B = B0 ++ header (tok T id) w ws /\ nams = N ++ [tok T id].
Proof.
  intros (ps & gl & w & ws & Hm & _ & (Hg & _) & HB & HP & HN).
  exists (pieces_print ps ++ g_ (us "#") :: flat_map gprint gl), (map fst (flat_map gcontent gl)), w, ws.
  rewrite HP. split; [constructor; assumption|]. split; [|exact HN].
  rewrite HB, <- app_assoc. reflexivity.
Qed.

Lemma hstr_open T c ri B ps pats nams : hstr T c ri B ps pats nams -> open_main B pats nams \/ open_sub B pats nams.
Proof.
  intros (B0 & P0 & Hc & HB & HP & _ & _ & Hw). destruct c as [|main rn id].
  - left. destruct Hc as (-> & -> & ->). rewrite HB, HP. constructor. exact Hw.
  - right. apply hctx_group in Hc. destruct Hc as (B1 & N & w & ws & Hg & -> & ->). rewrite HB, HP, <- app_assoc.
    constructor; assumption.
Qed.

(** ** Panics *)
Lemma arun_panic m i ts : arun m i ts = Panic ->
  exists pre t post m1, ts = pre ++ t :: post /\ arun m i pre = Ok m1 /\ astep m1 (i + List.length pre) t = Panic.
Proof.
  revert m i; induction ts as [|t ts IH]; intros m i H; cbn [arun] in H; [discriminate|].
  destruct (astep m i t) as [m1|e| |] eqn:E; cbn [bind] in H; try discriminate.
  - apply IH in H. destruct H as (pre & t' & post & m2 & -> & H1 & H2). exists (t :: pre), t', post, m2.
    cbn [arun List.length app]. rewrite E. cbn [bind]. rewrite <- Nat.add_succ_comm. auto.
  - exists [], t, ts, m. cbn. rewrite Nat.add_0_r. auto.
Qed.

Lemma afinish_no_panic m : afinish m <> Panic.
Proof. unfold afinish. destruct (am_state m) as [[]| | | | | | | | | | | | | | | | |]; discriminate. Qed.

Lemma seg_g t x : is_type t TGrammar = true -> is_str t x = true -> seg_of t = g_ x.
Proof. apply seg_grammar. Qed.

Lemma step_panic m i t : astep m i t = Panic ->
  (exists c ri h rp, am_state m = ACmd c ri (CHash h :: rp) /\ (seg_of t = g_ (us "}") \/ seg_of t = g_ (us "#"))) \/
  (am_state m = ADead /\ (fst (seg_of t) = TGrammar -> snd (seg_of t) = us "#" \/ snd (seg_of t) = us "{" \/ snd (seg_of t) = us "`")).
Proof.
  intros Ha. destruct m as [a pa na]; unfold astep, bad in Ha; cbn [am_state am_pats am_nams] in *.
  destruct a as [c ri|c ri|c ri|c ri id|c ri id kw rs|c ri id kw rs b|c ri id kw rs b|c ri rp| | | |main rn|main rn|main rn id tid|main rn id|t0| |];
    repeat match type of Ha with
    | context [if ?b then _ else _] => destruct b eqn:?; try discriminate Ha
    end; try discriminate Ha.
  - destruct c; [discriminate|]. destruct ri as [|[] ?]; discriminate.
  - destruct c; discriminate.
  - left. destruct rp as [|[k|k] r]; try discriminate. exists c, ri, k, r. split; [reflexivity|].
    left. apply seg_grammar; assumption.
  - left. destruct rp as [|[k|k] r]; try discriminate; [destruct r; discriminate|]. exists c, ri, k, r. split; [reflexivity|].
    right. apply seg_grammar; assumption.
  - right. split; [reflexivity|]. unfold seg_of; cbn [fst snd]. intros Hg.
    assert (Eg : is_type t TGrammar = true) by (unfold is_type; rewrite Hg; reflexivity).
    match goal with H : _ && _ = false |- _ => rewrite Eg in H; cbn [andb] in H; rename H into HH end.
    destruct (is_str t s_hash) eqn:E1; [left; apply is_str_eq; exact E1|].
    destruct (is_str t s_open) eqn:E2; [right; left; apply is_str_eq; exact E2|].
    destruct (is_str t s_back) eqn:E3; [right; right; apply is_str_eq; exact E3|]. discriminate.
Qed.

Lemma run_cmd T c ri pa na pre l post qs : T = pre ++ l ++ post -> segs l = flat_map qprint qs ->
  command_prefix (flat_map qpar qs) ->
  exists rp, arun (mk_am (ACmd c ri []) pa na) (List.length pre) l = Ok (mk_am (ACmd c ri rp) pa na) /\
    map (sparam_of T) (rev rp) = flat_map qpar qs.
Proof.
  intros HT Hl Hp.
  assert (Hcases : Forall (fun p => p <> SDelay) (flat_map qpar qs) \/
     exists name args, flat_map qpar qs = [SId name] ++ SDelay :: args /\ Forall (fun p => p <> SDelay) args).
  { destruct Hp as [Hp|[(name & args & Ha & [Hp|(Hp & _)])|(name & Hp)]]; rewrite Hp.
    - left; constructor.
    - left; constructor; [discriminate | exact Ha].
    - right; exists name, args; auto.
    - right; exists name, []; auto. }
  destruct Hcases as [HF|(name & args & Hps & Hargs)].
  - destruct (run_qparts T c ri pa na qs HF pre l post []) as (rp & R & Hrp & _); [exact HT | exact Hl|].
    exists rp. rewrite app_nil_r in R. auto.
  - destruct (qpar_split qs [SId name] args Hps) as (q1 & q2 & -> & H1 & H2); [repeat constructor; discriminate|].
    rewrite flat_map_app in Hl. apply segs_app_inv in Hl. destruct Hl as (l1 & lr & -> & Hl1 & Hlr).
    cbn [flat_map qprint app] in Hlr. apply segs_cons_inv in Hlr. destruct Hlr as (th & l2 & -> & Hth & Hl2).
    destruct (run_qparts T c ri pa na q1) with (pre := pre) (l := l1) (post := th :: l2 ++ post) (rp := @nil cparam) as (rp1 & R1 & Hrp1 & HF1).
    { rewrite H1. repeat constructor; discriminate. }
    { rewrite HT. repeat (rewrite <- !app_assoc; cbn [app]). reflexivity. }
    { exact Hl1. }
    rewrite app_nil_r in R1.
    assert (Hone : exists i, rp1 = [CId i]).
    { rewrite H1 in Hrp1. apply (f_equal (@List.length _)) in Hrp1 as HL. rewrite map_length, rev_length in HL. cbn in HL.
      destruct rp1 as [|[i|i] [|y rp1]]; try discriminate HL; [eauto|].
      inversion HF1; contradiction. }
    destruct Hone as (i & ->).
    rewrite arun_app, R1. cbn [bind].
    rewrite (step_ok _ _ _ _ (mk_am (ACmd c ri [CHash (List.length (pre ++ l1)); CId i]) pa na)).
    2:{ rewrite (app_length pre l1). one Hth. }
    destruct (run_qparts T c ri pa na q2) with (pre := (pre ++ l1) ++ [th]) (l := l2) (post := post)
      (rp := [CHash (List.length (pre ++ l1)); CId i]) as (rp2 & R2 & Hrp2 & HF2).
    { rewrite H2. exact Hargs. }
    { rewrite HT. repeat (rewrite <- !app_assoc; cbn [app]). reflexivity. }
    { exact Hl2. }
    replace (S (List.length pre + List.length l1)) with (List.length ((pre ++ l1) ++ [th]))
      by (rewrite len_snoc, app_length; reflexivity).
    exists (rp2 ++ [CHash (List.length (pre ++ l1)); CId i]).
    split; [exact R2|]. rewrite rev_app_distr, map_app, Hrp2, H2, Hps. cbn [rev app map sparam_of].
    rewrite H1 in Hrp1. cbn in Hrp1. injection Hrp1 as ->. reflexivity.
Qed.

Theorem aparse_panic ts : aparse ts = Panic <-> panicking (segs ts).
Proof.
  split.
  - unfold aparse. destruct (arun am_init 0 ts) as [m|e| |] eqn:E; cbn [bind]; try discriminate;
      [intros H; apply afinish_no_panic in H; contradiction | intros _].
    apply arun_panic in E. destruct E as (pre & t & post & m & -> & R & Hst). cbn [Nat.add] in Hst.
    pose proof (hist_reach pre pre [] m (eq_sym (app_nil_r _)) R) as (N1 & N2 & H).
    destruct m as [st pa na]; cbn [am_state am_pats am_nams] in *.
    apply NoDup_rev in N1. apply NoDup_rev in N2.
    rewrite segs_app. cbn [segs map].
    apply step_panic in Hst. cbn [am_state] in Hst. destruct Hst as [(c & ri & h & rp & -> & Ht)|(-> & Ht)].
    + destruct H as (ps & B & qs & Hstr & Hq & Hok & ->). rewrite <- app_assoc. cbn [app].
      apply (panic_command _ (rev pa) (rev na) qs (match nth_error (flat_map qpar qs) 0 with Some (SId w) => w | _ => [] end)).
      * split; [eapply hstr_open; exact Hstr | auto].
      * rewrite <- Hq. destruct Hok as [Hok|[(name & args & Ha & Hok)|(h' & name & Hok)]]; [discriminate | | ].
        -- exfalso. cbn [rev] in Hok. rewrite map_app in Hok. cbn in Hok.
           assert (Hbad : forall l x (r : list sparam), l ++ [SDelay] = x :: r -> x <> SDelay -> Forall (fun p => p <> SDelay) r -> False).
           { intros l x r HE Hx HF. destruct l as [|y l]; cbn in HE; injection HE as HE0 HE; [congruence|].
             rewrite Forall_forall in HF. apply (HF SDelay); [rewrite <- HE; apply in_or_app; right; left; reflexivity | reflexivity]. }
           destruct Hok as [Hok|(Hok & Hne)]; [eapply Hbad; [exact Hok | discriminate | exact Ha]|].
           destruct (map (sparam_of pre) (rev rp)) as [|y l]; cbn in Hok; injection Hok as HE0 Hok; [discriminate|].
           destruct l as [|y2 l2]; cbn in Hok; [injection Hok as HE1; congruence | injection Hok as HE1 Hok].
           rewrite Forall_forall in Ha. apply (Ha SDelay); [rewrite <- Hok; apply in_or_app; right; left; reflexivity | reflexivity].
        -- rewrite Hok. reflexivity.
      * exact Ht.
    + destruct H as (main & rn & id & B & Hc & HS). apply hctx_group in Hc. destruct Hc as (B0 & N & w & ws & Hg & -> & HN).
      rewrite HN in N2.
      destruct HS as [(z & ->)|(z & ->)]; repeat rewrite <- app_assoc;
        (eapply panic_named; [exact Hg | exact N1 | exact N2 | eauto | exact Ht]).
  - intros Hp. remember (segs ts) as S0 eqn:Hs. destruct Hp as [B P N qs name x rest Ho Hq Hx | B P N id w ws y x rest Ho HP HN Hy Hx].
    + symmetry in Hs. apply segs_app_inv in Hs. destruct Hs as (pre & l & -> & Hpre & Hl).
      apply segs_cons_inv in Hl. destruct Hl as (t0 & l1 & -> & Ht0 & Hl).
      apply segs_cons_inv in Hl. destruct Hl as (t1 & l2 & -> & Ht1 & Hl).
      apply segs_app_inv in Hl. destruct Hl as (lq & l3 & -> & Hlq & Hl).
      apply segs_cons_inv in Hl. destruct Hl as (tx & l4 & -> & Htx & Hl).
      destruct (reach_open _ _ _ pre Ho Hpre) as (c & ri & R).
      unfold aparse. rewrite arun_app, R. cbn [bind Nat.add].
      rewrite (step_ok _ _ _ _ (mk_am (AOpen c ri) (rev P) (rev N))) by (one Ht0).
      rewrite (step_ok _ _ _ _ (mk_am (ACmd c ri []) (rev P) (rev N))) by (one Ht1).
      rewrite arun_app.
      destruct (run_cmd (((pre ++ [t0]) ++ [t1]) ++ lq) c ri (rev P) (rev N) ((pre ++ [t0]) ++ [t1]) lq [] qs) as (rp & R2 & Hrp).
      { rewrite app_nil_r; reflexivity. }
      { exact Hlq. }
      { right; right; eauto. }
      rewrite !len_snoc in R2. rewrite R2. cbn [bind].
      assert (Erp : exists h nm, rp = [CHash h; CId nm]).
      { rewrite Hq in Hrp. apply (f_equal (@rev _)) in Hrp as HL. rewrite <- map_rev, rev_involutive in HL. cbn in HL.
        destruct rp as [|[k|k] [|[k2|k2] [|y r]]]; try discriminate HL. eauto. }
      destruct Erp as (h & nm & ->). cbn [arun].
      replace (astep (mk_am (ACmd c ri [CHash h; CId nm]) (rev P) (rev N)) (S (S (List.length pre)) + List.length lq) tx)
        with (@Panic tree_error am); [reflexivity|].
      destruct Hx as [-> | ->]; symmetry; one Htx.
    + symmetry in Hs. rewrite (app_assoc B) in Hs. apply segs_app_inv in Hs. destruct Hs as (pre & l & -> & Hpre & Hl).
      apply segs_app_inv in Hl. destruct Hl as (ly & l1 & -> & Hly & Hl).
      apply segs_cons_inv in Hl. destruct Hl as (tx & l4 & -> & Htx & Hl).
      destruct (reach_header _ _ _ pre id w ws Ho HP HN Hpre) as (main & rn & id' & R).
      unfold aparse. rewrite arun_app, R. cbn [bind Nat.add]. rewrite arun_app.
      assert (Ry : arun (mk_am (AName1 main rn id') (rev P) (rev (N ++ [id]))) (List.length pre) ly =
                   Ok (mk_am ADead (rev P) (rev (N ++ [id])))).
      { destruct Hy as [(z & ->)|(z & ->)].
        - apply segs_cons_inv in Hly. destruct Hly as (t & l & -> & Ht & Hl'). apply segs_nil_inv in Hl'; subst l.
          rewrite (step_ok _ _ _ _ (mk_am ADead (rev P) (rev (N ++ [id])))) by (one Ht). reflexivity.
        - apply segs_cons_inv in Hly. destruct Hly as (t & l & -> & Ht & Hl').
          apply segs_cons_inv in Hl'. destruct Hl' as (t2 & l2 & -> & Ht2 & Hl'). apply segs_nil_inv in Hl'; subst l2.
          rewrite (step_ok _ _ _ _ (mk_am ADeadEsc (rev P) (rev (N ++ [id])))) by (one Ht).
          rewrite (step_ok _ _ _ _ (mk_am ADead (rev P) (rev (N ++ [id])))) by reflexivity. reflexivity. }
      rewrite Ry. cbn [bind arun].
      replace (astep (mk_am ADead (rev P) (rev (N ++ [id]))) (List.length pre + List.length ly) tx)
        with (@Panic tree_error am); [reflexivity|].
      destruct x as [ty s]. symmetry. one Htx. cbn [fst snd] in Hx.
      destruct ty; try reflexivity. destruct (Hx eq_refl) as [->|[->| ->]]; reflexivity.
Qed.

Lemma astep_fuel m i t : astep m i t <> NoFuel.
Proof.
  destruct m as [a pa na]; unfold astep, bad; cbn [am_state am_pats am_nams].
  destruct a as [c ri|c ri|c ri|c ri id|c ri id kw rs|c ri id kw rs b|c ri id kw rs b|c ri rp| | | |main rn|main rn|main rn id tid|main rn id|t0| |];
    repeat match goal with
    | |- context [if ?b then _ else _] => destruct b
    end; try discriminate;
    repeat match goal with |- context [match ?x with _ => _ end] => destruct x end; discriminate.
Qed.

Theorem aparse_fuel ts : aparse ts <> NoFuel.
Proof.
  unfold aparse. assert (H : forall ts m i, arun m i ts <> NoFuel).
  { clear ts. induction ts as [|t ts IH]; intros m i; cbn [arun]; [discriminate|].
    destruct (astep m i t) as [m1|e| |] eqn:E; cbn [bind]; try discriminate; [apply IH | exfalso; exact (astep_fuel _ _ _ E)]. }
  specialize (H ts am_init 0). destruct (arun am_init 0 ts) as [m|e| |]; cbn [bind]; try discriminate; [|contradiction].
  unfold afinish. destruct (am_state m) as [[]| | | | | | | | | | | | | | | | |]; discriminate.
Qed.

(** ** Unterminated strings *)

Definition fake (x : segment) : token := mk_token (snd x) (fst x) 0 0 0 0 0 0 0.
Lemma segs_fake l : segs (map fake l) = l.
Proof. unfold segs. rewrite map_map. rewrite <- (map_id l) at 2. apply map_ext. intros [ty s]; reflexivity. Qed.

Definition in_pattern (a : astate) : Prop :=
  match a with AOpen _ _ | APat _ _ _ | AKey _ _ _ _ _ | ASel1 _ _ _ _ _ _ | ASel2 _ _ _ _ _ _ | ACmd _ _ _
  | ACmdEsc | ALit | ALitEsc => True | _ => False end.

Lemma in_pattern_step m i t m' : in_pattern (am_state m) -> seg_of t <> g_ (us "}") -> astep m i t = Ok m' -> in_pattern (am_state m').
Proof.
  intros Hp Ht Ha. destruct m as [a pa na]; unfold astep, bad in Ha; cbn [am_state am_pats am_nams] in *.
  destruct a as [c ri|c ri|c ri|c ri id|c ri id kw rs|c ri id kw rs b|c ri id kw rs b|c ri rp| | | |main rn|main rn|main rn id tid|main rn id|t0| |];
    try contradiction;
    repeat match type of Ha with
    | context [if ?b then _ else _] => destruct b eqn:?; try discriminate Ha
    end; try (injection Ha as <-; exact I).
  - exfalso; apply Ht. unfold gram in *. bools. apply seg_grammar; assumption.
  - exfalso; apply Ht. apply seg_grammar; assumption.
  - exfalso; apply Ht. apply seg_grammar; assumption.
  - destruct rp as [|[k|k] [|? ?]]; try discriminate; injection Ha as <-; exact I.
Qed.

Lemma in_pattern_run l : forall m i m', Forall (fun t => seg_of t <> g_ (us "}")) l -> in_pattern (am_state m) ->
  arun m i l = Ok m' -> in_pattern (am_state m').
Proof.
  induction l as [|t l IH]; intros m i m' HF Hp HR; cbn [arun] in HR; [injection HR as <-; exact Hp|].
  inversion HF as [|? ? Ht HF']; subst.
  destruct (astep m i t) as [m1|e| |] eqn:E; cbn [bind] in HR; try discriminate.
  eapply IH; [exact HF' | eapply in_pattern_step; eassumption | exact HR].
Qed.

Lemma in_pattern_finish m : in_pattern (am_state m) -> afinish m = Err EndedAbruptly.
Proof. unfold afinish. destruct (am_state m) as [[]| | | | | | | | | | | | | | | | |]; cbn; intros H; try contradiction; reflexivity. Qed.

Definition ctx_sub (c : actx) : Prop := match c with CMain => False | _ => True end.
Definition in_named (a : astate) : Prop :=
  match a with
  | AText c _ | AEsc c _ | AOpen c _ | APat c _ _ | AKey c _ _ _ _ | ASel1 c _ _ _ _ _ | ASel2 c _ _ _ _ _ | ACmd c _ _ => ctx_sub c
  | AGroup _ _ => False
  | _ => True
  end.

Lemma in_named_step m i t m' : in_named (am_state m) -> seg_of t <> g_ (us "}") -> astep m i t = Ok m' -> in_named (am_state m').
Proof.
  intros Hp Ht Ha. destruct m as [a pa na]; unfold astep, bad in Ha; cbn [am_state am_pats am_nams] in *.
  destruct a as [c ri|c ri|c ri|c ri id|c ri id kw rs|c ri id kw rs b|c ri id kw rs b|c ri rp| | | |main rn|main rn|main rn id tid|main rn id|t0| |];
    try contradiction;
    repeat match type of Ha with
    | context [if ?b then _ else _] => destruct b eqn:?; try discriminate Ha
    end; try (injection Ha as <-; exact Hp); try (injection Ha as <-; exact I); try (destruct c; [contradiction|]);
    try (destruct ri as [|[] ?]; try discriminate Ha; injection Ha as <-; exact I);
    try (exfalso; apply Ht; apply seg_grammar; assumption);
    try (destruct rp as [|[] [|? ?]]; try discriminate Ha; injection Ha as <-; exact I); try discriminate Ha.
Qed.

Lemma in_named_run l : forall m i m', Forall (fun t => seg_of t <> g_ (us "}")) l -> in_named (am_state m) ->
  arun m i l = Ok m' -> in_named (am_state m').
Proof.
  induction l as [|t l IH]; intros m i m' HF Hp HR; cbn [arun] in HR; [injection HR as <-; exact Hp|].
  inversion HF as [|? ? Ht HF']; subst.
  destruct (astep m i t) as [m1|e| |] eqn:E; cbn [bind] in HR; try discriminate.
  eapply IH; [exact HF' | eapply in_named_step; eassumption | exact HR].
Qed.

Lemma in_named_finish m : in_named (am_state m) -> afinish m = Err EndedAbruptly.
Proof. unfold afinish. destruct (am_state m) as [[]| | | | | | | | | | | | | | | | |]; cbn; intros H; try contradiction; reflexivity. Qed.

Definition no_close (l : list segment) : Prop := Forall (fun x => x <> g_ (us "}")) l.
Lemma segs_no_close l : no_close (segs l) -> Forall (fun t => seg_of t <> g_ (us "}")) l.
Proof. unfold no_close, segs. apply (Forall_map seg_of (fun x => x <> g_ (us "}")) l). Qed.

Lemma wprint_no_close ws : no_close (wprint ws).
Proof. unfold no_close. induction ws; cbn; constructor; [discriminate | assumption]. Qed.
Lemma kprint_no_close ks : Forall kwf ks -> no_close (flat_map kprint ks).
Proof.
  induction 1 as [|k ks Hk _ IH]; [constructor|]. cbn [flat_map]. apply Forall_app. split; [|exact IH].
  destruct k as [w|g|a ty b]; cbn [kprint].
  - constructor; [discriminate | constructor].
  - constructor; [|constructor]. intros E. injection E as E. apply Hk; exact E.
  - constructor; [discriminate|]. constructor; [destruct ty; discriminate|]. constructor; [discriminate | constructor].
Qed.
Lemma qprint_no_close qs : no_close (flat_map qprint qs).
Proof.
  induction qs as [|q qs IH]; [constructor|]. cbn [flat_map]. apply Forall_app. split; [|exact IH].
  destruct q; cbn [qprint]; (constructor; [discriminate | constructor]).
Qed.

Lemma arun_ok_prefix m i a b m' : arun m i (a ++ b) = Ok m' -> exists m1, arun m i a = Ok m1.
Proof. rewrite arun_app. destruct (arun m i a) as [m1|e| |]; cbn; try discriminate. eauto. Qed.

(** A proper non-empty prefix of a piece. *)
Lemma cut_piece p inner tail : pwf p -> pprint p = inner ++ tail -> inner <> [] -> tail <> [] ->
  (exists x, p = PEsc x /\ inner = [g_ (us "`")]) \/
  (exists body, inner = g_ (us "{") :: body /\ no_close body).
Proof.
  intros Hp Hi Hne Htl.
  assert (Hcut : forall body, g_ (us "{") :: body ++ [g_ (us "}")] = inner ++ tail -> no_close body ->
     exists body', inner = g_ (us "{") :: body' /\ no_close body').
  { intros body HE Hb. destruct inner as [|x inner]; [contradiction|]. injection HE as <- HE.
    exists inner. split; [reflexivity|].
    destruct (exists_last Htl) as (tl' & z & ->). rewrite app_assoc in HE. apply app_inj_tail in HE. destruct HE as (HE & _).
    unfold no_close in *. rewrite HE in Hb. apply Forall_app in Hb. apply Hb. }
  destruct p as [x|x| |id ws kw|qs]; cbn [pprint] in Hi.
  - destruct inner as [|y [|z inner]]; try contradiction; destruct tail; try contradiction; discriminate.
  - destruct inner as [|y [|z inner]]; try contradiction; cbn in Hi.
    + injection Hi as <- _. left. eauto.
    + destruct inner; destruct tail; try contradiction; discriminate.
  - destruct inner as [|y [|z inner]]; try contradiction; destruct tail; try contradiction; discriminate.
  - right. apply (Hcut ((TIdentifier, id) :: wprint ws ++ match kw with None => [] | Some (k, l) => (TIdentifier, k) :: flat_map kprint l end)).
    + rewrite <- Hi. cbn [app]. rewrite <- app_assoc. reflexivity.
    + constructor; [discriminate|]. apply Forall_app. split; [apply wprint_no_close|].
      destruct kw as [[k l]|]; [|constructor]. constructor; [discriminate|]. apply kprint_no_close. exact Hp.
  - right. apply (Hcut (g_ (us "#") :: flat_map qprint qs)); [exact Hi|].
    constructor; [discriminate|]. apply qprint_no_close.
Qed.

Lemma lit_run l : forall m i, (am_state m = ALit \/ am_state m = ALitEsc) ->
  exists m', arun m i l = Ok m' /\ (am_state m' = ALit \/ am_state m' = ALitEsc).
Proof.
  induction l as [|t l IH]; intros m i Hm; cbn [arun]; [eauto|].
  assert (H1 : exists m1, astep m i t = Ok m1 /\ (am_state m1 = ALit \/ am_state m1 = ALitEsc)).
  { unfold astep. destruct Hm as [-> | ->].
    - destruct (gram t s_back); eexists; (split; [reflexivity | cbn; auto]).
    - eexists; split; [reflexivity | cbn; auto]. }
  destruct H1 as (m1 & -> & Hm1). cbn [bind]. apply IH; exact Hm1.
Qed.

Lemma lit_finish m i l : am_state m = ALit -> (let! m' := arun m i l in afinish m') = Err EndedAbruptly.
Proof.
  intros Hm. destruct (lit_run l m i (or_introl Hm)) as (m' & -> & [H|H]); cbn [bind]; unfold afinish; rewrite H; reflexivity.
Qed.

Theorem aparse_unterminated ts : unterminated (segs ts) -> aparse ts = Err EndedAbruptly.
Proof.
  intros Hu. remember (segs ts) as S0 eqn:Hs. destruct Hu as [B P N p inner tail Ho Hp HN Hc Hi Ht | B P N id w ws inner tail Ho HP HN Hc Hi |
    B P N Ho HP HN | B P N rest Ho | B P N qs y rest Ho Hq].
  - symmetry in Hs. apply segs_app_inv in Hs. destruct Hs as (pre & mid & -> & Hpre & Hmid).
    destruct (reach_open _ _ _ pre Ho Hpre) as (c & ri & R).
    unfold aparse. rewrite arun_app, R. cbn [bind Nat.add].
    assert (Hh : is_hash p = false).
    { destruct p; try reflexivity. exfalso. cbn in Hc. destruct inner as [|a [|b inner]]; try contradiction; destruct tail; try contradiction; discriminate. }
    destruct (run_piece (pre ++ (mid ++ map fake tail) ++ []) pre (mid ++ map fake tail) [] c ri (rev P) (rev N) p) as (ri' & RP & _).
    { reflexivity. }
    { rewrite segs_app, segs_fake, Hmid. symmetry; exact Hc. }
    { exact Hp. }
    { destruct c; [exact Hh | rewrite Hh; apply andb_false_r]. }
    { intros n H1 H2. apply in_rev in H2. apply in_split in H1. destruct H1 as (a & b & E). rewrite E in HN.
      apply in_split in H2. destruct H2 as (a2 & b2 & E2). rewrite E2 in HN.
      rewrite <- app_assoc in HN. apply NoDup_app_remove_l in HN. cbn in HN. inversion HN as [|? ? Hn _]; subst.
      apply Hn. apply in_or_app; right. apply in_or_app; right. left; reflexivity. }
    apply arun_ok_prefix in RP. destruct RP as (m1 & RP). rewrite RP. cbn [bind].
    destruct (cut_piece p inner tail Hp Hc Hi Ht) as [(x & -> & ->)|(body & -> & Hb)].
    + apply segs_cons_inv in Hmid. destruct Hmid as (t & l & -> & Hseg & Hl). apply segs_nil_inv in Hl; subst l.
      rewrite (step_ok _ _ _ _ (mk_am (AEsc c ri) (rev P) (rev N))) in RP by (one Hseg).
      injection RP as <-. reflexivity.
    + apply segs_cons_inv in Hmid. destruct Hmid as (t & l & -> & Hseg & Hl).
      rewrite (step_ok _ _ _ _ (mk_am (AOpen c ri) (rev P) (rev N))) in RP by (one Hseg).
      apply in_pattern_finish. eapply (in_pattern_run l (mk_am (AOpen c ri) (rev P) (rev N))); [|exact I|exact RP]. apply segs_no_close. rewrite Hl. exact Hb.
  - symmetry in Hs. apply segs_app_inv in Hs. destruct Hs as (pre & mid & -> & Hpre & Hmid).
    destruct (reach_group B P N pre Ho HP) as (main & rn & R); [apply NoDup_app_remove_r in HN; exact HN | exact Hpre|].
    unfold aparse. rewrite arun_app, R. cbn [bind Nat.add].
    destruct (run_header (pre ++ (mid ++ map fake tail) ++ []) main rn pre (mid ++ map fake tail) [] (rev P) (rev N) id w ws) as (id' & RH & _).
    { reflexivity. }
    { rewrite segs_app, segs_fake, Hmid. symmetry; exact Hc. }
    { intros Hin. apply in_rev in Hin. apply NoDup_rev in HN. rewrite rev_app_distr in HN. cbn in HN. inversion HN; subst.
      apply in_rev in Hin. contradiction. }
    apply arun_ok_prefix in RH. destruct RH as (m1 & RH). rewrite RH. cbn [bind].
    destruct inner as [|x inner]; [contradiction|]. unfold header in Hc. injection Hc as <- Hc.
    apply segs_cons_inv in Hmid. destruct Hmid as (t & l & -> & Hseg & Hl).
    rewrite (step_ok _ _ _ _ (mk_am (AName0 main rn) (rev P) (rev N))) in RH by (one Hseg).
    apply in_named_finish. eapply (in_named_run l (mk_am (AName0 main rn) (rev P) (rev N))); [|exact I|exact RH]. apply segs_no_close. rewrite Hl.
    assert (Hb : no_close (inner ++ tail)).
    { rewrite <- Hc. constructor; [discriminate|]. constructor; [discriminate|]. apply wprint_no_close. }
    apply Forall_app in Hb. apply Hb.
  - destruct (reach_sub _ _ _ _ Ho HP HN (eq_sym Hs)) as (main & rn & id' & ri & R). unfold aparse. rewrite R. reflexivity.
  - symmetry in Hs. apply segs_app_inv in Hs. destruct Hs as (pre & l & -> & Hpre & Hl).
    apply segs_cons_inv in Hl. destruct Hl as (t0 & l1 & -> & Ht0 & Hl).
    apply segs_cons_inv in Hl. destruct Hl as (t1 & l2 & -> & Ht1 & Hl).
    destruct (reach_open _ _ _ pre Ho Hpre) as (c & ri & R).
    unfold aparse. rewrite arun_app, R. cbn [bind Nat.add].
    rewrite (step_ok _ _ _ _ (mk_am (AOpen c ri) (rev P) (rev N))) by (one Ht0).
    rewrite (step_ok _ _ _ _ (mk_am ALit (rev P) (rev N))) by (one Ht1).
    apply lit_finish; reflexivity.
  - symmetry in Hs. apply segs_app_inv in Hs. destruct Hs as (pre & l & -> & Hpre & Hl).
    apply segs_cons_inv in Hl. destruct Hl as (t0 & l1 & -> & Ht0 & Hl).
    apply segs_cons_inv in Hl. destruct Hl as (t1 & l2 & -> & Ht1 & Hl).
    apply segs_app_inv in Hl. destruct Hl as (lq & l3 & -> & Hlq & Hl).
    apply segs_cons_inv in Hl. destruct Hl as (tb & l4 & -> & Htb & Hl).
    apply segs_cons_inv in Hl. destruct Hl as (ty & l5 & -> & Hty & Hl).
    destruct (reach_open _ _ _ pre Ho Hpre) as (c & ri & R).
    unfold aparse. rewrite arun_app, R. cbn [bind Nat.add].
    rewrite (step_ok _ _ _ _ (mk_am (AOpen c ri) (rev P) (rev N))) by (one Ht0).
    rewrite (step_ok _ _ _ _ (mk_am (ACmd c ri []) (rev P) (rev N))) by (one Ht1).
    rewrite arun_app.
    destruct (run_cmd (((pre ++ [t0]) ++ [t1]) ++ lq) c ri (rev P) (rev N) ((pre ++ [t0]) ++ [t1]) lq [] qs) as (rp & R2 & Hrp).
    { rewrite app_nil_r; reflexivity. }
    { exact Hlq. }
    { exact Hq. }
    rewrite !len_snoc in R2. rewrite R2. cbn [bind].
    rewrite (step_ok _ _ _ _ (mk_am ACmdEsc (rev P) (rev N))) by (one Htb).
    rewrite (step_ok _ _ _ _ (mk_am ALit (rev P) (rev N))) by reflexivity.
    apply lit_finish; reflexivity.
Qed.

(** ** Duplicates *)
Theorem aparse_dup_pattern ts B P N id rest : open_string B P N -> In id P ->
  segs ts = B ++ g_ (us "{") :: (TIdentifier, id) :: rest -> aparse ts = Err (UniquePattern id).
Proof.
  intros Ho Hin Hs. apply segs_app_inv in Hs. destruct Hs as (pre & l & -> & Hpre & Hl).
  apply segs_cons_inv in Hl. destruct Hl as (t0 & l1 & -> & Ht0 & Hl).
  apply segs_cons_inv in Hl. destruct Hl as (t1 & l2 & -> & Ht1 & Hl).
  destruct (reach_open _ _ _ pre Ho Hpre) as (c & ri & R).
  unfold aparse. rewrite arun_app, R. cbn [bind Nat.add].
  rewrite (step_ok _ _ _ _ (mk_am (AOpen c ri) (rev P) (rev N))) by (one Ht0). cbn [arun].
  replace (astep (mk_am (AOpen c ri) (rev P) (rev N)) (S (List.length pre)) t1) with (@Err tree_error am (UniquePattern id)); [reflexivity|].
  symmetry. one Ht1. cbn. replace (umem id (rev P)) with true; [reflexivity|]. symmetry. apply umem_In. apply in_rev. rewrite rev_involutive. exact Hin.
Qed.

Theorem aparse_dup_named ts B P N id rest : open_group B P N -> NoDup P -> NoDup N -> In id N ->
  segs ts = B ++ g_ (us "{") :: (TIdentifier, id) :: rest -> aparse ts = Err (UniqueNamed id).
Proof.
  intros Ho HP HN Hin Hs. apply segs_app_inv in Hs. destruct Hs as (pre & l & -> & Hpre & Hl).
  apply segs_cons_inv in Hl. destruct Hl as (t0 & l1 & -> & Ht0 & Hl).
  apply segs_cons_inv in Hl. destruct Hl as (t1 & l2 & -> & Ht1 & Hl).
  destruct (reach_group _ _ _ pre Ho HP HN Hpre) as (main & rn & R).
  unfold aparse. rewrite arun_app, R. cbn [bind Nat.add].
  rewrite (step_ok _ _ _ _ (mk_am (AName0 main rn) (rev P) (rev N))) by (one Ht0). cbn [arun].
  replace (astep (mk_am (AName0 main rn) (rev P) (rev N)) (S (List.length pre)) t1) with (@Err tree_error am (UniqueNamed id)); [reflexivity|].
  symmetry. one Ht1. cbn. replace (umem id (rev N)) with true; [reflexivity|]. symmetry. apply umem_In. apply in_rev. rewrite rev_involutive. exact Hin.
Qed.
