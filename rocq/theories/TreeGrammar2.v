(** Soundness of acceptance; completeness: the machine on printed concrete syntax. *)
From Verif Require Import Base BaseFacts LexerModel LexerSpec TreeModel TreeSpec TreeArena TreeMachine TreeRefine TreeGrammar.

Lemma segs_app a b : segs (a ++ b) = segs a ++ segs b.
Proof. apply map_app. Qed.

Lemma arun_app m i a b : arun m i (a ++ b) = let! m' := arun m i a in arun m' (i + List.length a) b.
Proof.
  revert m i; induction a as [|t a IH]; intros m i; cbn [app arun List.length bind].
  - rewrite Nat.add_0_r; reflexivity.
  - destruct (astep m i t) as [m'|e| |]; cbn [bind]; try reflexivity.
    rewrite IH. replace (S i + List.length a) with (i + S (List.length a)) by lia. reflexivity.
Qed.

Lemma hist_run T pre post m m' :
  T = pre ++ post -> hist T m (segs pre) -> arun m (List.length pre) post = Ok m' -> hist T m' (segs T).
Proof.
  revert pre m; induction post as [|t post IH]; intros pre m HT Hh Hr; cbn [arun] in Hr.
  - injection Hr as <-. rewrite HT, app_nil_r. rewrite HT, app_nil_r in Hh. exact Hh.
  - destruct (astep m (List.length pre) t) as [m1|e| |] eqn:E; cbn [bind] in Hr; try discriminate.
    apply (IH (pre ++ [t]) m1).
    + rewrite HT, <- app_assoc; reflexivity.
    + rewrite segs_app. eapply hist_step; [|exact Hh | exact E]. rewrite HT. apply tok_at.
    + rewrite app_length, Nat.add_comm. exact Hr.
Qed.

Lemma hist_init T : hist T am_init [].
Proof.
  split; [constructor|]. split; [constructor|]. exists [], [], []. repeat split; constructor.
Qed.

Lemma hist_reach T pre post m : T = pre ++ post -> arun am_init 0 pre = Ok m -> hist pre m (segs pre).
Proof. intros _ H. eapply (hist_run pre [] pre); [reflexivity | apply hist_init | exact H]. Qed.

Lemma NoDup_rev_inv {A} (l : list A) : NoDup l -> NoDup (rev l).
Proof. apply NoDup_rev. Qed.

Theorem aparse_sound ts a : aparse ts = Ok a ->
  exists c, cwf c /\ segs ts = cprint c /\ sast_of ts a = ccontent c.
Proof.
  unfold aparse. destruct (arun am_init 0 ts) as [m|e| |] eqn:E; cbn [bind]; try discriminate.
  intros Hf. pose proof (hist_reach ts ts [] m (eq_sym (app_nil_r _)) E) as (N1 & N2 & H).
  unfold afinish in Hf. destruct m as [st pa na]; cbn [am_state am_pats am_nams] in *.
  apply NoDup_rev in N1. apply NoDup_rev in N2.
  destruct st as [c ri|c ri|c ri|c ri id|c ri id kw rs|c ri id kw rs b|c ri id kw rs b|c ri rp| | | |main rn|main rn|main rn id tid|main rn id|t0| |];
    try discriminate.
  - destruct c as [|main rn id]; [|discriminate]. injection Hf as <-.
    destruct H as (ps & B0 & P0 & (-> & -> & Hn) & HB & HP & Hs & Hh & Hw).
    exists (mk_cst ps None). unfold cwf, cprint, ccontent, sast_of, placeholder_names, string_names; cbn [c_main c_group fst snd option_map group_of map flat_map].
    rewrite app_nil_r. rewrite HP in N1. cbn in N1, HB. rewrite app_nil_r.
    repeat split; try assumption; [apply Hw | apply Hw | constructor | rewrite Hs; reflexivity].
  - injection Hf as <-. destruct H as (ps & gl & Hm & Hms & (Hg1 & Hg2) & HS & HP & Hn).
    exists (mk_cst ps (Some gl)). unfold cwf, cprint, ccontent, sast_of, placeholder_names, string_names; cbn [c_main c_group fst snd option_map group_of].
    rewrite HP in N1. rewrite Hn in N2. rewrite Hms, Hg2.
    repeat split; try assumption; apply Hm.
Qed.

(** ** Completeness *)

Ltac seg H := unfold seg_of in H; injection H as ?Hty ?Hstr.

Lemma seg_type t ty s : seg_of t = (ty, s) -> t_type t = ty.
Proof. unfold seg_of; intros H; injection H as H1 H2; exact H1. Qed.
Lemma seg_str t ty s : seg_of t = (ty, s) -> t_string t = s.
Proof. unfold seg_of; intros H; injection H as H1 H2; exact H2. Qed.
Lemma seg_is_type t ty s ty' : seg_of t = (ty, s) -> is_type t ty' = is_type (mk_token s ty 0 0 0 0 0 0 0) ty'.
Proof. intros H; unfold is_type; rewrite (seg_type _ _ _ H); reflexivity. Qed.
Lemma seg_is_str t ty s s' : seg_of t = (ty, s) -> is_str t s' = ueqb s s'.
Proof. intros H; unfold is_str; rewrite (seg_str _ _ _ H); reflexivity. Qed.

Lemma segs_cons_inv l x r : segs l = x :: r -> exists t l', l = t :: l' /\ seg_of t = x /\ segs l' = r.
Proof. destruct l as [|t l]; cbn; intros H; [discriminate|]. injection H as H1 H2. eauto. Qed.
Lemma segs_app_inv l a b : segs l = a ++ b -> exists l1 l2, l = l1 ++ l2 /\ segs l1 = a /\ segs l2 = b.
Proof. intros H. apply map_eq_app in H. destruct H as (l1 & l2 & H1 & H2 & H3). eauto. Qed.
Lemma segs_nil_inv l : segs l = [] -> l = [].
Proof. destruct l; [reflexivity | discriminate]. Qed.

Lemma ueqb_refl_us x : ueqb x x = true.
Proof. apply ueqb_eq; reflexivity. Qed.

Lemma step_ok m i t r m' : astep m i t = Ok m' -> arun m i (t :: r) = arun m' (S i) r.
Proof. intros H; cbn [arun]; rewrite H; reflexivity. Qed.

(** one step on a token of known class and string *)
Ltac one H :=
  let H1 := fresh "Ht" in let H2 := fresh "Hs" in
  pose proof (seg_type _ _ _ H) as H1; pose proof (seg_str _ _ _ H) as H2;
  unfold astep, gram, is_type, is_str; cbn [am_state am_pats am_nams]; rewrite ?H1, ?H2; try reflexivity.

Lemma run_ws c ri id pa na ws i l : segs l = wprint ws ->
  arun (mk_am (APat c ri id) pa na) i l = Ok (mk_am (APat c ri id) pa na).
Proof.
  revert i l; induction ws as [|w ws IH]; intros i l Hl.
  - apply segs_nil_inv in Hl; subst l; reflexivity.
  - cbn in Hl. apply segs_cons_inv in Hl. destruct Hl as (t & l' & -> & Ht & Hl).
    rewrite (step_ok _ _ _ _ (mk_am (APat c ri id) pa na)); [apply IH; exact Hl|]. one Ht.
Qed.

Lemma run_name_ws main rn id pa na ws i l : segs l = wprint ws ->
  arun (mk_am (AName1 main rn id) pa na) i l = Ok (mk_am (AName1 main rn id) pa na).
Proof.
  revert i l; induction ws as [|w ws IH]; intros i l Hl.
  - apply segs_nil_inv in Hl; subst l; reflexivity.
  - cbn in Hl. apply segs_cons_inv in Hl. destruct Hl as (t & l' & -> & Ht & Hl).
    rewrite (step_ok _ _ _ _ (mk_am (AName1 main rn id) pa na)); [apply IH; exact Hl|]. one Ht.
Qed.

Lemma tok_mid T pre t post : T = pre ++ t :: post -> tok T (List.length pre) = t_string t.
Proof. intros ->; apply tok_at. Qed.

Lemma len_snoc {A} (l : list A) x : List.length (l ++ [x]) = S (List.length l).
Proof. rewrite app_length; cbn; lia. Qed.

Lemma snoc_app {A} (l : list A) x r : l ++ x :: r = (l ++ [x]) ++ r.
Proof. rewrite <- app_assoc; reflexivity. Qed.

Lemma run_kparts T c ri id kw pa na ks : Forall kwf ks -> forall pre l post rs,
  T = pre ++ l ++ post -> segs l = flat_map kprint ks ->
  exists rs', arun (mk_am (AKey c ri id kw rs) pa na) (List.length pre) l = Ok (mk_am (AKey c ri id kw rs') pa na) /\
    map (sel_of T) (rev rs') = map (sel_of T) (rev rs) ++ flat_map ksel ks.
Proof.
  induction 1 as [|k ks Hk Hks IH]; intros pre l post rs HT Hl; cbn [flat_map] in Hl.
  - apply segs_nil_inv in Hl; subst l. exists rs. cbn. rewrite app_nil_r; auto.
  - destruct k as [w|g|a ty b]; cbn [kprint app] in Hl.
    + apply segs_cons_inv in Hl. destruct Hl as (t & l' & -> & Ht & Hl).
      rewrite (step_ok _ _ _ _ (mk_am (AKey c ri id kw rs) pa na)) by (one Ht).
      rewrite <- (len_snoc pre t). apply (IH _ _ post); [rewrite HT, <- app_assoc; reflexivity | exact Hl].
    + apply segs_cons_inv in Hl. destruct Hl as (t & l' & -> & Ht & Hl).
      rewrite (step_ok _ _ _ _ (mk_am (AKey c ri id kw rs) pa na)).
      2:{ one Ht. cbn [kwf] in Hk. destruct (ueqb g s_close) eqn:E; [|reflexivity].
          apply ueqb_eq in E. contradiction. }
      rewrite <- (len_snoc pre t). apply (IH _ _ post); [rewrite HT, <- app_assoc; reflexivity | exact Hl].
    + apply segs_cons_inv in Hl. destruct Hl as (t1 & l1 & -> & Ht1 & Hl).
      apply segs_cons_inv in Hl. destruct Hl as (t2 & l2 & -> & Ht2 & Hl).
      apply segs_cons_inv in Hl. destruct Hl as (t3 & l3 & -> & Ht3 & Hl).
      rewrite (step_ok _ _ _ _ (mk_am (ASel1 c ri id kw rs (List.length pre)) pa na)) by (one Ht1).
      rewrite (step_ok _ _ _ _ (mk_am (ASel2 c ri id kw rs (List.length pre)) pa na)) by (one Ht2).
      rewrite (step_ok _ _ _ _ (mk_am (AKey c ri id kw ((List.length pre, S (S (List.length pre))) :: rs)) pa na)) by (one Ht3).
      assert (E1 : tok T (List.length pre) = a).
      { rewrite (tok_mid T pre t1 (t2 :: t3 :: l3 ++ post)) by exact HT. exact (seg_str _ _ _ Ht1). }
      assert (E3 : tok T (S (S (List.length pre))) = b).
      { rewrite <- (len_snoc pre t1), <- (len_snoc _ t2).
        rewrite (tok_mid T ((pre ++ [t1]) ++ [t2]) t3 (l3 ++ post)) by (rewrite HT, <- !app_assoc; reflexivity).
        exact (seg_str _ _ _ Ht3). }
      destruct (IH (((pre ++ [t1]) ++ [t2]) ++ [t3]) l3 post ((List.length pre, S (S (List.length pre))) :: rs)) as (rs' & R & Hrs).
      { rewrite HT, <- !app_assoc; reflexivity. }
      { exact Hl. }
      exists rs'. rewrite !len_snoc in R. split; [exact R|].
      rewrite Hrs. cbn [rev flat_map ksel]. rewrite map_app. cbn [map]. unfold sel_of at 2; cbn [fst snd].
      rewrite E1, E3, <- app_assoc. reflexivity.
Qed.

Lemma run_qparts T c ri pa na qs : Forall (fun p => p <> SDelay) (flat_map qpar qs) -> forall pre l post rp,
  T = pre ++ l ++ post -> segs l = flat_map qprint qs ->
  exists rp', arun (mk_am (ACmd c ri rp) pa na) (List.length pre) l = Ok (mk_am (ACmd c ri (rp' ++ rp)) pa na) /\
    map (sparam_of T) (rev rp') = flat_map qpar qs /\
    Forall (fun p => match p with CId _ => True | CHash _ => False end) rp'.
Proof.
  induction qs as [|q qs IH]; intros Hq pre l post rp HT Hl; cbn [flat_map] in Hl, Hq.
  - apply segs_nil_inv in Hl; subst l. exists []. cbn. auto.
  - destruct q as [w|w|]; cbn [qprint qpar app] in Hl, Hq.
    + apply segs_cons_inv in Hl. destruct Hl as (t & l' & -> & Ht & Hl).
      rewrite (step_ok _ _ _ _ (mk_am (ACmd c ri rp) pa na)) by (one Ht).
      rewrite <- (len_snoc pre t). apply (IH Hq _ _ post); [rewrite HT, <- app_assoc; reflexivity | exact Hl].
    + apply segs_cons_inv in Hl. destruct Hl as (t & l' & -> & Ht & Hl).
      rewrite (step_ok _ _ _ _ (mk_am (ACmd c ri (CId (List.length pre) :: rp)) pa na)) by (one Ht).
      inversion Hq as [|x y _ Hq']; subst x y.
      destruct (IH Hq' (pre ++ [t]) l' post (CId (List.length pre) :: rp)) as (rp' & R & Hrp & HF).
      { rewrite HT, <- app_assoc; reflexivity. }
      { exact Hl. }
      exists (rp' ++ [CId (List.length pre)]). rewrite len_snoc in R. rewrite <- app_assoc. split; [exact R|].
      split; [|apply Forall_app; split; [exact HF | repeat constructor]].
      rewrite rev_app_distr. cbn. rewrite Hrp.
      rewrite (tok_mid T pre t (l' ++ post)) by exact HT. rewrite (seg_str _ _ _ Ht). reflexivity.
    + inversion Hq as [|x y Hx _]; subst. contradiction.
Qed.

Lemma qpar_split qs a b : flat_map qpar qs = a ++ SDelay :: b ->
  Forall (fun p => p <> SDelay) a ->
  exists q1 q2, qs = q1 ++ QHash :: q2 /\ flat_map qpar q1 = a /\ flat_map qpar q2 = b.
Proof.
  revert a; induction qs as [|q qs IH]; intros a H Ha; cbn in H; [destruct a; discriminate|].
  destruct q as [w|w|]; cbn in H.
  - destruct (IH a H Ha) as (q1 & q2 & -> & H1 & H2). exists (QWs w :: q1), q2. auto.
  - destruct a as [|x a]; [discriminate|]. injection H as <- H. inversion Ha as [|y l Hy Hl]; subst.
    destruct (IH a H) as (q1 & q2 & -> & H1 & H2); [assumption|]. exists (QId w :: q1), q2. cbn; rewrite H1; auto.
  - destruct a as [|x a].
    + injection H as H. exists [], qs. auto.
    + injection H as <- H. inversion Ha as [|y l Hy Hl]; subst. contradiction.
Qed.

Lemma run_piece T pre mid post c ri pa na p :
  T = pre ++ mid ++ post -> segs mid = pprint p -> pwf p ->
  match c with CMain => is_hash p = false | CSub _ _ _ => (hash_head ri && is_hash p)%bool = false end ->
  (forall n, In n (spats [pcontent p]) -> ~ In n pa) ->
  exists ri', arun (mk_am (AText c ri) pa na) (List.length pre) mid =
      Ok (mk_am (AText c ri') (spats [pcontent p] ++ pa) na) /\
    sitems T (rev ri') = sitems T (rev ri) ++ [pcontent p] /\ hash_head ri' = is_hash p.
Proof.
  intros HT Hm Hp Hh Hn. destruct p as [x|x| |id ws kw|qs].
  - (* text *)
    apply segs_cons_inv in Hm. destruct Hm as (t & l & -> & Ht & Hl). apply segs_nil_inv in Hl; subst l.
    destruct x as [ty s]. exists (add_text ri (List.length pre)).
    rewrite (step_ok _ _ _ _ (mk_am (AText c (add_text ri (List.length pre))) pa na)).
    2:{ one Ht. cbn [pwf fst] in Hp. destruct ty; try reflexivity. contradiction. }
    split; [reflexivity|]. rewrite sitems_add_text, hash_head_add_text.
    rewrite (tok_mid T pre t post) by exact HT. rewrite (seg_str _ _ _ Ht). auto.
  - (* escape *)
    apply segs_cons_inv in Hm. destruct Hm as (t0 & l & -> & Ht0 & Hl).
    apply segs_cons_inv in Hl. destruct Hl as (t & l2 & -> & Ht & Hl). apply segs_nil_inv in Hl; subst l2.
    destruct x as [ty s]. exists (add_text ri (S (List.length pre))).
    rewrite (step_ok _ _ _ _ (mk_am (AEsc c ri) pa na)) by (one Ht0).
    rewrite (step_ok _ _ _ _ (mk_am (AText c (add_text ri (S (List.length pre)))) pa na)) by reflexivity.
    split; [reflexivity|]. rewrite sitems_add_text, hash_head_add_text.
    rewrite <- (len_snoc pre t0), (tok_mid T (pre ++ [t0]) t post) by (rewrite HT, <- app_assoc; reflexivity).
    rewrite (seg_str _ _ _ Ht). auto.
  - (* hash *)
    apply segs_cons_inv in Hm. destruct Hm as (t & l & -> & Ht & Hl). apply segs_nil_inv in Hl; subst l.
    destruct c as [|main rn id0]; [discriminate|]. rewrite andb_true_r in Hh.
    exists (IHash (List.length pre) :: ri).
    rewrite (step_ok _ _ _ _ (mk_am (AText (CSub main rn id0) (IHash (List.length pre) :: ri)) pa na)).
    2:{ one Ht. destruct ri as [|[toks|tk|i o|ps] r]; try reflexivity. discriminate. }
    split; [reflexivity|]. cbn [rev]. rewrite sitems_app. auto.
  - (* pattern *)
    cbn [pprint] in Hm.
    apply segs_cons_inv in Hm. destruct Hm as (t0 & l & -> & Ht0 & Hl).
    apply segs_cons_inv in Hl. destruct Hl as (t1 & l2 & -> & Ht1 & Hl).
    apply segs_app_inv in Hl. destruct Hl as (lw & lr & -> & Hw & Hl).
    set (i0 := List.length pre) in *. set (id' := S i0).
    rewrite (step_ok _ _ _ _ (mk_am (AOpen c ri) pa na)) by (one Ht0).
    rewrite (step_ok _ _ _ _ (mk_am (APat c ri id') (id :: pa) na)).
    2:{ one Ht1. cbn. replace (umem id pa) with false; [reflexivity|]. symmetry. apply umem_nIn. apply Hn.
        destruct kw as [[k l]|]; left; reflexivity. }
    rewrite arun_app, (run_ws _ _ _ _ _ ws) by exact Hw. cbn [bind].
    assert (Eid : tok T id' = id).
    { unfold id', i0. rewrite <- (len_snoc pre t0), (tok_mid T (pre ++ [t0]) t1 (lw ++ lr ++ post)).
      - exact (seg_str _ _ _ Ht1).
      - rewrite HT. cbn. rewrite <- !app_assoc. reflexivity. }
    destruct kw as [[k ks]|].
    + cbn [app] in Hl. apply segs_cons_inv in Hl. destruct Hl as (tk & l3 & -> & Htk & Hl).
      apply segs_app_inv in Hl. destruct Hl as (lk & lc & -> & Hlk & Hlc).
      apply segs_cons_inv in Hlc. destruct Hlc as (tc & l4 & -> & Htc & Hl). apply segs_nil_inv in Hl; subst l4.
      set (kw' := S (S i0) + List.length lw).
      rewrite (step_ok _ _ _ _ (mk_am (AKey c ri id' kw' []) (id :: pa) na)) by (one Htk).
      assert (Ekw : tok T kw' = k).
      { replace kw' with (List.length (((pre ++ [t0]) ++ [t1]) ++ lw)).
        2:{ unfold kw', i0. rewrite !app_length. cbn. lia. }
        rewrite (tok_mid T _ tk (lk ++ tc :: post)).
        - exact (seg_str _ _ _ Htk).
        - rewrite HT. repeat (rewrite <- !app_assoc; cbn [app]). reflexivity. }
      rewrite arun_app. cbn [pwf] in Hp.
      destruct (run_kparts T c ri id' kw' (id :: pa) na ks Hp ((((pre ++ [t0]) ++ [t1]) ++ lw) ++ [tk]) lk (tc :: post) []) as (rs & R & Hrs).
      { rewrite HT. repeat (rewrite <- !app_assoc; cbn [app]). reflexivity. }
      { exact Hlk. }
      replace (S kw') with (List.length ((((pre ++ [t0]) ++ [t1]) ++ lw) ++ [tk])).
      2:{ unfold kw', i0. rewrite !app_length. cbn. lia. }
      rewrite R. cbn [bind].
      exists (IPat id' (Some (kw', rev rs)) :: ri).
      rewrite (step_ok _ _ _ _ (mk_am (AText c (IPat id' (Some (kw', rev rs)) :: ri)) (id :: pa) na)) by (one Htc).
      split; [reflexivity|]. split; [|reflexivity]. cbn [rev]. rewrite sitems_app. cbn [sitems flat_map sitem_of app]. cbn [rev map app] in Hrs. rewrite Hrs, Eid, Ekw. reflexivity.
    + cbn [app] in Hl. apply segs_cons_inv in Hl. destruct Hl as (tc & l4 & -> & Htc & Hl). apply segs_nil_inv in Hl; subst l4.
      exists (IPat id' None :: ri).
      rewrite (step_ok _ _ _ _ (mk_am (AText c (IPat id' None :: ri)) (id :: pa) na)) by (one Htc).
      split; [reflexivity|]. split; [|reflexivity]. cbn [rev]. rewrite sitems_app. cbn [sitems flat_map sitem_of app]. rewrite Eid. reflexivity.
  - (* command *)
    cbn [pprint] in Hm.
    apply segs_cons_inv in Hm. destruct Hm as (t0 & l & -> & Ht0 & Hl).
    apply segs_cons_inv in Hl. destruct Hl as (t1 & l2 & -> & Ht1 & Hl).
    apply segs_app_inv in Hl. destruct Hl as (lq & lc & -> & Hq & Hlc).
    apply segs_cons_inv in Hlc. destruct Hlc as (tc & l4 & -> & Htc & Hl). apply segs_nil_inv in Hl; subst l4.
    rewrite (step_ok _ _ _ _ (mk_am (AOpen c ri) pa na)) by (one Ht0).
    rewrite (step_ok _ _ _ _ (mk_am (ACmd c ri []) pa na)) by (one Ht1).
    rewrite arun_app.
    assert (HT2 : T = ((pre ++ [t0]) ++ [t1]) ++ lq ++ (tc :: post)).
    { rewrite HT. repeat (rewrite <- !app_assoc; cbn [app]). reflexivity. }
    assert (G : exists rp, arun (mk_am (ACmd c ri []) pa na) (List.length ((pre ++ [t0]) ++ [t1])) lq
                             = Ok (mk_am (ACmd c ri rp) pa na) /\
                map (sparam_of T) (rev rp) = flat_map qpar qs /\
                match rp with CId _ :: _ => True | _ => False end).
    { cbn [pwf] in Hp. destruct Hp as (name & args & Hargs & [Hps|(Hps & Hne)]).
      - destruct (run_qparts T c ri pa na qs) with (pre := (pre ++ [t0]) ++ [t1]) (l := lq) (post := tc :: post) (rp := @nil cparam) as (rp' & R & Hrp & HF).
        { rewrite Hps. constructor; [discriminate | exact Hargs]. }
        { exact HT2. }
        { exact Hq. }
        exists (rp' ++ []). split; [exact R|]. rewrite app_nil_r. split; [exact Hrp|].
        rewrite Hps in Hrp. destruct rp' as [|x rp']; [discriminate|]. inversion HF as [|? ? Hx ?]; subst. destruct x; [exact I | contradiction].
      - destruct (qpar_split qs [SId name] args) as (q1 & q2 & -> & H1 & H2); [exact Hps | repeat constructor; discriminate|].
        rewrite flat_map_app in Hq. apply segs_app_inv in Hq. destruct Hq as (l1 & lr & -> & Hl1 & Hlr).
        cbn [flat_map qprint app] in Hlr. apply segs_cons_inv in Hlr. destruct Hlr as (th & l2 & -> & Hth & Hl2).
        destruct (run_qparts T c ri pa na q1) with (pre := (pre ++ [t0]) ++ [t1]) (l := l1) (post := th :: l2 ++ tc :: post) (rp := @nil cparam) as (rp1 & R1 & Hrp1 & HF1).
        { rewrite H1. repeat constructor; discriminate. }
        { rewrite HT2. repeat (rewrite <- !app_assoc; cbn [app]). reflexivity. }
        { exact Hl1. }
        rewrite app_nil_r in R1.
        assert (Hone : exists i, rp1 = [CId i]).
        { rewrite H1 in Hrp1. apply (f_equal (@List.length _)) in Hrp1 as HL. rewrite map_length, rev_length in HL. cbn in HL.
          destruct rp1 as [|[i|i] [|y rp1]]; try discriminate HL; [eauto|].
          inversion HF1; contradiction. }
        destruct Hone as (i & ->).
        rewrite arun_app, R1. cbn [bind].
        rewrite (step_ok _ _ _ _ (mk_am (ACmd c ri [CHash (List.length (((pre ++ [t0]) ++ [t1]) ++ l1)); CId i]) pa na)).
        2:{ rewrite (app_length ((pre ++ [t0]) ++ [t1]) l1). one Hth. }
        destruct (run_qparts T c ri pa na q2) with (pre := (((pre ++ [t0]) ++ [t1]) ++ l1) ++ [th]) (l := l2) (post := tc :: post)
          (rp := [CHash (List.length (((pre ++ [t0]) ++ [t1]) ++ l1)); CId i]) as (rp2 & R2 & Hrp2 & HF2).
        { rewrite H2. exact Hargs. }
        { rewrite HT2. repeat (rewrite <- !app_assoc; cbn [app]). reflexivity. }
        { exact Hl2. }
        replace (S (List.length ((pre ++ [t0]) ++ [t1]) + List.length l1)) with (List.length ((((pre ++ [t0]) ++ [t1]) ++ l1) ++ [th]))
          by (rewrite len_snoc, app_length; reflexivity).
        exists (rp2 ++ [CHash (List.length (((pre ++ [t0]) ++ [t1]) ++ l1)); CId i]).
        split; [exact R2|]. split.
        { rewrite rev_app_distr, map_app, Hrp2, H2, Hps. cbn [rev app map sparam_of].
          rewrite H1 in Hrp1. cbn in Hrp1. injection Hrp1 as ->. reflexivity. }
        rewrite H2 in Hrp2. destruct rp2 as [|x rp2]; [cbn in Hrp2; congruence|].
        inversion HF2 as [|? ? Hx ?]; subst. destruct x; [exact I | contradiction]. }
    destruct G as (rp & R & Hrp & Hlast). rewrite !len_snoc in R.
    rewrite R. cbn [bind]. exists (ICmd (rev rp) :: ri).
    rewrite (step_ok _ _ _ _ (mk_am (AText c (ICmd (rev rp) :: ri)) pa na)).
    2:{ one Htc. destruct rp as [|[i|i] r]; try contradiction. reflexivity. }
    split; [reflexivity|]. split; [|reflexivity]. cbn [rev]. rewrite sitems_app. cbn. rewrite Hrp. reflexivity.
Qed.

(** Runs of pieces. *)
Definition chain (h : bool) (ps : list piece) : Prop :=
  no_hash_pair ps /\ match ps with p :: _ => (h && is_hash p)%bool = false | [] => True end.

Lemma run_pieces T c na ps : Forall pwf ps ->
  (match c with CMain => Forall (fun p => is_hash p = false) ps | _ => no_hash_pair ps end) ->
  forall pre mid post ri pa,
  T = pre ++ mid ++ post -> segs mid = pieces_print ps ->
  match c with CMain => True | _ => chain (hash_head ri) ps end ->
  NoDup (rev (spats (map pcontent ps)) ++ pa) ->
  exists ri', arun (mk_am (AText c ri) pa na) (List.length pre) mid =
      Ok (mk_am (AText c ri') (rev (spats (map pcontent ps)) ++ pa) na) /\
    sitems T (rev ri') = sitems T (rev ri) ++ map pcontent ps.
Proof.
  intros Hw; induction Hw as [|p ps Hp Hw IH]; intros Hc pre mid post ri pa HT Hm Hch HN; cbn [pieces_print flat_map] in Hm.
  - apply segs_nil_inv in Hm; subst mid. exists ri. cbn. rewrite app_nil_r. auto.
  - fold (pieces_print ps) in Hm. apply segs_app_inv in Hm. destruct Hm as (m1 & m2 & -> & Hm1 & Hm2).
    change (p :: ps) with ([p] ++ ps) in HN. rewrite map_app, spats_app, rev_app_distr, <- app_assoc in HN.
    assert (Hfresh : forall n, In n (spats [pcontent p]) -> ~ In n pa).
    { intros n Hi Hj. apply NoDup_app_remove_l in HN. cbn [map] in HN.
      assert (HD : forall l, NoDup (l ++ pa) -> In n l -> In n pa -> False).
      { induction l as [|y l IHl]; cbn; intros ND Hin Hpa; [contradiction|]. inversion ND; subst.
        destruct Hin as [->|Hin]; [apply H1; apply in_or_app; auto | eauto]. }
      apply (HD _ HN); [apply in_rev; rewrite rev_involutive; exact Hi | exact Hj]. }
    destruct (run_piece T pre m1 (m2 ++ post) c ri pa na p) as (ri1 & R1 & S1 & H1).
    { rewrite HT, <- app_assoc; reflexivity. }
    { exact Hm1. }
    { exact Hp. }
    { destruct c; [inversion Hc; assumption | destruct Hch as (_ & Hch); exact Hch]. }
    { exact Hfresh. }
    rewrite arun_app, R1. cbn [bind]. rewrite <- app_length.
    assert (Erev : rev (spats (map pcontent [p])) = spats [pcontent p]).
    { cbn [map]. destruct p as [x|x| |id ws [[k l]|]|qs]; reflexivity. }
    rewrite Erev in HN.
    destruct (IH) with (pre := pre ++ m1) (mid := m2) (post := post) (ri := ri1) (pa := spats [pcontent p] ++ pa) as (ri2 & R2 & S2).
    { destruct c; [inversion Hc; assumption|]. inversion Hc; [constructor | assumption]. }
    { rewrite HT, <- !app_assoc; reflexivity. }
    { exact Hm2. }
    { destruct c; [exact I|]. rewrite H1. inversion Hc as [| |q r l Hqr Hl]; subst; split; try constructor; auto. }
    { exact HN. }
    exists ri2. rewrite R2. split.
    + change (p :: ps) with ([p] ++ ps). rewrite map_app, spats_app, rev_app_distr, <- app_assoc, Erev. reflexivity.
    + rewrite S2, S1, <- app_assoc. reflexivity.
Qed.

Lemma run_header T main rn pre mid post pa na id w ws :
  T = pre ++ mid ++ post -> segs mid = header id w ws -> ~ In id na ->
  exists id', arun (mk_am (AGroup main rn) pa na) (List.length pre) mid =
      Ok (mk_am (AName1 main rn id') pa (id :: na)) /\ tok T id' = id.
Proof.
  intros HT Hm Hn. unfold header in Hm.
  apply segs_cons_inv in Hm. destruct Hm as (t0 & l & -> & Ht0 & Hl).
  apply segs_cons_inv in Hl. destruct Hl as (t1 & l1 & -> & Ht1 & Hl).
  apply segs_cons_inv in Hl. destruct Hl as (t2 & lw & -> & Ht2 & Hw).
  set (id' := S (List.length pre)).
  rewrite (step_ok _ _ _ _ (mk_am (AName0 main rn) pa na)) by (one Ht0).
  rewrite (step_ok _ _ _ _ (mk_am (ANameId main rn id' t1) pa (id :: na))).
  2:{ one Ht1. cbn. replace (umem _ na) with false; [reflexivity|]. symmetry. apply umem_nIn. assumption. }
  rewrite (step_ok _ _ _ _ (mk_am (AName1 main rn id') pa (id :: na))) by (one Ht2).
  exists id'. split; [apply (run_name_ws _ _ _ _ _ ws); exact Hw|].
  unfold id'. rewrite <- (len_snoc pre t0), (tok_mid T (pre ++ [t0]) t1 (t2 :: lw ++ post)).
  - exact (seg_str _ _ _ Ht1).
  - rewrite HT. repeat (rewrite <- !app_assoc; cbn [app]). reflexivity.
Qed.

Lemma run_sub T main rn id' pa na q ls post sub :
  T = q ++ ls ++ post -> segs ls = pieces_print sub -> sub_ok sub ->
  NoDup (rev (spats (map pcontent sub)) ++ pa) ->
  exists ri', arun (mk_am (AName1 main rn id') pa na) (List.length q) ls =
      Ok (mk_am (AText (CSub main rn id') ri') (rev (spats (map pcontent sub)) ++ pa) na) /\
    sitems T (rev ri') = map pcontent sub.
Proof.
  intros HTq Hs (Hwf & Hnh & Hfirst) N1.
  destruct sub as [|p0 sub]; [contradiction|].
  assert (G0 : exists t ls' , ls = t :: ls' /\ [seg_of t] = pprint p0 /\ segs ls' = pieces_print sub /\
     exists ri, arun (mk_am (AName1 main rn id') pa na) (List.length q) [t] =
         Ok (mk_am (AText (CSub main rn id') ri) pa na) /\ hash_head ri = is_hash p0 /\
         sitems T (rev ri) = [pcontent p0] /\ spats [pcontent p0] = []).
  { cbn [pieces_print flat_map] in Hs. fold (pieces_print sub) in Hs.
    destruct p0 as [[[] s]|x| |id0 ws0 kw0|qs]; try contradiction;
      cbn [pprint app] in Hs; apply segs_cons_inv in Hs; destruct Hs as (t & ls' & -> & Ht & Hs).
    - exists t, ls'. rewrite Ht. repeat (split; [reflexivity || exact Hs|]).
      exists [IText [List.length q]]. split; [|split; [reflexivity|split; [|reflexivity]]].
      + rewrite (step_ok _ _ _ _ (mk_am (AText (CSub main rn id') [IText [List.length q]]) pa na)) by (one Ht). reflexivity.
      + cbn. rewrite (tok_mid T q t (ls' ++ post)) by exact HTq. rewrite (seg_str _ _ _ Ht). reflexivity.
    - exists t, ls'. rewrite Ht. repeat (split; [reflexivity || exact Hs|]).
      exists [IHash (List.length q)]. split; [|repeat split; reflexivity].
      rewrite (step_ok _ _ _ _ (mk_am (AText (CSub main rn id') [IHash (List.length q)]) pa na)) by (one Ht). reflexivity. }
  destruct G0 as (t & ls' & -> & _ & Hls' & ri & R & Hh & Hsi & Hsp).
  change (t :: ls') with ([t] ++ ls'). rewrite arun_app, R. cbn [bind].
  change (p0 :: sub) with ([p0] ++ sub). rewrite map_app, spats_app. cbn [map]. rewrite Hsp. cbn [app].
  replace (List.length q + List.length [t]) with (List.length (q ++ [t])) by (rewrite app_length; reflexivity).
  inversion Hwf as [|x1 x2 Hp0 Hwf' [Hx1 Hx2]]; clear x1 x2 Hx1 Hx2.
  destruct (run_pieces T (CSub main rn id') na sub Hwf') with (pre := q ++ [t]) (mid := ls') (post := post) (ri := ri) (pa := pa) as (ri' & R' & S').
  { inversion Hnh; [constructor | assumption]. }
  { rewrite HTq, <- app_assoc. reflexivity. }
  { exact Hls'. }
  { rewrite Hh. inversion Hnh as [| |y z l Hyz Hl]; subst; split; try constructor; auto. }
  { change (p0 :: sub) with ([p0] ++ sub) in N1. rewrite map_app, spats_app in N1. cbn [map] in N1. rewrite Hsp in N1. exact N1. }
  exists ri'. split; [exact R'|]. rewrite S', Hsi. reflexivity.
Qed.

Lemma run_gpart T main rn pre mid post pa na g :
  T = pre ++ mid ++ post -> segs mid = gprint g -> gwf g ->
  NoDup (rev (flat_map (fun x => spats (snd x)) (gcontent g)) ++ pa) ->
  NoDup (rev (map fst (gcontent g)) ++ na) ->
  exists rn', arun (mk_am (AGroup main rn) pa na) (List.length pre) mid =
     Ok (mk_am (AGroup main rn') (rev (flat_map (fun x => spats (snd x)) (gcontent g)) ++ pa)
          (rev (map fst (gcontent g)) ++ na)) /\
    map (snamed T) (rev rn') = map (snamed T) (rev rn) ++ gcontent g.
Proof.
  intros HT Hm Hg N1 N2. destruct g as [w|id w ws sub].
  - apply segs_cons_inv in Hm. destruct Hm as (t & l & -> & Ht & Hl). apply segs_nil_inv in Hl; subst l.
    exists rn. cbn [gcontent flat_map map rev app]. rewrite app_nil_r. split; [|reflexivity].
    rewrite (step_ok _ _ _ _ (mk_am (AGroup main rn) pa na)) by (one Ht). reflexivity.
  - replace (gprint (GNamed id w ws sub)) with (header id w ws ++ pieces_print sub ++ [g_ (us "}")]) in Hm
      by (unfold header; cbn; reflexivity).
    apply segs_app_inv in Hm. destruct Hm as (lh & lr & -> & Hh & Hl).
    apply segs_app_inv in Hl. destruct Hl as (ls & lc & -> & Hs & Hl).
    apply segs_cons_inv in Hl. destruct Hl as (tc & l4 & -> & Htc & Hl). apply segs_nil_inv in Hl; subst l4.
    cbn [gcontent flat_map map rev app fst snd] in N1, N2 |- *. rewrite app_nil_r in N1 |- *.
    destruct (run_header T main rn pre lh (ls ++ tc :: post) pa na id w ws) as (id' & R1 & Eid).
    { rewrite HT. repeat (rewrite <- !app_assoc; cbn [app]). reflexivity. }
    { exact Hh. }
    { inversion N2; assumption. }
    destruct (run_sub T main rn id' pa (id :: na) (pre ++ lh) ls (tc :: post) sub) as (ri' & R & Hri).
    { rewrite HT. repeat (rewrite <- !app_assoc; cbn [app]). reflexivity. }
    { exact Hs. }
    { exact Hg. }
    { exact N1. }
    rewrite arun_app, R1. cbn [bind]. rewrite <- app_length, arun_app, R. cbn [bind].
    exists ((id', rev ri') :: rn).
    rewrite (step_ok _ _ _ _ (mk_am (AGroup main ((id', rev ri') :: rn)) (rev (spats (map pcontent sub)) ++ pa) (id :: na))) by (one Htc).
    split; [reflexivity|]. cbn [rev]. rewrite map_app. cbn [map]. unfold snamed at 2; cbn [fst snd]. rewrite Hri, Eid. reflexivity.
Qed.

Lemma run_group T main gl : Forall gwf gl -> forall rn pre mid post pa na,
  T = pre ++ mid ++ post -> segs mid = flat_map gprint gl ->
  NoDup (rev (flat_map (fun x => spats (snd x)) (flat_map gcontent gl)) ++ pa) ->
  NoDup (rev (map fst (flat_map gcontent gl)) ++ na) ->
  exists rn', arun (mk_am (AGroup main rn) pa na) (List.length pre) mid =
     Ok (mk_am (AGroup main rn') (rev (flat_map (fun x => spats (snd x)) (flat_map gcontent gl)) ++ pa)
          (rev (map fst (flat_map gcontent gl)) ++ na)) /\
    map (snamed T) (rev rn') = map (snamed T) (rev rn) ++ flat_map gcontent gl.
Proof.
  induction 1 as [|g gl Hg Hgl IH]; intros rn pre mid post pa na HT Hm N1 N2; cbn [flat_map] in Hm.
  - apply segs_nil_inv in Hm; subst mid. exists rn. cbn. rewrite app_nil_r. auto.
  - apply segs_app_inv in Hm. destruct Hm as (m1 & m2 & -> & Hm1 & Hm2).
    cbn [flat_map] in N1, N2. rewrite flat_map_app, rev_app_distr, <- app_assoc in N1.
    rewrite map_app, rev_app_distr, <- app_assoc in N2.
    destruct (run_gpart T main rn pre m1 (m2 ++ post) pa na g) as (rn1 & R1 & S1).
    { rewrite HT, <- app_assoc; reflexivity. }
    { exact Hm1. }
    { exact Hg. }
    { apply NoDup_app_remove_l in N1; exact N1. }
    { apply NoDup_app_remove_l in N2; exact N2. }
    destruct (IH rn1 (pre ++ m1) m2 post (rev (flat_map (fun x => spats (snd x)) (gcontent g)) ++ pa) (rev (map fst (gcontent g)) ++ na)) as (rn2 & R2 & S2).
    { rewrite HT, <- !app_assoc; reflexivity. }
    { exact Hm2. }
    { exact N1. }
    { exact N2. }
    rewrite arun_app, R1. cbn [bind]. rewrite <- app_length. exists rn2. rewrite R2.
    cbn [flat_map]. rewrite flat_map_app, map_app, !rev_app_distr, <- !app_assoc. split; [reflexivity|].
    rewrite S2, S1, <- app_assoc. reflexivity.
Qed.

Theorem aparse_complete ts c : cwf c -> segs ts = cprint c ->
  exists a, aparse ts = Ok a /\ sast_of ts a = ccontent c.
Proof.
  destruct c as [ps g]. unfold cwf, cprint, ccontent; cbn [c_main c_group]. intros ((Hw & Hh) & Hg & N1 & N2) Hts.
  unfold placeholder_names, string_names, group_of in N1, N2. cbn [fst snd] in N1, N2.
  apply segs_app_inv in Hts. destruct Hts as (m1 & m2 & -> & Hm1 & Hm2).
  assert (Np : NoDup (rev (spats (map pcontent ps)) ++ [])).
  { rewrite app_nil_r. apply NoDup_rev. apply NoDup_app_remove_r in N1. exact N1. }
  destruct (run_pieces (m1 ++ m2) CMain [] ps Hw Hh [] m1 m2 [] []) as (ri & R & Hs);
    [reflexivity | exact Hm1 | exact I | exact Np |].
  unfold aparse. rewrite arun_app. unfold am_init. cbn [List.length] in R. rewrite R. cbn [bind].
  rewrite app_nil_r. cbn [rev sitems flat_map app] in Hs.
  destruct g as [gl|].
  - apply segs_cons_inv in Hm2. destruct Hm2 as (t & l & -> & Ht & Hl).
    rewrite (step_ok _ _ _ _ (mk_am (AGroup (rev ri) []) (rev (spats (map pcontent ps))) [])) by (one Ht).
    cbn [option_map] in N1, N2.
    destruct (run_group (m1 ++ t :: l) (rev ri) gl Hg [] (m1 ++ [t]) l [] (rev (spats (map pcontent ps))) []) as (rn & R2 & Hn).
    { rewrite app_nil_r, <- app_assoc; reflexivity. }
    { exact Hl. }
    { rewrite <- rev_app_distr. apply NoDup_rev. exact N1. }
    { rewrite app_nil_r. apply NoDup_rev. exact N2. }
    cbn [Nat.add]. replace (S (List.length m1)) with (List.length (m1 ++ [t])) by apply len_snoc.
    rewrite R2. cbn [bind]. exists (rev ri, Some (rev rn)). split; [reflexivity|].
    unfold sast_of; cbn [fst snd option_map]. rewrite Hs, Hn. reflexivity.
  - apply segs_nil_inv in Hm2; subst m2. cbn [arun bind]. exists (rev ri, None). split; [reflexivity|].
    unfold sast_of; cbn [fst snd option_map]. rewrite Hs. reflexivity.
Qed.
