(** Errors of the parser: which tokens can be continued to an accepted string, and what each error means. *)
From Verif Require Import Base BaseFacts LexerModel LexerSpec LexerProofs LexerProofs2 IcuExample TreeModel TreeSpec TreeArena TreeMachine
  TreeRefine TreeRefine3 TreeGrammar TreeGrammar2 TreeProofs TreeProofs2 TreeProofs4 DocSpec SyntaxErrorSpec.

(** ** Dead states *)
Definition dead (a : astate) : Prop :=
  match a with ACmdEsc | ALit | ALitEsc | ADeadOpen _ | ADeadEsc | ADead => True | _ => False end.

Definition fails {A} (o : tout A) : Prop := forall x, o <> Ok x.

Lemma fails_err {A} e : fails (@Err tree_error A e).
Proof. intros x; discriminate. Qed.
Lemma fails_panic {A} : fails (@Panic tree_error A).
Proof. intros x; discriminate. Qed.

Lemma dead_run l : forall m i, dead (am_state m) -> fails (let! m' := arun m i l in afinish m').
Proof.
  induction l as [|t l IH]; intros m i Hm; cbn [arun bind].
  - unfold afinish. destruct (am_state m) as [[]| | | | | | | | | | | | | | | | |]; try contradiction; apply fails_err.
  - destruct m as [a pa na]; unfold astep, bad; cbn [am_state am_pats am_nams] in *.
    destruct a as [c ri|c ri|c ri|c ri id|c ri id kw rs|c ri id kw rs b|c ri id kw rs b|c ri rp| | | |main rn|main rn|main rn id tid|main rn id|t0| |];
      try contradiction; cbn [bind];
      try (apply IH; exact I); try apply fails_err.
    + destruct (gram t s_back); cbn [bind]; apply IH; exact I.
    + destruct (is_type t TGrammar && negb (is_str t s_hash) && negb (is_str t s_open) && negb (is_str t s_back));
        cbn [bind]; [apply fails_err | apply fails_panic].
Qed.

(** Tokens on which the machine stops, or is in a dead state, are not the start of an accepted string. *)
Lemma run_not_viable d pre : (forall rest, fails (aparse (pre ++ rest))) -> ~ viable d (segs pre).
Proof.
  intros H (rest & c & s & Hc & Hp & _).
  destruct (aparse_complete (pre ++ map fake rest) c Hc) as (a & Ha & _); [rewrite segs_app, segs_fake, Hp; reflexivity|].
  exact (H _ a Ha).
Qed.

Lemma dead_not_viable d pre m : arun am_init 0 pre = Ok m -> dead (am_state m) -> ~ viable d (segs pre).
Proof.
  intros R Hm. apply run_not_viable. intros rest. unfold aparse. rewrite arun_app, R. cbn [bind]. apply dead_run. exact Hm.
Qed.

Lemma step_not_viable d pre t m : arun am_init 0 pre = Ok m -> fails (astep m (List.length pre) t) -> ~ viable d (segs pre ++ [seg_of t]).
Proof.
  intros R Hs. replace (segs pre ++ [seg_of t]) with (segs (pre ++ [t])) by (rewrite segs_app; reflexivity).
  apply run_not_viable. intros rest. unfold aparse. rewrite <- app_assoc. cbn [app]. rewrite arun_app, R. cbn [bind arun Nat.add].
  destruct (astep m (List.length pre) t) as [m1|e| |] eqn:E; cbn [bind];
    [exfalso; exact (Hs m1 eq_refl) | apply fails_err | apply fails_panic | intros x; discriminate].
Qed.

(** ** Continuations *)
Definition joins (a b : list segment) : Prop :=
  forall a0 x y b0, a = a0 ++ [x] -> b = y :: b0 -> fst x <> fst y \/ fst x = TGrammar.

Lemma maximal_app a b : maximal a -> maximal b -> joins a b -> maximal (a ++ b).
Proof.
  induction 1 as [|x|x y l Hxy Hl IH]; intros Hb Hj; cbn [app].
  - exact Hb.
  - destruct b as [|y b]; [constructor|]. constructor; [exact (Hj [] x y b eq_refl eq_refl) | exact Hb].
  - constructor; [exact Hxy|]. apply IH; [exact Hb|]. intros a0 z u b0 Ha Hu. apply (Hj (x :: a0) z u b0); [|exact Hu].
    cbn. rewrite <- Ha. reflexivity.
Qed.

Lemma joins_gram a s b : joins a (g_ s :: b).
Proof.
  intros a0 x y b0 _ Hy. injection Hy as <- _. destruct x as [[] w]; cbn; auto; left; discriminate.
Qed.
Lemma joins_last a x y b : fst x <> fst y -> joins (a ++ [x]) (y :: b).
Proof. intros H a0 x' y' b0 Ha Hb. apply app_inj_tail in Ha. destruct Ha as (_ & <-). injection Hb as <- _. left; exact H. Qed.
Lemma joins_nil a : joins a [].
Proof. intros a0 x y b0 _ H; discriminate. Qed.

Section Words.
  Variable d : icu.
  Hypothesis Hd : icu_ok d.
  Hypothesis Hx : has_words d.

  Definition word (n : nat) : segment := (TIdentifier, repeat (ch "x") (S n)).
  Definition space : segment := (TWhiteSpace, us " ").

  Lemma good_word n : good_segment d l10n_grammar (word n).
  Proof.
    split; [discriminate|]. split; [|discriminate]. apply Forall_forall. intros c Hc. apply repeat_spec in Hc. subst c.
    apply class_ident; apply Hx.
  Qed.
  Lemma good_space : good_segment d l10n_grammar space.
  Proof.
    split; [discriminate|]. split; [|discriminate]. constructor; [|constructor]. apply class_ws. apply Hx.
  Qed.
  Lemma good_gram c : In c l10n_grammar -> good_segment d l10n_grammar (g_ [c]).
  Proof.
    intros Hc. split; [discriminate|]. split; [|reflexivity]. constructor; [|constructor].
    destruct (Hd c Hc). apply class_grammar; assumption.
  Qed.

  Lemma viable_by pre rest m a : Forall (good_segment d l10n_grammar) (segs pre ++ rest) -> maximal (segs pre ++ rest) ->
    arun am_init 0 pre = Ok m -> (let! m' := arun m (List.length pre) (map fake rest) in afinish m') = Ok a -> viable d (segs pre).
  Proof.
    intros Hg Hm R Ha.
    assert (E : aparse (pre ++ map fake rest) = Ok a) by (unfold aparse; rewrite arun_app, R; exact Ha).
    apply aparse_sound in E. destruct E as (c & Hc & Hs & _). rewrite segs_app, segs_fake in Hs.
    exists rest, c, (List.concat (map snd (segs pre ++ rest))). split; [exact Hc|]. split; [symmetry; exact Hs|].
    rewrite <- Hs. split; [reflexivity | split; assumption].
  Qed.

  Definition close (c : actx) : list segment := match c with CMain => [] | CSub _ _ _ => [g_ (us "}")] end.

  (** A name longer than all the names there are. *)
  Definition total (l : list ustr) : nat := fold_right (fun w n => List.length w + n) 0 l.
  Lemma word_fresh l : umem (snd (word (total l))) l = false.
  Proof.
    apply umem_nIn. intros Hin. assert (H : List.length (snd (word (total l))) <= total l).
    { generalize dependent (snd (word (total l))). intros v Hin.
      assert (Hin' : forall l, In v l -> List.length v <= total l).
      { clear. induction l as [|w l IH]; [contradiction|]. intros [->|H]; unfold total in *; cbn; [lia|]. apply IH in H. lia. }
      apply Hin'; exact Hin. }
    cbn [snd word] in H. rewrite repeat_length in H. lia.
  Qed.

  Definition rest_of (m : am) : list segment :=
    match am_state m with
    | AText c _ => close c
    | AEsc c _ => g_ (us "`") :: close c
    | AOpen c _ => [g_ (us "#"); word 0; g_ (us "}")] ++ close c
    | APat c _ _ | AKey c _ _ _ _ => g_ (us "}") :: close c
    | ASel1 c _ _ _ _ _ => [g_ (us "#"); word 0; g_ (us "}")] ++ close c
    | ASel2 c _ _ _ _ _ => [word 0; g_ (us "}")] ++ close c
    | ACmd c _ (CId _ :: _) => g_ (us "}") :: close c
    | ACmd c _ _ => [word 0; g_ (us "}")] ++ close c
    | AGroup _ _ => []
    | AName0 _ _ => [word (total (am_nams m)); space; word 0; g_ (us "}")]
    | ANameId _ _ _ _ => [space; word 0; g_ (us "}")]
    | AName1 _ _ _ => [word 0; g_ (us "}")]
    | _ => []
    end.

  Lemma rest_run m i : ~ dead (am_state m) -> exists a, (let! m' := arun m i (map fake (rest_of m)) in afinish m') = Ok a.
  Proof.
    destruct m as [a pa na]; unfold rest_of; cbn [am_state am_nams]. intros Hm.
    destruct a as [c ri|c ri|c ri|c ri id|c ri id kw rs|c ri id kw rs b|c ri id kw rs b|c ri rp| | | |main rn|main rn|main rn id tid|main rn id|t0| |];
      try (exfalso; apply Hm; exact I);
      try (destruct c; eexists; vm_compute; reflexivity); try (eexists; vm_compute; reflexivity).
    - destruct rp as [|[k|k] rp]; destruct c; eexists; vm_compute; reflexivity.
    - cbn [map arun]. unfold astep at 1. cbn [am_state am_nams am_pats fake word fst snd is_type t_type t_string ttype_eqb].
      change (repeat (ch "x") (S (total na))) with (snd (word (total na))). rewrite word_fresh.
      generalize (word (total na)). intros v. eexists. vm_compute. reflexivity.
  Qed.

  Lemma good_sign (s : ustr) : In s [us "`"; us "{"; us "#"; us "}"] -> good_segment d l10n_grammar (g_ s).
  Proof. intros H. repeat (destruct H as [<-|H]; [apply good_gram; cbn; tauto|]). destruct H. Qed.

  Lemma rest_good m : Forall (good_segment d l10n_grammar) (rest_of m).
  Proof.
    assert (G : forall s, In s [us "`"; us "{"; us "#"; us "}"] -> good_segment d l10n_grammar (g_ s)) by exact good_sign.
    assert (GW : forall n, good_segment d l10n_grammar (word n)) by exact good_word.
    assert (GS : good_segment d l10n_grammar space) by exact good_space.
    unfold rest_of.
    destruct (am_state m) as [c ri|c ri|c ri|c ri id|c ri id kw rs|c ri id kw rs b|c ri id kw rs b|c ri rp| | | |main rn|main rn|main rn id tid|main rn id|t0| |];
      try destruct c; try (destruct rp as [|[k|k] rp]); unfold close; cbn [app];
      repeat first [apply Forall_nil | apply Forall_cons]; first [apply GW | exact GS | apply G; cbn; tauto].
  Qed.

  Lemma rest_maximal m : maximal (rest_of m).
  Proof.
    unfold rest_of.
    destruct (am_state m) as [c ri|c ri|c ri|c ri id|c ri id kw rs|c ri id kw rs b|c ri id kw rs b|c ri rp| | | |main rn|main rn|main rn id tid|main rn id|t0| |];
      try destruct c; try (destruct rp as [|[k|k] rp]); unfold close; cbn [app];
      repeat first [apply max_nil | apply max_one | apply max_cons; [first [right; reflexivity | left; discriminate]|]].
  Qed.

  (** Last token of a command read so far, when it does not end with a parameter. *)
  Lemma qprint_last B qs : (flat_map qpar qs = [] \/ exists n, flat_map qpar qs = [SId n; SDelay]) ->
    exists B0 x, B ++ g_ (us "{") :: g_ (us "#") :: flat_map qprint qs = B0 ++ [x] /\ fst x <> TIdentifier.
  Proof.
    intros Hq. destruct (exists_last (l := QHash :: qs)) as (q0 & q & E); [discriminate|].
    destruct q as [w|w|].
    - exists (B ++ g_ (us "{") :: flat_map qprint q0), (TWhiteSpace, w). split; [|discriminate].
      apply (f_equal (flat_map qprint)) in E. rewrite flat_map_app in E. cbn [flat_map qprint app] in E.
      rewrite E, <- app_assoc. reflexivity.
    - exfalso. apply (f_equal (flat_map qpar)) in E. rewrite flat_map_app in E. cbn [flat_map qpar app] in E.
      apply (f_equal (@rev _)) in E. rewrite rev_app_distr in E. cbn [rev app] in E.
      destruct Hq as [Hq|(n & Hq)]; rewrite Hq in E; discriminate E.
    - exists (B ++ g_ (us "{") :: flat_map qprint q0), (g_ (us "#")). split; [|discriminate].
      apply (f_equal (flat_map qprint)) in E. rewrite flat_map_app in E. cbn [flat_map qprint app] in E.
      rewrite E, <- app_assoc. reflexivity.
  Qed.

  Lemma hash_sign ty : good_segment d l10n_grammar (ty, us "#") -> ty = TGrammar.
  Proof.
    intros (_ & H & _). cbn [snd fst] in H. change (us "#") with [ch "#"] in H. inversion H as [|? ? Hc _]; subst.
    destruct (Hd (ch "#")) as (W & S); [cbn; tauto|].
    inversion Hc as [H1|H1 H2 H3|H1 H2 H3|H1 H2]; subst; try congruence. exfalso; apply H3; cbn; tauto.
  Qed.

  Lemma rest_joins pre m : Forall (good_segment d l10n_grammar) (segs pre) -> arun am_init 0 pre = Ok m -> joins (segs pre) (rest_of m).
  Proof.
    intros HG R. pose proof (hist_reach pre pre [] m (eq_sym (app_nil_r _)) R) as (_ & _ & H).
    destruct m as [a pa na]; unfold rest_of; cbn [am_state am_pats am_nams] in *.
    destruct a as [c ri|c ri|c ri|c ri id|c ri id kw rs|c ri id kw rs b|c ri id kw rs b|c ri rp| | | |main rn|main rn|main rn id tid|main rn id|t0| |];
      try (unfold close; destruct c; first [apply joins_nil | apply joins_gram]);
      try apply joins_nil; try (cbn [app]; apply joins_gram).
    - destruct H as (ps & B & pats & ws & ks & ty & _ & _ & _ & _ & HS). rewrite HS in HG |- *.
      assert (ty = TGrammar).
      { apply hash_sign. rewrite Forall_forall in HG. apply HG. apply in_or_app; right. right; right.
        apply in_or_app; right. right. apply in_or_app; right. right; left; reflexivity. }
      subst ty. intros a0 x y b0 Ha Hy. right.
      match type of Ha with ?l = _ => assert (E : exists l0, l = l0 ++ [(TGrammar, us "#")]) end.
      { eexists (B ++ g_ (us "{") :: (TIdentifier, tok pre id) :: wprint ws ++ (TIdentifier, tok pre kw) :: flat_map kprint ks ++ [(TIdentifier, tok pre b)]).
        repeat (rewrite <- !app_assoc; cbn [app]). reflexivity. }
      destruct E as (l0 & E). rewrite E in Ha. apply app_inj_tail in Ha. destruct Ha as (_ & <-). reflexivity.
    - destruct H as (ps & B & qs & _ & Hq & Hok & HS).
      destruct rp as [|[k|k] rp]; [| apply joins_gram |].
      + destruct (qprint_last B qs) as (B0 & x & E & Hne); [left; rewrite <- Hq; reflexivity|].
        rewrite HS, E. apply joins_last. exact Hne.
      + destruct Hok as [Hok|[Hok|(h & name & Hok)]]; [discriminate| |].
        * exfalso. destruct Hok as (name & args & Ha & Hok). cbn [rev] in Hok. rewrite map_app in Hok. cbn in Hok.
          destruct Hok as [Hok|(Hok & Hne)].
          -- destruct (map (sparam_of pre) (rev rp)) as [|y l]; cbn in Hok; injection Hok as HE0 Hok; [discriminate|].
             rewrite Forall_forall in Ha. apply (Ha SDelay); [rewrite <- Hok; apply in_or_app; right; left; reflexivity | reflexivity].
          -- destruct (map (sparam_of pre) (rev rp)) as [|y l]; cbn in Hok; injection Hok as HE0 Hok; [discriminate|].
             destruct l as [|y2 l2]; cbn in Hok; [injection Hok as HE1; congruence | injection Hok as HE1 Hok].
             rewrite Forall_forall in Ha. apply (Ha SDelay); [rewrite <- Hok; apply in_or_app; right; left; reflexivity | reflexivity].
        * destruct (qprint_last B qs) as (B0 & x & E & Hne).
          { right. rewrite <- Hq, Hok. cbn. eauto. }
          rewrite HS, E. apply joins_last. exact Hne.
    - destruct H as (ps & gl & _ & _ & _ & HS & _). rewrite HS.
      replace (pieces_print ps ++ g_ (us "#") :: flat_map gprint gl ++ [g_ (us "{")])
        with ((pieces_print ps ++ g_ (us "#") :: flat_map gprint gl) ++ [g_ (us "{")]) by (rewrite <- app_assoc; reflexivity).
      apply joins_last. discriminate.
    - destruct H as (ps & gl & _ & _ & _ & HS & _). rewrite HS.
      replace (pieces_print ps ++ g_ (us "#") :: flat_map gprint gl ++ [g_ (us "{"); (TIdentifier, tok pre id)])
        with ((pieces_print ps ++ g_ (us "#") :: flat_map gprint gl ++ [g_ (us "{")]) ++ [(TIdentifier, tok pre id)])
        by (repeat (rewrite <- !app_assoc; cbn [app]); reflexivity).
      apply joins_last. discriminate.
    - destruct H as (ps & gl & w & ws & _ & _ & _ & HS & _). rewrite HS.
      destruct (exists_last (l := w :: ws)) as (v & z & E); [discriminate|].
      assert (E2 : (TWhiteSpace, w) :: wprint ws = wprint v ++ [(TWhiteSpace, z)]).
      { change ((TWhiteSpace, w) :: wprint ws) with (wprint (w :: ws)). rewrite E. unfold wprint. rewrite map_app. reflexivity. }
      replace (pieces_print ps ++ g_ (us "#") :: flat_map gprint gl ++ g_ (us "{") :: (TIdentifier, tok pre id) :: (TWhiteSpace, w) :: wprint ws)
        with ((pieces_print ps ++ g_ (us "#") :: flat_map gprint gl ++ g_ (us "{") :: (TIdentifier, tok pre id) :: wprint v) ++ [(TWhiteSpace, z)]).
      2:{ rewrite E2. repeat (rewrite <- !app_assoc; cbn [app]). reflexivity. }
      apply joins_last. discriminate.
  Qed.

  Lemma alive_viable pre m : Forall (good_segment d l10n_grammar) (segs pre) -> maximal (segs pre) ->
    arun am_init 0 pre = Ok m -> ~ dead (am_state m) -> viable d (segs pre).
  Proof.
    intros HG HM R Hm. destruct (rest_run m (List.length pre) Hm) as (a & Ha).
    eapply (viable_by pre (rest_of m) m a); [ | | exact R | exact Ha].
    - apply Forall_app. split; [exact HG | apply rest_good].
    - apply maximal_app; [exact HM | apply rest_maximal | apply rest_joins; assumption].
  Qed.
End Words.
