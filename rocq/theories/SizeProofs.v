(** Bounds on the length of formatted texts, and strings that reach exponential length. *)
From Verif Require Import Base BaseFacts LexerModel LexerSpec IcuExample TreeModel TreeSpec DocSpec DocCheck ValueModel CommandModel
  IsoModel FormatterModel FormatterAbs FormatterRefine FormatterRefine2 FormatterSim FormatterSpec FormatterProofs2 FormatterProofs3 FormatterProofs4 FormatterProofs5 SizeSpec.
From Coq Require Import Arith.

(** ** Upper bound *)
Section Bound.
  Variables (fe : fmtenv) (reg : cregistry) (locale : ustr) (vals : amap pvalue) (a : sast) (m w : nat).
  Hypothesis Hm : pieces_within fe reg locale vals a m.
  Hypothesis Hw : items_within a w.
  (** The choice of a select placeholder: as implemented, or only among the named strings. *)
  Variable cs : list (ustr * ustr) -> ustr -> ustr -> Prop.
  Hypothesis Hcs : forall sels key branch, cs sels key branch -> by_selector sels key branch.
  Notation rends := (renders fe reg locale vals (all_strings a) cs by_selector).
  Notation rendx := (rend fe reg locale vals (all_strings a) cs by_selector).
  Definition small (n : option ustr) : Prop := match n with Some s => List.length s <= m | None => True end.

  Lemma renders_sum n b : forall l t, (forall x s, In x l -> rendx n x s -> List.length s <= b) ->
    rends n l t -> List.length t <= List.length l * b.
  Proof.
    induction l as [|x l IH]; intros t H Hr; inversion Hr; subst; [cbn; lia|].
    rewrite app_length. cbn [List.length]. pose proof (H x s (or_introl eq_refl) H2).
    pose proof (IH t0 (fun y s' Hy => H y s' (or_intror Hy)) H4). lia.
  Qed.

  (** One item, given a bound for the strings it can stand for. *)
  Lemma item_bound n b name body x s : small n -> m <= b -> In (name, body) (all_strings a) -> In x body ->
    (forall ph kw sels sel l n' t, x = SPat ph (Some (kw, sels)) -> In sel (map fst sels) -> mget sel (all_strings a) = Some l ->
       kw = us "select" /\ cs sels sel sel \/ (kw = us "plural" \/ kw = us "ordinal") /\ (exists c, sel = category_name c) ->
       small n' -> rends n' l t -> List.length t <= b) ->
    rendx n x s -> List.length s <= b.
  Proof.
    intros Hn Hb Hbody Hx Hrec Hr. destruct Hm as (Hm1 & Hm2).
    assert (Hleaf : forall y, In y body -> ~ branching y -> y <> SHash -> rend fe reg locale vals (all_strings a) by_selector by_selector None y s -> List.length s <= b).
    { intros y Hy H1 H2 H3. pose proof (Hm1 name body y s Hbody Hy H1 H2 H3). lia. }
    inversion Hr; subst.
    - apply (Hleaf _ Hx); [intros (? & ? & ? & ? & _); discriminate|discriminate|constructor].
    - cbn in Hn. lia.
    - apply (Hleaf _ Hx); [intros (? & ? & ? & ? & _); discriminate|discriminate|econstructor; eauto].
    - apply (Hleaf _ Hx); [intros (? & ? & ? & [= <- <- <-] & [E|[E|E]]); vm_compute in E; discriminate|discriminate|econstructor; eauto].
    - apply (Hleaf _ Hx); [intros (? & ? & ? & [= <- <- <-] & [E|[E|E]]); vm_compute in E; discriminate|discriminate|eapply rn_date_time; eauto].
    - pose proof (Hcs _ _ _ H1) as (H1' & ->). apply (Hrec ph (us "select") sels key body0 None s eq_refl H1' H2); [now left|exact I|assumption].
    - destruct H3 as (H3 & ->). apply (Hrec ph (us "plural") sels _ body0 (Some (f dec)) s eq_refl H3 H4);
        [|cbn; eapply Hm2; eauto|assumption].
      right. split; [now left|eauto].
    - destruct H2 as (H2 & ->). apply (Hrec ph (us "ordinal") sels _ body0 (Some (f (fe_unsigned fe k))) s eq_refl H2 H3);
        [|cbn; eapply Hm2; eauto using nv_unsigned|assumption].
      right. split; [now right|eauto].
    - apply (Hleaf _ Hx); [intros (? & ? & ? & ? & _); discriminate|discriminate|econstructor; eauto].
    - apply (Hleaf _ Hx); [intros (? & ? & ? & ? & _); discriminate|discriminate|eapply rn_delayed; eauto].
  Qed.

  (** By the depth of nesting. *)
  Lemma nested_bound h : forall name body n t, In (name, body) (all_strings a) -> nested a h body -> small n ->
    rends n body t -> List.length t <= m * w ^ S h.
  Proof.
    induction h as [|h IH]; intros name body n t Hin Hne Hn Hr.
    - pose proof (Hw _ _ Hin) as Hl.
      assert (List.length t <= List.length body * m).
      { eapply renders_sum; [|exact Hr]. intros x s Hx Hs. eapply item_bound; eauto.
        intros ph kw sels sel l n' t' -> _ _ Hk _ _. exfalso. inversion Hne; subst. rewrite Forall_forall in H.
        apply (H _ Hx). exists ph, kw, sels. split; [reflexivity|]. destruct Hk as [(Hk & _)|(Hk & _)]; auto. }
      rewrite Nat.pow_1_r. nia.
    - pose proof (Hw _ _ Hin) as Hl. destruct body as [|x0 body']; [inversion Hr; subst; cbn; lia|].
      remember (x0 :: body') as body eqn:Eb.
      assert (1 <= w) by (subst body; cbn in Hl; lia).
      assert (Hp : 1 <= w ^ S h) by (apply Nat.neq_0_lt_0, Nat.pow_nonzero; lia).
      assert (List.length t <= List.length body * (m * w ^ S h)).
      { eapply renders_sum; [|exact Hr]. intros x s Hx Hs. eapply item_bound; eauto; [nia|].
        intros ph kw sels sel l n' t' -> Hsel Hg _ Hn' Ht'. inversion Hne; subst h0 l0.
        apply mget_In in Hg. eapply IH; eauto. }
      change (w ^ S (S h)) with (w * w ^ S h). nia.
  Qed.

  (** By the number of named strings: a named string can only stand for those before it. *)
  Lemma split_In (x : ustr) (l : list (ustr * list sitem)) : In x (map fst l) -> exists p b q, l = p ++ (x, b) :: q.
  Proof. intros H. apply in_map_iff in H as ([k b] & <- & H). apply in_split in H as (p & q & ->). eauto. Qed.
  Lemma mget_split (l : amap (list sitem)) p x b q : NoDup (map fst l) -> l = p ++ (x, b) :: q -> mget x l = Some b.
  Proof.
    intros Hn ->. induction p as [|[k v] p IH]; cbn; [now rewrite ueqb_refl|].
    cbn in Hn. inversion Hn; subst. destruct (ueqb_spec x k) as [->|_]; [|auto].
    exfalso. apply H1. rewrite map_app. apply in_or_app. right. now left.
  Qed.
  Hypothesis Hno : forall sels key branch, cs sels key branch -> key <> us "_".
  Lemma known_bound : buildable reg a -> forall k pre name body post n t,
    group_of a = pre ++ (name, body) :: post -> List.length pre = k -> small n -> rends n body t ->
    List.length t <= m * w ^ S k.
  Proof.
    intros (Hnd & _ & _ & Hg). induction k as [k IH] using lt_wf_ind. intros pre name body post n t E Ek Hn Hr.
    assert (Hin : In (name, body) (all_strings a)).
    { right. rewrite E. apply in_or_app. right. now left. }
    pose proof (Hw _ _ Hin) as Hl. destruct body as [|x0 body']; [inversion Hr; subst; cbn; lia|].
    remember (x0 :: body') as body eqn:Eb.
    assert (1 <= w) by (subst body; cbn in Hl; lia).
    assert (Hp : forall i, 1 <= w ^ i) by (intros i; apply Nat.neq_0_lt_0, Nat.pow_nonzero; lia).
    assert (List.length t <= List.length body * (m * w ^ k)).
    { eapply renders_sum; [|exact Hr]. intros x s Hx Hs. eapply item_bound; eauto; [specialize (Hp k); nia|].
      intros ph kw sels sel l n' t' -> Hsel Hget Hk Hn' Ht'.
      pose proof (Hg _ _ _ _ E) as Hok. rewrite Forall_forall in Hok. specialize (Hok _ Hx). cbn [item_ok] in Hok.
      assert (Hknown : In sel (us "_" :: map fst pre)).
      { destruct Hok as [(_ & ->)|[(_ & _ & H2)|(_ & H2)]]; [now destruct Hsel|now apply H2|now apply H2]. }
      assert (Hne : sel <> us "_").
      { intros ->. destruct Hk as [(_ & Hk)|(_ & c & Ec)]; [exact (Hno _ _ _ Hk eq_refl)|destruct c; vm_compute in Ec; discriminate]. }
      destruct Hknown as [E'|Hknown]; [now symmetry in E'|]. apply split_In in Hknown as (p & b & q & ->).
      rewrite <- app_assoc in E. cbn [app] in E.
      assert (Eb' : mget sel (all_strings a) = Some b).
      { apply (mget_split _ ((us "_", fst a) :: p) sel b (q ++ (name, body) :: post)); [exact Hnd|]. unfold all_strings. now rewrite E. }
      rewrite Hget in Eb'. injection Eb' as ->.
      assert (Hlt : List.length p < k) by (rewrite app_length in Ek; cbn in Ek; lia).
      pose proof (IH _ Hlt p sel b _ n' t' E eq_refl Hn' Ht') as Hb'.
      assert (w ^ S (List.length p) <= w ^ k) by (apply Nat.pow_le_mono_r; lia). nia. }
    change (w ^ S k) with (w * w ^ k). specialize (Hp k). nia.
  Qed.
  Lemma named_whole t : buildable reg a -> rends None (fst a) t ->
    List.length t <= m * w ^ S (List.length (group_of a)).
  Proof.
    intros Hb Hr. pose proof Hb as (Hnd & _ & Hok & _).
    assert (Hin : In (us "_", fst a) (all_strings a)) by now left.
    pose proof (Hw _ _ Hin) as Hl. destruct (fst a) as [|x0 body'] eqn:Eb; [inversion Hr; subst; cbn; lia|]. rewrite <- Eb in *.
    assert (1 <= w) by (rewrite Eb in Hl; cbn in Hl; lia).
    set (k := List.length (group_of a)).
    assert (Hp : forall i, 1 <= w ^ i) by (intros i; apply Nat.neq_0_lt_0, Nat.pow_nonzero; lia).
    assert (List.length t <= List.length (fst a) * (m * w ^ k)).
    { eapply renders_sum; [|exact Hr]. intros x s Hx Hs. eapply item_bound with (n := None); eauto; [exact I|specialize (Hp k); nia|].
      intros ph kw sels sel l n' t' -> Hsel Hget Hk Hn' Ht'.
      rewrite Forall_forall in Hok. specialize (Hok _ Hx). cbn [item_ok] in Hok.
      assert (Hknown : In sel (us "_" :: map fst (group_of a))).
      { destruct Hok as [(_ & ->)|[(_ & _ & H2)|(_ & H2)]]; [now destruct Hsel|now apply H2|now apply H2]. }
      assert (Hne : sel <> us "_").
      { intros ->. destruct Hk as [(_ & Hk)|(_ & c & Ec)]; [exact (Hno _ _ _ Hk eq_refl)|destruct c; vm_compute in Ec; discriminate]. }
      destruct Hknown as [E'|Hknown]; [now symmetry in E'|]. apply split_In in Hknown as (p & b & q & E).
      assert (Eb' : mget sel (all_strings a) = Some b).
      { apply (mget_split _ ((us "_", fst a) :: p) sel b q); [exact Hnd|]. unfold all_strings. now rewrite E. }
      rewrite Hget in Eb'. injection Eb' as ->.
      pose proof (known_bound Hb _ p sel b q n' t' E eq_refl Hn' Ht') as Hb'.
      assert (List.length p < k) by (unfold k; rewrite E, app_length; cbn; lia).
      assert (w ^ S (List.length p) <= w ^ k) by (apply Nat.pow_le_mono_r; lia). nia. }
    change (w ^ S k) with (w * w ^ k). specialize (Hp k). nia.
  Qed.
End Bound.

(** A text is made without coming back to the main string. *)
Definition only_named (sels : list (ustr * ustr)) (key branch : ustr) : Prop := by_selector sels key branch /\ key <> us "_".
Section Named.
  Variables (fe : fmtenv) (reg : cregistry) (locale : ustr) (vals : amap pvalue) (a : sast).
  Notation rends := (renders fe reg locale vals (all_strings a) by_selector by_selector).
  Notation rendx := (rend fe reg locale vals (all_strings a) by_selector by_selector).
  Notation rends' := (renders fe reg locale vals (all_strings a) only_named by_selector).
  Notation rendx' := (rend fe reg locale vals (all_strings a) only_named by_selector).
  Definition main_text : Prop := exists t, rends' None (fst a) t.
  Lemma without_main n l t : rends n l t -> rends' n l t \/ main_text.
  Proof.
    apply (renders_mut fe reg locale vals (all_strings a) by_selector by_selector (fun n l t => rends' n l t \/ main_text) (fun n x t => rendx' n x t \/ main_text)); clear n l t; intros n.
    - left. constructor.
    - intros x l s t _ [Hx|H] _ [Hl|H']; try (now right). left. now constructor.
    - intros w. left. constructor.
    - intros s Hn. left. now constructor.
    - intros ph v s H1 H2. left. econstructor; eauto.
    - intros ph v dec f H1 H2 H3. left. econstructor; eauto.
    - intros ph v m s H1 H2 H3. left. eapply rn_date_time; eauto.
    - intros ph sels v key branch body t H1 H2 H3 H4 _ [H|H]; [|now right]. destruct (ueqb_spec key (us "_")) as [->|Hne].
      + right. destruct H3 as (_ & ->). cbn [all_strings mget] in H4. rewrite ueqb_refl in H4. injection H4 as <-. now exists t.
      + left. eapply rn_select; eauto. now split.
    - intros ph sels v dec rules f branch body t H1 H2 H3 H4 H5 H6 _ [H|H]; [|now right]. left. eapply rn_plural; eauto.
    - intros ph sels k rules f branch body t H1 H2 H3 H4 H5 _ [H|H]; [|now right]. left. eapply rn_ordinal; eauto.
    - intros name args f t H1 H2. left. econstructor; eauto.
    - intros name args f t H1 H2. left. eapply rn_delayed; eauto.
  Qed.
  Lemma named_renders n l t : rends' n l t -> rends n l t.
  Proof.
    apply (renders_mut fe reg locale vals (all_strings a) only_named by_selector (fun n l t => rends n l t) (fun n x t => rendx n x t)); clear n l t; intros n; intros.
    - constructor.
    - now constructor.
    - constructor.
    - now constructor.
    - econstructor; eauto.
    - econstructor; eauto.
    - eapply rn_date_time; eauto.
    - eapply rn_select; eauto. match goal with H : only_named _ _ _ |- _ => exact (proj1 H) end.
    - eapply rn_plural; eauto.
    - eapply rn_ordinal; eauto.
    - econstructor; eauto.
    - eapply rn_delayed; eauto.
  Qed.
  Lemma main_named t : content_check fe reg locale a = Ok tt -> rends None (fst a) t -> rends' None (fst a) t.
  Proof.
    intros Hc H. destruct (without_main _ _ _ H) as [G|(t' & G)]; [exact G|].
    assert (t = t') as ->; [|exact G].
    apply (rens_det fe reg locale vals (all_strings a) (fun m l => strings_checked fe reg locale a m l Hc) None (fst a) t H); [|exact (named_renders _ _ _ G)].
    apply (strings_checked fe reg locale a (us "_") (fst a) Hc). cbn [strings_of mget]. now rewrite ueqb_refl.
  Qed.
  Lemma whole_bound m w t : pieces_within fe reg locale vals a m -> items_within a w -> content_check fe reg locale a = Ok tt -> buildable reg a ->
    implemented_text fe reg locale vals a t -> List.length t <= m * w ^ S (List.length (group_of a)).
  Proof.
    intros Hm Hw Hc Hb H. apply (named_whole fe reg locale vals a m w Hm Hw only_named); [now intros ? ? ? [H1 _]|now intros ? ? ? [_ H1]|exact Hb|].
    now apply main_named.
  Qed.
End Named.

(** ** Strings of exponential length: each named string stands twice for the one before. *)
Section Family.
  Definition nm (j : nat) : ustr := repeat (ch "a") (S j).
  Definition ph (i : nat) : ustr := ch "x" :: nm i.
  Definition choice (i : nat) : dsyn := DPlace (ph i) (Some (us " ", us "select", [(us " ", (nm (i / 2), nm (i / 2)))])).
  Definition fstr (j : nat) : dstr :=
    mk_dstr (us "z") (match j with O => [] | S i => [(choice (2 * i), []); (choice (2 * i + 1), [])] end).
  Definition fnamed (j : nat) : dnamed := mk_dnamed (nm j) (us " ") (fstr j) [].
  Definition fdoc (k : nat) : doc := mk_doc (mk_dstr [] [(choice (2 * k), [])]) (Some ([], map fnamed (seq 0 (S k)))).
  Definition fvals (k : nat) : amap pvalue := map (fun i => (ph i, VString (nm (i / 2)))) (seq 0 (S (2 * k))).

  Lemma nm_inj i j : nm i = nm j -> i = j.
  Proof. intros E. apply (f_equal (@List.length _)) in E. unfold nm in E. rewrite !repeat_length in E. lia. Qed.
  Lemma ph_inj i j : ph i = ph j -> i = j.
  Proof. intros E. apply (f_equal (@List.length _)) in E. unfold ph, nm in E. cbn [List.length] in E. rewrite !repeat_length in E. lia. Qed.
  Lemma mget_seq {V} (f : nat -> ustr) (g : nat -> V) : (forall i j, f i = f j -> i = j) -> forall n b j, b <= j < b + n ->
    mget (f j) (map (fun i => (f i, g i)) (seq b n)) = Some (g j).
  Proof.
    intros Hf. induction n as [|n IH]; intros b j Hj; [lia|]. cbn [seq map mget].
    destruct (ueqb_spec (f j) (f b)) as [E|E]; [now rewrite (Hf _ _ E)|]. apply IH.
    assert (j <> b) by (intros ->; now apply E). lia.
  Qed.
  Lemma half0 i : (2 * i) / 2 = i.
  Proof. rewrite Nat.mul_comm. now apply Nat.div_mul. Qed.
  Lemma half1 i : (2 * i + 1) / 2 = i.
  Proof. rewrite Nat.add_comm, Nat.mul_comm, Nat.div_add by lia. reflexivity. Qed.

  Lemma ident_a n : is_ident icu_ex (nm n).
  Proof. split; [discriminate|]. apply Forall_forall. intros c Hc. apply repeat_spec in Hc as ->. split; reflexivity. Qed.
  Lemma ident_ph n : is_ident icu_ex (ph n).
  Proof. split; [discriminate|]. constructor; [split; reflexivity|apply ident_a]. Qed.
  Lemma ws_space : is_ws1 icu_ex (us " ").
  Proof. split; [discriminate|]. repeat constructor. Qed.
  Lemma choice_wf i : syn_wf icu_ex (choice i).
  Proof.
    cbn. split; [apply ident_ph|]. split; [apply ws_space|]. split.
    - split; [discriminate|]. repeat constructor.
    - repeat constructor; cbn; try discriminate; apply ident_a || (apply Forall_forall; intros c Hc; apply repeat_spec in Hc as ->; split; reflexivity).
  Qed.
  Lemma fstr_wf j : str_wf icu_ex (fstr j).
  Proof.
    split.
    - apply Forall_forall. intros c [<-|[]] H. vm_compute in H. intuition discriminate.
    - destruct j as [|i]; cbn [fstr ds_rest]; [constructor|].
      constructor; [split; [apply choice_wf|constructor]|]. constructor; [split; [apply choice_wf|constructor]|constructor].
  Qed.
  Lemma fdoc_wf k : doc_wf icu_ex (fdoc k).
  Proof.
    split; [split; [split; [constructor|]|]|split; [constructor|split]].
    - constructor; [split; [apply choice_wf|constructor]|constructor].
    - constructor; [discriminate|constructor].
    - discriminate.
    - apply Forall_forall. intros x Hx. apply in_map_iff in Hx as (j & <- & _). split; [apply ident_a|].
      split; [apply ws_space|]. split; [apply fstr_wf|]. split; [constructor|reflexivity].
  Qed.
  Lemma fdoc_names k : flat_map (fun x => spats (snd x)) (map named_content (map fnamed (seq 0 (S k)))) = map ph (seq 0 (2 * k)).
  Proof.
    induction k as [|k IH]; [reflexivity|]. rewrite seq_S, !map_app, flat_map_app, IH.
    cbn [Nat.add seq map fnamed]. replace (2 * S k) with (2 * k + 2) by lia. rewrite seq_app, map_app. f_equal.
    cbn [seq map Nat.add]. cbn. rewrite Nat.add_0_r. replace (k + k + 1) with (S (k + k)) by lia. reflexivity.
  Qed.
  Lemma fdoc_unique k : unique_names (fdoc k).
  Proof.
    split.
    - unfold placeholder_names, group_of. cbn [fdoc doc_content fst snd d_group d_main option_map]. rewrite fdoc_names.
      change (spats (str_content (mk_dstr [] [(choice (2 * k), [])]))) with [ph (2 * k)].
      cbn [app]. change (ph (2 * k) :: map ph (seq 0 (2 * k))) with (map ph ((2 * k) :: seq 0 (2 * k))).
      apply FinFun.Injective_map_NoDup; [exact ph_inj|]. constructor; [rewrite in_seq; lia|apply seq_NoDup].
    - unfold string_names, group_of. cbn [fdoc doc_content fst snd d_group option_map]. rewrite !map_map.
      change (NoDup (map nm (seq 0 (S k)))). apply FinFun.Injective_map_NoDup; [exact nm_inj|apply seq_NoDup].
  Qed.
  Lemma fdoc_supported k : supported icu_ex (fdoc k).
  Proof.
    apply Forall_forall. intros x Hx. apply in_map_iff in Hx as (j & <- & _). split; [split; reflexivity|].
    destruct j as [|i]; exact I.
  Qed.

  Variables (fe : fmtenv) (reg : cregistry) (tag locale : ustr).

  Lemma fdoc_group k : group_of (doc_content (fdoc k)) = map (fun j => (nm j, str_content (fstr j))) (seq 0 (S k)).
  Proof. unfold group_of. cbn [fdoc doc_content snd d_group option_map]. now rewrite map_map. Qed.
  Lemma nm_main j : nm j <> us "_".
  Proof. intros E. apply (f_equal (hd 0%N)) in E. vm_compute in E. discriminate. Qed.
  Lemma choice_ok known i : In (nm (i / 2)) known -> item_ok reg known (syn_content (choice i)).
  Proof. intros H. right. right. split; [reflexivity|]. intros sel [<-|[]]. exact H. Qed.
  Lemma seq_split {A} (f : nat -> A) pre x post : forall n b, map f (seq b n) = pre ++ x :: post ->
    pre = map f (seq b (List.length pre)) /\ x = f (b + List.length pre).
  Proof.
    induction pre as [|y pre IH]; intros [|n] b E; try discriminate; cbn [seq map app] in E; injection E as E1 E2.
    - cbn. now rewrite Nat.add_0_r.
    - destruct (IH _ _ E2) as (H1 & H2). cbn [List.length seq map]. rewrite <- Nat.add_succ_comm. split; [congruence|exact H2].
  Qed.
  Lemma fdoc_buildable k : buildable reg (doc_content (fdoc k)).
  Proof.
    assert (Hnames : map fst (group_of (doc_content (fdoc k))) = map nm (seq 0 (S k))) by (rewrite fdoc_group, map_map; reflexivity).
    split; [|split; [|split]].
    - rewrite Hnames. constructor.
      + intros H. apply in_map_iff in H as (j & E & _). now apply nm_main in E.
      + apply FinFun.Injective_map_NoDup; [exact nm_inj|apply seq_NoDup].
    - cbn. intuition discriminate.
    - rewrite Hnames. cbn [fdoc doc_content fst d_main str_content ds_rest ds_text flat_map snd app].
      constructor; [exact I|]. constructor; [|repeat constructor]. apply choice_ok. rewrite half0. right. apply in_map, in_seq. lia.
    - intros pre name body post E. rewrite fdoc_group in E.
      assert (Hj : exists j, pre = map (fun j => (nm j, str_content (fstr j))) (seq 0 j) /\ body = str_content (fstr j)).
      { destruct (seq_split _ _ _ _ _ _ E) as (H1 & H2). cbn [Nat.add] in H2. injection H2 as _ ->. eauto. }
      destruct Hj as (j & -> & ->). rewrite map_map. cbn [fst].
      destruct j as [|i]; [repeat constructor|].
      cbn [fstr str_content ds_rest ds_text flat_map snd app fst]. constructor; [exact I|].
      constructor; [apply choice_ok; rewrite half0; right; apply (in_map nm), in_seq; lia|]. constructor; [exact I|].
      constructor; [apply choice_ok; rewrite half1; right; apply (in_map nm), in_seq; lia|]. repeat constructor.
  Qed.

  Lemma choice_eval k rec strs self i st t : i <= 2 * k -> rec (nm (i / 2)) st = (st, Ok t) ->
    aitem fe reg locale (fvals k) rec strs self (syn_content (choice i)) st = (st, Ok t).
  Proof.
    intros Hi Hrec. cbn [choice syn_content aitem map snd]. unfold akw.
    change (ueqb (us "select") (us "decimal")) with false. change (ueqb (us "select") (us "date_time")) with false.
    change (ueqb (us "select") (us "ordinal")) with false. change (ueqb (us "select") (us "plural")) with false. cbn iota.
    unfold fvals. rewrite (mget_seq ph (fun i => VString (nm (i / 2))) ph_inj) by lia. cbn [value_text].
    unfold pairs, pairs_from. cbn [map fst snd fold_left]. rewrite mget_minsert_eq. exact Hrec.
  Qed.

  Definition zs (n : nat) : ustr := repeat (ch "z") n.
  Lemma zs_app a b : zs a ++ zs b = zs (a + b).
  Proof. unfold zs. symmetry. apply repeat_app. Qed.

  Lemma fstr_eval k : forall j fuel st, j <= k -> j < fuel ->
    astring fe reg locale (fvals k) fuel (strings_of (doc_content (fdoc k))) (nm j) st = (st, Ok (zs (2 ^ S j - 1))).
  Proof.
    induction j as [|j IH]; intros fuel st Hj Hf; (destruct fuel as [|f]; [lia|]); cbn [astring].
    - unfold strings_of. cbn [mget]. destruct (ueqb_spec (nm 0) (us "_")) as [E|_]; [now apply nm_main in E|].
      rewrite fdoc_group, (mget_seq nm (fun j => str_content (fstr j)) nm_inj) by lia. reflexivity.
    - replace (mget (nm (S j)) (strings_of (doc_content (fdoc k)))) with (Some (str_content (fstr (S j)))).
      2:{ unfold strings_of. cbn [mget]. destruct (ueqb_spec (nm (S j)) (us "_")) as [E|_]; [now apply nm_main in E|].
          rewrite fdoc_group, (mget_seq nm (fun j => str_content (fstr j)) nm_inj) by lia. reflexivity. }
      cbn [fstr str_content ds_rest ds_text flat_map snd app fst aitems aitem].
      rewrite (choice_eval k _ _ _ (2 * j) st (zs (2 ^ S j - 1))) by (try rewrite half0; try apply IH; lia).
      rewrite (choice_eval k _ _ _ (2 * j + 1) st (zs (2 ^ S j - 1))) by (try rewrite half1; try apply IH; lia).
      cbn [aitem]. rewrite !app_nil_r. cbn [app]. rewrite zs_app. change (us "z") with (zs 1). rewrite zs_app. do 3 f_equal.
      rewrite (Nat.pow_succ_r' 2 (S j)). assert (2 ^ S j <> 0) by (apply Nat.pow_nonzero; lia). lia.
  Qed.
  Lemma fdoc_eval k fuel st : S k < fuel ->
    astring fe reg locale (fvals k) fuel (strings_of (doc_content (fdoc k))) (us "_") st = (st, Ok (zs (2 ^ S k - 1))).
  Proof.
    intros Hf. destruct fuel as [|f]; [lia|]. cbn [astring].
    change (mget (us "_") (strings_of (doc_content (fdoc k)))) with (Some (fst (doc_content (fdoc k)))).
    set (strs := strings_of (doc_content (fdoc k))).
    cbn [fdoc doc_content fst d_main str_content ds_rest ds_text flat_map fst snd app aitems aitem].
    rewrite (choice_eval k _ _ _ (2 * k) st (zs (2 ^ S k - 1))) by (try rewrite half0; try apply fstr_eval; lia).
    cbn [aitem]. now rewrite !app_nil_r.
  Qed.

  Theorem family k : exists fm, formatter_try_new icu_ex l10n_grammar fe reg tag locale (dprint (fdoc k)) = Ok fm /\
    gives fe reg fm (fvals k) (Ok (zs (2 ^ S k - 1))).
  Proof.
    assert (Hne : dprint (fdoc k) <> []) by (unfold dprint; cbn [fdoc d_main]; discriminate).
    destruct (doc_content_of icu_ex icu_ex_ok (fdoc k) (fdoc_wf k) (fdoc_unique k) (fdoc_supported k) Hne) as (a & Ha & Hj).
    assert (Hb : buildable reg a) by (apply (buildable_joined reg (doc_content (fdoc k))); [now symmetry|apply fdoc_buildable]).
    assert (Hgram : exists c, In c (dprint (fdoc k)) /\ In c l10n_grammar).
    { exists (ch "{"). split; [now left|now left]. }
    destruct (proj2 (build_iff icu_ex fe reg tag locale icu_ex_ok _ _ Ha Hne) (conj Hgram Hb)) as (fm & Hfm). exists fm. split; [exact Hfm|].
    destruct (try_new_inv _ _ _ _ _ _ _ _ _ Ha Hfm) as (_ & Hrep & _).
    destruct (after_sim fe reg locale fm a fm Hrep (af_fresh _ _ _)) as (st & Hsim).
    exists (S (S k)). split; [|discriminate]. specialize (Hsim (fvals k) (S (S k))).
    rewrite (astring_join_eq fe reg locale (fvals k) (S (S k)) a (doc_content (fdoc k)) _ _ Hj), fdoc_eval in Hsim by lia.
    now apply (same_ok _ _ _ Hsim).
  Qed.

  (** *** Sizes *)
  Lemma nm_len j : List.length (nm j) = S j.
  Proof. apply repeat_length. Qed.
  Lemma choice_len i : List.length (synprint (choice i)) <= 2 * i + 20.
  Proof.
    cbn [choice synprint flat_map]. unfold selprint. cbn [fst snd]. rewrite app_nil_r. repeat rewrite ?app_length. cbn [List.length ph]. rewrite !nm_len.
    assert (2 * (i / 2) <= i) by (apply Nat.mul_div_le; lia).
    change (List.length (us "{")) with 1. change (List.length (us " ")) with 1. change (List.length (us "select")) with 6.
    change (List.length (us "#")) with 1. change (List.length (us "}")) with 1. lia.
  Qed.
  Lemma fnamed_len j : List.length (namedprint (fnamed j)) <= 9 * j + 50.
  Proof.
    unfold namedprint, strprint. cbn [fnamed dn_id dn_ws dn_str dn_after]. repeat rewrite ?app_length. rewrite nm_len.
    change (List.length (us "{")) with 1. change (List.length (us " ")) with 1. change (List.length (us "}")) with 1. cbn [List.length].
    destruct j as [|i]; [cbn; lia|]. cbn [fstr ds_text ds_rest flat_map fst snd].
    repeat rewrite ?app_length. cbn [List.length]. change (List.length (us "z")) with 1.
    pose proof (choice_len (2 * i)). pose proof (choice_len (2 * i + 1)). lia.
  Qed.
  Lemma flat_len {A} (f : A -> ustr) b l : (forall x, In x l -> List.length (f x) <= b) -> List.length (flat_map f l) <= List.length l * b.
  Proof.
    induction l as [|x l IH]; intros H; [cbn; lia|]. cbn [flat_map List.length]. rewrite app_length.
    pose proof (H x (or_introl eq_refl)). specialize (IH (fun y Hy => H y (or_intror Hy))). lia.
  Qed.
  Lemma fdoc_len k : List.length (dprint (fdoc k)) <= 80 * (S k * S k).
  Proof.
    unfold dprint, strprint. cbn [fdoc d_main d_group ds_text ds_rest flat_map fst snd app]. repeat rewrite ?app_length. cbn [List.length].
    assert (Hg : List.length (flat_map namedprint (map fnamed (seq 0 (S k)))) <= S k * (9 * k + 50)).
    { etransitivity; [apply (flat_len _ (9 * k + 50))|].
      - intros x Hx. apply in_map_iff in Hx as (j & <- & Hj). apply in_seq in Hj. pose proof (fnamed_len j). lia.
      - now rewrite map_length, seq_length. }
    pose proof (choice_len (2 * k)). change (List.length (us "#")) with 1. nia.
  Qed.
  Lemma sum_len {A} (f : A -> nat) b l : (forall x, In x l -> f x <= b) -> list_sum (map f l) <= List.length l * b.
  Proof.
    induction l as [|x l IH]; intros H; [cbn; lia|]. cbn [map List.length]. change (list_sum (f x :: map f l)) with (f x + list_sum (map f l)).
    pose proof (H x (or_introl eq_refl)). specialize (IH (fun y Hy => H y (or_intror Hy))). lia.
  Qed.
  Lemma fvals_len k : values_size (fvals k) <= 20 * (S k * S k).
  Proof.
    unfold values_size, fvals. rewrite map_map.
    etransitivity; [apply (sum_len _ (3 * k + 4))|].
    - intros i Hi. apply in_seq in Hi. cbn [fst snd value_size text_value ph List.length]. unfold value_size. cbn [text_value]. rewrite !nm_len.
      assert (2 * (i / 2) <= i) by (apply Nat.mul_div_le; lia). lia.
    - rewrite seq_length. nia.
  Qed.
End Family.

(** Exponentials outgrow every power. *)
Lemma square_pow m : 4 <= m -> m * m <= 2 ^ m.
Proof.
  induction 1 as [|m Hm IH]; [cbn; lia|]. rewrite Nat.pow_succ_r'. nia.
Qed.
Lemma outgrows c p : exists k, c * (100 * (S k * S k)) ^ p < 2 ^ S k - 1.
Proof.
  set (m := 9 * p + c + 6). exists (2 ^ m - 1). assert (H2 : forall i, 1 <= 2 ^ i) by (intros i; apply Nat.neq_0_lt_0, Nat.pow_nonzero; lia).
  replace (S (2 ^ m - 1)) with (2 ^ m) by (specialize (H2 m); lia).
  assert (H100 : 100 * (2 ^ m * 2 ^ m) <= 2 ^ (7 + m + m)).
  { rewrite !Nat.pow_add_r. change (2 ^ 7) with 128. specialize (H2 m). nia. }
  assert (Hp : (100 * (2 ^ m * 2 ^ m)) ^ p <= 2 ^ ((7 + m + m) * p)).
  { rewrite Nat.pow_mul_r. apply Nat.pow_le_mono_l. exact H100. }
  assert (Hc : c < 2 ^ c) by (apply Nat.pow_gt_lin_r; lia).
  assert (Hall : c * (100 * (2 ^ m * 2 ^ m)) ^ p <= 2 ^ (c + (7 + m + m) * p)).
  { rewrite Nat.pow_add_r. nia. }
  assert (He : c + (7 + m + m) * p + 2 <= 2 ^ m).
  { pose proof (square_pow m ltac:(unfold m; lia)). unfold m in *. nia. }
  assert (Hbig : 2 ^ (c + (7 + m + m) * p + 2) <= 2 ^ (2 ^ m)) by (apply Nat.pow_le_mono_r; lia).
  rewrite Nat.pow_add_r in Hbig. change (2 ^ 2) with 4 in Hbig. specialize (H2 (c + (7 + m + m) * p)).
  remember (2 ^ (2 ^ m)) as big. remember (2 ^ (c + (7 + m + m) * p)) as mid. lia.
Qed.

(** ** Plain strings *)
Definition got (vals : amap pvalue) (id : ustr) : nat := match mget id vals with Some v => value_size v | None => 0 end.
Lemma got_sum vals : forall ids, NoDup ids -> list_sum (map (got vals) ids) <= values_size vals.
Proof.
  induction vals as [|[k v] vals IH]; intros ids Hn.
  - induction ids as [|i ids IHi]; [apply le_n|]. inversion Hn; subst. exact (IHi H2).
  - assert (H : list_sum (map (got ((k, v) :: vals)) ids) <= value_size v + list_sum (map (got vals) ids)
              /\ (~ In k ids -> list_sum (map (got ((k, v) :: vals)) ids) <= list_sum (map (got vals) ids))).
    { clear IH. induction ids as [|i ids IHi]; [cbn; split; lia|]. inversion Hn; subst. destruct (IHi H2) as (I1 & I2).
      cbn [map]. change (list_sum (got ((k, v) :: vals) i :: map (got ((k, v) :: vals)) ids)) with
        (got ((k, v) :: vals) i + list_sum (map (got ((k, v) :: vals)) ids)).
      change (list_sum (got vals i :: map (got vals) ids)) with (got vals i + list_sum (map (got vals) ids)).
      assert (E : got ((k, v) :: vals) i = if ueqb i k then value_size v else got vals i).
      { unfold got. cbn [mget]. now destruct (ueqb i k). }
      rewrite E. destruct (ueqb_spec i k) as [->|Hne].
      - specialize (I2 H1). split; [lia|]. intros Hk. exfalso. apply Hk. now left.
      - split; [lia|]. intros Hk. assert (~ In k ids) by (intros X; apply Hk; now right). specialize (I2 H). lia. }
    destruct H as (H & _). specialize (IH ids Hn).
    change (values_size ((k, v) :: vals)) with (List.length k + value_size v + values_size vals). lia.
Qed.
Lemma rest_len vals : forall l t, Forall (fun x => match fst x with DEsc _ => True | DPlace _ None => True | _ => False end) l ->
  rest_text vals l = Ok t ->
  List.length t <= List.length (flat_map (fun x => synprint (fst x) ++ snd x) l) +
    list_sum (map (got vals) (spats (flat_map (fun x => [syn_content (fst x); SText (snd x)]) l))).
Proof.
  induction l as [|[x w] l IH]; intros t Hp H.
  - injection H as <-. cbn. lia.
  - inversion Hp as [|? ? Hx Hl]; subst. cbn [rest_text] in H. apply bind_Ok in H as (s & Hs & H). apply bind_Ok in H as (t' & Ht & H).
    injection H as <-. specialize (IH _ Hl Ht). cbn [flat_map fst snd]. rewrite !app_length.
    destruct x as [c| |id [?|]|]; try (now destruct Hx); cbn [syn_text] in Hs.
    + injection Hs as <-. cbn [syn_content app spats flat_map]. cbn [synprint]. rewrite !app_length.
      change (flat_map (fun x => match x with SPat id _ => [id] | _ => [] end)) with spats. cbn [List.length]. lia.
    + unfold place_text in Hs. destruct (mget id vals) as [v|] eqn:Ev; [|discriminate]. destruct (text_value v) as [s'|] eqn:Et; [|discriminate].
      injection Hs as ->. cbn [syn_content app spats flat_map].
      change (flat_map (fun x => match x with SPat id _ => [id] | _ => [] end)) with spats. cbn [map].
      match goal with |- context [list_sum (?a :: ?b)] => change (list_sum (a :: b)) with (a + list_sum b) end.
      assert (got vals id = List.length s) by (unfold got; rewrite Ev; unfold value_size; now rewrite Et). lia.
Qed.
Lemma plain_len vals s t : plain s -> NoDup (spats (str_content s)) -> plain_text vals s = Ok t ->
  List.length t <= List.length (strprint s) + values_size vals.
Proof.
  intros Hp Hn H. unfold plain_text in H. apply bind_Ok in H as (t' & Ht & H). injection H as <-.
  pose proof (rest_len _ _ _ Hp Ht) as Hl. unfold str_content in Hn. cbn [spats flat_map app] in Hn.
  change (flat_map (fun x => match x with SPat id _ => [id] | _ => [] end)) with spats in Hn.
  pose proof (got_sum vals _ Hn). unfold strprint. rewrite !app_length. lia.
Qed.
