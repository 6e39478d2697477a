(** Proofs that the order in which options and selectors are gone through matters for the choice of the error only. *)
From Coq Require Import Permutation.
From Verif Require Import Base BaseFacts LexerModel LexerSpec TreeModel TreeSpec TreeMachine TreeProofs TreeProofs4 DocSpec DocProofs ValueModel
  CommandModel IsoModel IcuExample FormatterModel FormatterAbs FormatterRefine FormatterRefine2 FormatterSpec
  FormatterProofs FormatterProofs3 FormatterProofs5 OptionSpec OptionProofs DefectSpec DefectProofs OrderModel OrderSpec.
Local Opaque us.

Lemma agree_refl {E A} (x : outcome E A) : agree x x.
Proof. destruct x; cbn; auto. Qed.
Lemma agree_trans {E A} (x y z : outcome E A) : agree x y -> agree y z -> agree x z.
Proof. destruct x, y, z; cbn; intros; try contradiction; auto. congruence. Qed.
Lemma agree_bind {E A B} (x y : outcome E A) (f g : A -> outcome E B) : agree x y -> (forall a, x = Ok a -> agree (f a) (g a)) ->
  agree (bind x f) (bind y g).
Proof. destruct x, y; cbn; intros H1 H2; try contradiction; auto. subst. auto. Qed.
Lemma agree_ok {E A} (x y : outcome E A) : (forall a, x = Ok a <-> y = Ok a) ->
  x <> Panic -> x <> NoFuel -> y <> Panic -> y <> NoFuel -> agree x y.
Proof.
  intros H A1 A2 A3 A4. destruct x as [a|e| |], y as [b|e'| |]; cbn; try congruence; auto.
  - pose proof (proj1 (H a) eq_refl) as E0. congruence.
  - pose proof (proj1 (H a) eq_refl) as E0. congruence.
  - pose proof (proj2 (H b) eq_refl) as E0. congruence.
Qed.

(** ** Maps *)
Lemma perm_keys {V} (m m' : amap V) : Permutation m m' -> Permutation (mkeys m) (mkeys m').
Proof. apply Permutation_map. Qed.
Lemma perm_nodup {V} (m m' : amap V) : Permutation m m' -> NoDup (mkeys m) -> NoDup (mkeys m').
Proof. intros H. exact (Permutation_NoDup (perm_keys _ _ H)). Qed.
Lemma mget_iff {V} (m : amap V) k v : NoDup (mkeys m) -> mget k m = Some v <-> In (k, v) m.
Proof.
  intros Hn. split; [apply mget_In|]. induction m as [|(k0, v0) m IH]; [intros []|]. cbn [mkeys map fst] in Hn.
  apply NoDup_cons_iff in Hn as (H0 & Hn). intros [H|H]; cbn [mget].
  - injection H as -> ->. now rewrite ueqb_refl.
  - destruct (ueqb_spec k k0) as [->|N]; [|auto]. destruct H0. apply (in_map fst) in H. exact H.
Qed.
Lemma perm_mget {V} (m m' : amap V) k : Permutation m m' -> NoDup (mkeys m) -> mget k m = mget k m'.
Proof.
  intros H Hn. pose proof (perm_nodup _ _ H Hn) as Hn'. destruct (mget k m) as [v|] eqn:E.
  - symmetry. apply mget_iff; [exact Hn'|]. apply (Permutation_in _ H). now apply mget_iff.
  - destruct (mget k m') as [v|] eqn:E'; [|reflexivity]. apply mget_iff in E'; [|exact Hn'].
    apply (Permutation_in _ (Permutation_sym H)) in E'. apply mget_iff in E'; [congruence|exact Hn].
Qed.
Lemma perm_only m m' ks : Permutation m m' -> only_options m ks <-> only_options m' ks.
Proof.
  intros H. apply perm_keys in H. unfold only_options. split; intros Ho k Hk; apply Ho.
  - apply (Permutation_in _ (Permutation_sym H)), Hk.
  - apply (Permutation_in _ H), Hk.
Qed.

(** ** The loops *)
Lemma sign_display_fails s : sign_display s <> Panic /\ sign_display s <> NoFuel.
Proof. unfold sign_display. repeat (destruct (ueqb s _); [split; discriminate|]). split; discriminate. Qed.
Lemma grouping_fails s : decimal_grouping_display s <> Panic /\ decimal_grouping_display s <> NoFuel.
Proof. unfold decimal_grouping_display. repeat (destruct (ueqb s _); [split; discriminate|]). split; discriminate. Qed.
Lemma length_fails w s : length_option w s <> Panic /\ length_option w s <> NoFuel.
Proof. unfold length_option. repeat (destruct (ueqb s _); [split; discriminate|]). split; discriminate. Qed.
Lemma bind_fails {E A B} (x : outcome E A) (f : A -> outcome E B) : x <> Panic /\ x <> NoFuel -> (forall a, f a <> Panic /\ f a <> NoFuel) ->
  bind x f <> Panic /\ bind x f <> NoFuel.
Proof. intros (H1 & H2) H. destruct x; cbn; try congruence; [apply H|split; discriminate]. Qed.
Lemma decimal_fails ph m : forall s g, decimal_options ph m s g <> Panic /\ decimal_options ph m s g <> NoFuel.
Proof.
  induction m as [|(k, v) m IH]; intros s g; cbn [decimal_options]; [split; discriminate|].
  destruct (ueqb k _); [apply bind_fails; [apply sign_display_fails|auto]|].
  destruct (ueqb k _); [apply bind_fails; [apply grouping_fails|auto]|split; discriminate].
Qed.
Lemma date_time_fails fe locale ph m : forall a b c, date_time_options fe locale ph m a b c <> Panic /\ date_time_options fe locale ph m a b c <> NoFuel.
Proof.
  induction m as [|(k, v) m IH]; intros a b c; cbn [date_time_options]; [split; discriminate|].
  destruct (ueqb k _); [apply bind_fails; [apply length_fails|auto]|].
  destruct (ueqb k _); [apply bind_fails; [apply length_fails|auto]|].
  destruct (ueqb k _); [|split; discriminate]. destruct (negb _); [split; discriminate|].
  apply bind_fails; [destruct (fe_locale _ _); split; discriminate|auto].
Qed.
Lemma plural_fails kw ph known m : forall o, plural_checks kw ph known m o <> Panic /\ plural_checks kw ph known m o <> NoFuel.
Proof.
  induction m as [|(k, v) m IH]; intros o; cbn [plural_checks]; [split; discriminate|].
  destruct (negb _); [split; discriminate|]. destruct (negb _); [split; discriminate|auto].
Qed.
Lemma select_fails ph known m : select_checks ph known m <> Panic /\ select_checks ph known m <> NoFuel.
Proof. induction m as [|(k, v) m IH]; cbn [select_checks]; [split; discriminate|]. destruct (negb _); [split; discriminate|auto]. Qed.

Lemma plural_checks_ok kw ph known m : forall o o', plural_checks kw ph known m o = Ok o' <->
  (forall k v, In (k, v) m -> In k valid_plurals /\ In v known) /\ o' = o || umem (us "other") (mkeys m).
Proof.
  induction m as [|(k, v) m IH]; intros o o'; cbn [plural_checks].
  - cbn. rewrite Bool.orb_false_r. split; [intros [= <-]; split; [intros ? ? []|reflexivity]|intros (_ & ->); reflexivity].
  - destruct (umem k valid_plurals) eqn:E1; cbn [negb].
    2:{ apply umem_nIn in E1. split; [discriminate|]. intros (H & _). destruct (H k v (or_introl eq_refl)). contradiction. }
    destruct (umem v known) eqn:E2; cbn [negb].
    2:{ apply umem_nIn in E2. split; [discriminate|]. intros (H & _). destruct (H k v (or_introl eq_refl)). contradiction. }
    apply umem_In in E1. apply umem_In in E2. rewrite IH. cbn [mkeys map fst umem existsb].
    rewrite (ueqb_sym (us "other") k), Bool.orb_assoc. unfold umem, mkeys.
    split; intros (H1 & H2); (split; [|exact H2]); intros a c; [intros [[= <- <-]|Hi]; auto|intros Hi; apply H1; now right].
Qed.
Lemma select_checks_ok ph known m : select_checks ph known m = Ok tt <-> forall k v, In (k, v) m -> In v known.
Proof.
  induction m as [|(k, v) m IH]; cbn [select_checks]; [split; [intros _ ? ? []|reflexivity]|].
  destruct (umem v known) eqn:E; cbn [negb].
  - apply umem_In in E. rewrite IH. split; intros H a c; [intros [[= <- <-]|Hi]; eauto|intros Hi; apply (H a); now right].
  - apply umem_nIn in E. split; [discriminate|]. intros H. destruct E. apply (H k). now left.
Qed.
Lemma umem_perm s l l' : Permutation l l' -> umem s l = umem s l'.
Proof.
  intros H. destruct (umem s l) eqn:E.
  - symmetry. apply umem_In. apply (Permutation_in _ H). now apply umem_In.
  - symmetry. apply umem_nIn. apply umem_nIn in E. intros Hi. apply E. apply (Permutation_in _ (Permutation_sym H) Hi).
Qed.

Section Perm.
  Variables (m m' : amap ustr).
  Hypotheses (HP : Permutation m m') (Hn : NoDup (mkeys m)).

  Lemma decimal_perm ph : agree (decimal_options ph m None None) (decimal_options ph m' None None).
  Proof.
    apply agree_ok; try apply decimal_fails. intros (s, g).
    rewrite (decimal_options_ok ph m Hn), (decimal_options_ok ph m' (perm_nodup _ _ HP Hn)), (perm_only _ _ _ HP).
    unfold option_from. now rewrite !(perm_mget m m' _ HP Hn).
  Qed.
  Lemma date_time_perm fe locale ph : agree (date_time_options fe locale ph m None None None) (date_time_options fe locale ph m' None None None).
  Proof.
    apply agree_ok; try apply date_time_fails. intros ((a, b), c).
    rewrite (date_time_options_ok fe locale ph m Hn), (date_time_options_ok fe locale ph m' (perm_nodup _ _ HP Hn)), (perm_only _ _ _ HP).
    unfold option_from, calendar_from. now rewrite !(perm_mget m m' _ HP Hn).
  Qed.
  Lemma plural_perm kw ph known : agree (plural_checks kw ph known m false) (plural_checks kw ph known m' false).
  Proof.
    apply agree_ok; try apply plural_fails. intros o. rewrite !plural_checks_ok, (umem_perm _ _ _ (perm_keys _ _ HP)).
    assert (E : (forall k v, In (k, v) m -> In k valid_plurals /\ In v known) <-> (forall k v, In (k, v) m' -> In k valid_plurals /\ In v known)).
    { split; intros H k v Hi; apply H; [apply (Permutation_in _ (Permutation_sym HP))|apply (Permutation_in _ HP)]; exact Hi. }
    tauto.
  Qed.
  Lemma select_perm ph known : agree (select_checks ph known m) (select_checks ph known m').
  Proof.
    apply agree_ok; try apply select_fails. intros []. rewrite !select_checks_ok.
    split; intros H k v Hi; apply (H k v); [apply (Permutation_in _ (Permutation_sym HP))|apply (Permutation_in _ HP)]; exact Hi.
  Qed.
End Perm.

(** The map of a pattern has each key once. *)
Lemma selector_pairs_nodup tr cs : forall m m', NoDup (mkeys m) -> selector_pairs tr cs m = Ok m' -> NoDup (mkeys m').
Proof.
  induction cs as [|c cs IH]; intros m m' Hn H; [injection H as <-; exact Hn|]. cbn [selector_pairs] in H.
  apply bind_Ok in H as (ty & _ & H). destruct (negb _); [discriminate|].
  apply bind_Ok in H as (o & _ & H). apply bind_Ok in H as (f & _ & H). apply bind_Ok in H as (ty1 & _ & H). destruct (negb _); [discriminate|].
  apply bind_Ok in H as (w & _ & H). apply bind_Ok in H as (o' & _ & H). apply bind_Ok in H as (l & _ & H). apply bind_Ok in H as (ty2 & _ & H).
  destruct (negb _); [discriminate|]. apply bind_Ok in H as (w' & _ & H). apply IH in H; [exact H|]. now apply minsert_NoDup.
Qed.
Lemma pattern_selectors_nodup tr i m : pattern_selectors tr i = Ok m -> NoDup (mkeys m).
Proof. unfold pattern_selectors. intros H. apply bind_Ok in H as (cs & _ & H). exact (selector_pairs_nodup tr _ [] m (NoDup_nil _) H). Qed.

(** ** Building *)
Section Build.
  Variables (order : nat -> amap ustr -> amap ustr) (fe : fmtenv) (reg : cregistry) (locale : ustr).
  Hypothesis Ho : an_order order.

  Lemma part_pattern_agree known tr i b : agree (part_pattern fe locale known tr i b) (part_pattern_in order fe locale known tr i b).
  Proof.
    unfold part_pattern, part_pattern_in. apply agree_bind; [apply agree_refl|]. intros cs _. destruct cs as [|p r]; [exact Logic.I|].
    apply agree_bind; [apply agree_refl|]. intros ty _. destruct (negb _); [exact Logic.I|].
    apply agree_bind; [apply agree_refl|]. intros ph _. destruct r as [|k r]; [reflexivity|].
    apply agree_bind; [apply agree_refl|]. intros tyk _. destruct (negb _); [exact Logic.I|].
    apply agree_bind; [apply agree_refl|]. intros kw _.
    destruct (ueqb kw _).
    { apply agree_bind; [apply agree_refl|]. intros m Hm. apply pattern_selectors_nodup in Hm.
      apply agree_bind; [now apply decimal_perm|]. intros (s, g) _. reflexivity. }
    destruct (ueqb kw _).
    { apply agree_bind; [apply agree_refl|]. intros m Hm. apply pattern_selectors_nodup in Hm.
      apply agree_bind; [now apply date_time_perm|]. intros ((a1, a2), a3) _. reflexivity. }
    destruct (ueqb kw _).
    { apply agree_bind; [apply agree_refl|]. intros m Hm. apply pattern_selectors_nodup in Hm. unfold plural_part, plural_part_in.
      apply agree_bind; [now apply plural_perm|]. intros o _. destruct (negb o); [exact Logic.I|reflexivity]. }
    destruct (ueqb kw _).
    { apply agree_bind; [apply agree_refl|]. intros m Hm. apply pattern_selectors_nodup in Hm. unfold plural_part, plural_part_in.
      apply agree_bind; [now apply plural_perm|]. intros o _. destruct (negb o); [exact Logic.I|reflexivity]. }
    destruct (ueqb kw _); [|exact Logic.I].
    apply agree_bind; [apply agree_refl|]. intros m Hm. apply pattern_selectors_nodup in Hm.
    apply agree_bind; [now apply select_perm|]. intros o _. reflexivity.
  Qed.
  Lemma part_child_agree known main tr i b :
    agree (part_child fe reg locale known main tr i b) (part_child_in order fe reg locale known main tr i b).
  Proof.
    unfold part_child, part_child_in. apply agree_bind; [apply agree_refl|]. intros ty _.
    destruct (ntype_eqb ty NText); [apply agree_refl|]. destruct (ntype_eqb ty NNumberSign && negb main); [apply agree_refl|].
    destruct (ntype_eqb ty NPattern); [apply part_pattern_agree|apply agree_refl].
  Qed.
  Lemma string_parts_agree known main tr cs : forall b,
    agree (string_parts fe reg locale known main tr cs b) (string_parts_in order fe reg locale known main tr cs b).
  Proof.
    induction cs as [|c cs IH]; intros b; [reflexivity|]. cbn [string_parts string_parts_in].
    apply agree_bind; [apply part_child_agree|]. intros (p, b1) _. apply agree_bind; [apply IH|]. intros (ps, b2) _. reflexivity.
  Qed.
  Lemma named_strings_agree tr ns : forall pats b,
    agree (named_strings fe reg locale tr ns pats b) (named_strings_in order fe reg locale tr ns pats b).
  Proof.
    induction ns as [|n ns IH]; intros pats b; [reflexivity|]. cbn [named_strings named_strings_in].
    do 3 (apply agree_bind; [apply agree_refl|]; intros ? _). destruct (mhas _ pats); [exact Logic.I|].
    do 3 (apply agree_bind; [apply agree_refl|]; intros ? _). apply agree_bind; [apply string_parts_agree|].
    intros (ps, b1) _. apply IH.
  Qed.
  Lemma formatter_of_tree_agree tag tr :
    agree (formatter_of_tree fe reg tag locale tr) (formatter_of_tree_in order fe reg tag locale tr).
  Proof.
    unfold formatter_of_tree, formatter_of_tree_in. destruct (negb _); [exact Logic.I|].
    apply agree_bind; [apply agree_refl|]. intros ty _. destruct (negb _); [exact Logic.I|].
    apply agree_bind; [apply agree_refl|]. intros root _. cbn zeta. apply agree_bind.
    { destruct root as [|r0 [|g l]]; [apply agree_refl|apply agree_refl|]. apply agree_bind; [apply agree_refl|]. intros ns _. apply named_strings_agree. }
    intros (pats, b1) _. do 2 (apply agree_bind; [apply agree_refl|]; intros ? _).
    apply agree_bind; [apply string_parts_agree|]. intros (ps, b2) _. reflexivity.
  Qed.
End Build.

Theorem formatter_agree order d g fe reg tag locale s : an_order order ->
  agree (formatter_try_new d g fe reg tag locale s) (formatter_try_new_in order d g fe reg tag locale s).
Proof.
  intros Ho. unfold formatter_try_new, formatter_try_new_in. apply agree_bind; [apply agree_refl|]. intros tr _. now apply formatter_of_tree_agree.
Qed.

(** ** The errors, whatever the order *)
Section Errors.
  Variables (order : nat -> amap ustr -> amap ustr) (fe : fmtenv) (reg : cregistry) (locale : ustr).
  Hypothesis Ho : an_order order.

  Lemma ordered_names i sels : (forall k v, In (k, v) (order i (pairs sels)) -> k = v) /\
    (forall k, In k (map fst (order i (pairs sels))) <-> In k (map fst sels)).
  Proof.
    pose proof (Ho i (pairs sels)) as HP. split.
    - intros k v Hi. apply (pairs_same sels). apply (Permutation_in _ (Permutation_sym HP)), Hi.
    - intros k. rewrite <- (pairs_names sels k). split; apply Permutation_in; [apply Permutation_sym|]; now apply perm_keys.
  Qed.

  Lemma child_err known main tr i g b e : item_is tr i g -> Forall command_shape g -> (main = true -> ~ In SHash g) ->
    part_child_in order fe reg locale known main tr i b = Err e -> exists x, In x g /\ item_reports reg known x e.
  Proof.
    intros Hg Hc Hm H.
    assert (Hother : part_child_in order fe reg locale known main tr i b = part_child fe reg locale known main tr i b ->
      exists x, In x g /\ item_reports reg known x e).
    { intros E. rewrite E in H. pose proof (child_built fe reg locale known main tr i g b Hg) as Hb.
      apply (items_check_err fe reg locale known main g e Hc Hm).
      destruct (items_check fe reg locale known main g) as [u|e'| |]; cbn [built] in Hb; try congruence.
      destruct Hb as (p & b' & Hb & _). congruence. }
    destruct Hg as [ws Hws Hl|Hl|id a Hb Ha|id k sels a bb cs Hb Ha Hk HF|ps cs Hb HF].
    - apply Hother. unfold part_child, part_child_in. rewrite (leaf_type _ _ _ _ Hl). reflexivity.
    - apply Hother. unfold part_child, part_child_in. rewrite (leaf_type _ _ _ _ Hl). reflexivity.
    - apply Hother. unfold part_child, part_child_in. rewrite (branch_type _ _ _ _ Hb). cbn [ft map_err bind ntype_eqb andb].
      unfold part_pattern, part_pattern_in. rewrite (branch_children _ _ _ _ Hb). reflexivity.
    - clear Hother. exists (SPat id (Some (k, sels))). split; [now left|]. cbn [item_reports].
      destruct (ordered_names i sels) as (H1 & H2). apply (kw_check_any fe locale known id k sels _ e H1 H2).
      unfold part_child_in in H. rewrite (branch_type _ _ _ _ Hb) in H. cbn [ft map_err bind ntype_eqb andb] in H.
      unfold part_pattern_in in H. rewrite (branch_children _ _ _ _ Hb) in H. cbn [ft map_err bind] in H.
      unfold ident_is in Ha, Hk. rewrite (leaf_type _ _ _ _ Ha), (leaf_first _ _ _ _ _ Ha) in H.
      cbn [ft map_err bind ntype_eqb negb] in H.
      rewrite (leaf_type _ _ _ _ Hk), (leaf_first _ _ _ _ _ Hk) in H. cbn [ft map_err bind ntype_eqb negb] in H.
      rewrite (pattern_selectors_abs _ _ _ _ _ _ Hb HF) in H. cbn [bind] in H. unfold kw_check.
      destruct (ueqb k (us "decimal")).
      { destruct (decimal_options id (order i (pairs sels)) None None) as [[s g]| | |]; cbn [bind] in H |- *; congruence. }
      destruct (ueqb k (us "date_time")).
      { destruct (date_time_options fe locale id (order i (pairs sels)) None None None) as [[[x y] z]| | |]; cbn [bind] in H |- *; congruence. }
      unfold plural_part_in in H. destruct (ueqb k (us "ordinal")); cbn [orb].
      { destruct (plural_checks k id known (order i (pairs sels)) false) as [o| | |]; cbn [bind] in H |- *; try congruence.
        destruct (negb o); congruence. }
      destruct (ueqb k (us "plural")).
      { destruct (plural_checks k id known (order i (pairs sels)) false) as [o| | |]; cbn [bind] in H |- *; try congruence.
        destruct (negb o); congruence. }
      destruct (ueqb k (us "select")); [|congruence].
      destruct (select_checks id known (order i (pairs sels))) as [o| | |]; cbn [bind] in H |- *; congruence.
    - apply Hother. unfold part_child, part_child_in. rewrite (branch_type _ _ _ _ Hb). reflexivity.
  Qed.

  Lemma parts_err known main tr cs ls e : Forall2 (item_is tr) cs ls -> Forall command_shape (List.concat ls) ->
    (main = true -> ~ In SHash (List.concat ls)) -> forall b, string_parts_in order fe reg locale known main tr cs b = Err e ->
    exists x, In x (List.concat ls) /\ item_reports reg known x e.
  Proof.
    induction 1 as [|c g cs ls Hc HF IH]; intros Hs Hm b H; [discriminate|]. cbn [List.concat] in Hs, Hm |- *. apply Forall_app in Hs as (Hs1 & Hs2).
    cbn [string_parts_in] in H. apply bind_Err in H as [H|((p & b1) & _ & H)].
    - destruct (child_err known main tr c g b e Hc Hs1) as (x & Hx & Hr); [|exact H|].
      + intros E Hi. apply (Hm E). apply in_or_app. now left.
      + exists x. split; [apply in_or_app; now left|exact Hr].
    - apply bind_Err in H as [H|((ps & b2) & _ & H)]; [|discriminate].
      destruct (IH Hs2 (fun E Hi => Hm E (in_or_app _ _ _ (or_intror Hi))) b1 H) as (x & Hx & Hr).
      exists x. split; [apply in_or_app; now right|exact Hr].
  Qed.

  Lemma named_err tr ns l : Forall2 (named_is tr) ns l -> Forall (fun x => Forall command_shape (snd x)) l -> forall pats b,
    match named_strings_in order fe reg locale tr ns pats b with
    | Ok (pats', _) => mkeys pats' = mkeys pats ++ map fst l
    | Err e => exists pre id body post, l = pre ++ (id, body) :: post /\
        ((e = FNamedStringIdentifier id /\ In id (mkeys pats ++ map fst pre)) \/
         exists x, In x body /\ item_reports reg (mkeys pats ++ map fst pre) x e)
    | _ => True
    end.
  Proof.
    induction 1 as [|n [id body] ns l (a & s & Hb & Ha & Hs) HF IH]; intros Hc pats b.
    { cbn. now rewrite app_nil_r. }
    inversion Hc as [|? ? Hc1 Hc2]; subst. cbn [fst snd] in *.
    cbn [named_strings_in]. unfold tree_first, tree_last. rewrite (branch_children _ _ _ _ Hb).
    cbn [ft map_err bind nth_error unwrap]. unfold ident_is in Ha. rewrite (leaf_first _ _ _ _ _ Ha). cbn [bind].
    destruct (mhas id pats) eqn:E.
    { exists [], id, body, l. split; [reflexivity|]. left. split; [reflexivity|]. cbn [map]. rewrite app_nil_r. apply mget_keys. now apply mhas_true in E. }
    unfold last_opt; cbn [List.length Nat.sub nth_error ft map_err bind unwrap].
    destruct Hs as (cs & ls & Hbs & Hcs & <-). rewrite (branch_children _ _ _ _ Hbs). cbn [ft map_err bind].
    destruct (string_parts_in order fe reg locale (mkeys pats) false tr cs b) as [(ps & b1)|e| |] eqn:Ep; cbn [bind]; auto.
    - apply mhas_false in E. specialize (IH Hc2 (minsert id ps pats) b1).
      assert (Ek : mkeys (minsert id ps pats) = mkeys pats ++ [id]).
      { rewrite (mkeys_minsert_new _ _ _ E). unfold mkeys. now rewrite map_app. }
      rewrite Ek in IH. destruct (named_strings_in order fe reg locale tr ns (minsert id ps pats) b1) as [(pats' & b2)|e| |]; auto.
      + rewrite IH. cbn [map fst]. now rewrite <- app_assoc.
      + destruct IH as (pre & id' & body' & post & -> & Hr). exists ((id, List.concat ls) :: pre), id', body', post.
        split; [reflexivity|]. cbn [map fst]. rewrite <- app_assoc in Hr. exact Hr.
    - exists [], id, (List.concat ls), l. split; [reflexivity|]. right. cbn [map]. rewrite app_nil_r.
      apply (parts_err _ false tr cs ls e Hcs Hc1) with (b := b); [discriminate|exact Ep].
  Qed.

  Theorem of_tree_err tag tr a e : tree_is tr a -> parsed a -> tr_has_grammar tr = true ->
    formatter_of_tree_in order fe reg tag locale tr = Err e -> reports reg a e.
  Proof.
    intros Ht (H1 & H2 & H3 & H4) Hgm H. destruct a as [m o]. unfold tree_is in Ht. cbn [fst snd] in *.
    unfold formatter_of_tree_in in H. rewrite Hgm in H. cbn [negb] in H.
    assert (Hmain : forall known mcs ls b, branch_is tr 1 NString mcs -> Forall2 (item_is tr) mcs ls -> List.concat ls = m ->
      known = us "_" :: map fst (group_of (m, o)) -> forall pats,
      (let! cs := ft (tree_children tr 1) in let! (parts, b2) := string_parts_in order fe reg locale known true tr cs b in
       Ok (mk_formatter tag locale (minsert (us "_") parts pats) (fst b2) (snd b2))) = Err e -> reports reg (m, o) e).
    { intros known mcs ls b Hb HF E Hk pats Hr. rewrite (branch_children _ _ _ _ Hb) in Hr. cbn [ft map_err bind] in Hr.
      apply bind_Err in Hr as [Hr|((ps & b2) & _ & Hr)]; [|discriminate].
      destruct (parts_err known true tr mcs ls e HF) with (b := b) as (x & Hx & Hr'); [now rewrite E|intros _; now rewrite E|exact Hr|].
      rewrite E in Hx. apply (reports_located reg (m, o) known x); [|exact Hr']. rewrite Hk. now apply in_main. }
    destruct o as [l|].
    - destruct Ht as (g & cs & Hr & (mcs & ls & Hbm & HFm & E) & Hgb & HF).
      rewrite (branch_type _ _ _ _ Hr), (branch_children _ _ _ _ Hr) in H. cbn [ft map_err bind ntype_eqb negb] in H.
      rewrite (branch_children _ _ _ _ Hgb) in H. cbn [ft map_err bind nth_error unwrap] in H.
      pose proof (named_err tr cs l HF H3 [(us "_", [])] ([], [])) as Hn. cbn zeta in H. unfold bst in *.
      destruct (named_strings_in order fe reg locale tr cs [(us "_", [])] ([], [])) as [(pats & b1)|e'| |]; cbn [bind] in H; try discriminate.
      + cbn [nth_error unwrap bind] in H. apply (Hmain (mkeys pats) mcs ls b1 Hbm HFm E) with (pats := pats); [|exact H]. exact Hn.
      + injection H as ->. destruct Hn as (pre & id & body & post & El & [(-> & Hi)|(x & Hx & Hr')]).
        * cbn [reports says group_of fst snd]. cbn [mkeys map fst app group_of snd] in *. subst l. destruct Hi as [<-|Hi].
          -- split; [reflexivity|]. rewrite map_app. apply in_or_app. right. now left.
          -- exfalso. rewrite map_app in H4. cbn [map fst] in H4. apply NoDup_remove_2 in H4. apply H4. apply in_or_app. now left.
        * apply (reports_located reg (m, Some l) (us "_" :: map fst pre) x); [|exact Hr']. now apply (in_named (m, Some l) pre id body post).
    - destruct Ht as (Hr & (mcs & ls & Hbm & HFm & E)).
      rewrite (branch_type _ _ _ _ Hr), (branch_children _ _ _ _ Hr) in H. cbn [ft map_err bind ntype_eqb negb nth_error unwrap] in H.
      apply (Hmain _ mcs ls ([], []) Hbm HFm E eq_refl) with (pats := [(us "_", [])]). exact H.
  Qed.
End Errors.

Theorem ordered_reports order d fe reg tag locale s a e : an_order order -> icu_ok d -> content_of d l10n_grammar s a -> s <> [] ->
  formatter_try_new_in order d l10n_grammar fe reg tag locale s = Err e ->
  (e = FNoGrammar /\ forall c, In c s -> ~ In c l10n_grammar) \/ reports reg a e.
Proof.
  intros Ho Hd Ha Hs H. pose proof Ha as (c & Hc & Hseg & E).
  assert (Hacc : exists tr, tree_try_new d s l10n_grammar = Ok tr).
  { apply tree_accept_iff. split; [exact Hs|]. split; [intros E'; pose proof in_open as Hin; rewrite E' in Hin; destruct Hin|]. eauto. }
  destruct Hacc as (tr & Htr). pose proof (tree_reads _ _ _ _ _ Htr Hc Hseg) as Hi. rewrite <- E in Hi.
  unfold formatter_try_new_in in H. rewrite Htr in H. cbn [ft map_err bind] in H. destruct (tr_has_grammar tr) eqn:Eg.
  - right. exact (of_tree_err order fe reg locale Ho tag tr a e Hi (content_parsed _ _ _ _ Ha) Eg H).
  - left. unfold formatter_of_tree_in in H. rewrite Eg in H. cbn [negb] in H. split; [congruence|].
    intros x Hx Hg. assert (Ht : tr_has_grammar tr = true) by (apply (tree_grammar_iff d s tr Hd Htr); eauto). congruence.
Qed.
