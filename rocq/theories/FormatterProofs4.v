(** Formatters built from pattern strings. *)
From Verif Require Import Base BaseFacts LexerModel LexerSpec LexerProofs IcuExample TreeModel TreeSpec TreeMachine TreeProofs
  TreeProofs4 DocSpec DocProofs ValueModel CommandModel IsoModel FormatterModel FormatterAbs FormatterRefine FormatterRefine2
  FormatterSim FormatterActs FormatterSpec FormatterProofs FormatterProofs2 FormatterProofs3.
Local Opaque us.

(** ** Texts may be divided in any way *)
Section Join.
  Variables (fe : fmtenv) (reg : cregistry) (locale : ustr).
  Lemma items_check_join known main l : items_check fe reg locale known main (join l) = items_check fe reg locale known main l.
  Proof.
    induction l as [|x l IH]; [reflexivity|]. destruct x as [w| | |]; try (cbn [join items_check]; now rewrite IH).
    rewrite join_text. cbn [items_check item_check bind]. rewrite <- IH.
    unfold jt. destruct (join l) as [|[w'| | |] r]; destruct w; reflexivity.
  Qed.
  Definition joins (l : list (ustr * list sitem)) : list (ustr * list sitem) := map (fun x => (fst x, join (snd x))) l.
  Lemma group_check_join l : forall known, group_check fe reg locale known (joins l) = group_check fe reg locale known l.
  Proof.
    induction l as [|[id x] l IH]; intros known; [reflexivity|]. cbn [joins map group_check fst snd].
    destruct (umem id known); [reflexivity|]. rewrite items_check_join. fold (joins l).
    destruct (items_check fe reg locale known false x); cbn [bind]; auto.
  Qed.
  Lemma group_of_joined a : group_of (joined a) = joins (group_of a).
  Proof. destruct a as [m [l|]]; reflexivity. Qed.
  Lemma content_check_joined a : content_check fe reg locale (joined a) = content_check fe reg locale a.
  Proof.
    unfold content_check. rewrite group_of_joined, group_check_join.
    destruct (group_check fe reg locale [us "_"] (group_of a)); cbn [bind]; try reflexivity. apply items_check_join.
  Qed.

  Variable vals : amap pvalue.
  Lemma strings_of_joined a : strings_of (joined a) = joins (strings_of a).
  Proof. unfold strings_of. cbn [joins map fst snd]. now rewrite group_of_joined. Qed.
  Lemma mget_joins k l : mget k (joins l) = option_map join (mget k l).
  Proof. induction l as [|[id x] l IH]; [reflexivity|]. cbn [joins map mget fst snd]. destruct (ueqb k id); auto. Qed.

  Lemma aitem_joins rec rec' strs self x st : (forall m s, rec m s = rec' m s) ->
    aitem fe reg locale vals rec (joins strs) self x st = aitem fe reg locale vals rec' strs self x st.
  Proof.
    intros Hr. destruct x as [w| |ph [[kw sels]|]|ps]; try reflexivity. cbn [aitem]. unfold akw.
    assert (Hn : forall d rules, anumber fe locale rec (joins strs) sels d rules st = anumber fe locale rec' strs sels d rules st).
    { intros d rules. unfold anumber. destruct (fe_decimal fe locale None); [|reflexivity]. cbv zeta.
      destruct (mget _ (pairs sels)) as [n|]; [|reflexivity]. rewrite mget_joins. destruct (mget n strs); cbn; auto. }
    destruct (ueqb kw _); [reflexivity|]. destruct (ueqb kw _); [reflexivity|]. destruct (mget ph vals) as [v|]; [|reflexivity].
    destruct (ueqb kw _). { destruct (fe_ordinal fe locale); [|reflexivity]. destruct v; auto. }
    destruct (ueqb kw _). { destruct (fe_cardinal fe locale); [|reflexivity]. destruct (number_of _ _ v); auto. }
    destruct (value_text v); [|reflexivity]. destruct (mget _ (pairs sels)); auto.
  Qed.
  Lemma aitems_join rec rec' strs self l : (forall m s, rec m s = rec' m s) -> forall st,
    aitems fe reg locale vals rec (joins strs) self (join l) st = aitems fe reg locale vals rec' strs self l st.
  Proof.
    intros Hr. induction l as [|x l IH]; intros st; [reflexivity|].
    destruct x as [w| |ph kw|ps]; try (cbn [join aitems]; rewrite (aitem_joins rec rec') by exact Hr;
      match goal with |- context [aitem ?a ?b ?c ?d ?e ?f ?g ?h ?i] => destruct (aitem a b c d e f g h i) as [st1 [s| | |]] end;
      try reflexivity; now rewrite IH).
    rewrite join_text. cbn [aitems aitem]. rewrite <- IH. unfold jt.
    destruct (join l) as [|[w'| | |] r].
    - destruct w; reflexivity.
    - cbn [aitems aitem]. destruct (aitems fe reg locale vals rec (joins strs) self r st) as [st2 [s| | |]]; try reflexivity.
      now rewrite app_assoc.
    - destruct w; [|reflexivity]. destruct (aitems _ _ _ _ _ _ _ _ _) as [st2 [s| | |]]; reflexivity.
    - destruct w; [|reflexivity]. destruct (aitems _ _ _ _ _ _ _ _ _) as [st2 [s| | |]]; reflexivity.
    - destruct w; [|reflexivity]. destruct (aitems _ _ _ _ _ _ _ _ _) as [st2 [s| | |]]; reflexivity.
  Qed.
  Lemma astring_joined f strs : forall m st, astring fe reg locale vals f (joins strs) m st = astring fe reg locale vals f strs m st.
  Proof.
    induction f as [|f IH]; intros m st; [reflexivity|]. cbn [astring]. rewrite mget_joins.
    destruct (mget m strs) as [l|]; cbn [option_map]; [|reflexivity]. now apply aitems_join.
  Qed.
  Lemma astring_join_eq f a a' m st : joined a = joined a' ->
    astring fe reg locale vals f (strings_of a) m st = astring fe reg locale vals f (strings_of a') m st.
  Proof. intros E. now rewrite <- (astring_joined f (strings_of a)), <- strings_of_joined, E, strings_of_joined, astring_joined. Qed.
  Lemma content_check_join_eq a a' : joined a = joined a' -> content_check fe reg locale a = content_check fe reg locale a'.
  Proof. intros E. now rewrite <- content_check_joined, E, content_check_joined. Qed.
End Join.

(** ** Formatters *)
Section Formatters.
  Variables (fe : fmtenv) (reg : cregistry).

  Lemma format_set fuel fm ns vals : format fuel fe reg (set_numbers fm ns) vals =
    (set_numbers fm (fst (format_pattern fe reg fm vals fuel (us "_") ns)), snd (format_pattern fe reg fm vals fuel (us "_") ns)).
  Proof.
    unfold format. change (format_pattern fe reg (set_numbers fm ns) vals) with (format_pattern fe reg fm vals).
    change (fm_numbers (set_numbers fm ns)) with ns.
    now destruct (format_pattern fe reg fm vals fuel (us "_") ns).
  Qed.
  Lemma set_own fm : set_numbers fm (fm_numbers fm) = fm.
  Proof. now destruct fm. Qed.

  (** Every later state differs in the numbers only, which agree with an abstract state. *)
  Lemma after_state locale fm a fm' : fm_rep fe reg locale fm a -> after_formatting fe reg fm fm' ->
    exists ns st, fm' = set_numbers fm ns /\ R fm ns st.
  Proof.
    intros Hrep H. induction H as [|fm1 vals fuel _ (ns & st & -> & HR)].
    - exists (fm_numbers fm), (fun _ => []). split; [symmetry; apply set_own|]. exact (R_init _ _ _ _ _ Hrep).
    - rewrite format_set. cbn [fst].
      pose proof (sim_pattern fe reg locale fm a vals Hrep fuel (us "_") ns st HR) as (HR' & _). eauto.
  Qed.

  Lemma after_sim locale fm a fm' : fm_rep fe reg locale fm a -> after_formatting fe reg fm fm' ->
    exists st, forall vals fuel, same_out (snd (format fuel fe reg fm' vals))
      (snd (astring fe reg locale vals fuel (strings_of a) (us "_") st)).
  Proof.
    intros Hrep H. destruct (after_state _ _ _ _ Hrep H) as (ns & st & -> & HR). exists st. intros vals fuel.
    rewrite format_set. cbn [snd]. exact (proj2 (sim_pattern fe reg locale fm a vals Hrep fuel (us "_") ns st HR)).
  Qed.

  (** *** Exact errors: formatting depends on the numbers only in the text. *)
  Lemma update_numbers_len parts x : forall ns ns2, List.length ns = List.length ns2 ->
    snd (update_numbers parts x ns) = snd (update_numbers parts x ns2) /\
    List.length (fst (update_numbers parts x ns)) = List.length (fst (update_numbers parts x ns2)).
  Proof.
    induction parts as [|p parts IH]; intros ns ns2 E; [now split|]. destruct p; try (now apply IH).
    cbn [update_numbers]. rewrite E. destruct (i <? List.length ns2); [|now split]. apply IH. now rewrite !lset_length.
  Qed.

  Definition alike {A} (x y : fst_out A) : Prop := List.length (fst x) = List.length (fst y) /\ shape (snd x) (snd y).
  Definition alike_rec {A} (rec : ustr -> nums -> fst_out A) : Prop :=
    forall m ns ns2, List.length ns = List.length ns2 -> alike (rec m ns) (rec m ns2).

  Variable fm : formatter.
  Variable vals : amap pvalue.
  Lemma find_alike rec d rules idx ns ns2 : alike_rec rec -> List.length ns = List.length ns2 ->
    alike (find_number_sign fe fm rec d rules idx ns) (find_number_sign fe fm rec d rules idx ns2).
  Proof.
    intros Hr E. unfold find_number_sign. destruct (fe_decimal fe (fm_locale fm) None); [|split; [exact E|now right]].
    cbv zeta. destruct (nth_error (fm_selectors fm) idx); [|split; [exact E|now right]].
    destruct (mget _ a); [|split; [exact E|now right]]. destruct (mget _ (fm_patterns fm)) as [parts|]; [|split; [exact E|now right]].
    destruct (update_numbers_len parts (l d) ns ns2 E) as (E1 & E2).
    destruct (update_numbers parts (l d) ns) as [n1 r1], (update_numbers parts (l d) ns2) as [n2 r2]. cbn in E1, E2. subst r2.
    destruct r1; [now apply Hr|split; [exact E2|now right] ..].
  Qed.
  Lemma part_alike rec p ns ns2 : alike_rec rec -> List.length ns = List.length ns2 ->
    alike (format_part fe reg fm vals rec p ns) (format_part fe reg fm vals rec p ns2).
  Proof.
    intros Hr E. assert (Hsame : forall r : fout ustr, alike (ns, r) (ns2, r)) by (intros r; split; [exact E|now right]).
    destruct p; cbn [format_part]; try apply Hsame.
    - split; [exact E|]. cbn [snd]. destruct (nth_error ns i) eqn:E1.
      + assert (Hi : i < List.length ns2) by (rewrite <- E; apply nth_error_Some; congruence).
        apply nth_error_Some in Hi. destruct (nth_error ns2 i) eqn:E2; [|contradiction]. left. split; eexists; reflexivity.
      + assert (Hi : nth_error ns2 i = None) by (apply nth_error_None; rewrite <- E; now apply nth_error_None).
        rewrite Hi. now right.
    - destruct (mget placeholder vals) as [v|]; [|apply Hsame]. destruct c; cbn [format_complex].
      + destruct (fe_cardinal fe (fm_locale fm)); [|apply Hsame]. destruct (number_of _ _ v); try apply Hsame. now apply find_alike.
      + destruct (fe_ordinal fe (fm_locale fm)); [|apply Hsame]. destruct v; try apply Hsame. now apply find_alike.
      + destruct (value_text v); [|apply Hsame]. unfold format_select.
        destruct (nth_error (fm_selectors fm) selectors); [|apply Hsame]. destruct (mget _ a); [|apply Hsame]. now apply Hr.
  Qed.
  Lemma parts_alike rec ps : alike_rec rec -> forall ns ns2, List.length ns = List.length ns2 ->
    alike (format_parts fe reg fm vals rec ps ns) (format_parts fe reg fm vals rec ps ns2).
  Proof.
    intros Hr. induction ps as [|p ps IH]; intros ns ns2 E; [split; [exact E|now right]|]. cbn [format_parts].
    pose proof (part_alike rec p ns ns2 Hr E) as Hp.
    destruct (format_part fe reg fm vals rec p ns) as [n1 r1], (format_part fe reg fm vals rec p ns2) as [n2 r2].
    destruct Hp as (E1 & Hp). cbn [fst snd] in E1, Hp.
    assert (Hok : forall a b, alike (match format_parts fe reg fm vals rec ps n1 with (x, Ok s') => (x, Ok (a ++ s')) | o => o end)
                    (match format_parts fe reg fm vals rec ps n2 with (x, Ok s') => (x, Ok (b ++ s')) | o => o end)).
    { intros a b. specialize (IH n1 n2 E1). destruct (format_parts fe reg fm vals rec ps n1) as [m1 q1],
        (format_parts fe reg fm vals rec ps n2) as [m2 q2]. destruct IH as (E2 & IH). cbn [fst snd] in E2, IH.
      destruct IH as [((u & ->) & u' & ->)|<-]; [split; [exact E2|left; split; eexists; reflexivity]|].
      destruct q1; split; try exact E2; [left; split; eexists; reflexivity|right; reflexivity ..]. }
    destruct Hp as [((u & ->) & u' & ->)|<-]; [apply Hok|].
    destruct r1; [apply Hok|split; [exact E1|now right] ..].
  Qed.
  Lemma pattern_alike fuel : alike_rec (format_pattern fe reg fm vals fuel).
  Proof.
    induction fuel as [|f IH]; intros m ns ns2 E; cbn [format_pattern]; [split; [exact E|now right]|].
    destruct (mget m (fm_patterns fm)); [|split; [exact E|now right]]. now apply parts_alike.
  Qed.

  (** *** More fuel *)
  Definition more (rec rec' : ustr -> nums -> fst_out ustr) : Prop :=
    forall m ns ns' r, rec m ns = (ns', r) -> r <> NoFuel -> rec' m ns = (ns', r).
  Lemma part_more rec rec' p ns ns' r : more rec rec' -> format_part fe reg fm vals rec p ns = (ns', r) -> r <> NoFuel ->
    format_part fe reg fm vals rec' p ns = (ns', r).
  Proof.
    intros Hm. destruct p; cbn [format_part]; auto. destruct (mget placeholder vals) as [v|]; auto.
    assert (Hf : forall d rules, find_number_sign fe fm rec d rules selectors ns = (ns', r) -> r <> NoFuel ->
                   find_number_sign fe fm rec' d rules selectors ns = (ns', r)).
    { intros d rules. unfold find_number_sign. destruct (fe_decimal fe (fm_locale fm) None); auto. cbv zeta.
      destruct (nth_error (fm_selectors fm) selectors); auto. destruct (mget _ a); auto.
      destruct (mget _ (fm_patterns fm)) as [parts|]; auto. destruct (update_numbers parts (l d) ns) as [n1 [| | |]]; auto. }
    destruct c; cbn [format_complex].
    - destruct (fe_cardinal fe (fm_locale fm)); auto. destruct (number_of _ _ v); auto.
    - destruct (fe_ordinal fe (fm_locale fm)); auto. destruct v; auto.
    - destruct (value_text v); auto. unfold format_select. destruct (nth_error (fm_selectors fm) selectors); auto.
      destruct (mget _ a); auto.
  Qed.
  Lemma parts_more rec rec' ps : more rec rec' -> forall ns ns' r, format_parts fe reg fm vals rec ps ns = (ns', r) -> r <> NoFuel ->
    format_parts fe reg fm vals rec' ps ns = (ns', r).
  Proof.
    intros Hm. induction ps as [|p ps IH]; intros ns ns' r H Hr; [exact H|]. cbn [format_parts] in *.
    destruct (format_part fe reg fm vals rec p ns) as [n1 r1] eqn:E1.
    pose proof (part_more rec rec' p ns n1 r1 Hm E1) as Hp.
    destruct r1; try (rewrite Hp by discriminate); try exact H.
    2:{ injection H as <- <-. now destruct Hr. }
    destruct (format_parts fe reg fm vals rec ps n1) as [n2 r2] eqn:E2. specialize (IH _ _ _ E2).
    destruct r2; try (rewrite IH by discriminate); try exact H. injection H as <- <-. now destruct Hr.
  Qed.
  Lemma pattern_more f f' : f <= f' -> more (format_pattern fe reg fm vals f) (format_pattern fe reg fm vals f').
  Proof.
    revert f'. induction f as [|f IH]; intros f' Hle m ns ns' r H Hr.
    - cbn in H. injection H as <- <-. now destruct Hr.
    - destruct f' as [|f']; [lia|]. cbn [format_pattern] in *. destruct (mget m (fm_patterns fm)); [|exact H].
      apply (parts_more (format_pattern fe reg fm vals f)); auto. apply IH. lia.
  Qed.
End Formatters.

Lemma format_more f f' fe reg fm vals r : f <= f' -> snd (format f fe reg fm vals) = r -> r <> NoFuel ->
  snd (format f' fe reg fm vals) = r.
Proof.
  intros Hle. unfold format. destruct (format_pattern fe reg fm vals f (us "_") (fm_numbers fm)) as [ns' r'] eqn:E. cbn.
  intros -> Hr. now rewrite (pattern_more fe reg fm vals f f' Hle _ _ _ _ E Hr).
Qed.
Lemma gives_fun fe reg fm vals r r' : gives fe reg fm vals r -> gives fe reg fm vals r' -> r = r'.
Proof.
  intros (f & H & Hr) (f' & H' & Hr'). apply (format_more f (f + f')) in H; [|lia|exact Hr].
  apply (format_more f' (f + f')) in H'; [|lia|exact Hr']. congruence.
Qed.

(** ** Pattern strings *)
Section Strings.
  Variables (d : icu) (grammar : ustr) (fe : fmtenv) (reg : cregistry) (tag locale : ustr).

  Lemma try_new_inv s a fm : content_of d grammar s a -> formatter_try_new d grammar fe reg tag locale s = Ok fm ->
    content_check fe reg locale a = Ok tt /\ fm_rep fe reg locale fm a /\ fm_tag fm = tag.
  Proof.
    intros (c & Hc & Hs & ->) H. unfold formatter_try_new in H. apply bind_Ok in H as (tr & Ht & H).
    destruct (tree_try_new d s grammar) as [tr'| | |] eqn:E; cbn in Ht; try discriminate. injection Ht as ->.
    pose proof (tree_reads _ _ _ _ _ E Hc Hs) as Hi.
    destruct (tr_has_grammar tr) eqn:Eg.
    - pose proof (formatter_built fe reg locale tag tr _ Hi Eg) as Hb.
      destruct (content_check fe reg locale (ccontent c)) as [[]| | |]; try congruence.
      destruct Hb as (fm' & H1 & H2 & H3). assert (fm' = fm) as -> by congruence. auto.
    - unfold formatter_of_tree in H. rewrite Eg in H. discriminate.
  Qed.
  Lemma accepted_content s tr : tree_try_new d s grammar = Ok tr -> exists a, content_of d grammar s a /\ tree_is tr a.
  Proof. intros H. apply tree_sound in H as (_ & _ & c & H1 & H2 & H3). exists (ccontent c). split; [exists c; auto|exact H3]. Qed.
  Lemma built_content s fm : formatter_try_new d grammar fe reg tag locale s = Ok fm -> exists a, content_of d grammar s a.
  Proof.
    intros H. unfold formatter_try_new in H. apply bind_Ok in H as (tr & Ht & _).
    destruct (tree_try_new d s grammar) as [tr'| | |] eqn:E; cbn in Ht; try discriminate. injection Ht as ->.
    apply accepted_content in E as (a & H & _). eauto.
  Qed.

  (** *** The text *)
  Lemma select_targets a : content_check fe reg locale a = Ok tt -> hash_in_plurals_only a -> forall vals k l x m l',
    mget k (strings_of a) = Some l -> In x l -> item_act fe reg locale vals (strings_of a) x = ACall m None ->
    mget m (strings_of a) = Some l' -> ~ In SHash l'.
  Proof.
    intros Hc Hh vals k l x m l' Hk Hx Ha Hm. destruct (strings_checked _ _ _ _ _ _ Hc Hk x Hx) as (known & main & Hxc).
    destruct (item_call _ _ _ _ _ _ _ _ _ _ Hxc Ha) as (_ & _ & Hs). destruct (Hs eq_refl) as (ph & sels & Hsel & Hin).
    apply in_map_iff in Hin as ([sel branch] & <- & Hin). apply mget_In in Hk, Hm.
    exact (Hh k l x ph sels sel branch Hk Hx Hsel Hin l' Hm).
  Qed.

  Lemma same_ok {A} (x y : fout A) (t : A) : same_out x y -> (x = Ok t <-> y = Ok t).
  Proof.
    unfold same_out. intros H.
    destruct x, y; cbn in H; try discriminate H; split; intros E; try discriminate E; congruence.
  Qed.
  Lemma same_fuel {A} (x y : fout A) : same_out x y -> (x = NoFuel <-> y = NoFuel).
  Proof. unfold same_out. intros H. destruct x, y; cbn in H; try discriminate H; split; intros E; try discriminate E; reflexivity. Qed.
  Lemma same_panic {A} (x y : fout A) : same_out x y -> (x = Panic <-> y = Panic).
  Proof. unfold same_out. intros H. destruct x, y; cbn in H; try discriminate H; split; intros E; try discriminate E; reflexivity. Qed.

  Theorem format_iff s a fm fm' vals t : content_of d grammar s a -> hash_in_plurals_only a ->
    formatter_try_new d grammar fe reg tag locale s = Ok fm -> after_formatting fe reg fm fm' ->
    gives fe reg fm' vals (Ok t) <-> implemented_text fe reg locale vals a t.
  Proof.
    intros Ha Hh Hf Haf. destruct (try_new_inv _ _ _ Ha Hf) as (Hc & Hrep & _).
    destruct (after_sim fe reg locale fm a fm' Hrep Haf) as (st & Hsim).
    pose proof (ev_iff fe reg locale vals (strings_of a) (fun m l => strings_checked fe reg locale a m l Hc)
      (fun k l x m l' => select_targets a Hc Hh vals k l x m l') (us "_") (fst a) None t st) as Hev.
    cbn [strings_of mget] in Hev. rewrite ueqb_refl in Hev. specialize (Hev eq_refl).
    assert (Hnh : In SHash (fst a) -> None = Some (st (us "_"))) by (intros Hi; now apply (main_no_hash _ _ _ _ Hc) in Hi).
    specialize (Hev Hnh). unfold implemented_text. change (all_strings a) with (strings_of a). unfold strings_of. rewrite <- Hev.
    unfold gives. split.
    - intros (f & H & _). exists f. now apply (same_ok _ _ _ (Hsim vals f)).
    - intros (f & H). exists f. split; [|discriminate]. now apply (same_ok _ _ _ (Hsim vals f)).
  Qed.

  (** *** Histories *)
  Theorem format_history s a fm fm' vals fuel : content_of d grammar s a -> hash_in_plurals_only a ->
    formatter_try_new d grammar fe reg tag locale s = Ok fm -> after_formatting fe reg fm fm' ->
    snd (format fuel fe reg fm' vals) = snd (format fuel fe reg fm vals).
  Proof.
    intros Ha Hh Hf Haf. destruct (try_new_inv _ _ _ Ha Hf) as (Hc & Hrep & _).
    destruct (after_state _ _ _ _ _ _ Hrep Haf) as (ns & st & -> & HR).
    rewrite <- (set_own fm) at 2. rewrite !format_set. cbn [snd].
    destruct (pattern_alike fe reg fm vals fuel (us "_") ns (fm_numbers fm) (proj1 HR)) as (_ & Hsh).
    destruct Hsh as [((t & H1) & t2 & H2)|H]; [|exact H]. rewrite H1, H2.
    pose proof (proj2 (sim_pattern fe reg locale fm a vals Hrep fuel (us "_") ns st HR)) as S1.
    pose proof (proj2 (sim_pattern fe reg locale fm a vals Hrep fuel (us "_") _ _ (R_init _ _ _ _ _ Hrep))) as S2.
    apply (same_ok _ _ _ S1) in H1. apply (same_ok _ _ _ S2) in H2. rewrite <- H1, <- H2.
    apply (ev_history fe reg locale vals (strings_of a) (fun m l => strings_checked fe reg locale a m l Hc)
      (fun k l x m l' => select_targets a Hc Hh vals k l x m l')) with (l := fst a).
    - cbn [strings_of mget]. now rewrite ueqb_refl.
    - exact (main_no_hash _ _ _ _ Hc).
  Qed.

  (** *** Termination *)
  Theorem format_terminates s a fm fm' vals fuel : content_of d grammar s a ->
    (forall name f args, mget name reg = Some f -> f args <> NoFuel) -> ~ selects_main vals a ->
    formatter_try_new d grammar fe reg tag locale s = Ok fm -> after_formatting fe reg fm fm' ->
    List.length (group_of a) < fuel -> snd (format fuel fe reg fm' vals) <> NoFuel.
  Proof.
    intros Ha Hreg Hs Hf Haf Hfuel. destruct (try_new_inv _ _ _ Ha Hf) as (Hc & Hrep & _).
    destruct (after_sim fe reg locale fm a fm' Hrep Haf) as (st & Hsim).
    rewrite (same_fuel _ _ (Hsim vals fuel)). apply ev_terminates; auto.
    intros m l x Hm Hx (ph & sels & v & -> & H1 & H2 & H3). apply Hs. exists m, l, ph, sels, v. auto.
  Qed.

  (** *** Panics *)
  Definition command_words (a : sast) (w : ustr) : Prop :=
    exists name body ps, In (name, body) (strings_of a) /\ In (SCmd ps) body /\ In (SId w) ps.

  Lemma content_args_words (okarg : pvalue -> Prop) a : (forall w, command_words a w -> okarg (VString w)) -> content_args okarg a.
  Proof.
    intros H m l Hm. apply Forall_forall. intros x Hx. destruct x; cbn; auto. intros w Hw. apply H. exists m, l, ps. auto.
  Qed.

  Theorem build_no_panic (okarg : pvalue -> Prop) s tr a : content_of d grammar s a ->
    (forall name f args, mget name reg = Some f -> Forall okarg args -> f (VString name :: args) <> Panic) ->
    (forall w, command_words a w -> okarg (VString w)) ->
    tree_try_new d s grammar = Ok tr -> formatter_try_new d grammar fe reg tag locale s <> Panic.
  Proof.
    intros (c & Hc & Hs & ->) Hreg Hw Ht. unfold formatter_try_new. rewrite Ht. cbn [ft map_err bind].
    pose proof (tree_reads _ _ _ _ _ Ht Hc Hs) as Hi.
    destruct (tr_has_grammar tr) eqn:Eg; [|unfold formatter_of_tree; rewrite Eg; discriminate].
    pose proof (formatter_built fe reg locale tag tr _ Hi Eg) as Hb.
    assert (Hx : excl true (content_check fe reg locale (ccontent c))).
    { apply (content_check_excl true fe reg locale okarg); [|now apply content_args_words].
      intros name f args H1 H2. apply excl_panic. eauto. }
    destruct (content_check fe reg locale (ccontent c)); try congruence; try discriminate Hx.
    destruct Hb as (fm' & H1 & _). congruence.
  Qed.
  Theorem format_no_panic (okarg : pvalue -> Prop) s a fm fm' vals fuel : content_of d grammar s a ->
    (forall name f args, mget name reg = Some f -> Forall okarg args -> f (VString name :: args) <> Panic) ->
    (forall w, command_words a w -> okarg (VString w)) -> (forall ph v, mget ph vals = Some v -> okarg v) ->
    formatter_try_new d grammar fe reg tag locale s = Ok fm -> after_formatting fe reg fm fm' ->
    snd (format fuel fe reg fm' vals) <> Panic.
  Proof.
    intros Ha Hreg Hw Hv Hf Haf. destruct (try_new_inv _ _ _ Ha Hf) as (Hc & Hrep & _).
    destruct (after_sim fe reg locale fm a fm' Hrep Haf) as (st & Hsim).
    rewrite (same_panic _ _ (Hsim vals fuel)). apply (ev_no_panic fe reg locale okarg); auto.
    - intros name f args H1 H2. apply excl_panic. eauto.
    - now apply content_args_words.
  Qed.

  (** The words in a pattern string are not empty. *)
  Lemma words_nonempty s a w : content_of d grammar s a -> command_words a w -> w <> [].
  Proof.
    intros (c & Hc & (_ & Hg & _) & ->) (name & body & ps & Hn & Hb & Hp).
    assert (Hin : In (TIdentifier, w) (cprint c)).
    { assert (Hpc : forall l, In (SCmd ps) (map pcontent l) -> In (TIdentifier, w) (pieces_print l)).
      { intros l Hl. apply in_map_iff in Hl as (p & Hpp & Hl). apply in_flat_map. exists p. split; [exact Hl|].
        destruct p as [x|x| |id ws [[k kl]|]|qs]; try discriminate. cbn in Hpp. injection Hpp as <-.
        apply in_flat_map in Hp as (q & Hq & Hw). destruct q as [x|x|]; cbn in Hw;
          [destruct Hw|destruct Hw as [Hw|[]]|destruct Hw as [Hw|[]]; discriminate].
        injection Hw as ->. cbn [pprint]. right. right. apply in_or_app. left. apply in_flat_map. exists (QId w). split; [exact Hq|now left]. }
      unfold cprint. apply in_or_app. destruct Hn as [Hn|Hn].
      - injection Hn as <- <-. left. now apply Hpc.
      - right. unfold group_of in Hn. cbn [ccontent snd] in Hn. destruct (c_group c) as [gl|]; cbn [option_map] in Hn; [|destruct Hn].
        right. apply in_flat_map in Hn as (gp & Hgp & Hn). apply in_flat_map. exists gp. split; [exact Hgp|].
        destruct gp as [x|id x ws sub]; cbn [gcontent] in Hn; [destruct Hn|destruct Hn as [Hn|[]]]. injection Hn as <- <-.
        cbn [gprint]. do 3 right. apply in_or_app. right. apply in_or_app. left. now apply Hpc. }
    rewrite Forall_forall in Hg. exact (proj1 (Hg _ Hin)).
  Qed.
End Strings.
