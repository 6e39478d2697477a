(** Proofs for C92. *)
From Verif Require Import Base BaseFacts LexerModel LexerSpec TreeModel TreeSpec DocSpec ValueModel CommandModel IsoModel FormatterModel FormatterSpec FormatterAbs
  FormatterRefine FormatterRefine2 FormatterProofs FormatterProofs4 FormatterProofs5 CallsModel CallsSpec.
Local Opaque us.

Section Calls.
  Context {W : Type}.
  Variables (fe : fmtenv) (reg : wregistry W) (locale : ustr).

  (** ** Calls *)
  Lemma made_app c1 c2 w w1 w2 : made reg c1 w w1 -> made reg c2 w1 w2 -> made reg (c1 ++ c2) w w2.
  Proof. induction 1; intros; cbn; [assumption|]. econstructor; eauto. Qed.
  Lemma attempted_app c1 c2 w w1 w2 : made reg c1 w w1 -> attempted reg c2 w1 w2 -> attempted reg (c1 ++ c2) w w2.
  Proof.
    intros H1 H2. destruct H2 as [r w1 w2 H|r name ps f o w1 w2 w3 H Hf Ho].
    - constructor. eapply made_app; eassumption.
    - rewrite app_assoc. econstructor; [eapply made_app; eassumption|exact Hf|exact Ho].
  Qed.
  Lemma attempted_nil w : attempted reg [] w w.
  Proof. constructor. constructor. Qed.
  Lemma call_made name ps w w' r : call reg name ps w = (w', r) ->
    (forall t, r = Ok t -> made reg [(name, ps)] w w') /\ (attempted reg [(name, ps)] w w' \/ w' = w).
  Proof.
    unfold call. destruct (mget name reg) as [f|] eqn:Ef; [|intros [= <- <-]; split; [discriminate|now right]].
    destruct (f _ w) as (w1 & o) eqn:Eo. intros [= <- <-]. split.
    - intros t Ht. destruct o; try discriminate. econstructor; [exact Ef|exact Eo|constructor].
    - left. apply (at_fail reg [] name ps f o w w w1); [constructor|exact Ef|exact Eo].
  Qed.

  (** ** Building *)
  Inductive wrep (S : list (amap ustr)) : ppart -> list sitem -> Prop :=
  | wr_pure p g : part_rep fe [] locale S p g -> wrep S p g
  | wr_cmd s ps name l : cmd_parts ps = Ok (name, false, l) -> wrep S (PtText s) [SCmd ps].
  Inductive wreps (S : list (amap ustr)) : list ppart -> list sitem -> Prop :=
  | wrs_nil : wreps S [] []
  | wrs_cons p g ps l : wrep S p g -> wreps S ps l -> wreps S (p :: ps) (g ++ l).
  Lemma wrep_mono S S' p g : wrep S p g -> wrep (S ++ S') p g.
  Proof. destruct 1; [constructor; now apply part_rep_mono|econstructor; eassumption]. Qed.
  Lemma wreps_mono S S' ps l : wreps S ps l -> wreps (S ++ S') ps l.
  Proof. induction 1; constructor; auto using wrep_mono. Qed.

  Lemma read_command_abs tr i cs ps : branch_is tr i NCommand cs -> Forall2 (param_is tr) cs ps -> read_command tr i = cmd_parts ps.
  Proof.
    intros Hb HF. unfold read_command. rewrite (branch_children _ _ _ _ Hb). cbn [ft map_err bind].
    destruct HF as [|c p cs ps Hp HF]; [reflexivity|].
    destruct p as [w|]; cbn [param_is] in Hp; unfold ident_is in Hp;
      rewrite (leaf_type _ _ _ _ Hp); cbn [ft map_err bind ntype_eqb negb cmd_parts]; [|reflexivity].
    rewrite (leaf_first _ _ _ _ _ Hp). cbn [bind].
    destruct HF as [|c2 p2 cs ps Hp2 HF]; [reflexivity|].
    destruct p2 as [w2|]; cbn [param_is] in Hp2; unfold ident_is in Hp2;
      rewrite (leaf_type _ _ _ _ Hp2); cbn [ft map_err bind ntype_eqb negb cmd_parts].
    - now rewrite (command_parameters_abs tr (c2 :: cs) (SId w2 :: ps)) by (constructor; [exact Hp2|exact HF]).
    - now rewrite (command_parameters_abs tr cs ps HF).
  Qed.
  Lemma cmd_parts_calls ps name delay l : cmd_parts ps = Ok (name, delay, l) -> item_calls (SCmd ps) = if delay : bool then [] else [(name, l)].
  Proof.
    destruct ps as [|[w|] ps]; cbn [cmd_parts]; try discriminate. destruct ps as [|[w2|] ps].
    - cbn. intros [= <- <- <-]. reflexivity.
    - intros H. apply bind_Ok in H as (l' & Hl & [= <- <- <-]). apply cmd_args_iff in Hl as (args & E & ->).
      cbn [item_calls]. rewrite E. do 3 f_equal. rewrite map_map. reflexivity.
    - intros H. apply bind_Ok in H as (l' & Hl & [= <- <- <-]). reflexivity.
  Qed.

  Definition longer (b b' : bst) : Prop := exists s, snd b' = snd b ++ s.
  Lemma longer_refl b : longer b b.
  Proof. exists []. now rewrite app_nil_r. Qed.
  Lemma longer_trans a b c : longer a b -> longer b c -> longer a c.
  Proof. intros (s & H) (s' & H'). exists (s ++ s'). now rewrite H', H, app_assoc. Qed.

  (** Building made the calls, or stopped after some of them. *)
  Definition goes {A} (cs : list ccall) (w : W) (x : wout W A) (P : A -> Prop) : Prop :=
    (exists a w', x = (w', Ok a) /\ P a /\ made reg cs w w') \/
    (exists w' r pre post, x = (w', r) /\ (forall a, r <> Ok a) /\ cs = pre ++ post /\ attempted reg pre w w').
  Lemma goes_stop {A} cs w (r : fout A) P : (forall a, r <> Ok a) -> goes cs w (w, r) P.
  Proof. intros H. right. exists w, r, [], cs. repeat split; auto using attempted_nil. Qed.
  Lemma goes_ret {A} w (a : A) (P : A -> Prop) : P a -> goes [] w (w, Ok a) P.
  Proof. intros H. left. exists a, w. repeat split; auto. constructor. Qed.
  Lemma goes_bind {A B} cs cs' w (x : wout W A) (f : A -> W -> wout W B) (P : A -> Prop) (Q : B -> Prop) :
    goes cs w x P -> (forall a w', P a -> goes cs' w' (f a w') Q) -> goes (cs ++ cs') w (wbind x f) Q.
  Proof.
    intros [(a & w' & -> & Pa & Hm)|(w' & r & pre & post & -> & Hr & -> & Ha)] Hf.
    - cbn [wbind]. destruct (Hf a w' Pa) as [(b & w2 & -> & Qb & Hm2)|(w2 & r & pre & post & -> & Hr & -> & Ha)].
      + left. exists b, w2. repeat split; auto. eapply made_app; eassumption.
      + right. exists w2, r, (cs ++ pre), post. repeat split; auto; [now rewrite app_assoc|]. eapply attempted_app; eassumption.
    - right. rewrite <- app_assoc. destruct r as [a|e| |]; [now destruct (Hr a)|..]; cbn [wbind];
        do 4 eexists; (split; [reflexivity|]); (split; [discriminate|]); (split; [reflexivity|exact Ha]).
  Qed.
  (** The same when the first step makes no calls. *)
  Lemma goes_pure {A B} cs w (x : fout A) (f : A -> W -> wout W B) (Q : B -> Prop) :
    (forall a, x = Ok a -> goes cs w (f a w) Q) -> goes cs w (wbind (w, x) f) Q.
  Proof. intros H. destruct x as [a|e| |]; cbn [wbind]; [now apply H|apply goes_stop; discriminate..]. Qed.
  Lemma goes_weaken {A} cs w (x : wout W A) (P Q : A -> Prop) : (forall a, P a -> Q a) -> goes cs w x P -> goes cs w x Q.
  Proof. intros H [(a & w' & E & Pa & Hm)|H']; [left; exists a, w'; auto|right; exact H']. Qed.

  Lemma wchild known main tr i g b w : item_is tr i g ->
    goes (items_calls g) w (wpart_child fe reg locale known main tr i b w) (fun x => longer b (snd x) /\ wrep (snd (snd x)) (fst x) g).
  Proof.
    intros Hi. assert (Hd : (exists ps cs, g = [SCmd ps] /\ branch_is tr i NCommand cs /\ Forall2 (param_is tr) cs ps) \/
      (items_calls g = [] /\ wpart_child fe reg locale known main tr i b w = (w, part_child fe [] locale known main tr i b))).
    { destruct Hi as [ws Hws Hl|Hl|id a Hb Ha|id k sels a bb cs Hb Ha Hk HF|ps cs Hb HF]; [right..|left; eauto]; (split; [try reflexivity|]).
      - clear. induction ws; cbn; auto.
      - unfold wpart_child, part_child. rewrite (leaf_type _ _ _ _ Hl). cbn [ft map_err bind wbind ntype_eqb]. now destruct (node_text tr i).
      - unfold wpart_child, part_child. rewrite (leaf_type _ _ _ _ Hl). cbn [ft map_err bind wbind ntype_eqb andb]. now destruct main.
      - unfold wpart_child, part_child. rewrite (branch_type _ _ _ _ Hb). reflexivity.
      - unfold wpart_child, part_child. rewrite (branch_type _ _ _ _ Hb). reflexivity. }
    destruct Hd as [(ps & cs & -> & Hb & HF)|(-> & ->)].
    - unfold wpart_child. rewrite (branch_type _ _ _ _ Hb). cbn [ft map_err wbind ntype_eqb andb]. unfold wpart_command.
      rewrite (read_command_abs _ _ _ _ Hb HF). cbn [items_calls flat_map]. rewrite app_nil_r.
      destruct (cmd_parts ps) as [((name & delay) & l)|e| |] eqn:E; cbn [wbind]; try (apply goes_stop; discriminate).
      rewrite (cmd_parts_calls _ _ _ _ E). destruct delay; cbn [wbind].
      + apply goes_ret. cbn. split; [apply longer_refl|]. constructor. now apply rep_delay.
      + destruct (call reg name l w) as (w1 & o) eqn:Ec. destruct (call_made _ _ _ _ _ Ec) as (H1 & H2).
        destruct o as [s|e| |]; cbn [wbind].
        * left. do 2 eexists. split; [reflexivity|]. split; [|exact (H1 s eq_refl)]. cbn. split; [apply longer_refl|]. eapply wr_cmd; eassumption.
        * destruct H2 as [H2| ->]; [|apply goes_stop; discriminate]. right. exists w1, (Err e), [(name, l)], []. repeat split; auto; discriminate.
        * destruct H2 as [H2| ->]; [|apply goes_stop; discriminate]. right. exists w1, Panic, [(name, l)], []. repeat split; auto; discriminate.
        * destruct H2 as [H2| ->]; [|apply goes_stop; discriminate]. right. exists w1, NoFuel, [(name, l)], []. repeat split; auto; discriminate.
    - pose proof (child_built fe [] locale known main tr i g b Hi) as Hb.
      destruct (items_check fe [] locale known main g) as [u|e| |]; cbn [built] in Hb.
      + destruct Hb as (p & b' & -> & ((_ & Hg) & Hrep & _)). apply goes_ret. split; [exact Hg|]. now constructor.
      + rewrite Hb. apply goes_stop; discriminate.
      + rewrite Hb. apply goes_stop; discriminate.
      + rewrite Hb. apply goes_stop; discriminate.
  Qed.
  Lemma items_calls_app l l' : items_calls (l ++ l') = items_calls l ++ items_calls l'.
  Proof. apply flat_map_app. Qed.
  Lemma wparts known main tr cs ls : Forall2 (item_is tr) cs ls -> forall b w,
    goes (items_calls (List.concat ls)) w (wstring_parts fe reg locale known main tr cs b w)
      (fun x => longer b (snd x) /\ wreps (snd (snd x)) (fst x) (List.concat ls)).
  Proof.
    induction 1 as [|c g cs ls Hc HF IH]; intros b w; cbn [List.concat wstring_parts].
    - apply goes_ret. split; [apply longer_refl|constructor].
    - rewrite items_calls_app. eapply goes_bind; [apply wchild, Hc|]. intros (p & b1) w1 (Hl & Hp). cbn [fst snd] in *.
      rewrite <- (app_nil_r (items_calls (List.concat ls))). eapply goes_bind; [apply IH|]. intros (ps & b2) w2 (Hl2 & Hps). cbn [fst snd] in *.
      apply goes_ret. cbn [fst snd]. split; [eapply longer_trans; eassumption|]. constructor; [|exact Hps]. destruct Hl2 as (s & ->). now apply wrep_mono.
  Qed.

  Definition pats (S : list (amap ustr)) (ps : amap (list ppart)) (strs : amap (list sitem)) : Prop :=
    Forall2 (fun x y => fst x = fst y /\ wreps S (snd x) (snd y)) ps strs.
  Lemma pats_mono S S' ps strs : pats S ps strs -> pats (S ++ S') ps strs.
  Proof. induction 1 as [|x y l l' [H1 H2] HF IH]; constructor; auto. split; auto. now apply wreps_mono. Qed.
  Lemma pats_get S ps strs k : pats S ps strs ->
    match mget k ps, mget k strs with Some x, Some l => wreps S x l | None, None => True | _, _ => False end.
  Proof. induction 1 as [|[a x] [b l] ps strs [H1 H2] HF IH]; cbn in *; [trivial|]. subst b. now destruct (ueqb k a). Qed.
  Lemma minsert_new {V} k (v : V) m : mget k m = None -> minsert k v m = m ++ [(k, v)].
  Proof. induction m as [|(k0, v0) m IH]; cbn; [reflexivity|]. destruct (ueqb k k0); [discriminate|]. intros H. now rewrite IH. Qed.

  Lemma wnamed tr ns l : Forall2 (named_is tr) ns l -> forall ps strs b w, pats (snd b) ps strs ->
    goes (flat_map (fun x => items_calls (snd x)) l) w (wnamed_strings fe reg locale tr ns ps b w)
      (fun x => pats (snd (snd x)) (fst x) (strs ++ l)).
  Proof.
    induction 1 as [|n [id x] ns l (a & s & Hb & Ha & Hs) HF IH]; intros ps strs b w Hp; cbn [wnamed_strings flat_map].
    - apply goes_ret. now rewrite app_nil_r.
    - unfold tree_first, tree_last. rewrite (branch_children _ _ _ _ Hb). cbn [ft map_err bind nth_error unwrap fst snd] in *. unfold ident_is in Ha.
      rewrite (leaf_first _ _ _ _ _ Ha). cbn [wbind]. destruct (mhas id ps) eqn:E; [apply goes_stop; discriminate|].
      unfold last_opt; cbn [List.length Nat.sub nth_error ft map_err bind unwrap].
      destruct Hs as (cs & ls & Hbs & Hcs & <-). rewrite (branch_children _ _ _ _ Hbs). cbn [ft map_err wbind].
      eapply goes_bind; [apply wparts, Hcs|]. intros (parts & b1) w1 (Hl & Hr). cbn [fst snd] in *.
      replace (strs ++ (id, List.concat ls) :: l) with ((strs ++ [(id, List.concat ls)]) ++ l) by now rewrite <- app_assoc.
      apply IH. apply mhas_false in E. rewrite (minsert_new _ _ _ E). apply Forall2_app; [|constructor; [now split|constructor]].
      destruct Hl as (s' & ->). now apply pats_mono.
  Qed.

  Record wfm (fm : formatter) (a : sast) : Prop := {
    wf_pats : pats (fm_selectors fm) (fm_patterns fm) (strings_of a);
    wf_locale : fm_locale fm = locale
  }.
  Lemma wmain tag tr m l ps b strs w : string_is tr m l -> pats (snd b) ps ((us "_", []) :: strs) ->
    goes (items_calls l) w (wbind (w, ft (tree_children tr m)) (fun cs w =>
      wbind (wstring_parts fe reg locale (mkeys ps) true tr cs b w) (fun y w =>
      (w, Ok (mk_formatter tag locale (minsert (us "_") (fst y) ps) (fst (snd y)) (snd (snd y)))))))
      (fun fm => forall o, group_of (l, o) = strs -> wfm fm (l, o)).
  Proof.
    intros (cs & ls & Hb & HF & <-) Hp. rewrite (branch_children _ _ _ _ Hb). cbn [ft map_err wbind].
    rewrite <- (app_nil_r (items_calls (List.concat ls))). eapply goes_bind; [apply wparts, HF|]. intros (parts & b1) w1 (Hl & Hr). cbn [fst snd] in *.
    apply goes_ret. intros o Ho. inversion Hp as [|[k0 ps0] y ps' strs' [Hk0 Hps0] Hp']; subst. cbn in Hk0, Hps0. subst k0.
    cbn [minsert]. rewrite ueqb_refl. constructor; cbn; [|reflexivity]. constructor; [now split|]. destruct Hl as (s' & ->). now apply pats_mono.
  Qed.
  Theorem wbuilt tag tr a w : tree_is tr a ->
    goes (build_calls a) w (wformatter_of_tree fe reg tag locale tr w) (fun fm => wfm fm a).
  Proof.
    intros Ht. unfold wformatter_of_tree. destruct (tr_has_grammar tr); cbn [negb]; [|apply goes_stop; discriminate].
    destruct a as [m o]. unfold tree_is in Ht. cbn [fst snd] in Ht. unfold build_calls. destruct o as [l|].
    - destruct Ht as (g & cs & Hr & Hm & Hgb & HF).
      rewrite (branch_type _ _ _ _ Hr), (branch_children _ _ _ _ Hr). cbn [ft map_err wbind ntype_eqb negb].
      rewrite (branch_children _ _ _ _ Hgb). cbn [ft map_err wbind bind nth_error unwrap]. cbn [group_of snd fst].
      eapply goes_bind; [apply (wnamed tr cs l HF [(us "_", [])] [(us "_", [])] ([], []) w); constructor; [split; [reflexivity|constructor]|constructor]|].
      intros (ps & b) w1 Hp. cbn [fst snd app] in *. eapply goes_weaken; [|apply (wmain tag tr 1 m ps b l w1 Hm Hp)]. intros fm H. now apply H.
    - destruct Ht as (Hr & Hm). rewrite (branch_type _ _ _ _ Hr), (branch_children _ _ _ _ Hr). cbn [ft map_err wbind bind ntype_eqb negb nth_error unwrap group_of snd fst flat_map app].
      eapply goes_weaken; [|apply (wmain tag tr 1 m [(us "_", [])] ([], []) [] w Hm); constructor; [split; [reflexivity|constructor]|constructor]].
      intros fm H. now apply H.
  Qed.

  (** ** Formatting *)
  Section Format.
    Variables (fm : formatter) (a : sast) (vals : amap pvalue).
    Hypothesis Hfm : wfm fm a.
    Notation shows := (shows fe locale vals (strings_of a)).
    Notation shows_first := (shows_first fe locale vals (strings_of a)).
    Lemma shows_app l l' cs cs' : shows l cs -> shows l' cs' -> shows (l ++ l') (cs ++ cs').
    Proof.
      induction 1 as [|x l cs Hx _ IH|x body l cs cs2 Hx Hb _ _ IH|name args l cs _ IH]; intros H; cbn [app].
      - exact H.
      - apply sh_simple; auto.
      - rewrite <- app_assoc. eapply sh_branch; eauto.
      - apply sh_delayed; auto.
    Qed.
    Lemma first_app l l' cs : shows_first l cs -> shows_first (l ++ l') cs.
    Proof.
      induction 1; cbn [app]; [apply sf_stop|apply sf_simple; auto|eapply sf_inside; eassumption|eapply sf_branch; eauto|apply sf_delayed; auto].
    Qed.
    Lemma first_after l l' cs cs' : shows l cs -> shows_first l' cs' -> shows_first (l ++ l') (cs ++ cs').
    Proof.
      induction 1 as [|x l cs Hx _ IH|x body l cs cs2 Hx Hb _ _ IH|name args l cs _ IH]; intros H; cbn [app].
      - exact H.
      - apply sf_simple; auto.
      - rewrite <- app_assoc. eapply sf_branch; eauto.
      - apply sf_delayed; auto.
    Qed.
    Lemma shows_all l cs : shows l cs -> shows_first l cs.
    Proof. intros H. rewrite <- (app_nil_r l), <- (app_nil_r cs). apply first_after; [exact H|constructor]. Qed.

    Definition fine (l : list sitem) (w : W) (x : (nums * W) * fout ustr) : Prop :=
      exists cs, shows_first l cs /\ attempted reg cs w (snd (fst x)) /\ (forall t, snd x = Ok t -> shows l cs /\ made reg cs w (snd (fst x))).
    Lemma fine_stop l w ns (r : fout ustr) : (forall t, r <> Ok t) -> fine l w ((ns, w), r).
    Proof. intros H. exists []. split; [constructor|]. split; [apply attempted_nil|]. intros t Ht. now destruct (H t). Qed.
    Definition fine_rec (rec : ustr -> nums -> W -> (nums * W) * fout ustr) : Prop :=
      forall named ns w, match mget named (strings_of a) with Some l => fine l w (rec named ns w) | None => exists e, rec named ns w = ((ns, w), e) /\ forall t, e <> Ok t end.
    Lemma fine_into x body l w r : goes_to fe locale vals (strings_of a) x body -> l = [x] -> fine body w r -> fine l w r.
    Proof.
      intros Hx -> (cs & H1 & H2 & H3). exists cs. split; [eapply sf_inside; eassumption|]. split; [exact H2|]. intros t Ht. destruct (H3 t Ht) as (H4 & H5).
      split; [|exact H5]. rewrite <- (app_nil_r cs). eapply sh_branch; [exact Hx|exact H4|constructor].
    Qed.
    Lemma into rec named x ns w : fine_rec rec -> (forall body, mget named (strings_of a) = Some body -> goes_to fe locale vals (strings_of a) x body) ->
      fine [x] w (rec named ns w).
    Proof.
      intros Hrec Hx. specialize (Hrec named ns w). destruct (mget named (strings_of a)) as [l|] eqn:E.
      - eapply fine_into; [apply (Hx l eq_refl)|reflexivity|exact Hrec].
      - destruct Hrec as (e & -> & He). now apply fine_stop.
    Qed.
    Lemma number_fine rec d rules idx sels x ns w : fine_rec rec -> nth_error (fm_selectors fm) idx = Some (pairs sels) ->
      (forall body, In (category_name (rules d)) (map fst sels) -> mget (category_name (rules d)) (strings_of a) = Some body -> goes_to fe locale vals (strings_of a) x body) ->
      fine [x] w (wfind_number_sign fe fm rec d rules idx ns w).
    Proof.
      intros Hrec Hi Hx. unfold wfind_number_sign. destruct (fe_decimal fe (fm_locale fm) None) as [fdf|]; [|apply fine_stop; discriminate].
      rewrite Hi. change (plural_category (rules d)) with (category_name (rules d)). rewrite pairs_get.
      destruct (umem (category_name (rules d)) (map fst sels)) eqn:Eu; [|apply fine_stop; discriminate]. apply umem_In in Eu.
      destruct (mget _ (fm_patterns fm)) as [parts|]; [|apply fine_stop; discriminate].
      destruct (update_numbers parts (fdf d) ns) as (ns1 & [u|e| |]); try (apply fine_stop; discriminate).
      apply into; auto.
    Qed.
    Lemma part_fine rec p g ns w : fine_rec rec -> wrep (fm_selectors fm) p g -> fine g w (wformat_part fe reg fm vals rec p ns w).
    Proof.
      intros Hrec Hp.
      assert (Hsimple : forall x ns' (r : fout ustr), simple x -> fine [x] w ((ns', w), r)).
      { intros x ns' r Hx. exists []. split; [constructor|]. split; [apply attempted_nil|]. intros t Ht. split; constructor; [exact Hx|constructor]. }
      destruct Hp as [p g Hp|s ps name l Hc].
      - destruct Hp as [ws|i|ph|ph sels sign group Ho|ph sels ld lt cal Ho|ph c idx sels Hi|ps name l s Hc Hr|ps name l Hc]; cbn [wformat_part format_part].
        + exists []. split; [constructor|]. split; [apply attempted_nil|]. intros t Ht. split; [|constructor].
          clear. induction ws; cbn; [constructor|]. constructor; [exact Logic.I|assumption].
        + now apply Hsimple.
        + now apply Hsimple.
        + apply Hsimple. cbn. now left.
        + apply Hsimple. cbn. now right.
        + destruct (mget ph vals) as [v|] eqn:Ev; [|apply fine_stop; discriminate]. unfold wformat_complex. rewrite (wf_locale _ _ Hfm).
          destruct c; cbn [kw_of].
          * destruct (fe_cardinal fe locale) as [rules|] eqn:Er; [|apply fine_stop; discriminate].
            destruct (number_of fe (us "PatternPlural") v) as [d|e| |] eqn:En; try (apply fine_stop; discriminate). apply number_of_ok in En.
            eapply number_fine; [exact Hrec|exact Hi|]. intros body H1 H2. eapply gt_plural; eassumption.
          * destruct (fe_ordinal fe locale) as [rules|] eqn:Er; [|apply fine_stop; discriminate].
            destruct v; try (apply fine_stop; discriminate).
            eapply number_fine; [exact Hrec|exact Hi|]. intros body H1 H2. eapply gt_ordinal; eassumption.
          * destruct (value_text v) as [key|] eqn:Ek; [|apply fine_stop; discriminate]. unfold wformat_select. rewrite Hi, pairs_get.
            destruct (umem key (map fst sels)) eqn:Eu; [|apply fine_stop; discriminate]. apply umem_In in Eu.
            apply into; [exact Hrec|]. intros body Hb. eapply gt_select; eauto.
        + unfold run_command, creg_command in Hr. cbn in Hr. discriminate.
        + pose proof (cmd_parts_iff ps name true l) as HH. apply HH in Hc as (args & -> & ->). clear HH. unfold wformat_command. rewrite delayed_ok. cbn [wbind].
          destruct (call reg name (map (parameter vals) args) w) as (w1 & o) eqn:Ec. destruct (call_made _ _ _ _ _ Ec) as (H1 & H2).
          destruct H2 as [H2| ->].
          * exists [(name, map (parameter vals) args)]. split; [apply sf_delayed, sf_stop|]. split; [exact H2|]. intros t Ht. split; [apply sh_delayed, sh_nil|exact (H1 t Ht)].
          * destruct o as [t|e| |]; try (apply fine_stop; discriminate). exists [(name, map (parameter vals) args)]. split; [apply sf_delayed, sf_stop|].
            cbn [fst snd]. split; [constructor; exact (H1 t eq_refl)|]. intros t' Ht. split; [apply sh_delayed, sh_nil|exact (H1 t eq_refl)].
      - apply Hsimple. cbn. intros (n & r & ->). cbn [cmd_parts] in Hc. destruct (cmd_args r); discriminate.
    Qed.
    Lemma parts_fine rec ps l : fine_rec rec -> wreps (fm_selectors fm) ps l -> forall ns w, fine l w (wformat_parts fe reg fm vals rec ps ns w).
    Proof.
      intros Hrec. induction 1 as [|p g ps l Hp _ IH]; intros ns w; cbn [wformat_parts].
      - exists []. split; [constructor|]. split; [apply attempted_nil|]. intros t Ht. split; constructor.
      - destruct (part_fine rec p g ns w Hrec Hp) as (cs & H1 & H2 & H3).
        destruct (wformat_part fe reg fm vals rec p ns w) as ((ns1 & w1) & [s|e| |]); cbn [fst snd] in *;
          try (exists cs; split; [now apply first_app|]; split; [exact H2|]; discriminate).
        destruct (H3 s eq_refl) as (H4 & H5). destruct (IH ns1 w1) as (cs' & G1 & G2 & G3).
        destruct (wformat_parts fe reg fm vals rec ps ns1 w1) as ((ns2 & w2) & [s'|e| |]); cbn [fst snd] in *;
          (exists (cs ++ cs'); split; [now apply first_after|]; split; [eapply attempted_app; eassumption|]; try discriminate).
        intros t Ht. destruct (G3 s' eq_refl) as (G4 & G5). split; [now apply shows_app|eapply made_app; eassumption].
    Qed.
    Lemma pattern_fine fuel : fine_rec (wformat_pattern fe reg fm vals fuel).
    Proof.
      induction fuel as [|f IH]; intros named ns w; cbn [wformat_pattern].
      - destruct (mget named (strings_of a)) as [l|]; [apply fine_stop; discriminate|]. eexists. split; [reflexivity|discriminate].
      - pose proof (pats_get _ _ _ named (wf_pats _ _ Hfm)) as Hg.
        destruct (mget named (fm_patterns fm)) as [ps|], (mget named (strings_of a)) as [l|]; try contradiction.
        + now apply parts_fine.
        + eexists. split; [reflexivity|discriminate].
    Qed.
  End Format.
End Calls.
