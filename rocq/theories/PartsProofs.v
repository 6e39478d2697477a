(** Formatting a string part by part. *)
From Verif Require Import Base BaseFacts LexerModel LexerSpec LexerProofs IcuExample TreeModel TreeSpec TreeMachine TreeProofs
  TreeProofs4 DocSpec DocProofs DocProofs2 ValueModel CommandModel IsoModel FormatterModel FormatterAbs FormatterRefine FormatterRefine2
  FormatterSim FormatterActs FormatterSpec FormatterProofs FormatterProofs2 FormatterProofs3 FormatterProofs4 FormatterProofs5
  OnlySpec OnlyProofs3 PartsSpec.
Local Opaque us l10n_grammar.

(** ** Contents *)
Section Abstract.
  Variables (fe : fmtenv) (reg : cregistry) (locale : ustr) (vals : amap pvalue).
  Notation ev := (astring fe reg locale vals).
  Notation evs := (aitems fe reg locale vals).
  Notation act_of := (item_act fe reg locale vals).

  Lemma evs_app rec strs self l1 l2 : forall st,
    snd (evs rec strs self (l1 ++ l2) st) =
    after (snd (evs rec strs self l1 st)) (snd (evs rec strs self l2 (fst (evs rec strs self l1 st)))).
  Proof.
    induction l1 as [|x l1 IH]; intros st.
    - cbn [app aitems fst snd after]. now destruct (snd (evs rec strs self l2 st)).
    - cbn [app]. rewrite !evs_cons. destruct (run_act rec self (act_of strs x) st) as [st1 [s|e| |]]; try reflexivity.
      specialize (IH st1). destruct (evs rec strs self (l1 ++ l2) st1) as [st2 r], (evs rec strs self l1 st1) as [st3 r1]. cbn [fst snd] in IH.
      subst r. destruct r1 as [t|e| |]; try reflexivity. cbn [after fst snd].
      destruct (snd (evs rec strs self l2 st3)) as [u| | |]; cbn [after snd]; try reflexivity. now rewrite app_assoc.
  Qed.

  Lemma act_keys strs strs' x : (forall m, mget m strs = None <-> mget m strs' = None) -> act_of strs x = act_of strs' x.
  Proof.
    intros H. destruct x as [w| |ph [[kw sels]|]|ps]; try reflexivity. cbn [item_act]. unfold kw_act.
    assert (Hn : forall dec rules, num_act fe locale strs sels dec rules = num_act fe locale strs' sels dec rules).
    { intros dec rules. unfold num_act. destruct (fe_decimal fe locale None); [|reflexivity]. cbv zeta. destruct (mget _ (pairs sels)) as [n|]; [|reflexivity].
      specialize (H n). destruct (mget n strs), (mget n strs'); try reflexivity; exfalso; [now discriminate (proj2 H eq_refl)|now discriminate (proj1 H eq_refl)]. }
    destruct (ueqb kw _); [reflexivity|]. destruct (ueqb kw _); [reflexivity|]. destruct (mget ph vals) as [v|]; [|reflexivity].
    destruct (ueqb kw _). { destruct (fe_ordinal fe locale); [|reflexivity]. destruct v; auto. }
    destruct (ueqb kw _). { destruct (fe_cardinal fe locale); [|reflexivity]. destruct (number_of _ _ v); auto. }
    reflexivity.
  Qed.
  Lemma evs_same rec rec' strs strs' self l : (forall m, mget m strs = None <-> mget m strs' = None) ->
    (forall x m u st, In x l -> act_of strs' x = ACall m u -> rec m st = rec' m st) ->
    forall st, evs rec strs self l st = evs rec' strs' self l st.
  Proof.
    intros Hk. induction l as [|x l IH]; intros Hr st; [reflexivity|]. rewrite !evs_cons. rewrite (act_keys strs strs' x Hk).
    assert (E : run_act rec self (act_of strs' x) st = run_act rec' self (act_of strs' x) st).
    { destruct (act_of strs' x) as [r| |m [v|]] eqn:Ea; cbn [run_act]; try reflexivity; apply (Hr x m _ _ (or_introl eq_refl) Ea). }
    rewrite E. destruct (run_act rec' self (act_of strs' x) st) as [st1 [s|e| |]]; try reflexivity. rewrite IH; [reflexivity|].
    intros y m u s' Hy. apply Hr. now right.
  Qed.

  (** *** Two main strings over the same named strings *)
  Variables (l1 l2 : list sitem) (g : option (list (ustr * list sitem))).
  Definition whole : sast := (l1 ++ l2, g).
  Definition part1 : sast := (l1, g).
  Definition part2 : sast := (l2, g).

  Lemma parts_buildable : buildable reg whole <-> buildable reg part1 /\ buildable reg part2.
  Proof.
    unfold buildable, whole, part1, part2, group_of. cbn [fst snd]. split.
    - intros (H1 & H2 & H3 & H4). apply Forall_app in H3 as (H3 & H3'). repeat split; auto; intros H; apply H2, in_or_app; auto.
    - intros ((H1 & H2 & H3 & H4) & (_ & H2' & H3' & _)). repeat split; auto; [intros H; apply in_app_or in H as [H|H]; auto|]. now apply Forall_app.
  Qed.

  Hypothesis Hc : content_check fe reg locale whole = Ok tt.
  Hypothesis Hh : hash_in_plurals_only whole.

  Lemma part_checks : content_check fe reg locale part1 = Ok tt /\ content_check fe reg locale part2 = Ok tt.
  Proof. rewrite !(content_check_iff fe reg locale). apply parts_buildable. now apply (content_check_iff fe reg locale). Qed.

  Lemma keys_same (m m' : list sitem) k : mget k (strings_of (m, g)) = None <-> mget k (strings_of (m', g)) = None.
  Proof. unfold strings_of, group_of. cbn [fst snd mget]. destruct (ueqb k (us "_")); [split; discriminate|tauto]. Qed.

  (** Formatting without coming back to the main string: what formatting gives is given without. *)
  Fixpoint cut (f : nat) (strs : amap (list sitem)) (m : ustr) (st : numst) : aout :=
    if ueqb m (us "_") then (st, NoFuel) else
    match f with
    | O => (st, NoFuel)
    | S f => match mget m strs with None => (st, Err (FPatternNamed m)) | Some l => evs (cut f strs) strs m l st end
    end.
  Lemma cut_mono strs f : forall f' m st st' r, f <= f' -> cut f strs m st = (st', r) -> fine r -> cut f' strs m st = (st', r).
  Proof.
    induction f as [|f IH]; intros f' m st st' r Hle H Hf.
    - cbn in H. destruct (ueqb m (us "_")); injection H as <- <-; now destruct Hf.
    - destruct f' as [|f']; [lia|]. cbn [cut] in *. destruct (ueqb m (us "_")); [exact H|]. destruct (mget m strs) as [l|]; [|exact H].
      apply (evs_mono fe reg locale vals strs (cut f strs) (cut f' strs)); [|exact H|exact Hf]. intros m' s s' r' H1 H2. apply (IH f'); auto. lia.
  Qed.
  Lemma cut_ev strs f : (forall f' st, f' < f -> snd (ev f' strs (us "_") st) = NoFuel) ->
    forall k m st st' r, k < f -> ev k strs m st = (st', r) -> fine r -> cut k strs m st = (st', r).
  Proof.
    intros Hn. induction k as [|k IH]; intros m st st' r Hk H Hf.
    - cbn in H. injection H as <- <-. now destruct Hf.
    - assert (Hm : ueqb m (us "_") = false).
      { destruct (ueqb_spec m (us "_")) as [->|_]; [|reflexivity]. specialize (Hn (S k) st Hk). rewrite H in Hn. now destruct Hf. }
      cbn [cut astring] in *. rewrite Hm. destruct (mget m strs) as [l|]; [|exact H].
      apply (evs_mono fe reg locale vals strs (ev k strs) (cut k strs)); [|exact H|exact Hf]. intros m' s s' r' H1 H2. apply IH; auto. lia.
  Qed.
  Lemma named_same (main : list sitem) f : forall m st, cut f (strings_of whole) m st = cut f (strings_of (main, g)) m st.
  Proof.
    induction f as [|f IH]; intros m st; cbn [cut]; [reflexivity|]. destruct (ueqb m (us "_")) eqn:Hm; [reflexivity|].
    assert (E : forall main' : list sitem, mget m (strings_of (main', g)) = mget m (group_of whole)).
    { intros main'. unfold strings_of. cbn [mget]. now rewrite Hm. }
    rewrite (E main). pose proof (E (l1 ++ l2)) as E'. fold whole in E'. rewrite E'. destruct (mget m (group_of whole)) as [l|] eqn:El; [|reflexivity].
    apply evs_same; [intros; apply keys_same|]. intros x k u st' Hx Ha. apply IH.
  Qed.

  Lemma get_main (main : list sitem) : mget (us "_") (strings_of (main, g)) = Some main.
  Proof. unfold strings_of. cbn [mget]. now rewrite ueqb_refl. Qed.
  Lemma least strs (Hi : forall f st st', snd (ev f strs (us "_") st) = snd (ev f strs (us "_") st')) f st : snd (ev f strs (us "_") st) <> NoFuel ->
    exists k, snd (ev (S k) strs (us "_") st) = snd (ev f strs (us "_") st) /\ forall f' st', f' < S k -> snd (ev f' strs (us "_") st') = NoFuel.
  Proof.
    induction f as [|f IH]; intros H; [now destruct H|].
    assert (Mono : forall f' F s, f' <= F -> snd (ev f' strs (us "_") s) <> NoFuel -> snd (ev F strs (us "_") s) = snd (ev f' strs (us "_") s)).
    { intros f' F s Hle Hn. destruct (ev f' strs (us "_") s) as [s' r] eqn:E. now rewrite (ev_mono fe reg locale vals strs f' F _ s s' r Hle E Hn). }
    assert (D : snd (ev f strs (us "_") st) = NoFuel \/ snd (ev f strs (us "_") st) <> NoFuel) by (destruct (snd (ev f strs (us "_") st)); auto; right; discriminate).
    destruct D as [D|D].
    - exists f. split; [reflexivity|]. intros f' st' Hf'. rewrite (Hi f' st' st).
      destruct (snd (ev f' strs (us "_") st)) eqn:E; try reflexivity; exfalso; assert (Hn : snd (ev f' strs (us "_") st) <> NoFuel) by (rewrite E; discriminate);
        rewrite <- (Mono f' f st ltac:(lia) Hn) in E; congruence.
    - destruct (IH D) as (k & H1 & H2). exists k. split; [|exact H2]. rewrite H1. symmetry. apply Mono; [lia|exact D].
  Qed.
  (** The main string, without coming back to it, over the strings of the whole. *)
  Lemma main_cut (main : list sitem) (Hi : forall f st st', snd (ev f (strings_of (main, g)) (us "_") st) = snd (ev f (strings_of (main, g)) (us "_") st')) f st :
    snd (ev f (strings_of (main, g)) (us "_") st) <> NoFuel ->
    exists k, forall K st', k <= K -> snd (evs (cut K (strings_of whole)) (strings_of whole) (us "_") main st') = snd (ev f (strings_of (main, g)) (us "_") st).
  Proof.
    intros H. destruct (least _ Hi f st H) as (k & E & Hn). exists k. intros K st' HK. rewrite <- E. rewrite (Hi _ st st'). rewrite <- E, (Hi _ st st') in H.
    cbn [astring] in *. rewrite get_main in *. destruct (evs (ev k (strings_of (main, g))) (strings_of (main, g)) (us "_") main st') as [s r] eqn:Er. cbn [snd] in *.
    rewrite (evs_same (cut K (strings_of whole)) (cut K (strings_of (main, g))) _ (strings_of (main, g))); [|intros; apply keys_same|intros; apply named_same].
    rewrite (evs_mono fe reg locale vals _ (ev k (strings_of (main, g))) (cut K (strings_of (main, g))) (us "_") main) with (st' := s) (r := r); auto.
    intros m s1 s2 r' H1 H2. apply (cut_mono _ k K); auto. apply (cut_ev _ (S k)); auto.
  Qed.

  (** The other way round: what is given without coming back to the main string is given. *)
  Lemma ev_cut strs k : forall m st st' r, cut k strs m st = (st', r) -> fine r -> ev k strs m st = (st', r).
  Proof.
    induction k as [|k IH]; intros m st st' r H Hf; cbn [cut] in H; destruct (ueqb m (us "_")); try (injection H as <- <-; now destruct Hf).
    cbn [astring]. destruct (mget m strs) as [l|]; [|exact H].
    apply (evs_mono fe reg locale vals strs (cut k strs) (ev k strs)); [|exact H|exact Hf]. exact IH.
  Qed.
  Lemma after_fine x y : x <> NoFuel -> y <> NoFuel -> after x y <> NoFuel.
  Proof. intros H H'. destruct x; cbn; try discriminate; try now destruct H. destruct y; try discriminate. now destruct H'. Qed.
  Lemma hash_part (main : list sitem) : incl main (l1 ++ l2) -> ~ In SHash (l1 ++ l2) -> hash_in_plurals_only (main, g).
  Proof.
    intros Hi Hn name body x ph sels sel branch Hb Hx Hsel Hin target Ht.
    assert (Hall : forall k l, In (k, l) (all_strings (main, g)) -> exists l', In (k, l') (all_strings whole) /\ incl l l' /\ (In SHash l -> In SHash l')).
    { intros k l [E|E].
      - injection E as <- <-. exists (l1 ++ l2). split; [now left|]. split; auto.
      - exists l. split; [now right|]. split; auto. apply incl_refl. }
    destruct (Hall _ _ Hb) as (b' & Hb' & Hib & _). destruct (Hall _ _ Ht) as (t' & Ht' & _ & Hit).
    intros Hsh. exact (Hh name b' x ph sels sel branch Hb' (Hib _ Hx) Hsel Hin t' Ht' (Hit Hsh)).
  Qed.

  Lemma main_history main : content_check fe reg locale (main, g) = Ok tt -> incl main (l1 ++ l2) -> forall f s s',
    snd (ev f (strings_of (main, g)) (us "_") s) = snd (ev f (strings_of (main, g)) (us "_") s').
  Proof.
    intros Hcm Hi n s s'. apply (ev_history fe reg locale vals (strings_of (main, g)) (fun m l => strings_checked fe reg locale _ m l Hcm)
      (fun k l x m l' => select_targets fe reg locale _ Hcm (hash_part main Hi (main_no_hash _ _ _ _ Hc)) vals k l x m l')) with (l := main).
    - unfold strings_of. cbn [mget]. now rewrite ueqb_refl.
    - exact (main_no_hash _ _ _ _ Hcm).
  Qed.
  Theorem parts_ev f f1 f2 st st1 st2 : snd (ev f (strings_of whole) (us "_") st) <> NoFuel ->
    snd (ev f1 (strings_of part1) (us "_") st1) <> NoFuel -> snd (ev f2 (strings_of part2) (us "_") st2) <> NoFuel ->
    snd (ev f (strings_of whole) (us "_") st) =
    after (snd (ev f1 (strings_of part1) (us "_") st1)) (snd (ev f2 (strings_of part2) (us "_") st2)).
  Proof.
    intros H H1 H2. destruct part_checks as (C1 & C2). pose proof main_history as G.
    destruct (main_cut (l1 ++ l2) (G _ Hc (incl_refl _)) f st H) as (k & E).
    destruct (main_cut l1 (G _ C1 (incl_appl _ (incl_refl _))) f1 st1 H1) as (k1 & E1).
    destruct (main_cut l2 (G _ C2 (incl_appr _ (incl_refl _))) f2 st2 H2) as (k2 & E2).
    fold whole in E. rewrite <- (E (k + k1 + k2) st) by lia. rewrite evs_app. rewrite E1, E2 by lia. reflexivity.
  Qed.
  Theorem parts_end f1 f2 st st1 st2 : snd (ev f1 (strings_of part1) (us "_") st1) <> NoFuel -> snd (ev f2 (strings_of part2) (us "_") st2) <> NoFuel ->
    exists f, snd (ev f (strings_of whole) (us "_") st) <> NoFuel.
  Proof.
    intros H1 H2. destruct part_checks as (C1 & C2). pose proof main_history as G.
    destruct (main_cut l1 (G _ C1 (incl_appl _ (incl_refl _))) f1 st1 H1) as (k1 & E1).
    destruct (main_cut l2 (G _ C2 (incl_appr _ (incl_refl _))) f2 st2 H2) as (k2 & E2).
    exists (S (k1 + k2)). assert (Ea : snd (evs (cut (k1 + k2) (strings_of whole)) (strings_of whole) (us "_") (l1 ++ l2) st) <> NoFuel).
    { rewrite evs_app, E1, E2 by lia. now apply after_fine. }
    cbn [astring]. unfold whole at 1. rewrite get_main. fold whole.
    destruct (evs (cut (k1 + k2) (strings_of whole)) (strings_of whole) (us "_") (l1 ++ l2) st) as [s r] eqn:Er. cbn [snd] in Ea.
    pose proof (evs_mono fe reg locale vals (strings_of whole) (cut (k1 + k2) (strings_of whole)) (ev (k1 + k2) (strings_of whole)) (us "_") (l1 ++ l2)
      (ev_cut (strings_of whole) (k1 + k2)) st s r Er Ea) as Ew. now rewrite Ew.
  Qed.
End Abstract.

(** ** Documented strings *)
Notation rc := (flat_map (fun x : dsyn * ustr => [syn_content (fst x); SText (snd x)])).
Notation rp := (flat_map (fun x : dsyn * ustr => synprint (fst x) ++ snd x)).

Lemma rp_cons x w l : rp ((x, w) :: l) = (synprint x ++ w) ++ rp l. Proof. reflexivity. Qed.
Lemma rc_cons x w l : rc ((x, w) :: l) = syn_content x :: SText w :: rc l. Proof. reflexivity. Qed.
Lemma glue_cons p q l b : glue (p :: q :: l) b = p :: glue (q :: l) b. Proof. destruct p; reflexivity. Qed.

Lemma dcat_print a b : strprint (dcat a b) = strprint a ++ strprint b.
Proof.
  unfold dcat. destruct a as [t [|p l]]; cbn [ds_rest ds_text]; unfold strprint; cbn [ds_rest ds_text]; [cbn [flat_map]; now rewrite app_nil_r, app_assoc|].
  rewrite <- app_assoc. f_equal. revert p. induction l as [|q l IH]; intros [x w].
  - cbn [glue flat_map fst snd]. now rewrite app_nil_r, <- !app_assoc.
  - rewrite glue_cons. rewrite !rp_cons, IH. now rewrite <- (app_assoc (synprint x ++ w)).
Qed.

Lemma glue_Forall (P : dsyn * ustr -> Prop) b : Forall P (ds_rest b) -> (forall x w, P (x, w) -> P (x, w ++ ds_text b)) ->
  forall l, Forall P l -> Forall P (glue l b).
Proof.
  intros Hb Hp. induction l as [|p l IH]; intros H; [exact Hb|]. inversion H; subst. destruct l as [|q l].
  - destruct p as [x w]. cbn [glue]. constructor; auto.
  - rewrite glue_cons. constructor; auto.
Qed.

Lemma dcat_wf d a b : main_wf d a -> main_wf d b -> main_wf d (dcat a b).
Proof.
  intros ((A1 & A2) & A3) ((B1 & B2) & B3). unfold main_wf, str_wf, dcat. destruct (ds_rest a) as [|p l]; cbn [ds_rest ds_text].
  - repeat split; auto. now apply Forall_app.
  - repeat split; auto; apply glue_Forall; auto. intros x w (H1 & H2). split; [exact H1|]. cbn [snd] in *. now apply Forall_app.
Qed.

Lemma join_cons x l l' : join l = join l' -> join (x :: l) = join (x :: l').
Proof. intros H. destruct x; cbn; now rewrite H. Qed.
Lemma dcat_join a b : join (str_content (dcat a b)) = join (str_content a ++ str_content b).
Proof.
  unfold dcat. destruct a as [t [|p l]]; unfold str_content; cbn [ds_rest ds_text].
  - cbn [flat_map app]. rewrite !join_text. now rewrite jt_app.
  - cbn [app]. apply join_cons. revert p. induction l as [|q l IH]; intros [x w].
    + cbn [glue flat_map fst snd app]. apply join_cons. rewrite !join_text. now rewrite jt_app.
    + rewrite glue_cons. rewrite !rc_cons. cbn [app]. apply join_cons, join_cons. apply IH.
Qed.
Lemma sp_cons (f : sitem -> list ustr) x l : flat_map f (x :: l) = f x ++ flat_map f l. Proof. reflexivity. Qed.
Lemma dcat_spats a b : spats (str_content (dcat a b)) = spats (str_content a) ++ spats (str_content b).
Proof.
  unfold dcat. destruct a as [t [|p l]]; unfold str_content; cbn [ds_rest ds_text]; [reflexivity|].
  change (spats (SText t :: ?y)) with (spats y). change (spats (SText (ds_text b) :: ?y)) with (spats y).
  revert p. induction l as [|q l IH]; intros [x w].
  - cbn [glue]. rewrite !rc_cons. cbn [flat_map]. unfold spats. rewrite !(sp_cons _ (syn_content x)). cbn [flat_map app]. now rewrite app_nil_r.
  - rewrite glue_cons, !rc_cons. unfold spats. rewrite !(sp_cons _ (syn_content x)). rewrite <- app_assoc. f_equal. apply IH.
Qed.
Lemma dcat_In a b x : (forall w, x <> SText w) -> In x (str_content a ++ str_content b) <-> In x (str_content (dcat a b)).
Proof.
  intros Hx. unfold dcat. destruct a as [t [|p l]]; unfold str_content; cbn [ds_rest ds_text].
  - cbn [flat_map app In]. split; intros [H|H]; try (exfalso; now apply (Hx _ (eq_sym H))); [destruct H as [H|H]; [exfalso; now apply (Hx _ (eq_sym H))|]|]; auto.
  - cbn [app In]. assert (G : In x (rc (p :: l) ++ SText (ds_text b) :: rc (ds_rest b)) <-> In x (rc (glue (p :: l) b))).
    { revert p. induction l as [|q l IH]; intros [y w].
      - cbn [glue flat_map fst snd app In]. split; intros [H|[H|H]]; auto; try (exfalso; now apply (Hx _ (eq_sym H))).
        destruct H as [H|H]; auto. exfalso; now apply (Hx _ (eq_sym H)).
      - rewrite glue_cons, !rc_cons. cbn [app In]. rewrite (IH q). tauto. }
    rewrite G. tauto.
Qed.

Section Docs.
  Variables (d : icu) (fe : fmtenv) (reg : cregistry) (tag locale : ustr).
  Hypothesis Hd : icu_ok d.
  Notation build := (formatter_try_new d l10n_grammar fe reg tag locale).

  Lemma grammar_dec s : has_grammar s \/ ~ has_grammar s.
  Proof.
    destruct (existsb (fun c => existsb (N.eqb c) l10n_grammar) s) eqn:E.
    - left. apply existsb_exists in E as (c & H1 & H2). exists c. split; [exact H1|]. now apply gram_In.
    - right. intros (c & H1 & H2). apply gram_In in H2. assert (T : existsb (fun c => existsb (N.eqb c) l10n_grammar) s = true) by (apply existsb_exists; eauto).
      congruence.
  Qed.
  Lemma built_nonempty s fm : build s = Ok fm -> s <> [].
  Proof. intros H ->. unfold formatter_try_new, tree_try_new in H. cbn in H. discriminate. Qed.

  Lemma text_checked w : content_check fe reg locale ([SText w], None) = Ok tt.
  Proof. reflexivity. Qed.

  Lemma ready_iff e : doc_wf d e -> unique_names e -> supported d e ->
    ready d fe reg tag locale (dprint e) <-> buildable reg (doc_content e).
  Proof.
    intros H1 H2 H3. destruct (grammar_dec (dprint e)) as [G|G].
    - assert (Hne : dprint e <> []) by (destruct G as (c & Hc & _); intros E; rewrite E in Hc; destruct Hc).
      destruct (doc_content_of d Hd e H1 H2 H3 Hne) as (a & Ha & Ej). unfold ready.
      rewrite (build_iff d fe reg tag locale Hd _ a Ha Hne). split.
      + intros [H|(_ & H)]; [contradiction|]. exact (buildable_joined reg _ _ Ej H).
      + intros H. right. split; [exact G|]. exact (buildable_joined reg _ _ (eq_sym Ej) H).
    - split; [|intros _; now left]. intros _. rewrite (no_grammar e G). apply (content_check_iff fe reg locale). apply text_checked.
  Qed.

  Lemma formatted_ev e vals r : doc_wf d e -> unique_names e -> supported d e -> formatted d fe reg tag locale (dprint e) vals r ->
    content_check fe reg locale (doc_content e) = Ok tt /\ r <> NoFuel /\
    exists f st, same_out r (snd (astring fe reg locale vals f (strings_of (doc_content e)) (us "_") st)).
  Proof.
    intros H1 H2 H3 [(G & ->)|(fm & fm' & Hb & Haf & f & Hf & Hr)].
    - rewrite (no_grammar e G). split; [reflexivity|]. split; [discriminate|]. exists 1, (fun _ => []). cbn [astring strings_of mget fst].
      rewrite ueqb_refl. cbn [aitems aitem snd]. now rewrite app_nil_r.
    - pose proof (built_nonempty _ _ Hb) as Hne. destruct (doc_content_of d Hd e H1 H2 H3 Hne) as (a & Ha & Ej).
      destruct (try_new_inv _ _ _ _ _ _ _ _ _ Ha Hb) as (Hc & Hrep & _). split; [now rewrite <- (content_check_join_eq fe reg locale a _ Ej)|].
      split; [exact Hr|]. destruct (after_sim fe reg locale fm a fm' Hrep Haf) as (st & Hsim). exists f, st. specialize (Hsim vals f).
      rewrite Hf in Hsim. now rewrite <- (astring_join_eq fe reg locale vals f a _ _ st Ej).
  Qed.

  Variables (a b : dstr) (g : option (ustr * list dnamed)).
  Let e := mk_doc (dcat a b) g.
  Let e1 := mk_doc a g.
  Let e2 := mk_doc b g.
  Hypothesis W1 : doc_wf d e1.
  Hypothesis W2 : doc_wf d e2.
  Hypothesis U : unique_names e.
  Hypothesis S : supported d e.

  Lemma whole_wf : doc_wf d e.
  Proof. destruct W1 as (A & G), W2 as (B & _). split; [now apply dcat_wf|exact G]. Qed.
  Lemma parts_unique : unique_names e1 /\ unique_names e2.
  Proof.
    destruct U as (N1 & N2). unfold unique_names, placeholder_names, string_names in *. unfold e, e1, e2 in *. cbn [doc_content d_main d_group fst] in *.
    rewrite dcat_spats, <- app_assoc in N1. unfold group_of in *. cbn [snd] in *.
    assert (N : forall X Y Z : list ustr, NoDup (X ++ Y ++ Z) -> NoDup (X ++ Z) /\ NoDup (Y ++ Z)).
    { intros X Y Z. split; [|now apply NoDup_app_remove_l in H]. induction X as [|x X IH]; cbn in *; [now apply NoDup_app_remove_l in H|].
      inversion H as [|? ? Hn Hl]; subst. constructor; [|now apply IH]. intros Hi. apply Hn. apply in_app_or in Hi as [Hi|Hi]; apply in_or_app; [now left|].
      right. apply in_or_app. now right. }
    destruct (N _ _ _ N1). auto.
  Qed.

  Definition parts_content : sast := (str_content a ++ str_content b, snd (doc_content e)).
  Lemma whole_joined : joined parts_content = joined (doc_content e).
  Proof. unfold joined, parts_content. cbn [fst snd]. f_equal. unfold e, doc_content. cbn [fst d_main]. now rewrite dcat_join. Qed.

  Lemma strings_In k l x : (forall w, x <> SText w) -> In (k, l) (all_strings parts_content) -> In x l ->
    exists l', In (k, l') (all_strings (doc_content e)) /\ In x l'.
  Proof.
    intros Hx [E|E] Hi.
    - injection E as <- <-. exists (str_content (dcat a b)). split; [now left|]. now apply dcat_In.
    - exists l. split; [now right|exact Hi].
  Qed.

  Theorem parts_ready : ready d fe reg tag locale (dprint e) <-> ready d fe reg tag locale (dprint e1) /\ ready d fe reg tag locale (dprint e2).
  Proof.
    destruct parts_unique as (U1 & U2). rewrite (ready_iff e whole_wf U S), (ready_iff e1 W1 U1 S), (ready_iff e2 W2 U2 S).
    pose proof (parts_buildable reg (str_content a) (str_content b) (snd (doc_content e))) as P. split; intros H.
    - apply P. exact (buildable_joined reg _ _ (eq_sym whole_joined) H).
    - apply P in H. exact (buildable_joined reg _ _ whole_joined H).
  Qed.

  Lemma after_same x x' y y' : same_out x x' -> same_out y y' -> same_out (after x y) (after x' y').
  Proof.
    unfold same_out. intros H1 H2. destruct x as [s|er| |], x' as [s'|er'| |]; cbn in H1; try discriminate; cbn [after map_err]; try exact H1.
    injection H1 as ->. destruct y as [t|er| |], y' as [t'|er'| |]; cbn in H2; try discriminate; cbn [map_err]; try exact H2.
    now injection H2 as ->.
  Qed.

  Lemma parts_hash : hash_in_plurals_only (doc_content e) -> hash_in_plurals_only parts_content.
  Proof.
    intros Hh name body x ph sels sel branch Hb Hx Hsel Hin target Ht Hsh.
    destruct (strings_In name body x ltac:(intros w E0; unfold is_select in Hsel; congruence) Hb Hx) as (b' & Hb' & Hx').
    destruct (strings_In sel target SHash ltac:(discriminate) Ht Hsh) as (t' & Ht' & Hsh').
    exact (Hh name b' x ph sels sel branch Hb' Hx' Hsel Hin t' Ht' Hsh').
  Qed.
  Theorem parts_formatted vals r r1 r2 : hash_in_plurals_only (doc_content e) ->
    formatted d fe reg tag locale (dprint e) vals r -> formatted d fe reg tag locale (dprint e1) vals r1 ->
    formatted d fe reg tag locale (dprint e2) vals r2 -> alike r (after r1 r2).
  Proof.
    intros Hh F F1 F2. destruct parts_unique as (U1 & U2).
    destruct (formatted_ev e vals r whole_wf U S F) as (C & N & f & st & E).
    destruct (formatted_ev e1 vals r1 W1 U1 S F1) as (_ & N1 & f1 & st1 & E1).
    destruct (formatted_ev e2 vals r2 W2 U2 S F2) as (_ & N2 & f2 & st2 & E2).
    rewrite <- (astring_join_eq fe reg locale vals _ _ _ _ st whole_joined) in E.
    assert (Hp : content_check fe reg locale parts_content = Ok tt) by now rewrite (content_check_join_eq fe reg locale _ _ whole_joined).
    apply (same_alike _ _ _ E).
    pose proof (parts_hash Hh) as Hh'.
    pose proof (parts_ev fe reg locale vals (str_content a) (str_content b) (snd (doc_content e)) Hp Hh' f f1 f2 st st1 st2) as P.
    unfold whole in P. fold parts_content in P. rewrite P; [now apply after_same|intros En..].
    - apply N. now apply (same_fuel _ _ E).
    - apply N1. now apply (same_fuel _ _ E1).
    - apply N2. now apply (same_fuel _ _ E2).
  Qed.
  Theorem parts_result vals r1 r2 : hash_in_plurals_only (doc_content e) ->
    formatted d fe reg tag locale (dprint e1) vals r1 -> formatted d fe reg tag locale (dprint e2) vals r2 ->
    exists r, formatted d fe reg tag locale (dprint e) vals r /\ alike r (after r1 r2).
  Proof.
    intros Hh F1 F2. assert (X : exists r, formatted d fe reg tag locale (dprint e) vals r).
    2:{ destruct X as (r & F). exists r. split; [exact F|]. now apply (parts_formatted vals). }
    destruct parts_unique as (U1 & U2).
    destruct (formatted_ev e1 vals r1 W1 U1 S F1) as (_ & N1 & f1 & st1 & E1).
    destruct (formatted_ev e2 vals r2 W2 U2 S F2) as (_ & N2 & f2 & st2 & E2).
    assert (R : ready d fe reg tag locale (dprint e)).
    { apply parts_ready. split; [destruct F1 as [(G & _)|(fm & _ & Hb & _)]|destruct F2 as [(G & _)|(fm & _ & Hb & _)]]; first [now left|right; eauto]. }
    destruct R as [G|(fm & Hb)]; [exists (Ok (dprint e)); left; now split|].
    pose proof (built_nonempty _ _ Hb) as Hne. destruct (doc_content_of d Hd e whole_wf U S Hne) as (c & Ha & Ej).
    destruct (try_new_inv _ _ _ _ _ _ _ _ _ Ha Hb) as (Hc & Hrep & _). destruct (after_sim fe reg locale fm c fm Hrep (af_fresh _ _ _)) as (st & Hsim).
    assert (Hp : content_check fe reg locale parts_content = Ok tt).
    { rewrite (content_check_join_eq fe reg locale _ _ whole_joined). now rewrite <- (content_check_join_eq fe reg locale c _ Ej). }
    destruct (parts_end fe reg locale vals (str_content a) (str_content b) (snd (doc_content e)) Hp (parts_hash Hh) f1 f2 st st1 st2) as (f & Hf).
    - intros En. apply N1. now apply (same_fuel _ _ E1).
    - intros En. apply N2. now apply (same_fuel _ _ E2).
    - unfold whole in Hf. fold parts_content in Hf. rewrite (astring_join_eq fe reg locale vals f _ _ _ st whole_joined) in Hf.
      rewrite <- (astring_join_eq fe reg locale vals f c _ _ st Ej) in Hf.
      exists (snd (format f fe reg fm vals)). right. exists fm, fm. split; [exact Hb|]. split; [constructor|]. exists f. split; [reflexivity|].
      intros En. apply Hf. now apply (same_fuel _ _ (Hsim vals f)).
  Qed.
End Docs.
