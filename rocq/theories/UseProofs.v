(** Proofs that values and strings that are not used do not matter. *)
From Verif Require Import Base BaseFacts LexerModel TreeModel TreeSpec ValueModel CommandModel IsoModel FormatterModel FormatterSpec
  FormatterAbs FormatterRefine FormatterRefine2 FormatterSim FormatterProofs FormatterProofs4 UseSpec.
Local Opaque us.

(** ** Values *)
Definition part_asks (p : ppart) (w : ustr) : Prop :=
  match p with
  | PtString ph | PtDecimal ph _ _ | PtDateTime ph _ _ _ | PtComplex ph _ _ => ph = w
  | PtCommand (_ :: l) => In (VString w) l
  | _ => False
  end.

Section Values.
  Variables (fe : fmtenv) (reg : cregistry) (fm : formatter) (vals vals' : amap pvalue).

  Lemma delayed_same l : (forall w, In (VString w) l -> mget w vals = mget w vals') -> delayed_parameters vals l = delayed_parameters vals' l.
  Proof.
    induction l as [|v l IH]; intros H; [reflexivity|]. destruct v; cbn [delayed_parameters]; auto.
    rewrite IH by (intros w Hw; apply H; now right). now rewrite (H s (or_introl eq_refl)).
  Qed.
  Lemma part_same rec rec' p ns : (forall w, part_asks p w -> mget w vals = mget w vals') -> (forall k ns, rec k ns = rec' k ns) ->
    format_part fe reg fm vals rec p ns = format_part fe reg fm vals' rec' p ns.
  Proof.
    intros Hv Hr. destruct p; cbn [format_part part_asks] in *; unfold value_of; try reflexivity; try now rewrite (Hv _ eq_refl).
    - rewrite <- (Hv _ eq_refl). destruct (mget placeholder vals) as [v|]; [|reflexivity].
      assert (Hf : forall d rules idx ns, find_number_sign fe fm rec d rules idx ns = find_number_sign fe fm rec' d rules idx ns).
      { intros d rules idx ns0. unfold find_number_sign. destruct (fe_decimal fe _ None); [|reflexivity].
        destruct (nth_error _ idx) as [sels|]; [|reflexivity]. destruct (mget _ sels) as [named|]; [|reflexivity]. destruct (mget named _); [|reflexivity].
        destruct (update_numbers _ _ ns0) as (ns1, [| | |]); auto. }
      destruct c; cbn [format_complex].
      + destruct (fe_cardinal fe _); [|reflexivity]. destruct (number_of fe _ v); auto.
      + destruct (fe_ordinal fe _); [|reflexivity]. destruct v; auto.
      + destruct (value_text v) as [w|]; [|reflexivity]. unfold format_select. destruct (nth_error _ _) as [sels|]; [|reflexivity]. destruct (mget w sels); auto.
    - destruct strings as [|v l]; [reflexivity|]. destruct v; cbn [format_command]; auto. now rewrite (delayed_same l Hv).
  Qed.

  Hypothesis Hv : forall k ps p w, In (k, ps) (fm_patterns fm) -> In p ps -> part_asks p w -> mget w vals = mget w vals'.

  Lemma parts_same rec rec' l : (forall p w, In p l -> part_asks p w -> mget w vals = mget w vals') -> (forall k ns, rec k ns = rec' k ns) -> forall ns,
    format_parts fe reg fm vals rec l ns = format_parts fe reg fm vals' rec' l ns.
  Proof.
    intros Hl Hr. induction l as [|p l IH]; intros ns; [reflexivity|]. cbn [format_parts].
    rewrite (part_same rec rec' p ns (fun w Hw => Hl p w (or_introl eq_refl) Hw) Hr). destruct (format_part fe reg fm vals' rec' p ns) as (ns1, [s| | |]); auto.
    rewrite IH; [reflexivity|]. intros q w Hq. apply Hl. now right.
  Qed.
  Lemma pattern_same fuel : forall k ns, format_pattern fe reg fm vals fuel k ns = format_pattern fe reg fm vals' fuel k ns.
  Proof.
    induction fuel as [|f IH]; intros k ns; [reflexivity|]. cbn [format_pattern]. destruct (mget k (fm_patterns fm)) as [ps|] eqn:Ek; [|reflexivity].
    apply parts_same; [|exact IH]. intros p w Hp. apply (Hv k ps); [now apply mget_In|exact Hp].
  Qed.
  Lemma format_same fuel : format fuel fe reg fm vals = format fuel fe reg fm vals'.
  Proof. unfold format. now rewrite pattern_same. Qed.
End Values.

Lemma after_patterns fe reg fm fm' : after_formatting fe reg fm fm' -> fm_patterns fm' = fm_patterns fm.
Proof.
  induction 1 as [|fm1 vals fuel _ IH]; [reflexivity|]. unfold format.
  destruct (format_pattern fe reg fm1 vals fuel (us "_") (fm_numbers fm1)) as (ns, r). exact IH.
Qed.

Section Content.
  Variables (fe : fmtenv) (reg : cregistry) (locale : ustr).

  Lemma rep_asks S p g w : part_rep fe reg locale S p g -> part_asks p w -> exists x, In x g /\ asks_for x w.
  Proof.
    destruct 1 as [ws|i|ph|ph sels sign group|ph sels ld lt cal|ph c idx sels|ps name l s|ps name l Hp]; cbn [part_asks]; intros Hw; try contradiction.
    1-4: subst w; eexists; (split; [now left|]); left; eauto.
    exists (SCmd ps). split; [now left|]. right. unfold cmd_parts in Hp.
    destruct ps as [|[n|] [|[n2|] r]]; try discriminate Hp.
    - destruct (cmd_args (SId n2 :: r)); cbn [bind] in Hp; discriminate Hp.
    - destruct (cmd_args r) as [l'| | |] eqn:Er; try discriminate Hp. injection Hp as <- <-. apply cmd_args_iff in Er as (args & -> & ->).
      exists n, args. split; [reflexivity|]. apply in_map_iff in Hw as (y & Hy & Hin). now injection Hy as ->.
  Qed.
  Lemma reps_asks S ps l p w : parts_rep fe reg locale S ps l -> In p ps -> part_asks p w -> exists x, In x l /\ asks_for x w.
  Proof.
    induction 1 as [|q g ps l Hq _ IH]; intros Hin Hw; [destruct Hin|]. destruct Hin as [->|Hin].
    - destruct (rep_asks _ _ _ _ Hq Hw) as (x & Hx & Ha). exists x. split; [apply in_or_app; now left|exact Ha].
    - destruct (IH Hin Hw) as (x & Hx & Ha). exists x. split; [apply in_or_app; now right|exact Ha].
  Qed.
  Lemma pats_asks S pats strs k ps p w : pats_rep fe reg locale S pats strs -> In (k, ps) pats -> In p ps -> part_asks p w ->
    exists body x, In (k, body) strs /\ In x body /\ asks_for x w.
  Proof.
    induction 1 as [|[k1 ps1] [k2 l] pats strs [H1 H2] _ IH]; intros Hin Hp Hw; [destruct Hin|]. cbn [fst snd] in *. subst k2. destruct Hin as [[= -> ->]|Hin].
    - destruct (reps_asks _ _ _ _ _ H2 Hp Hw) as (x & Hx & Ha). exists l, x. split; [now left|]. now split.
    - destruct (IH Hin Hp Hw) as (body & x & H3 & H4). exists body, x. split; [now right|exact H4].
  Qed.
End Content.

Theorem values_used d g fe reg tag locale s a fm fm' vals vals' fuel : content_of d g s a -> formatter_try_new d g fe reg tag locale s = Ok fm ->
  after_formatting fe reg fm fm' -> (forall w, mentions a w -> mget w vals = mget w vals') ->
  format fuel fe reg fm' vals = format fuel fe reg fm' vals'.
Proof.
  intros Ha Hf Haf Hm. destruct (try_new_inv d g fe reg tag locale s a fm Ha Hf) as (_ & Hrep & _).
  apply format_same. intros k ps p w Hin Hp Hw. rewrite (after_patterns _ _ _ _ Haf) in Hin.
  destruct (pats_asks _ _ _ _ _ _ _ _ _ _ (fr_pats _ _ _ _ _ Hrep) Hin Hp Hw) as (body & x & H1 & H2 & H3).
  apply Hm. exists k, body, x. split; [exact H1|]. now split.
Qed.

(** ** Named strings *)
Section Strings.
  Variables (fe : fmtenv) (reg : cregistry) (locale : ustr) (vals : amap pvalue) (a a' : sast).
  Hypothesis Hs : forall name, reached a name -> mget name (all_strings a) = mget name (all_strings a').

  Lemma num_reached rec rec' sels d rules st : (forall m st, In m (map fst sels) -> rec m st = rec' m st) ->
    (forall m, In m (map fst sels) -> mget m (all_strings a) = mget m (all_strings a')) ->
    anumber fe locale rec (strings_of a) sels d rules st = anumber fe locale rec' (strings_of a') sels d rules st.
  Proof.
    intros Hr Hm. unfold anumber. destruct (fe_decimal fe locale None); [|reflexivity]. rewrite pairs_get.
    destruct (umem (plural_category (rules d)) (map fst sels)) eqn:E; [|reflexivity]. apply umem_In in E.
    change (strings_of a) with (all_strings a). change (strings_of a') with (all_strings a'). rewrite (Hm _ E).
    destruct (mget _ (all_strings a')); [|reflexivity]. now apply Hr.
  Qed.

  Lemma items_reached f self l : (forall m st, reached a m -> astring fe reg locale vals f (strings_of a) m st = astring fe reg locale vals f (strings_of a') m st) ->
    (forall x ph kw sels sel, In x l -> x = SPat ph (Some (kw, sels)) -> In sel (map fst sels) -> reached a sel) -> forall st,
    aitems fe reg locale vals (astring fe reg locale vals f (strings_of a)) (strings_of a) self l st =
    aitems fe reg locale vals (astring fe reg locale vals f (strings_of a')) (strings_of a') self l st.
  Proof.
    intros IH. induction l as [|x l IHl]; intros Hl st; [reflexivity|]. cbn [aitems].
    assert (E : aitem fe reg locale vals (astring fe reg locale vals f (strings_of a)) (strings_of a) self x st =
                aitem fe reg locale vals (astring fe reg locale vals f (strings_of a')) (strings_of a') self x st).
    { destruct x as [w| |ph [[kw sels]|]|ps]; cbn [aitem]; try reflexivity.
      assert (Hrec : forall m st, In m (map fst sels) -> astring fe reg locale vals f (strings_of a) m st = astring fe reg locale vals f (strings_of a') m st).
      { intros m st0 Hin. apply IH. exact (Hl _ ph kw sels m (or_introl eq_refl) eq_refl Hin). }
      assert (Hget : forall m, In m (map fst sels) -> mget m (all_strings a) = mget m (all_strings a')).
      { intros m Hin. apply Hs. exact (Hl _ ph kw sels m (or_introl eq_refl) eq_refl Hin). }
      unfold akw. destruct (ueqb kw (us "decimal")); [reflexivity|]. destruct (ueqb kw (us "date_time")); [reflexivity|].
      destruct (mget ph vals) as [v|]; [|reflexivity]. destruct (ueqb kw (us "ordinal")).
      - destruct (fe_ordinal fe locale); [|reflexivity]. destruct v; try reflexivity. now apply num_reached.
      - destruct (ueqb kw (us "plural")).
        + destruct (fe_cardinal fe locale); [|reflexivity]. destruct (number_of fe _ v); try reflexivity. now apply num_reached.
        + destruct (value_text v) as [w|]; [|reflexivity]. rewrite pairs_get. destruct (umem w (map fst sels)) eqn:E; [|reflexivity].
          apply Hrec. now apply umem_In. }
    rewrite E. destruct (aitem _ _ _ _ _ (strings_of a') self x st) as (st1, [s| | |]); try reflexivity.
    rewrite IHl; [reflexivity|]. intros y ph kw sels sel Hy. apply Hl. now right.
  Qed.

  Lemma string_reached f : forall m st, reached a m -> astring fe reg locale vals f (strings_of a) m st = astring fe reg locale vals f (strings_of a') m st.
  Proof.
    induction f as [|f IH]; intros m st Hm; [reflexivity|]. cbn [astring]. pose proof (Hs m Hm) as E.
    change (all_strings a) with (strings_of a) in E. change (all_strings a') with (strings_of a') in E. rewrite <- E.
    destruct (mget m (strings_of a)) as [l|] eqn:El; [|reflexivity]. apply items_reached; [exact IH|].
    intros x ph kw sels sel Hx -> Hin. exact (rc_selector a m l ph kw sels sel Hm El Hx Hin).
  Qed.
End Strings.

Theorem strings_used d g fe reg tag tag' locale s s' a a' fm fm' vals fuel t : content_of d g s a -> content_of d g s' a' ->
  formatter_try_new d g fe reg tag locale s = Ok fm -> formatter_try_new d g fe reg tag' locale s' = Ok fm' ->
  (forall name, reached a name -> mget name (all_strings a) = mget name (all_strings a')) ->
  snd (format fuel fe reg fm vals) = Ok t <-> snd (format fuel fe reg fm' vals) = Ok t.
Proof.
  intros Ha Ha' Hf Hf' Hs. destruct (try_new_inv d g fe reg tag locale s a fm Ha Hf) as (_ & Hrep & _).
  destruct (try_new_inv d g fe reg tag' locale s' a' fm' Ha' Hf') as (_ & Hrep' & _).
  pose proof (proj2 (sim_pattern fe reg locale fm a vals Hrep fuel (us "_") _ _ (R_init _ _ _ _ _ Hrep))) as S1.
  pose proof (proj2 (sim_pattern fe reg locale fm' a' vals Hrep' fuel (us "_") _ _ (R_init _ _ _ _ _ Hrep'))) as S2.
  unfold format. destruct (format_pattern fe reg fm vals fuel (us "_") (fm_numbers fm)) as (n1, r1).
  destruct (format_pattern fe reg fm' vals fuel (us "_") (fm_numbers fm')) as (n2, r2). cbn [snd] in *.
  rewrite (same_ok _ _ _ S1), (same_ok _ _ _ S2). rewrite (string_reached fe reg locale vals a a' Hs fuel _ _ (rc_main a)). reflexivity.
Qed.
