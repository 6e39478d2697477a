(** Proofs that the order of the values given to the localiser does not matter for the text. *)
From Coq Require Import Permutation.
From Verif Require Import Base BaseFacts LexerModel TreeModel ValueModel CommandModel IsoModel FormatterModel FormatterSpec
  RegistryModel LocaliserModel LocaliserSpec OrderModel OrderSpec OrderProofs.
Local Opaque us.

(** ** Formatting uses a map of values by key only *)
Section Ext.
  Variables (fe : fmtenv) (reg : cregistry) (fm : formatter) (vals vals' : amap pvalue).
  Hypothesis Hv : forall k, mget k vals = mget k vals'.

  Lemma delayed_ext l : delayed_parameters vals l = delayed_parameters vals' l.
  Proof. induction l as [|v l IH]; [reflexivity|]. destruct v; cbn [delayed_parameters]; auto. now rewrite IH, Hv. Qed.
  Lemma command_ext l : format_command reg vals l = format_command reg vals' l.
  Proof. destruct l as [|v l]; [reflexivity|]. destruct v; cbn [format_command]; auto. now rewrite delayed_ext. Qed.
  Lemma part_ext rec rec' p ns : (forall k ns, rec k ns = rec' k ns) ->
    format_part fe reg fm vals rec p ns = format_part fe reg fm vals' rec' p ns.
  Proof.
    intros Hr. destruct p; cbn [format_part]; unfold value_of; try reflexivity; try now rewrite Hv.
    - rewrite <- Hv. destruct (mget placeholder vals) as [v|]; [|reflexivity].
      assert (Hf : forall d rules idx ns, find_number_sign fe fm rec d rules idx ns = find_number_sign fe fm rec' d rules idx ns).
      { intros d rules idx ns0. unfold find_number_sign. destruct (fe_decimal fe _ None); [|reflexivity].
        destruct (nth_error _ idx) as [sels|]; [|reflexivity]. destruct (mget _ sels) as [named|]; [|reflexivity]. destruct (mget named _); [|reflexivity].
        destruct (update_numbers _ _ ns0) as (ns1, [| | |]); auto. }
      destruct c; cbn [format_complex].
      + destruct (fe_cardinal fe _); [|reflexivity]. destruct (number_of fe _ v); auto.
      + destruct (fe_ordinal fe _); [|reflexivity]. destruct v; auto.
      + destruct (value_text v) as [w|]; [|reflexivity]. unfold format_select. destruct (nth_error _ _) as [sels|]; [|reflexivity]. destruct (mget w sels); auto.
    - now rewrite command_ext.
  Qed.
  Lemma parts_ext rec rec' l : (forall k ns, rec k ns = rec' k ns) -> forall ns,
    format_parts fe reg fm vals rec l ns = format_parts fe reg fm vals' rec' l ns.
  Proof.
    intros Hr. induction l as [|p l IH]; intros ns; [reflexivity|]. cbn [format_parts].
    rewrite (part_ext rec rec' p ns Hr). destruct (format_part fe reg fm vals' rec' p ns) as (ns1, [s| | |]); auto. now rewrite IH.
  Qed.
  Lemma pattern_ext fuel : forall k ns, format_pattern fe reg fm vals fuel k ns = format_pattern fe reg fm vals' fuel k ns.
  Proof.
    induction fuel as [|f IH]; intros k ns; [reflexivity|]. cbn [format_pattern]. destruct (mget k _); [|reflexivity]. now apply parts_ext.
  Qed.
  Lemma format_ext fuel : format fuel fe reg fm vals = format fuel fe reg fm vals'.
  Proof. unfold format. now rewrite pattern_ext. Qed.
End Ext.

Scheme same_data_mut := Minimality for same_data Sort Prop
  with same_values_mut := Minimality for same_values Sort Prop.
Combined Scheme same_both from same_data_mut, same_values_mut.

Lemma distinct_in_iff vs : keys_distinct_in vs <-> forall ph d, In (ph, VData d) vs -> keys_distinct d.
Proof.
  induction vs as [|(ph, v) vs IH]; [split; [intros _ ? ? []|constructor]|]. split.
  - intros H ph' d' Hi. inversion H; subst; (destruct Hi as [Hi|Hi]; [|apply IH in Hi; auto]).
    + injection Hi as -> ->. assumption.
    + injection Hi as -> ->. now destruct (H2 d').
  - intros H. assert (Hr : keys_distinct_in vs) by (apply IH; intros ph' d' Hi; apply (H ph'); now right).
    destruct v; try (apply ki_other; [discriminate|exact Hr]). apply ki_data; [|exact Hr]. apply (H ph). now left.
Qed.

Section Data.
  Context {PE : Type}.
  Variables (E : lenv PE) (t : ustr) (fallback : bool).

  Lemma same_names vs vs1 : same_values vs vs1 -> map fst vs1 = map fst vs.
  Proof. induction 1; cbn; congruence. Qed.
  Lemma localised_names vs vs1 : localised_values E t fallback vs vs1 -> map fst vs1 = map fst vs.
  Proof. induction 1; cbn; congruence. Qed.

  Lemma same_distinct : (forall d d', same_data d d' -> keys_distinct d -> keys_distinct d') /\
    (forall vs vs1, same_values vs vs1 -> keys_distinct_in vs -> keys_distinct_in vs1).
  Proof.
    apply same_both.
    - auto.
    - intros c i vs vs1 vs' Hs IH HP H. inversion H; subst. constructor.
      + apply (Permutation_NoDup (Permutation_map fst HP)). now rewrite (same_names _ _ Hs).
      + rewrite distinct_in_iff. intros ph d Hi. apply (Permutation_in _ (Permutation_sym HP)) in Hi.
        apply (proj1 (distinct_in_iff vs1)) with (1 := IH ltac:(assumption)) in Hi. exact Hi.
    - auto.
    - intros ph d d' vs vs' _ IH1 _ IH2 H. inversion H; subst; [constructor; auto|]. now destruct (H2 d).
    - intros ph v vs vs' Hv _ IH H. inversion H; subst; [now destruct (Hv d)|]. constructor; auto.
  Qed.

  Lemma string_gives_ext vals vals' s t' w : (forall k, mget k vals = mget k vals') -> string_gives E vals s t' w -> string_gives E vals' s t' w.
  Proof.
    intros Hv H. destruct H as [H|fm w H1 H2 H3]; [now constructor|]. apply (sg_format E vals' s t' fm w); auto.
    now rewrite <- (format_ext (le_fmt E) (le_reg E) fm vals vals' Hv).
  Qed.

  Lemma localised_perm vs vs' : Permutation vs vs' -> forall l, localised_values E t fallback vs l ->
    exists l', localised_values E t fallback vs' l' /\ Permutation l l'.
  Proof.
    induction 1 as [|x l l' HP IH|x y l|l1 l2 l3 H1 IH1 H2 IH2]; intros r H.
    - eauto.
    - inversion H as [|ph d s0 t0 a b A1 A2|ph v a b A1 A2]; subst; destruct (IH _ A2) as (r' & B1 & B2).
      + eexists. split; [apply lv_data; eassumption|]. now constructor.
      + eexists. split; [apply lv_other; eassumption|]. now constructor.
    - inversion H as [|ph d s0 t0 a b A1 A2|ph v a b A1 A2]; subst;
        inversion A2 as [|ph' d' s1 t1 a' b' B1 B2|ph' v' a' b' B1 B2]; subst;
        (eexists; split; [|apply perm_swap]); repeat (first [apply lv_data; [assumption|]|apply lv_other; [assumption|]]); assumption.
    - destruct (IH1 _ H) as (r1 & A1 & A2). destruct (IH2 _ A1) as (r2 & B1 & B2). exists r2. split; [exact B1|]. eapply Permutation_trans; eassumption.
  Qed.

  Lemma same_localised : (forall d d', same_data d d' -> keys_distinct d -> forall w t', localised E t fallback d w t' -> localised E t fallback d' w t') /\
    (forall vs vs1, same_values vs vs1 -> keys_distinct_in vs -> forall l, localised_values E t fallback vs l -> localised_values E t fallback vs1 l).
  Proof.
    apply same_both.
    - auto.
    - intros c i vs vs1 vs' Hs IH HP Hk w t' H. inversion Hk as [|? ? ? Hn Hi]; subst.
      inversion H as [|? ? ? l s ? ? A1 A2 A3]; subst. destruct (localised_perm _ _ HP l (IH Hi _ A1)) as (l' & B1 & B2).
      apply (lz_format E t fallback c i vs' l' s t' w); [exact B1|exact A2|]. apply (string_gives_ext l l'); [|exact A3].
      intros k. apply perm_mget; [exact B2|]. unfold mkeys. now rewrite (localised_names _ _ A1).
    - auto.
    - intros ph d d' vs vs' _ IH1 _ IH2 Hk l H. inversion Hk; subst; [|now destruct (H2 d)].
      inversion H; subst; [constructor; auto|]. exfalso. match goal with K : forall d0, VData d <> VData d0 |- _ => exact (K d eq_refl) end.
    - intros ph v vs vs' Hv _ IH Hk l H. inversion Hk; subst; [now destruct (Hv d)|].
      inversion H; subst; [now destruct (Hv d)|]. constructor; auto.
  Qed.
  Lemma same_sym : (forall d d', same_data d d' -> same_data d' d) /\ (forall vs vs1, same_values vs vs1 -> same_values vs1 vs).
  Proof.
    apply same_both; try (constructor; auto; fail).
    intros c i vs vs1 vs' Hs IH HP.
    assert (Hp : forall a b, Permutation a b -> forall c, same_values a c -> exists c', same_values b c' /\ Permutation c c').
    { clear. induction 1 as [|x l l' HP IH|x y l|l1 l2 l3 H1 IH1 H2 IH2]; intros r H.
      - eauto.
      - inversion H as [|ph d d' a b A1 A2|ph v a b A1 A2]; subst; destruct (IH _ A2) as (r' & B1 & B2).
        + eexists. split; [apply sv_data; eassumption|]. now constructor.
        + eexists. split; [apply sv_other; eassumption|]. now constructor.
      - inversion H as [|ph d s0 a b A1 A2|ph v a b A1 A2]; subst;
          inversion A2 as [|ph' d' s1 a' b' B1 B2|ph' v' a' b' B1 B2]; subst;
          (eexists; split; [|apply perm_swap]); repeat (first [apply sv_data; [assumption|]|apply sv_other; [assumption|]]); assumption.
      - destruct (IH1 _ H) as (r1 & A1 & A2). destruct (IH2 _ A1) as (r2 & B1 & B2). exists r2. split; [exact B1|]. eapply Permutation_trans; eassumption. }
    destruct (Hp _ _ HP _ IH) as (vs2 & A1 & A2). apply (sd_some c i vs' vs2 vs A1). now apply Permutation_sym.
  Qed.
End Data.

Theorem same_text {PE} (E : lenv PE) t fallback d d' w t' : same_data d d' -> keys_distinct d ->
  localised E t fallback d w t' <-> localised E t fallback d' w t'.
Proof.
  intros Hs Hk. split; apply (proj1 (same_localised E t fallback)); auto; [now apply (proj1 same_sym)|].
  now apply (proj1 same_distinct d d').
Qed.
