(** Values given to earlier calls do not matter (C115). *)
From Verif Require Import Base BaseFacts LexerModel TreeModel TreeSpec ValueModel CommandModel FormatterModel FormatterSpec FormatterProofs4
  RegistryModel LocaliserModel LocaliserSpec LocaliserProofs InterfereSpec.

Scheme same_shape_ind2 := Minimality for same_shape Sort Prop
  with same_shapes_ind2 := Minimality for same_shapes Sort Prop.

(** Maps with the same keys and related values. *)
Definition maps {V} (R : V -> V -> Prop) (m m' : amap V) : Prop := Forall2 (fun x y => fst x = fst y /\ R (snd x) (snd y)) m m'.
Definition opts {V} (R : V -> V -> Prop) (o o' : option V) : Prop :=
  match o, o' with Some v, Some v' => R v v' | None, None => True | _, _ => False end.
Lemma maps_get {V} (R : V -> V -> Prop) k m m' : maps R m m' -> opts R (mget k m) (mget k m').
Proof.
  induction 1 as [|[k1 v1] [k2 v2] m m' (Hk & Hv) Hm IH]; [exact Logic.I|]. cbn in *. subst k2. destruct (ueqb k k1); [exact Hv|exact IH].
Qed.
Lemma maps_insert {V} (R : V -> V -> Prop) k v v' m m' : R v v' -> maps R m m' -> maps R (minsert k v m) (minsert k v' m').
Proof.
  intros Hv. induction 1 as [|[k1 v1] [k2 v2] m m' (Hk & Hw) Hm IH].
  - constructor; [auto|constructor].
  - cbn in *. subst k2. destruct (ueqb k k1); constructor; auto.
Qed.

Section Interfere.
  Context {PE : Type}.
  Variable E : lenv PE.
  Hypothesis Hhash : provider_hash_ok E.
  Local Notation build t s := (formatter_try_new (le_icu E) localiser_grammar (le_fmt E) (le_reg E) t (le_locale E t) s).

  Definition twin_entries (e e' : cache_data) : Prop :=
    match e, e' with
    | CLocalised s t, CLocalised s' t' => s = s' /\ t = t'
    | CFormatter fm, CFormatter fm' => exists t s a fm0, content_of (le_icu E) localiser_grammar s a /\ hash_in_plurals_only a /\ build t s = Ok fm0 /\
        after_formatting (le_fmt E) (le_reg E) fm0 fm /\ after_formatting (le_fmt E) (le_reg E) fm0 fm'
    | _, _ => False
    end.
  Definition alike (st st' : lstate) : Prop :=
    ls_fallback st = ls_fallback st' /\ ls_caching st = ls_caching st' /\ ls_tag st = ls_tag st' /\ ls_script st = ls_script st' /\
    maps (maps twin_entries) (ls_cache st) (ls_cache st').

  Lemma alike_cached st st' t key : alike st st' -> opts twin_entries (cached st t key) (cached st' t key).
  Proof.
    intros (_ & _ & _ & _ & Hm). unfold cached. pose proof (maps_get _ t _ _ Hm) as H.
    destruct (mget t (ls_cache st)), (mget t (ls_cache st')); cbn in H; try contradiction; [exact (maps_get _ key _ _ H)|exact Logic.I].
  Qed.
  Lemma alike_has st st' t : alike st st' -> mhas t (ls_cache st) = mhas t (ls_cache st').
  Proof.
    intros (_ & _ & _ & _ & Hm). unfold mhas. pose proof (maps_get _ t _ _ Hm) as H.
    destruct (mget t (ls_cache st)), (mget t (ls_cache st')); cbn in H; try contradiction; reflexivity.
  Qed.
  Lemma alike_put st st' t m m' : alike st st' -> maps twin_entries m m' ->
    alike (set_cache st (minsert t m (ls_cache st))) (set_cache st' (minsert t m' (ls_cache st'))).
  Proof. intros (H1 & H2 & H3 & H4 & Hm) H. repeat (split; [assumption|]). cbn. now apply maps_insert. Qed.
  Lemma maps_one key e e' : twin_entries e e' -> maps twin_entries [(key, e)] [(key, e')].
  Proof. intros H. constructor; [auto|constructor]. Qed.
  Lemma alike_put_formatter st st' t key fm fm' : alike st st' -> twin_entries (CFormatter fm) (CFormatter fm') ->
    alike (put_formatter st t key fm) (put_formatter st' t key fm').
  Proof.
    intros Ha He. unfold put_formatter. pose proof Ha as (_ & _ & _ & _ & Hm). pose proof (maps_get _ t _ _ Hm) as H.
    destruct (mget t (ls_cache st)), (mget t (ls_cache st')); cbn in H; try contradiction; apply alike_put; auto; [now apply maps_insert|now apply maps_one].
  Qed.
  Lemma alike_return st st' b ca key s t : alike st st' ->
    alike (fst (return_string (PE := PE) st b ca key s t)) (fst (return_string (PE := PE) st' b ca key s t)) /\
    snd (return_string (PE := PE) st b ca key s t) = snd (return_string (PE := PE) st' b ca key s t).
  Proof.
    intros Ha. unfold return_string, add_string_to_cache. destruct ca; [|auto]. destruct b; cbn [negb].
    - pose proof Ha as (_ & _ & _ & _ & Hm). pose proof (maps_get _ t _ _ Hm) as H.
      destruct (mget t (ls_cache st)), (mget t (ls_cache st')); cbn in H; try contradiction; [|auto]. split; [|reflexivity].
      apply alike_put; [exact Ha|]. apply maps_insert; [now split|exact H].
    - split; [|reflexivity]. apply alike_put; [exact Ha|]. apply maps_one. now split.
  Qed.
  Lemma alike_literal st st' c i t fb ca : alike st st' ->
    alike (fst (actual_literal E st c i t fb ca)) (fst (actual_literal E st' c i t fb ca)) /\
    snd (actual_literal E st c i t fb ca) = snd (actual_literal E st' c i t fb ca).
  Proof.
    intros Ha. unfold actual_literal. pose proof (alike_cached st st' t (combined c i) Ha) as H.
    destruct (cached st t (combined c i)) as [[s1 t1|fm]|], (cached st' t (combined c i)) as [[s2 t2|fm']|]; cbn in H; try contradiction.
    - destruct H as (-> & ->). auto.
    - auto.
    - rewrite (alike_has st st' t Ha). destruct (find_string E c i t fb) as [[s t']| | |]; auto. now apply alike_return.
  Qed.
  Lemma twin_run fm fm' vals vals' : twin_entries (CFormatter fm) (CFormatter fm') ->
    twin_entries (CFormatter (fst (run_formatter E fm vals))) (CFormatter (fst (run_formatter E fm' vals'))) /\
    (vals = vals' -> snd (run_formatter E fm vals) = snd (run_formatter E fm' vals')).
  Proof.
    intros (t & s & a & fm0 & Hc & Hh & Hb & H1 & H2). split.
    - exists t, s, a, fm0. repeat (split; [assumption|]). split; now apply run_formatter_after.
    - intros <-. rewrite !run_formatter_result. rewrite (run_formatter_tag E fm0 fm H1), (run_formatter_tag E fm0 fm' H2).
      now rewrite (format_history _ _ _ _ _ _ _ a fm0 fm vals (le_fuel E) Hc Hh Hb H1), (format_history _ _ _ _ _ _ _ a fm0 fm' vals (le_fuel E) Hc Hh Hb H2).
  Qed.
  Lemma alike_format st st' c i vals vals' t fb ca : alike st st' ->
    alike (fst (actual_format E st c i vals t fb ca)) (fst (actual_format E st' c i vals' t fb ca)) /\
    (vals = vals' -> snd (actual_format E st c i vals t fb ca) = snd (actual_format E st' c i vals' t fb ca)).
  Proof.
    intros Ha. unfold actual_format. pose proof (alike_cached st st' t (combined c i) Ha) as H.
    destruct (cached st t (combined c i)) as [[s1 t1|fm]|], (cached st' t (combined c i)) as [[s2 t2|fm']|]; cbn in H; try contradiction.
    - destruct H as (-> & ->). auto.
    - destruct (twin_run fm fm' vals vals' H) as (G1 & G2). destruct (run_formatter E fm vals), (run_formatter E fm' vals'). cbn in *.
      split; [|exact G2]. now apply alike_put_formatter.
    - rewrite (alike_has st st' t Ha). destruct (find_string E c i t fb) as [[s t']| | |] eqn:Ef; auto.
      assert (Hr : let x := return_string (PE := PE) st (mhas t (ls_cache st')) ca (combined c i) s t' in
        let y := return_string (PE := PE) st' (mhas t (ls_cache st')) ca (combined c i) s t' in alike (fst x) (fst y) /\ (vals = vals' -> snd x = snd y)).
      { destruct (alike_return st st' (mhas t (ls_cache st')) ca (combined c i) s t' Ha). cbn. auto. }
      destruct s as [|x w]; [exact Hr|]. destruct (build t' (x :: w)) as [fm|e| |] eqn:Eb; auto.
      + assert (Ht : twin_entries (CFormatter fm) (CFormatter fm)).
        { destruct (built_content _ _ _ _ _ _ _ _ Eb) as (a & Hc). exists t', (x :: w), a, fm. split; [exact Hc|]. split; [|repeat split; auto; apply af_fresh].
          apply find_string_iff in Ef as [Ef|d _ _ _ Ef]; exact (Hhash _ _ _ _ _ _ Ef Hc). }
        destruct (twin_run fm fm vals vals' Ht) as (G1 & G2). destruct (run_formatter E fm vals), (run_formatter E fm vals'). cbn in *.
        split; [|exact G2]. destruct ca; [|exact Ha]. now apply alike_put_formatter.
      + destruct e; auto.
  Qed.

  (** The loop over the values of localisation data. *)
  Definition visit (c i t : ustr) (fb ca : bool) := fix go (vs : list (ustr * pvalue)) (new : amap pvalue) (st : lstate) {struct vs}
    : lstate * lout (ustr * ustr) :=
    match vs with
    | [] => actual_format E st c i new t fb ca
    | (ph, v) :: r =>
        match v with
        | VData inner =>
            match actual_format_data E inner t fb ca st with
            | (st', Ok (s, t')) => go r (minsert ph (VLocalised s t') new) st'
            | other => other
            end
        | _ => go r (minsert ph v new) st
        end
    end.
  Lemma data_visit c i vs t fb ca st : actual_format_data E (LData c i (Some vs)) t fb ca st = visit c i t fb ca vs [] st.
  Proof. reflexivity. Qed.
  Lemma visit_other c i t fb ca ph v vs new st : (forall d, v <> VData d) ->
    visit c i t fb ca ((ph, v) :: vs) new st = visit c i t fb ca vs (minsert ph v new) st.
  Proof. intros Hv. destruct v; try reflexivity. now destruct (Hv d). Qed.

  Lemma same_data t fb ca : forall d st st', alike st st' ->
    alike (fst (actual_format_data E d t fb ca st)) (fst (actual_format_data E d t fb ca st')) /\
    snd (actual_format_data E d t fb ca st) = snd (actual_format_data E d t fb ca st').
  Proof.
    fix IH 1. intros [c i [vs|]] st st' Ha; cbn [actual_format_data].
    - revert st st' Ha. generalize (@nil (ustr * pvalue)) at 1 2 3 4. induction vs as [|[ph v] vs IHvs]; intros new st st' Ha.
      + destruct (alike_format st st' c i new new t fb ca Ha) as (H1 & H2). auto.
      + destruct v; try (apply IHvs; exact Ha). destruct (IH d st st' Ha) as (H1 & H2).
        destruct (actual_format_data E d t fb ca st) as [st1 r1], (actual_format_data E d t fb ca st') as [st2 r2]. cbn in H1, H2. subst r2.
        destruct r1 as [[s t']|e| |]; [|split; [exact H1|reflexivity] ..]. now apply IHvs.
    - now apply alike_literal.
  Qed.
  Definition come_out_alike (x y : lstate * lout (PE := PE) (ustr * ustr)) : Prop :=
    (exists a, snd x = Ok a) -> (exists b, snd y = Ok b) -> alike (fst x) (fst y).
  Lemma shaped_data t fb ca : forall d d', same_shape d d' -> forall st st', alike st st' ->
    come_out_alike (actual_format_data E d t fb ca st) (actual_format_data E d' t fb ca st').
  Proof.
    apply (same_shape_ind2
      (fun d d' => forall st st', alike st st' -> come_out_alike (actual_format_data E d t fb ca st) (actual_format_data E d' t fb ca st'))
      (fun vs vs' => forall c i new new' st st', alike st st' -> come_out_alike (visit c i t fb ca vs new st) (visit c i t fb ca vs' new' st'))).
    - intros c i st st' Ha _ _. exact (proj1 (alike_literal st st' c i t fb ca Ha)).
    - intros c i vs vs' _ IH st st' Ha. rewrite !data_visit. now apply IH.
    - intros c i new new' st st' Ha _ _. exact (proj1 (alike_format st st' c i new new' t fb ca Ha)).
    - intros ph v vs vs' Hv _ IH c i new new' st st' Ha. rewrite visit_other by exact Hv. now apply IH.
    - intros ph v vs vs' Hv _ IH c i new new' st st' Ha. rewrite (visit_other c i t fb ca ph v vs') by exact Hv. now apply IH.
    - intros ph ph' d d' vs vs' _ IH1 _ IH2 c i new new' st st' Ha. specialize (IH1 st st' Ha). cbn [visit].
      destruct (actual_format_data E d t fb ca st) as [st1 r1], (actual_format_data E d' t fb ca st') as [st2 r2].
      destruct r1 as [[s t1]|e| |]; [|intros [a H]; discriminate H ..]. destruct r2 as [[s' t2]|e| |]; [|intros _ [a H]; discriminate H ..].
      apply IH2. apply IH1; eexists; reflexivity.
  Qed.
  Lemma flat_visit c i t fb ca : forall vs new st, (forall ph v, In (ph, v) vs -> forall d, v <> VData d) ->
    exists new', visit c i t fb ca vs new st = actual_format E st c i new' t fb ca.
  Proof.
    induction vs as [|[ph v] vs IH]; intros new st Hv; [now exists new|]. rewrite visit_other by exact (Hv ph v (or_introl eq_refl)).
    apply IH. intros ph' v' Hi. exact (Hv ph' v' (or_intror Hi)).
  Qed.
  Lemma flat_data t fb ca d d' st st' : same_shape d d' -> flat d -> flat d' -> alike st st' ->
    alike (fst (actual_format_data E d t fb ca st)) (fst (actual_format_data E d' t fb ca st')).
  Proof.
    intros Hs Hd Hd' Ha. destruct Hs as [c i|c i vs vs' _].
    - exact (proj1 (alike_literal st st' c i t fb ca Ha)).
    - rewrite !data_visit. destruct (flat_visit c i t fb ca vs [] st Hd) as (n & ->), (flat_visit c i t fb ca vs' [] st' Hd') as (n' & ->).
      exact (proj1 (alike_format st st' c i n n' t fb ca Ha)).
  Qed.

  Lemma same_step c st st' : alike st st' -> alike (fst (lstep E st c)) (fst (lstep E st' c)) /\ snd (lstep E st c) = snd (lstep E st' c).
  Proof.
    intros Ha. pose proof Ha as (H1 & H2 & H3 & H4 & Hm). destruct c; cbn [lstep fst snd];
      unfold loc_format, loc_format_with_defaults, loc_literal, loc_literal_with_defaults, loc_format_data, loc_format_data_with_defaults; rewrite <- ?H1, <- ?H2, <- ?H3.
    - destruct (alike_format st st' component identifier vals vals tag (unwrap_or fallback (ls_fallback st)) (unwrap_or caching (ls_caching st)) Ha) as (G1 & G2).
      split; [exact G1|]. f_equal. auto.
    - destruct (alike_format st st' component identifier vals vals (ls_tag st) (ls_fallback st) (ls_caching st) Ha) as (G1 & G2).
      split; [exact G1|]. f_equal. auto.
    - destruct (alike_literal st st' component identifier tag (unwrap_or fallback (ls_fallback st)) (unwrap_or caching (ls_caching st)) Ha) as (G1 & G2).
      split; [exact G1|]. f_equal. auto.
    - destruct (alike_literal st st' component identifier (ls_tag st) (ls_fallback st) (ls_caching st) Ha) as (G1 & G2).
      split; [exact G1|]. f_equal. auto.
    - destruct (same_data tag (unwrap_or fallback (ls_fallback st)) (unwrap_or caching (ls_caching st)) d st st' Ha) as (G1 & G2).
      split; [exact G1|]. f_equal. auto.
    - destruct (same_data (ls_tag st) (ls_fallback st) (ls_caching st) d st st' Ha) as (G1 & G2).
      split; [exact G1|]. f_equal. auto.
    - split; [|reflexivity]. unfold loc_defaults, alike. cbn. rewrite H1, H2, H3, H4. auto 6.
  Qed.
  Lemma other_step c c' st st' : alike st st' -> other_values c c' ->
    c = c' \/ (call_flat c /\ call_flat c') \/ (comes_out E st c /\ comes_out E st' c') -> alike (fst (lstep E st c)) (fst (lstep E st' c')).
  Proof.
    intros Ha Ho Hc. pose proof Ha as (H1 & H2 & H3 & H4 & Hm).
    assert (Hd : forall d d' t fb ca, same_shape d d' -> d = d' \/ (flat d /\ flat d') \/
      ((exists x, Some (snd (actual_format_data E d t fb ca st)) = Some (Ok x)) /\ (exists x, Some (snd (actual_format_data E d' t fb ca st')) = Some (Ok x))) ->
      alike (fst (actual_format_data E d t fb ca st)) (fst (actual_format_data E d' t fb ca st'))).
    { intros d d' t fb ca Hs [-> |[(F1 & F2)|((x & G1) & (y & G2))]].
      - exact (proj1 (same_data t fb ca d' st st' Ha)).
      - now apply flat_data.
      - injection G1 as G1. injection G2 as G2. apply (shaped_data t fb ca d d' Hs st st' Ha); eauto. }
    destruct Ho as [c|c i vals vals' t f ca|c i vals vals'|d d' t f ca Hs|d d' Hs].
    - exact (proj1 (same_step c st st' Ha)).
    - cbn [lstep fst]. unfold loc_format. rewrite <- H1, <- H2. exact (proj1 (alike_format st st' c i vals vals' t _ _ Ha)).
    - cbn [lstep fst]. unfold loc_format_with_defaults. rewrite <- H1, <- H2, <- H3. exact (proj1 (alike_format st st' c i vals vals' _ _ _ Ha)).
    - unfold comes_out in Hc. cbn [lstep fst snd call_flat] in *. unfold loc_format_data in *. rewrite <- H1, <- H2 in *. apply Hd; [exact Hs|].
      destruct Hc as [[= ->]|Hc]; auto.
    - unfold comes_out in Hc. cbn [lstep fst snd call_flat] in *. unfold loc_format_data_with_defaults in *. rewrite <- H1, <- H2, <- H3 in *. apply Hd; [exact Hs|].
      destruct Hc as [[= ->]|Hc]; auto.
  Qed.
  Lemma alike_run st st' h h' : differ_in_values E st st' h h' -> alike st st' -> alike (lrun E st h) (lrun E st' h').
  Proof. induction 1 as [|st st' c c' h h' Ho Hc Hd IH]; intros Ha; [exact Ha|]. cbn. apply IH. now apply other_step. Qed.
  Lemma alike_outcomes : forall k st st', alike st st' -> outcomes E st k = outcomes E st' k.
  Proof. induction k as [|c k IH]; intros st st' Ha; [reflexivity|]. cbn. destruct (same_step c st st' Ha) as (H1 & H2). f_equal; auto. Qed.

  Theorem values_stay fallback caching tag h h' k : let st := localiser_new E fallback caching tag in
    differ_in_values E st st h h' -> outcomes E (lrun E st h) k = outcomes E (lrun E st h') k.
  Proof. intros st Hd. apply alike_outcomes. apply (alike_run st st h h' Hd). repeat (split; [reflexivity|]). constructor. Qed.
End Interfere.
