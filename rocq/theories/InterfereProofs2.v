(** Whatever the strings are, earlier values show at most as numerals (C115). *)
From Verif Require Import Base BaseFacts LexerModel TreeModel TreeSpec ValueModel CommandModel FormatterModel FormatterSpec FormatterRefine2 FormatterProofs4
  RegistryModel LocaliserModel LocaliserSpec LocaliserProofs SettleSpec SettleProofs InterfereSpec InterfereSpec2 InterfereProofs.

Section Interfere.
  Context {PE : Type}.
  Variable E : lenv PE.
  Local Notation build t s := (formatter_try_new (le_icu E) localiser_grammar (le_fmt E) (le_reg E) t (le_locale E t) s).
  Local Notation res r r' := (same_up_to_numerals E (Some r) (Some r')).

  Definition near_entries (e e' : cache_data) : Prop :=
    match e, e' with
    | CLocalised s t, CLocalised s' t' => s = s' /\ t = t'
    | CFormatter fm, CFormatter fm' => exists t s fm0, build t s = Ok fm0 /\
        after_formatting (le_fmt E) (le_reg E) fm0 fm /\ after_formatting (le_fmt E) (le_reg E) fm0 fm'
    | _, _ => False
    end.
  Definition near (st st' : lstate) : Prop :=
    ls_fallback st = ls_fallback st' /\ ls_caching st = ls_caching st' /\ ls_tag st = ls_tag st' /\ ls_script st = ls_script st' /\
    maps (maps near_entries) (ls_cache st) (ls_cache st').

  Lemma res_refl r : res r r.
  Proof.
    destruct r as [(w & t)|e| |]; cbn; auto. split; [reflexivity|]. exists [PcText w], [], []. unfold complete. cbn. rewrite app_nil_r.
    repeat split; auto; intros x [].
  Qed.
  Lemma near_cached st st' t key : near st st' -> opts near_entries (cached st t key) (cached st' t key).
  Proof.
    intros (_ & _ & _ & _ & Hm). unfold cached. pose proof (maps_get _ t _ _ Hm) as H.
    destruct (mget t (ls_cache st)), (mget t (ls_cache st')); cbn in H; try contradiction; [exact (maps_get _ key _ _ H)|exact Logic.I].
  Qed.
  Lemma near_has st st' t : near st st' -> mhas t (ls_cache st) = mhas t (ls_cache st').
  Proof.
    intros (_ & _ & _ & _ & Hm). unfold mhas. pose proof (maps_get _ t _ _ Hm) as H.
    destruct (mget t (ls_cache st)), (mget t (ls_cache st')); cbn in H; try contradiction; reflexivity.
  Qed.
  Lemma near_put st st' t m m' : near st st' -> maps near_entries m m' ->
    near (set_cache st (minsert t m (ls_cache st))) (set_cache st' (minsert t m' (ls_cache st'))).
  Proof. intros (H1 & H2 & H3 & H4 & Hm) H. repeat (split; [assumption|]). cbn. now apply maps_insert. Qed.
  Lemma near_one key e e' : near_entries e e' -> maps near_entries [(key, e)] [(key, e')].
  Proof. intros H. constructor; [auto|constructor]. Qed.
  Lemma near_put_formatter st st' t key fm fm' : near st st' -> near_entries (CFormatter fm) (CFormatter fm') ->
    near (put_formatter st t key fm) (put_formatter st' t key fm').
  Proof.
    intros Ha He. unfold put_formatter. pose proof Ha as (_ & _ & _ & _ & Hm). pose proof (maps_get _ t _ _ Hm) as H.
    destruct (mget t (ls_cache st)), (mget t (ls_cache st')); cbn in H; try contradiction; apply near_put; auto; [now apply maps_insert|now apply near_one].
  Qed.
  Lemma near_return st st' b ca key s t : near st st' ->
    near (fst (return_string (PE := PE) st b ca key s t)) (fst (return_string (PE := PE) st' b ca key s t)) /\
    snd (return_string (PE := PE) st b ca key s t) = snd (return_string (PE := PE) st' b ca key s t).
  Proof.
    intros Ha. unfold return_string, add_string_to_cache. destruct ca; [|auto]. destruct b; cbn [negb].
    - pose proof Ha as (_ & _ & _ & _ & Hm). pose proof (maps_get _ t _ _ Hm) as H.
      destruct (mget t (ls_cache st)), (mget t (ls_cache st')); cbn in H; try contradiction; [|auto]. split; [|reflexivity].
      apply near_put; [exact Ha|]. apply maps_insert; [now split|exact H].
    - split; [|reflexivity]. apply near_put; [exact Ha|]. apply near_one. now split.
  Qed.
  Lemma near_literal st st' c i t fb ca : near st st' ->
    near (fst (actual_literal E st c i t fb ca)) (fst (actual_literal E st' c i t fb ca)) /\
    snd (actual_literal E st c i t fb ca) = snd (actual_literal E st' c i t fb ca).
  Proof.
    intros Ha. unfold actual_literal. pose proof (near_cached st st' t (combined c i) Ha) as H.
    destruct (cached st t (combined c i)) as [[s1 t1|fm]|], (cached st' t (combined c i)) as [[s2 t2|fm']|]; cbn in H; try contradiction.
    - destruct H as (-> & ->). auto.
    - auto.
    - rewrite (near_has st st' t Ha). destruct (find_string E c i t fb) as [[s t']| | |]; auto. now apply near_return.
  Qed.
  Lemma memory_numerals t s fm0 fm : build t s = Ok fm0 -> after_formatting (le_fmt E) (le_reg E) fm0 fm ->
    nothing_but_numerals E t (fm_numbers fm) /\ List.length (fm_numbers fm) = List.length (fm_numbers fm0) /\ fm_tag fm = t.
  Proof.
    intros Hb H. destruct (built_content _ _ _ _ _ _ _ _ Hb) as (a & Ha). destruct (try_new_inv _ _ _ _ _ _ s a fm0 Ha Hb) as (_ & Hrep & Ht).
    rewrite (run_formatter_tag E fm0 fm H). destruct (after_numbers _ _ _ _ H) as (ns & -> & Hl & Hn). split; [|auto].
    intros x Hx. apply In_nth_error in Hx as (i & Hi). destruct (Hn i x Hi) as [H0|H0].
    - left. destruct (fr_empty _ _ _ _ _ Hrep) as (k & Hk). rewrite Hk in H0. apply nth_error_In in H0. exact (repeat_spec _ _ _ H0).
    - right. now rewrite (fr_locale _ _ _ _ _ Hrep) in H0.
  Qed.
  Lemma near_run fm fm' vals vals' : near_entries (CFormatter fm) (CFormatter fm') ->
    near_entries (CFormatter (fst (run_formatter E fm vals))) (CFormatter (fst (run_formatter E fm' vals'))) /\
    (vals = vals' -> res (snd (run_formatter E fm vals)) (snd (run_formatter E fm' vals'))).
  Proof.
    intros (t & s & fm0 & Hb & H1 & H2). split.
    - exists t, s, fm0. split; [assumption|]. split; now apply run_formatter_after.
    - intros <-. rewrite !run_formatter_result. destruct (memory_numerals t s fm0 fm Hb H1) as (N1 & L1 & ->), (memory_numerals t s fm0 fm' Hb H2) as (N2 & L2 & ->).
      destruct (shape (le_fmt E) (le_reg E) fm0 vals (le_fuel E)) as (r & _ & Hr). rewrite (Hr fm H1), (Hr fm' H2).
      destruct r as [l|e| |]; cbn; auto. split; [reflexivity|]. exists l, (fm_numbers fm), (fm_numbers fm'). repeat split; auto. congruence.
  Qed.
  Lemma near_format st st' c i vals vals' t fb ca : near st st' ->
    near (fst (actual_format E st c i vals t fb ca)) (fst (actual_format E st' c i vals' t fb ca)) /\
    (vals = vals' -> res (snd (actual_format E st c i vals t fb ca)) (snd (actual_format E st' c i vals' t fb ca))).
  Proof.
    intros Ha. unfold actual_format. pose proof (near_cached st st' t (combined c i) Ha) as H.
    destruct (cached st t (combined c i)) as [[s1 t1|fm]|], (cached st' t (combined c i)) as [[s2 t2|fm']|]; cbn [opts near_entries] in H; try contradiction.
    - destruct H as (-> & ->). split; [exact Ha|]. intros _. apply res_refl.
    - destruct (near_run fm fm' vals vals' H) as (G1 & G2). destruct (run_formatter E fm vals), (run_formatter E fm' vals'). cbn [fst snd] in *.
      split; [|exact G2]. now apply near_put_formatter.
    - rewrite (near_has st st' t Ha). destruct (find_string E c i t fb) as [[s t']| | |] eqn:Ef; try (split; [exact Ha|intros _; apply res_refl]).
      assert (Hr : let x := return_string (PE := PE) st (mhas t (ls_cache st')) ca (combined c i) s t' in
        let y := return_string (PE := PE) st' (mhas t (ls_cache st')) ca (combined c i) s t' in near (fst x) (fst y) /\ (vals = vals' -> res (snd x) (snd y))).
      { destruct (near_return st st' (mhas t (ls_cache st')) ca (combined c i) s t' Ha) as (H1 & H2). cbv zeta. split; [exact H1|]. intros _. rewrite H2. apply res_refl. }
      destruct s as [|x w]; [exact Hr|]. destruct (build t' (x :: w)) as [fm|e| |] eqn:Eb; try (split; [exact Ha|intros _; apply res_refl]).
      + assert (Ht : near_entries (CFormatter fm) (CFormatter fm)) by (exists t', (x :: w), fm; repeat split; auto; apply af_fresh).
        destruct (near_run fm fm vals vals' Ht) as (G1 & G2). destruct (run_formatter E fm vals), (run_formatter E fm vals'). cbn [fst snd] in *.
        split; [|exact G2]. destruct ca; [|exact Ha]. now apply near_put_formatter.
      + destruct e; try exact Hr; split; try exact Ha; intros _; apply res_refl.
  Qed.
  Lemma near_data t fb ca d d' st st' : same_shape d d' -> flat d -> flat d' -> near st st' ->
    near (fst (actual_format_data E d t fb ca st)) (fst (actual_format_data E d' t fb ca st')).
  Proof.
    intros Hs Hd Hd' Ha. destruct Hs as [c i|c i vs vs' _].
    - exact (proj1 (near_literal st st' c i t fb ca Ha)).
    - rewrite !data_visit. destruct (flat_visit E c i t fb ca vs [] st Hd) as (n & ->), (flat_visit E c i t fb ca vs' [] st' Hd') as (n' & ->).
      exact (proj1 (near_format st st' c i n n' t fb ca Ha)).
  Qed.
  Lemma flat_visit_both c i t fb ca : forall vs new, (forall ph v, In (ph, v) vs -> forall d, v <> VData d) ->
    exists new', forall st, visit E c i t fb ca vs new st = actual_format E st c i new' t fb ca.
  Proof.
    induction vs as [|[ph v] vs IH]; intros new Hv; [now exists new|]. destruct (IH (minsert ph v new) (fun ph' v' Hi => Hv ph' v' (or_intror Hi))) as (n & Hn).
    exists n. intros st. rewrite visit_other by exact (Hv ph v (or_introl eq_refl)). apply Hn.
  Qed.
  Lemma near_same_data t fb ca d st st' : flat d -> near st st' ->
    near (fst (actual_format_data E d t fb ca st)) (fst (actual_format_data E d t fb ca st')) /\
    res (snd (actual_format_data E d t fb ca st)) (snd (actual_format_data E d t fb ca st')).
  Proof.
    intros Hd Ha. destruct d as [c i [vs|]].
    - rewrite !data_visit. destruct (flat_visit_both c i t fb ca vs [] Hd) as (n & Hn). rewrite !Hn.
      destruct (near_format st st' c i n n t fb ca Ha) as (H1 & H2). auto.
    - destruct (near_literal st st' c i t fb ca Ha) as (H1 & H2). split; [exact H1|]. cbn [actual_format_data]. rewrite H2. apply res_refl.
  Qed.
  Lemma near_same_step c st st' : call_flat c -> near st st' -> near (fst (lstep E st c)) (fst (lstep E st' c)) /\ same_up_to_numerals E (snd (lstep E st c)) (snd (lstep E st' c)).
  Proof.
    intros Hf Ha. pose proof Ha as (H1 & H2 & H3 & H4 & Hm). destruct c; cbn [lstep fst snd call_flat] in *;
      unfold loc_format, loc_format_with_defaults, loc_literal, loc_literal_with_defaults, loc_format_data, loc_format_data_with_defaults; rewrite <- ?H1, <- ?H2, <- ?H3.
    - destruct (near_format st st' component identifier vals vals tag (unwrap_or fallback (ls_fallback st)) (unwrap_or caching (ls_caching st)) Ha) as (G1 & G2). auto.
    - destruct (near_format st st' component identifier vals vals (ls_tag st) (ls_fallback st) (ls_caching st) Ha) as (G1 & G2). auto.
    - destruct (near_literal st st' component identifier tag (unwrap_or fallback (ls_fallback st)) (unwrap_or caching (ls_caching st)) Ha) as (G1 & G2).
      split; [exact G1|]. rewrite G2. apply res_refl.
    - destruct (near_literal st st' component identifier (ls_tag st) (ls_fallback st) (ls_caching st) Ha) as (G1 & G2).
      split; [exact G1|]. rewrite G2. apply res_refl.
    - apply near_same_data; assumption.
    - apply near_same_data; assumption.
    - split; [|reflexivity]. unfold loc_defaults, near. cbn. rewrite H1, H2, H3, H4. auto 6.
  Qed.
  Lemma near_other_step c c' st st' : near st st' -> other_values c c' -> call_flat c -> call_flat c' -> near (fst (lstep E st c)) (fst (lstep E st' c')).
  Proof.
    intros Ha Ho Hc Hc'. pose proof Ha as (H1 & H2 & H3 & H4 & Hm).
    destruct Ho as [c|c i vals vals' t f ca|c i vals vals'|d d' t f ca Hs|d d' Hs].
    - exact (proj1 (near_same_step c st st' Hc Ha)).
    - cbn [lstep fst]. unfold loc_format. rewrite <- H1, <- H2. exact (proj1 (near_format st st' c i vals vals' t _ _ Ha)).
    - cbn [lstep fst]. unfold loc_format_with_defaults. rewrite <- H1, <- H2, <- H3. exact (proj1 (near_format st st' c i vals vals' _ _ _ Ha)).
    - cbn [lstep fst call_flat] in *. unfold loc_format_data in *. rewrite <- H1, <- H2 in *. now apply near_data.
    - cbn [lstep fst call_flat] in *. unfold loc_format_data_with_defaults in *. rewrite <- H1, <- H2, <- H3 in *. now apply near_data.
  Qed.
  Lemma near_history : forall h h', Forall2 other_values h h' -> Forall call_flat h -> Forall call_flat h' -> forall st st', near st st' -> near (lrun E st h) (lrun E st' h').
  Proof.
    induction 1 as [|c c' h h' Ho _ IH]; intros Hf Hf' st st' Ha; [exact Ha|]. inversion Hf; inversion Hf'; subst. cbn. apply IH; auto. now apply near_other_step.
  Qed.
  Lemma near_outcomes : forall k st st', Forall call_flat k -> near st st' -> Forall2 (same_up_to_numerals E) (outcomes E st k) (outcomes E st' k).
  Proof.
    induction k as [|c k IH]; intros st st' Hf Ha; [constructor|]. inversion Hf; subst. cbn. destruct (near_same_step c st st' ltac:(assumption) Ha) as (G1 & G2).
    constructor; auto.
  Qed.
  Theorem numerals_only fallback caching tag h h' k : let st := localiser_new E fallback caching tag in
    Forall2 other_values h h' -> Forall call_flat (h ++ h' ++ k) ->
    Forall2 (same_up_to_numerals E) (outcomes E (lrun E st h) k) (outcomes E (lrun E st h') k).
  Proof.
    intros st Hd Hf. apply Forall_app in Hf as (F1 & Hf). apply Forall_app in Hf as (F2 & F3). apply near_outcomes; [exact F3|].
    apply (near_history h h' Hd F1 F2). repeat (split; [reflexivity|]). constructor.
  Qed.
End Interfere.

(** What is seen of texts that are the same up to numerals: without the characters of numerals they are the same. *)
Lemma filter_none {A} (f : A -> bool) l : (forall x, In x l -> f x = false) -> filter f l = [].
Proof. induction l as [|x l IH]; intros H; [reflexivity|]. cbn. rewrite (H x (or_introl eq_refl)). apply IH. intros y Hy. apply H. now right. Qed.
Lemma filter_complete (f : N -> bool) m m' l : (forall x c, In x m \/ In x m' -> In c x -> f c = false) -> filter f (complete m l) = filter f (complete m' l).
Proof.
  intros H. unfold complete. induction l as [|[s|i] l IH]; [reflexivity| |]; cbn [map List.concat]; rewrite !filter_app, IH; [reflexivity|]. f_equal.
  rewrite !filter_none; [reflexivity| |]; intros c Hc.
  - destruct (Nat.lt_ge_cases i (List.length m')) as [Hi|Hi]; [|rewrite (nth_overflow _ _ Hi) in Hc; destruct Hc]. apply (H (nth i m' []) c); [right; now apply nth_In|exact Hc].
  - destruct (Nat.lt_ge_cases i (List.length m)) as [Hi|Hi]; [|rewrite (nth_overflow _ _ Hi) in Hc; destruct Hc]. apply (H (nth i m []) c); [left; now apply nth_In|exact Hc].
Qed.
Theorem same_words {PE} (E : lenv PE) (f : N -> bool) w w' t t' : same_up_to_numerals E (Some (Ok (w, t))) (Some (Ok (w', t'))) ->
  (forall x c, numeral (le_fmt E) (le_locale E t) x -> In c x -> f c = false) -> filter f w = filter f w'.
Proof.
  intros (-> & l & m & m' & -> & -> & H1 & H2 & _) Hf. apply filter_complete. intros x c [Hx|Hx] Hc.
  - destruct (H1 x Hx) as [->|Hn]; [destruct Hc|exact (Hf x c Hn Hc)].
  - destruct (H2 x Hx) as [->|Hn]; [destruct Hc|exact (Hf x c Hn Hc)].
Qed.
