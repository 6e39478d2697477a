(** Texts of a localiser have no characters but those of the strings stored and of what is supplied (C116). *)
From Verif Require Import Base BaseFacts LexerModel LexerSpec TreeModel TreeSpec ValueModel CommandModel IsoModel FormatterModel FormatterSpec FormatterRefine2 FormatterProofs4
  RegistryModel LocaliserModel LocaliserSpec LocaliserProofs TwinSpec VerbatimSpec VerbatimProofs SettleSpec SettleProofs InterfereSpec InterfereSpec2 InterfereProofs InterfereProofs2 AllowedSpec.

(** The words of a pattern string are parts of it. *)
Definition words (x : sitem) : list ustr :=
  match x with SText w => [w] | SCmd ps => flat_map (fun p => match p with SId w => [w] | SDelay => [] end) ps | _ => [] end.
Lemma piece_words p w : In w (words (pcontent p)) -> exists ty, In (ty, w) (pprint p).
Proof.
  destruct p as [[ty x]|[ty x]| |id ws [[k l]|]|qs]; cbn [pcontent words]; try contradiction.
  - intros [<-|[]]. exists ty. now left.
  - intros [<-|[]]. exists ty. right. now left.
  - intros H. apply in_flat_map in H as (q & Hq & Hw). apply in_flat_map in Hq as (y & Hy & Hq). destruct y as [w0|w0|]; cbn in Hq.
    + destruct Hq.
    + destruct Hq as [<-|[]]. destruct Hw as [<-|[]]. exists TIdentifier. cbn. right. right. apply in_or_app. left. apply in_flat_map. exists (QId w0). split; [exact Hy|now left].
    + destruct Hq as [<-|[]]. destruct Hw.
Qed.
Lemma content_words d g s a x w : content_of d g s a -> item_of a x -> In w (words x) -> incl w s.
Proof.
  intros (c & _ & (Hs & _ & _) & ->) (name & body & Hb & Hx) Hw. assert (Hi : exists ty, In (ty, w) (cprint c)).
  { unfold all_strings, group_of, ccontent in Hb. cbn [fst snd] in Hb. unfold cprint. destruct Hb as [[= _ <-]|Hb].
    - apply in_map_iff in Hx as (p & <- & Hp). destruct (piece_words p w Hw) as (ty & H). exists ty. apply in_or_app. left. apply in_flat_map. eauto.
    - destruct (c_group c) as [l|]; cbn in Hb; [|destruct Hb]. apply in_flat_map in Hb as (y & Hy & Hb). destruct y as [w0|id w0 ws sub]; cbn in Hb; [destruct Hb|].
      destruct Hb as [[= _ <-]|[]]. apply in_map_iff in Hx as (p & <- & Hp). destruct (piece_words p w Hw) as (ty & H). exists ty. apply in_or_app. right. right.
      apply in_flat_map. exists (GNamed id w0 ws sub). split; [exact Hy|]. cbn [gprint]. do 3 right. apply in_or_app. right. apply in_or_app. left. apply in_flat_map. eauto. }
  destruct Hi as (ty & Hi). intros u Hu. rewrite <- Hs. apply in_concat. exists w. split; [|exact Hu]. apply in_map_iff. exists (ty, w). auto.
Qed.

Section Allowed.
  Variable P : N -> Prop.
  Context {PE : Type}.
  Variable E : lenv PE.
  Hypothesis HA : surroundings_allowed P E.
  Local Notation build t s := (formatter_try_new (le_icu E) localiser_grammar (le_fmt E) (le_reg E) t (le_locale E t) s).
  Local Notation text := (outcome (localiser_error PE) (ustr * ustr)).

  Lemma found_allowed c i t fb s t' : find_string E c i t fb = Ok (s, t') -> allowed P s.
  Proof. intros H. apply find_string_iff in H as [H|d _ _ _ H]; exact (al_strings _ _ HA _ _ _ _ _ H). Qed.
  Lemma word_allowed d g s a x w : content_of d g s a -> allowed P s -> item_of a x -> In w (words x) -> allowed P w.
  Proof. intros Ha Hs Hx Hw. apply Forall_forall. intros u Hu. exact (proj1 (Forall_forall _ _) Hs u (content_words _ _ _ _ _ _ Ha Hx Hw u Hu)). Qed.
  Lemma string_allowed w : allowed P w -> value_allowed P (VString w).
  Proof. intros H t Ht. inversion Ht as [v t0 Hv|]; subst. injection Hv as <-. exact H. Qed.
  Lemma get_allowed vals ph v : values_allowed P vals -> mget ph vals = Some v -> value_allowed P v.
  Proof. intros H Hg. exact (H ph v Hg). Qed.

  Lemma fresh_allowed t s fm vals x : allowed P s -> build t s = Ok fm -> values_allowed P vals ->
    snd (format (le_fuel E) (le_fmt E) (le_reg E) fm vals) = Ok x -> allowed P x.
  Proof.
    intros Hs Hb Hv Hx. destruct (built_content _ _ _ _ _ _ _ _ Hb) as (a & Ha).
    refine (text_clean P (le_icu E) localiser_grammar (mk_setting (le_fmt E) (le_reg E) (le_locale E t) vals) t s a fm (le_fuel E) x Ha Hb _ Hx).
    intros c Hc. unfold filled. cbn [map List.concat]. rewrite app_nil_r.
    assert (Hcmd : forall name ps, item_of a (SCmd (SId name :: ps)) -> allowed P name /\ forall w, In (SId w) ps -> allowed P w).
    { intros name ps Hi. split; [|intros w Hw]; refine (word_allowed _ _ _ _ _ _ Ha Hs Hi _); cbn [words flat_map]; [now left|].
      right. apply in_flat_map. exists (SId w). split; [exact Hw|now left]. }
    assert (Hans : forall name ps y, Forall (value_allowed P) (VString name :: ps) ->
      match mget name (le_reg E) with Some f => match f (VString name :: ps) with Ok t => t | _ => [] end | None => [] end = y -> allowed P y).
    { intros name ps y Hp <-. destruct (mget name (le_reg E)) as [f|] eqn:Ef; [|constructor]. destruct (f (VString name :: ps)) as [y| | |] eqn:Ey; try constructor.
      exact (al_commands _ _ HA _ _ _ _ Ef Hp Ey). }
    destruct c as [w|[ph|[|] name args|dec|m]]; cbn [own_chunk supplied se_values se_commands se_env se_locale] in *.
    - refine (word_allowed _ _ _ _ _ _ Ha Hs Hc _). now left.
    - destruct (mget ph vals) as [v|] eqn:Ev; [|constructor]. destruct (text_value v) as [y|] eqn:Ey; [|constructor]. exact (get_allowed _ _ _ Hv Ev y (ti_own _ _ Ey)).
    - destruct (Hcmd name _ Hc) as (Hn & Hargs). refine (Hans name _ _ _ eq_refl). constructor; [now apply string_allowed|].
      apply Forall_forall. intros v Hin. apply in_map_iff in Hin as (w & <- & Hw). unfold parameter. destruct (mget w vals) as [v|] eqn:Ev; [exact (get_allowed _ _ _ Hv Ev)|].
      apply string_allowed. apply Hargs. right. now apply in_map.
    - destruct (Hcmd name _ Hc) as (Hn & Hargs). refine (Hans name _ _ _ eq_refl). constructor; [now apply string_allowed|].
      apply Forall_forall. intros v Hin. apply in_map_iff in Hin as (w & <- & Hw). apply string_allowed. apply Hargs. now apply in_map.
    - destruct (fe_decimal (le_fmt E) (le_locale E t) None) as [f|] eqn:Ef; [|constructor]. apply (al_numerals _ _ HA (le_locale E t)). exists f, dec. auto.
    - destruct m as [dt|tm|dt tm].
      + destruct (fe_date (le_fmt E) (le_locale E t) LnMedium) as [f|] eqn:Ef; [|constructor]. destruct (f dt) as [y|] eqn:Ey; [|constructor].
        apply (al_moments _ _ HA (le_locale E t) (MDate dt)). exists f. auto.
      + destruct (fe_time (le_fmt E) (le_locale E t) LnMedium) as [f|] eqn:Ef; [|constructor].
        apply (al_moments _ _ HA (le_locale E t) (MTime tm)). exists f. auto.
      + destruct (fe_datetime (le_fmt E) (le_locale E t) LnMedium LnMedium) as [f|] eqn:Ef; [|constructor]. destruct (f dt tm) as [y|] eqn:Ey; [|constructor].
        apply (al_moments _ _ HA (le_locale E t) (MBoth dt tm)). exists f. auto.
  Qed.
  (** Also after any uses with any values. *)
  Lemma used_allowed t s fm0 fm vals x : allowed P s -> build t s = Ok fm0 -> after_formatting (le_fmt E) (le_reg E) fm0 fm -> values_allowed P vals ->
    snd (format (le_fuel E) (le_fmt E) (le_reg E) fm vals) = Ok x -> allowed P x.
  Proof.
    intros Hs Hb Haf Hv Hx. destruct (shape (le_fmt E) (le_reg E) fm0 vals (le_fuel E)) as (r & _ & Hr). pose proof (Hr fm Haf) as H1. pose proof (Hr fm0 (af_fresh _ _ _)) as H0.
    rewrite Hx in H1. destruct r as [l| | |]; cbn in H1; try discriminate H1. injection H1 as ->. pose proof (fresh_allowed t s fm0 vals _ Hs Hb Hv H0) as G.
    destruct (memory_numerals E t s fm0 fm Hb Haf) as (Hm & _). unfold complete, allowed in *. clear -G Hm HA.
    induction l as [|p l IH]; cbn [map List.concat] in *; [constructor|]. apply Forall_app in G as (G1 & G2). apply Forall_app. split; [|exact (IH G2)]. destruct p as [w|i]; [exact G1|].
    destruct (nth_in_or_default i (fm_numbers fm) []) as [Hi|E0]; [|rewrite E0; constructor]. destruct (Hm _ Hi) as [->|Hn]; [constructor|exact (al_numerals _ _ HA _ _ Hn)].
  Qed.

  Definition entry_allowed (e : cache_data) : Prop :=
    match e with
    | CLocalised s _ => allowed P s
    | CFormatter fm => exists t s fm0, allowed P s /\ build t s = Ok fm0 /\ after_formatting (le_fmt E) (le_reg E) fm0 fm
    end.
  Definition cache_allowed (st : lstate) : Prop := forall t key e, cached st t key = Some e -> entry_allowed e.
  Definition text_allowed (r : text) : Prop := forall x t, r = Ok (x, t) -> allowed P x.

  Lemma put_allowed st t key e st' : cache_allowed st -> put st t key e st' -> entry_allowed e -> cache_allowed st'.
  Proof. intros Hc (_ & _ & _ & _ & Hp) He t' key' e' H. destruct (Hp _ _ _ H) as [(-> & -> & ->)|H']; [exact He|exact (Hc _ _ _ H')]. Qed.
  Lemma run_allowed fm vals : entry_allowed (CFormatter fm) ->
    entry_allowed (CFormatter (fst (run_formatter E fm vals))) /\ (values_allowed P vals -> text_allowed (snd (run_formatter E fm vals))).
  Proof.
    intros (t & s & fm0 & Hs & Hb & Ha). split.
    - exists t, s, fm0. repeat (split; [assumption|]). now apply run_formatter_after.
    - intros Hv x t' Hx. rewrite run_formatter_result in Hx. destruct (snd (format _ _ _ fm vals)) as [y| | |] eqn:Ey; try discriminate Hx. injection Hx as <- _.
      exact (used_allowed t s fm0 fm vals y Hs Hb Ha Hv Ey).
  Qed.
  Lemma return_allowed st b ca key s t : cache_allowed st -> allowed P s ->
    cache_allowed (fst (return_string (PE := PE) st b ca key s t)) /\ text_allowed (snd (return_string (PE := PE) st b ca key s t)).
  Proof.
    intros Hc Hs. destruct (return_string (PE := PE) st b ca key s t) as [st' r] eqn:Er. apply return_string_cases in Er as [(-> & [->|Hp])|(-> & -> & _)]; cbn [fst snd].
    - split; [exact Hc|]. intros x t' [= <- _]. exact Hs.
    - split; [exact (put_allowed _ _ _ _ _ Hc Hp Hs)|]. intros x t' [= <- _]. exact Hs.
    - split; [exact Hc|]. intros x t' [=].
  Qed.
  Lemma fail_allowed (r : text) : (forall x, r <> Ok x) -> text_allowed r.
  Proof. intros H x t ->. now destruct (H (x, t)). Qed.
  Lemma literal_allowed st c i t fb ca : cache_allowed st ->
    cache_allowed (fst (actual_literal E st c i t fb ca)) /\ text_allowed (snd (actual_literal E st c i t fb ca)).
  Proof.
    intros Hc. unfold actual_literal. destruct (cached st t (combined c i)) as [[s t'|fm]|] eqn:Ec.
    - split; [exact Hc|]. intros x t0 [= <- _]. exact (Hc _ _ _ Ec).
    - split; [exact Hc|]. now apply fail_allowed.
    - destruct (find_string E c i t fb) as [[s t']| | |] eqn:Ef; try (split; [exact Hc|now apply fail_allowed]). apply return_allowed; [exact Hc|exact (found_allowed _ _ _ _ _ _ Ef)].
  Qed.
  Lemma format_allowed st c i vals t fb ca : cache_allowed st ->
    cache_allowed (fst (actual_format E st c i vals t fb ca)) /\ (values_allowed P vals -> text_allowed (snd (actual_format E st c i vals t fb ca))).
  Proof.
    intros Hc. unfold actual_format. destruct (cached st t (combined c i)) as [[s t'|fm]|] eqn:Ec.
    - split; [exact Hc|]. intros _ x t0 [= <- _]. exact (Hc _ _ _ Ec).
    - destruct (run_allowed fm vals (Hc _ _ _ Ec)) as (H1 & H2). destruct (run_formatter E fm vals) as [fm' r]. cbn [fst snd] in *.
      split; [|exact H2]. exact (put_allowed _ _ _ _ _ Hc (put_formatter_put st t _ fm') H1).
    - destruct (find_string E c i t fb) as [[s t']| | |] eqn:Ef; try (split; [exact Hc|intros _; now apply fail_allowed]).
      pose proof (found_allowed _ _ _ _ _ _ Ef) as Hs. pose proof (return_allowed st (mhas t (ls_cache st)) ca (combined c i) s t' Hc Hs) as (R1 & R2).
      destruct s as [|u w]; [auto|]. destruct (build t' (u :: w)) as [fm|e| |] eqn:Eb; try (split; [exact Hc|intros _; now apply fail_allowed]).
      + assert (He : entry_allowed (CFormatter fm)) by (exists t', (u :: w), fm; repeat (split; [assumption|]); apply af_fresh).
        destruct (run_allowed fm vals He) as (H1 & H2). destruct (run_formatter E fm vals) as [fm' r]. cbn [fst snd] in *. split; [|exact H2].
        destruct ca; [|exact Hc]. exact (put_allowed _ _ _ _ _ Hc (put_formatter_put st t _ fm') H1).
      + destruct e; try (split; [exact Hc|intros _; now apply fail_allowed]). auto.
  Qed.
  Lemma insert_allowed vals ph v : values_allowed P vals -> value_allowed P v -> values_allowed P (minsert ph v vals).
  Proof. intros H Hv ph' v' Hi. rewrite mget_minsert in Hi. destruct (ueqb ph' ph); [injection Hi as <-; exact Hv|exact (H _ _ Hi)]. Qed.
  Lemma localised_allowed s t : allowed P s -> value_allowed P (VLocalised s t).
  Proof. intros H x Hx. inversion Hx as [v t0 Hv|]; subst. injection Hv as <-. exact H. Qed.
  Lemma inner_allowed c i vs ph v : value_allowed P (VData (LData c i (Some vs))) -> In (ph, v) vs -> value_allowed P v.
  Proof. intros H Hi t Ht. apply H. exact (ti_data c i vs ph v t Hi Ht). Qed.
  Lemma data_allowed t fb ca : forall d st, cache_allowed st ->
    cache_allowed (fst (actual_format_data E d t fb ca st)) /\ (value_allowed P (VData d) -> text_allowed (snd (actual_format_data E d t fb ca st))).
  Proof.
    fix IH 1. intros [c i [vs|]] st Hc.
    - enough (G : forall new st, cache_allowed st -> cache_allowed (fst (visit E c i t fb ca vs new st)) /\
        ((forall ph v, In (ph, v) vs -> value_allowed P v) -> values_allowed P new -> text_allowed (snd (visit E c i t fb ca vs new st)))).
      { rewrite data_visit. destruct (G [] st Hc) as (H1 & H2). split; [exact H1|]. intros Hv. apply H2; [|discriminate]. intros ph v Hi. exact (inner_allowed c i vs ph v Hv Hi). }
      clear st Hc. induction vs as [|[ph v] l IHl]; intros new st Hc.
      + destruct (format_allowed st c i new t fb ca Hc) as (H1 & H2). split; [exact H1|]. intros _ Hn. exact (H2 Hn).
      + assert (Hother : cache_allowed (fst (visit E c i t fb ca l (minsert ph v new) st)) /\
          ((forall ph0 v0, In (ph0, v0) ((ph, v) :: l) -> value_allowed P v0) -> values_allowed P new -> text_allowed (snd (visit E c i t fb ca l (minsert ph v new) st)))).
        { destruct (IHl (minsert ph v new) st Hc) as (H1 & H2). split; [exact H1|]. intros Hv Hn. apply H2; [intros; eapply Hv; right; eassumption|]. apply insert_allowed; [exact Hn|].
          apply (Hv ph v). now left. }
        destruct v; try exact Hother. clear Hother. destruct (IH d st Hc) as (H1 & H2). cbn [visit].
        destruct (actual_format_data E d t fb ca st) as [st' [[s t']| | |]]; cbn [fst snd] in H1, H2; try (split; [exact H1|intros _ _; now apply fail_allowed]).
        destruct (IHl (minsert ph (VLocalised s t') new) st' H1) as (G1 & G2). split; [exact G1|]. intros Hv Hn.
        apply G2; [intros; eapply Hv; right; eassumption|]. apply insert_allowed; [exact Hn|]. apply localised_allowed. apply (H2 (Hv ph (VData d) (or_introl eq_refl)) s t' eq_refl).
    - destruct (literal_allowed st c i t fb ca Hc) as (H1 & H2). split; [exact H1|]. intros _. exact H2.
  Qed.
  Lemma step_allowed st c : cache_allowed st -> cache_allowed (fst (lstep E st c)) /\ (call_allowed P c -> result_allowed P (snd (lstep E st c))).
  Proof.
    intros Hc. assert (Hr : forall r : text, text_allowed r -> result_allowed P (Some r)) by (intros r H x t [= ->]; exact (H x t eq_refl)).
    destruct c; cbn [lstep fst snd call_allowed];
      unfold loc_format, loc_format_with_defaults, loc_literal, loc_literal_with_defaults, loc_format_data, loc_format_data_with_defaults.
    - destruct (format_allowed st component identifier vals tag (unwrap_or fallback (ls_fallback st)) (unwrap_or caching (ls_caching st)) Hc) as (H1 & H2). auto.
    - destruct (format_allowed st component identifier vals (ls_tag st) (ls_fallback st) (ls_caching st) Hc) as (H1 & H2). auto.
    - destruct (literal_allowed st component identifier tag (unwrap_or fallback (ls_fallback st)) (unwrap_or caching (ls_caching st)) Hc) as (H1 & H2). auto.
    - destruct (literal_allowed st component identifier (ls_tag st) (ls_fallback st) (ls_caching st) Hc) as (H1 & H2). auto.
    - match goal with |- cache_allowed (fst (actual_format_data _ ?d ?t ?fb ?ca _)) /\ _ => destruct (data_allowed t fb ca d st Hc) as (H1 & H2) end. auto.
    - match goal with |- cache_allowed (fst (actual_format_data _ ?d ?t ?fb ?ca _)) /\ _ => destruct (data_allowed t fb ca d st Hc) as (H1 & H2) end. auto.
    - split; [exact Hc|]. intros _ x t [=].
  Qed.
  Lemma history_allowed h : forall st, cache_allowed st -> cache_allowed (lrun E st h).
  Proof. induction h as [|c h IH]; intros st Hc; [exact Hc|]. cbn. apply IH. exact (proj1 (step_allowed st c Hc)). Qed.
  Lemma new_allowed fallback caching tag : cache_allowed (localiser_new E fallback caching tag).
  Proof. intros t key e [=]. Qed.
  Theorem calls_allowed fallback caching tag h c : call_allowed P c -> result_allowed P (snd (lstep E (lrun E (localiser_new E fallback caching tag) h) c)).
  Proof. apply step_allowed. apply history_allowed. apply new_allowed. Qed.
End Allowed.
