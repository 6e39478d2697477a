(** Proofs for C98: without caching, and providers whose answers do not change. *)
From Verif Require Import Base BaseFacts LexerModel TreeModel ValueModel CommandModel IsoModel FormatterModel RegistryModel LocaliserModel LocaliserSpec LocaliserProofs
  MemorySpec CallsModel CallsSpec CallsProofs2 LocCallsModel LocCallsProofs2 ProviderModel ProviderSpec ProviderProofs QueryModel QuerySpec QueryProofs SystemModel
  AskModel AskSpec AskProofs.
Local Opaque us.

(** ** No caching *)
Section Fresh.
  Context {PE W : Type}.
  Variables (E : lenv PE) (reg : wregistry W) (P : wprovider PE W).
  Definition forgetful (st : lstate) : Prop := ls_cache st = [] /\ ls_caching st = false.
  Lemma forgetful_cached st t key : forgetful st -> cached st t key = None.
  Proof. intros (H & _). unfold cached. now rewrite H. Qed.
  Lemma return_forgetful st b key s t : fst (return_string (PE := PE) st b false key s t) = st.
  Proof. reflexivity. Qed.
  Lemma format_forgetful st c i vals t fb w : forgetful st -> fst (snd (xactual_format E reg P st c i vals t fb false w)) = st.
  Proof.
    intros Hs. unfold xactual_format. rewrite (forgetful_cached st t (combined c i) Hs).
    destruct (xfind_string P c i t fb w) as (w1 & [(s & t')|e| |]); try reflexivity. destruct s as [|x s]; [reflexivity|].
    destruct (wformatter_try_new _ _ _ _ _ _ _ w1) as (w2 & [fm|e| |]); try reflexivity; [|now destruct e].
    now destruct (wrun_formatter E reg fm vals w2) as (w3 & fm' & r3).
  Qed.
  Lemma literal_forgetful st c i t fb w : forgetful st -> fst (snd (xactual_literal P st c i t fb false w)) = st.
  Proof.
    intros Hs. unfold xactual_literal. rewrite (forgetful_cached st t (combined c i) Hs). now destruct (xfind_string P c i t fb w) as (w1 & [(s & t')|e| |]).
  Qed.
  Lemma data_forgetful t fb : forall d st w, forgetful st -> fst (snd (xactual_format_data E reg P d t fb false st w)) = st.
  Proof.
    fix IH 1. intros [c i [vs|]] st w Hs; [|now apply literal_forgetful]. cbn [xactual_format_data]. revert w. generalize (@nil (ustr * pvalue)).
    induction vs as [|[ph v] vs IHvs]; intros new w; [now apply format_forgetful|]. destruct v; try apply IHvs.
    pose proof (IH d st w Hs) as H. destruct (xactual_format_data E reg P d t fb false st w) as (w1 & st1 & [(s & t')|e| |]); cbn [fst snd] in H; subst st1; try reflexivity. apply IHvs.
  Qed.
  Lemma step_forgetful st x w : forgetful st -> no_caching x -> forgetful (fst (snd (xlstep E reg P st x w))).
  Proof.
    intros Hs Hx. assert (Hca : forall ca, ca <> Some true -> unwrap_or ca (ls_caching st) = false).
    { intros [[]|] H; cbn; [congruence|reflexivity|exact (proj2 Hs)]. }
    destruct x as [c i vals t f ca|c i vals|c i t f ca|c i|d t f ca|d|t f ca]; cbn [xlstep no_caching fst snd] in *; try (rewrite (Hca ca Hx)); rewrite ?(proj2 Hs);
      rewrite ?format_forgetful, ?literal_forgetful, ?data_forgetful by exact Hs; try exact Hs.
    split; [exact (proj1 Hs)|]. pose proof (Hca ca Hx) as H. unfold loc_defaults. now destruct ca as [[]|].
  Qed.
  Lemma run_forgetful h : forall w st, forgetful st -> (forall f x, In (f, x) h -> no_caching x) -> forgetful (snd (xlrun E reg P (w, st) h)).
  Proof.
    induction h as [|(f & x) h IH]; intros w st Hs Hh; [exact Hs|]. unfold xlrun in *. cbn [fold_left fst snd].
    pose proof (step_forgetful st x (f w) Hs (Hh f x (or_introl eq_refl))) as H. destruct (xlstep E reg P st x (f w)) as (w' & st' & r). cbn [fst snd] in *.
    apply IH; [exact H|]. intros g y Hi. apply (Hh g y). now right.
  Qed.
End Fresh.

(** ** A provider without effects *)
Section Steady.
  Context {PE W : Type}.
  Variables (E : lenv PE) (reg : wregistry W).
  Notation P := (effectless (W := W) (le_provider E)).
  Lemma find_steady c i t fb (w : W) : xfind_string P c i t fb w = (w, find_string E c i t fb).
  Proof.
    unfold xfind_string, find_string. cbn [effectless wp_string wp_default]. destruct (pv_string (le_provider E) c i t) as [[r|]|e| |]; try reflexivity.
    destruct fb; [|reflexivity]. cbn [negb]. destruct (pv_default (le_provider E) c) as [d|e| |]; try reflexivity. cbn.
    now destruct (pv_string (le_provider E) c i d) as [[r|]|e| |].
  Qed.
  Lemma format_steady st c i vals t fb ca w : xactual_format E reg P st c i vals t fb ca w = wactual_format E reg st c i vals t fb ca w.
  Proof.
    unfold xactual_format, wactual_format. destruct (cached st t (combined c i)) as [[s t'|fm]|]; try reflexivity. rewrite find_steady.
    now destruct (find_string E c i t fb) as [(s & t')|e| |].
  Qed.
  Lemma literal_steady st c i t fb ca w : xactual_literal P st c i t fb ca w = (w, actual_literal E st c i t fb ca).
  Proof.
    unfold xactual_literal, actual_literal. destruct (cached st t (combined c i)) as [[s t'|fm]|]; try reflexivity. rewrite find_steady.
    now destruct (find_string E c i t fb) as [(s & t')|e| |].
  Qed.
  Lemma data_steady t fb ca : forall d st w, xactual_format_data E reg P d t fb ca st w = wactual_format_data E reg d t fb ca st w.
  Proof.
    fix IH 1. intros [c i [vs|]] st w; [|apply literal_steady]. cbn [xactual_format_data wactual_format_data]. revert st w. generalize (@nil (ustr * pvalue)).
    induction vs as [|[ph v] vs IHvs]; intros new st w; [apply format_steady|]. destruct v; try apply IHvs. rewrite IH.
    destruct (wactual_format_data E reg d t fb ca st w) as (w1 & st1 & [(s & t')|e| |]); try reflexivity. apply IHvs.
  Qed.
  Theorem step_steady st x w : xlstep E reg P st x w = wlstep E reg st x w.
  Proof. destruct x; cbn [xlstep wlstep]; rewrite ?format_steady, ?literal_steady, ?data_steady; reflexivity. Qed.
End Steady.

(** ** A provider with effects whose answers do not change *)
Section Fixed.
  Context {PE W : Type}.
  Variables (E : lenv PE) (P : wprovider PE W) (I : W -> Prop).
  Hypothesis HP : answers_as P I (le_provider E).
  Notation reg := (without_effects (W := W) (le_reg E)).
  Lemma string_fixed c i t w : I w -> exists w', wp_string P c i t w = (w', pv_string (le_provider E) c i t) /\ I w'.
  Proof. intros Hw. destruct (proj1 HP c i t w Hw) as (H1 & H2). destruct (wp_string P c i t w) as (w' & x). cbn in *. exists w'. split; [now rewrite H2|exact H1]. Qed.
  Lemma default_fixed c w : I w -> exists w', wp_default P c w = (w', pv_default (le_provider E) c) /\ I w'.
  Proof. intros Hw. destruct (proj2 HP c w Hw) as (H1 & H2). destruct (wp_default P c w) as (w' & x). cbn in *. exists w'. split; [now rewrite H2|exact H1]. Qed.
  Lemma find_fixed c i t fb w : I w -> exists w', xfind_string P c i t fb w = (w', find_string E c i t fb) /\ I w'.
  Proof.
    intros Hw. unfold xfind_string, find_string. destruct (string_fixed c i t w Hw) as (w1 & -> & H1).
    destruct (pv_string (le_provider E) c i t) as [[r|]|e| |]; try (exists w1; split; [reflexivity|exact H1]).
    destruct fb; cbn [negb]; [|exists w1; split; [reflexivity|exact H1]].
    destruct (default_fixed c w1 H1) as (w2 & -> & H2). destruct (pv_default (le_provider E) c) as [d|e| |]; try (exists w2; split; [reflexivity|exact H2]).
    cbn. destruct (string_fixed c i d w2 H2) as (w3 & -> & H3). exists w3. split; [|exact H3]. now destruct (pv_string (le_provider E) c i d) as [[r|]|e| |].
  Qed.
  Lemma format_fixed st c i vals t fb ca w : I w -> exists w', xactual_format E reg P st c i vals t fb ca w = (w', actual_format E st c i vals t fb ca) /\ I w'.
  Proof.
    intros Hw. unfold xactual_format, actual_format. destruct (cached st t (combined c i)) as [[s t'|fm]|].
    - exists w. auto.
    - rewrite run_without. exists w. split; [now destruct (run_formatter E fm vals)|exact Hw].
    - destruct (find_fixed c i t fb w Hw) as (w1 & -> & H1). exists w1. split; [|exact H1]. destruct (find_string E c i t fb) as [(s & t')|e| |]; try reflexivity.
      destruct s as [|x s]; [reflexivity|]. rewrite build_without. destruct (formatter_try_new _ _ _ _ _ _ _) as [fm|e| |]; try reflexivity; [|now destruct e].
      rewrite run_without. now destruct (run_formatter E fm vals).
  Qed.
  Lemma literal_fixed st c i t fb ca w : I w -> exists w', xactual_literal P st c i t fb ca w = (w', actual_literal E st c i t fb ca) /\ I w'.
  Proof.
    intros Hw. unfold xactual_literal, actual_literal. destruct (cached st t (combined c i)) as [[s t'|fm]|]; [exists w; auto|exists w; auto|].
    destruct (find_fixed c i t fb w Hw) as (w1 & -> & H1). exists w1. split; [|exact H1]. now destruct (find_string E c i t fb) as [(s & t')|e| |].
  Qed.
  Lemma data_fixed t fb ca : forall d st w, I w -> exists w', xactual_format_data E reg P d t fb ca st w = (w', actual_format_data E d t fb ca st) /\ I w'.
  Proof.
    fix IH 1. intros [c i [vs|]] st w Hw; [|now apply literal_fixed]. cbn [xactual_format_data actual_format_data]. revert st w Hw. generalize (@nil (ustr * pvalue)).
    induction vs as [|[ph v] vs IHvs]; intros new st w Hw; [now apply format_fixed|]. destruct v; try now apply IHvs. destruct (IH d st w Hw) as (w1 & -> & H1).
    destruct (actual_format_data E d t fb ca st) as [st1 [[s t']|e| |]]; try (exists w1; split; [reflexivity|exact H1]). now apply IHvs.
  Qed.
  Theorem step_fixed st x w : I w -> exists w', xlstep E reg P st x w = (w', lstep E st x) /\ I w'.
  Proof.
    intros Hw. destruct x as [c i vals t f ca|c i vals|c i t f ca|c i|d t f ca|d|t f ca]; cbn [xlstep lstep];
      unfold loc_format, loc_format_with_defaults, loc_literal, loc_literal_with_defaults, loc_format_data, loc_format_data_with_defaults.
    - destruct (format_fixed st c i vals t (unwrap_or f (ls_fallback st)) (unwrap_or ca (ls_caching st)) w Hw) as (w' & -> & H). exists w'. split; [now destruct (actual_format _ _ _ _ _ _ _ _)|exact H].
    - destruct (format_fixed st c i vals (ls_tag st) (ls_fallback st) (ls_caching st) w Hw) as (w' & -> & H). exists w'. split; [now destruct (actual_format _ _ _ _ _ _ _ _)|exact H].
    - destruct (literal_fixed st c i t (unwrap_or f (ls_fallback st)) (unwrap_or ca (ls_caching st)) w Hw) as (w' & -> & H). exists w'. split; [now destruct (actual_literal _ _ _ _ _ _ _)|exact H].
    - destruct (literal_fixed st c i (ls_tag st) (ls_fallback st) (ls_caching st) w Hw) as (w' & -> & H). exists w'. split; [now destruct (actual_literal _ _ _ _ _ _ _)|exact H].
    - destruct (data_fixed t (unwrap_or f (ls_fallback st)) (unwrap_or ca (ls_caching st)) d st w Hw) as (w' & -> & H). exists w'. split; [now destruct (actual_format_data _ _ _ _ _ _)|exact H].
    - destruct (data_fixed (ls_tag st) (ls_fallback st) (ls_caching st) d st w Hw) as (w' & -> & H). exists w'. split; [now destruct (actual_format_data _ _ _ _ _ _)|exact H].
    - exists w. auto.
  Qed.
  (** Calls, before each of which the world may change in a way that does not matter to the provider. *)
  Theorem run_fixed h : forall w st, I w -> (forall f x w0, In (f, x) h -> I w0 -> I (f w0)) -> exists w', xlrun E reg P (w, st) h = (w', lrun E st (map snd h)) /\ I w'.
  Proof.
    induction h as [|(f & x) h IH]; intros w st Hw Hh; [exists w; auto|]. unfold xlrun in *. cbn [fold_left fst snd map].
    destruct (step_fixed st x (f w) (Hh f x w (or_introl eq_refl) Hw)) as (w1 & -> & H1). cbn [fst snd]. apply IH; [exact H1|]. intros g y w0 Hi. apply (Hh g y). now right.
  Qed.
End Fixed.

(** ** The sqlite3 provider *)
Section Sqlite.
  Variables (E : penv) (D : database) (p : sprovider).
  Hypothesis Hp : provider_ok p.
  Hypothesis HD : reads_files E p D.
  Definition reached (s : qstate) : Prop := exists hist, snd s = prun E p pstate_new hist.
  Lemma reached_new : reached qstate_new.
  Proof. now exists []. Qed.
  Lemma call_reached x s : reached s -> reached (fst (q_pcall E D p x s)) /\ snd (q_pcall E D p x s) = snd (pcall_run E p x pstate_new).
  Proof.
    intros (hist & Hh). pose proof (erases_call E p D HD x s) as H. rewrite Hh in H. split.
    - exists (hist ++ [x]). unfold prun. rewrite fold_left_app. cbn [fold_left]. fold (prun E p pstate_new hist). now rewrite <- H.
    - rewrite <- (history_steady E p Hp x hist), <- H. reflexivity.
  Qed.
  Lemma sqlite_fixed : answers_as (query_provider E D p) reached (sqlite_provider E p).
  Proof.
    split.
    - intros c i t s Hs. cbn [query_provider sqlite_provider wp_string pv_string]. destruct (pe_canon E t) as [t'|]; [|auto]. destruct (ueqb t t'); [|auto].
      destruct (call_reached (CallString c i t) s Hs) as (H1 & H2). cbn [q_pcall pcall_run] in H1, H2. unfold qbind, pbind, string_ in *.
      destruct (q_one_string E D p false c i t s) as (s' & [o|e| |]); destruct (one_string E p false c i t pstate_new) as (s1 & [o'|e'| |]); cbn in *; try discriminate;
        (split; [exact H1|]); try reflexivity; now injection H2 as <-.
    - intros c s Hs. cbn [query_provider sqlite_provider wp_default pv_default].
      destruct (call_reached (CallComponent c) s Hs) as (H1 & H2). cbn [q_pcall pcall_run] in H1, H2. unfold qbind, pbind in *.
      destruct (q_component_details E D p c s) as (s' & [o|e| |]); destruct (component_details E p c pstate_new) as (s1 & [o'|e'| |]); cbn in *; try discriminate;
        (split; [exact H1|]); try reflexivity; now injection H2 as <-.
  Qed.
End Sqlite.

(** Which calls of the provider are made for a string. *)
Section Calls.
  Variables (E : penv) (D : database) (p : sprovider) (L : lenv perror).
  Notation P := (query_provider E D p).
  Lemma string_calls c i t s : pe_canon E t = Some t -> exists o, wp_string P c i t s = (fst (q_pcall E D p (CallString c i t) s), o) /\
    (o = Ok None <-> none_found (snd (q_pcall E D p (CallString c i t) s))).
  Proof.
    intros Ht. cbn [query_provider wp_string q_pcall]. rewrite Ht, ueqb_refl. unfold qbind, none_found. destruct (q_one_string E D p false c i t s) as (s' & o). exists o.
    destruct o as [o|e| |]; cbn; (split; [reflexivity|]); split; try discriminate; [intros [= ->]; reflexivity|intros [= ->]; reflexivity].
  Qed.
  Lemma other_calls c i t s : pe_canon E t <> Some t -> wp_string P c i t s = (s, Ok None).
  Proof.
    intros Ht. cbn [query_provider wp_string]. destruct (pe_canon E t) as [t'|] eqn:Et; [|reflexivity]. destruct (ueqb_spec t t') as [->|Hn]; [congruence|reflexivity].
  Qed.
  Lemma default_calls c s : exists o, wp_default P c s = (fst (q_pcall E D p (CallComponent c) s), o) /\
    (forall d, o = Ok d <-> exists cd, snd (q_pcall E D p (CallComponent c) s) = Ok (AnComponent cd) /\ cd_default cd = d).
  Proof.
    cbn [query_provider wp_default q_pcall]. unfold qbind. destruct (q_component_details E D p c s) as (s' & o). destruct o as [cd|e| |]; cbn; eexists; (split; [reflexivity|]); intros d; split;
      try discriminate; try (intros (cd' & H & _); discriminate).
    - intros [= <-]. now exists cd.
    - intros (cd' & [= ->] & <-). reflexivity.
  Qed.
  Lemma asks_calls c i t fb s s' r : pe_canon E t = Some t -> asks P c i t fb s s' r -> exists cs, provider_calls E D p c i t fb s cs /\ s' = q_prun E D p s cs.
  Proof.
    intros Ht. destruct (string_calls c i t s Ht) as (o & E1 & H1). set (s1 := fst (q_pcall E D p (CallString c i t) s)) in *.
    assert (Hone : fb = false \/ o <> Ok None -> provider_calls E D p c i t fb s [CallString c i t]).
    { intros [Hf|Ho]; apply pc_found; [now left|]. right. now rewrite <- H1. }
    destruct (default_calls c s1) as (o2 & E2 & H2). set (s2 := fst (q_pcall E D p (CallComponent c) s1)) in *.
    assert (Hthree : forall d w' o3, fb = true -> o = Ok None -> o2 = Ok d -> wp_string P c i d s2 = (w', o3) ->
      exists cs, provider_calls E D p c i t fb s cs /\ w' = q_prun E D p s cs).
    { intros d w' o3 Hf Ho Ho2 H3. apply H1 in Ho. apply H2 in Ho2 as (cd & Hcd & <-).
      assert (Hdec : pe_canon E (cd_default cd) = Some (cd_default cd) \/ pe_canon E (cd_default cd) <> Some (cd_default cd)).
      { destruct (pe_canon E (cd_default cd)) as [d'|]; [|right; discriminate]. destruct (ueqb_spec d' (cd_default cd)) as [->|Hn]; [now left|right; congruence]. }
      destruct Hdec as [Hd|Hd].
      - destruct (string_calls c i (cd_default cd) s2 Hd) as (o4 & E4 & _). rewrite E4 in H3. injection H3 as <- _.
        exists [CallString c i t; CallComponent c; CallString c i (cd_default cd)]. split; [|reflexivity]. now apply pc_default with s1.
      - rewrite (other_calls c i (cd_default cd) s2 Hd) in H3. injection H3 as <- _.
        exists [CallString c i t; CallComponent c]. split; [|reflexivity]. apply pc_details with s1 (Ok (AnComponent cd)); auto. intros cd' [= <-]. exact Hd. }
    intros H. destruct H as [r H|x y H Hf|Hb H|w1 x y Hb H H3 Hf|w1 w2 d r Hb H H3 H4|w1 w2 d x y Hb H H3 H4 Hf|w1 w2 d Hb H H3 H4]; rewrite E1 in H.
    - injection H as <- ->. exists [CallString c i t]. split; [|reflexivity]. apply Hone. right. discriminate.
    - injection H as <- <-. exists [CallString c i t]. split; [|reflexivity]. apply Hone. right. intros ->. exact Hf.
    - injection H as <- ->. exists [CallString c i t]. split; [|reflexivity]. apply Hone. now left.
    - injection H as <- ->. rewrite E2 in H3. injection H3 as <- <-. exists [CallString c i t; CallComponent c]. split; [|reflexivity].
      apply pc_details with s1 (snd (q_pcall E D p (CallComponent c) s1)); auto; [now apply H1|]. intros cd Hcd. exfalso.
      assert (Ho : o2 = Ok (cd_default cd)) by (apply H2; eauto). rewrite Ho in Hf. exact Hf.
    - injection H as <- ->. rewrite E2 in H3. injection H3 as <- ->. exact (Hthree d _ _ Hb eq_refl eq_refl H4).
    - injection H as <- ->. rewrite E2 in H3. injection H3 as <- ->. exact (Hthree d _ _ Hb eq_refl eq_refl H4).
    - injection H as <- ->. rewrite E2 in H3. injection H3 as <- ->. exact (Hthree d _ _ Hb eq_refl eq_refl H4).
  Qed.
  Theorem one_calls st x q s : asks_one st x = Some q -> ~ remembered st q -> pe_canon E (rq_tag q) = Some (rq_tag q) ->
    exists cs, provider_calls E D p (rq_component q) (rq_identifier q) (rq_tag q) (rq_fallback q) s cs /\
      fst (xlstep L (without_effects (le_reg L)) P st x s) = q_prun E D p s cs.
  Proof.
    intros Hx Hr Ht. destruct (one_asks L (without_effects (le_reg L)) P st x q s Hx Hr) as (w1 & r & Ha & ->). destruct (asks_calls _ _ _ _ _ _ _ Ht Ha) as (cs & H1 & H2).
    exists cs. split; [exact H1|]. rewrite <- H2. destruct r as [y|e| |]; try reflexivity. pose proof (step_without (W := qstate) (given L y) st x w1) as H. cbn [given le_reg] in H. now rewrite H.
  Qed.
  Lemma format_silent st c i vals t fb ca s : cached st t (combined c i) <> None -> fst (xactual_format L (without_effects (le_reg L)) P st c i vals t fb ca s) = s.
  Proof.
    intros H. unfold xactual_format. destruct (cached st t (combined c i)) as [[x t'|fm]|]; [reflexivity| |congruence]. rewrite run_without. now destruct (run_formatter L fm vals).
  Qed.
  Lemma literal_silent st c i t fb ca s : cached st t (combined c i) <> None -> fst (xactual_literal P st c i t fb ca s) = s.
  Proof. intros H. unfold xactual_literal. destruct (cached st t (combined c i)) as [[x t'|fm]|]; [reflexivity|reflexivity|congruence]. Qed.
  Theorem one_silent st x q s : asks_one st x = Some q -> remembered st q -> fst (xlstep L (without_effects (le_reg L)) P st x s) = s.
  Proof.
    intros Hx Hr. unfold remembered in Hr. destruct x as [c i vals t f ca|c i vals|c i t f ca|c i|d t f ca|d|t f ca]; try discriminate Hx; injection Hx as <-;
      cbn [xlstep rq_component rq_identifier rq_tag fst] in *; rewrite ?format_silent, ?literal_silent by exact Hr; reflexivity.
  Qed.
End Calls.
