(** Proofs about the localiser and its cache. *)
From Verif Require Import Base BaseFacts LexerModel LexerSpec IcuExample TreeModel TreeSpec DocSpec ValueModel CommandModel IsoModel FormatterModel
  FormatterAbs FormatterRefine FormatterRefine2 FormatterSpec FormatterProofs4 FormatterProofs5 RegistryModel LocaliserModel LocaliserSpec.
Local Opaque us.

(** ** A string without grammar *)
Section NoGrammar.
  Variables (fe : fmtenv) (reg : cregistry) (locale : ustr).
  Local Notation nog x := (x <> Err FNoGrammar).

  Lemma nog_bind {A B} (x : fout A) (f : A -> fout B) : nog x -> (forall a, nog (f a)) -> nog (bind x f).
  Proof. destruct x; cbn; intros H1 H2; auto; congruence. Qed.
  Lemma decimal_options_nog ph l : forall s g, nog (decimal_options ph l s g).
  Proof.
    induction l as [|[k v] r IH]; intros s g; cbn; [discriminate|]. destruct (ueqb k (us "sign")).
    - unfold sign_display. repeat (destruct (ueqb v _); [apply IH|]). discriminate.
    - destruct (ueqb k (us "group")); [|discriminate]. unfold decimal_grouping_display.
      repeat (destruct (ueqb v _); [apply IH|]). discriminate.
  Qed.
  Lemma date_time_options_nog ph l : forall a b c, nog (date_time_options fe locale ph l a b c).
  Proof.
    induction l as [|[k v] r IH]; intros a b c; cbn; [discriminate|]. destruct (ueqb k (us "date")).
    { unfold date_length, length_option. repeat (destruct (ueqb v _); [apply IH|]). discriminate. }
    destruct (ueqb k (us "time")).
    { unfold time_length, length_option. repeat (destruct (ueqb v _); [apply IH|]). discriminate. }
    destruct (ueqb k (us "calendar")); [|discriminate]. destruct (negb _); [discriminate|].
    destruct (fe_locale fe _); cbn; [apply IH|discriminate].
  Qed.
  Lemma plural_checks_nog kw ph known l : forall o, nog (plural_checks kw ph known l o).
  Proof. induction l as [|[k v] r IH]; intros o; cbn; [discriminate|]. destruct (negb _); [discriminate|]. destruct (negb _); [discriminate|apply IH]. Qed.
  Lemma select_checks_nog ph known l : nog (select_checks ph known l).
  Proof. induction l as [|[k v] r IH]; cbn; [discriminate|]. destruct (negb _); [discriminate|exact IH]. Qed.
  Lemma kw_check_nog known ph kw l : nog (kw_check fe locale known ph kw l).
  Proof.
    unfold kw_check. destruct (ueqb kw _); [apply nog_bind; [apply decimal_options_nog|discriminate]|].
    destruct (ueqb kw _); [apply nog_bind; [apply date_time_options_nog|discriminate]|].
    destruct (_ || _); [apply nog_bind; [apply plural_checks_nog|]; intros []; discriminate|].
    destruct (ueqb kw _); [apply select_checks_nog|discriminate].
  Qed.
  Lemma cmd_args_nog ps : nog (cmd_args ps).
  Proof. induction ps as [|[w|] r IH]; cbn; [discriminate| |discriminate]. apply nog_bind; [exact IH|discriminate]. Qed.
  Lemma map_err_nog {F A} (f : F -> formatter_error) (x : outcome F A) : (forall e, f e <> FNoGrammar) -> nog (map_err f x).
  Proof. intros H. destruct x; cbn; try discriminate. intros E. injection E. apply H. Qed.
  Lemma item_check_nog known main x : nog (item_check fe reg locale known main x).
  Proof.
    destruct x as [w| |ph [[kw sels]|]|ps]; cbn; try discriminate.
    - destruct main; discriminate.
    - apply kw_check_nog.
    - apply nog_bind.
      + unfold cmd_parts. destruct ps as [|[w|] r]; try discriminate.
        destruct r as [|[w'|] r]; apply nog_bind; try apply cmd_args_nog; discriminate.
      + intros [[name delay] l]. destruct delay; [discriminate|]. apply nog_bind; [|discriminate]. unfold run_command.
        apply nog_bind; [apply map_err_nog; discriminate|]. intros f. apply map_err_nog. discriminate.
  Qed.
  Lemma items_check_nog known main l : nog (items_check fe reg locale known main l).
  Proof. induction l as [|x r IH]; cbn; [discriminate|]. apply nog_bind; [apply item_check_nog|auto]. Qed.
  Lemma content_check_nog a : nog (content_check fe reg locale a).
  Proof.
    unfold content_check. apply nog_bind; [|intros known; apply items_check_nog].
    generalize [us "_"]. induction (group_of a) as [|[id x] r IH]; intros known; cbn; [discriminate|].
    destruct (umem id known); [discriminate|]. apply nog_bind; [apply items_check_nog|auto].
  Qed.
End NoGrammar.

Lemma no_grammar_iff d fe reg tag locale s : icu_ok d -> s <> [] ->
  formatter_try_new d l10n_grammar fe reg tag locale s = Err FNoGrammar <-> forall c, In c s -> ~ In c l10n_grammar.
Proof.
  intros Hd Hs. split.
  - intros H c H1 H2. unfold formatter_try_new in H. destruct (tree_try_new d s l10n_grammar) as [tr|e| |] eqn:Et; cbn in H; try discriminate.
    assert (Hg : tr_has_grammar tr = true) by (apply (tree_grammar_iff d s tr Hd Et); eauto).
    destruct (accepted_content d l10n_grammar s tr Et) as (a & _ & Ha).
    pose proof (formatter_built fe reg locale tag tr a Ha Hg) as Hb. pose proof (content_check_nog fe reg locale a) as Hn.
    destruct (content_check fe reg locale a) as [u|e| |]; [destruct Hb as (fm & Hb & _)| | |]; congruence.
  - intros Hn. destruct (tree_plain d s Hd Hs Hn) as (tr & Ht & Hg). unfold formatter_try_new. rewrite Ht. cbn.
    unfold formatter_of_tree. now rewrite Hg.
Qed.

(** A string without number sign. *)
Lemma no_hash_in_plurals d g s a : ~ In (ch "#") s -> content_of d g s a -> hash_in_plurals_only a.
Proof.
  intros Hn (c & Hc & Hs & ->). assert (Hg : c_group c = None).
  { destruct (c_group c) as [l|] eqn:Eg; [|reflexivity]. exfalso. apply Hn. destruct Hs as (Hs & _). rewrite <- Hs. unfold cprint. rewrite Eg.
    rewrite map_app, concat_app. apply in_or_app. right. now left. }
  intros name body x ph sels sel branch _ _ _ _ target Ht Hh. unfold all_strings, group_of, ccontent in Ht. rewrite Hg in Ht.
  destruct Ht as [[= _ <-]|[]]. destruct Hc as ((_ & Hm) & _). cbn in Hh. apply in_map_iff in Hh as (p & Hp & Hi).
  rewrite Forall_forall in Hm. specialize (Hm p Hi). destruct p as [| | |id ws [[k l]|]|]; discriminate.
Qed.

Section Localiser.
  Context {PE : Type}.
  Variable E : lenv PE.
  Let P := le_provider E.
  Local Notation build t s := (formatter_try_new (le_icu E) localiser_grammar (le_fmt E) (le_reg E) t (le_locale E t) s).

  (** ** Finding a string *)
  Lemma find_string_iff c i t fb s t' : find_string E c i t fb = Ok (s, t') <-> found E c i t fb s t'.
  Proof.
    unfold find_string. split.
    - intros H. destruct (pv_string (le_provider E) c i t) as [[r|]|e| |] eqn:E1; cbn in H; try discriminate.
      + injection H as ->. now apply fd_asked.
      + destruct fb; cbn in H; [|discriminate]. destruct (pv_default (le_provider E) c) as [d|e| |] eqn:E2; cbn in H; try discriminate.
        destruct (pv_string (le_provider E) c i d) as [[r|]|e| |] eqn:E3; cbn in H; try discriminate. injection H as ->.
        now apply fd_default with d.
    - intros [H|d H1 -> H2 H3]; [now rewrite H|]. rewrite H1. cbn. rewrite H2. cbn. now rewrite H3.
  Qed.
  Lemma find_string_missing c i t fb : find_string E c i t fb = Err (LStringNotFound c i t fb) <-> missing E c i t fb.
  Proof.
    unfold find_string. split.
    - intros H. destruct (pv_string (le_provider E) c i t) as [[r|]|e| |] eqn:E1; cbn in H; try discriminate.
      destruct fb; cbn in H; [|now apply ms_no_fallback]. destruct (pv_default (le_provider E) c) as [d|e| |] eqn:E2; cbn in H; try discriminate.
      destruct (pv_string (le_provider E) c i d) as [[r|]|e| |] eqn:E3; cbn in H; try discriminate. now apply ms_default with d.
    - intros [H|d H1 H2 H3]; [now rewrite H|]. rewrite H1. cbn. rewrite H2. cbn. now rewrite H3.
  Qed.
  Lemma find_string_not_found c i t fb c' i' t' fb' :
    find_string E c i t fb = Err (LStringNotFound c' i' t' fb') -> c' = c /\ i' = i /\ t' = t /\ fb' = fb.
  Proof.
    unfold find_string. intros H. destruct (pv_string (le_provider E) c i t) as [[r|]|e| |] eqn:E1; cbn in H; try discriminate.
    destruct fb; cbn in H; [|injection H as <- <- <- <-; auto]. destruct (pv_default (le_provider E) c) as [d|e| |] eqn:E2; cbn in H; try discriminate.
    destruct (pv_string (le_provider E) c i d) as [[r|]|e| |] eqn:E3; cbn in H; try discriminate. injection H as <- <- <- <-. auto.
  Qed.

  (** ** Results without a cache *)
  Definition pure_text (vals : amap pvalue) (s t : ustr) : lout (PE := PE) (ustr * ustr) :=
    match s with
    | [] => Ok (s, t)
    | _ :: _ => match build t s with
                | Err FNoGrammar => Ok (s, t)
                | Err e => Err (LFormatter e)
                | Panic => Panic
                | NoFuel => NoFuel
                | Ok fm => snd (run_formatter E fm vals)
                end
    end.
  Definition pure_format (c i : ustr) (vals : amap pvalue) (t : ustr) (fb : bool) : lout (PE := PE) (ustr * ustr) :=
    let! (s, t') := find_string E c i t fb in pure_text vals s t'.
  Fixpoint pure_data (t : ustr) (fb : bool) (d : ldata) : lout (PE := PE) (ustr * ustr) :=
    match d with
    | LData c i None => find_string E c i t fb
    | LData c i (Some vs) =>
        (fix go (vs : list (ustr * pvalue)) (new : amap pvalue) : lout (ustr * ustr) :=
           match vs with
           | [] => pure_format c i new t fb
           | (ph, v) :: r =>
               match v with
               | VData inner => match pure_data t fb inner with
                                | Ok (s, t') => go r (minsert ph (VLocalised s t') new)
                                | other => other
                                end
               | _ => go r (minsert ph v new)
               end
           end) vs []
    end.

  (** ** Changes of the cache *)
  Definition put (st : lstate) (t key : ustr) (e : cache_data) (st' : lstate) : Prop :=
    ls_fallback st' = ls_fallback st /\ ls_caching st' = ls_caching st /\ ls_tag st' = ls_tag st /\ ls_script st' = ls_script st /\
    forall t' key' e', cached st' t' key' = Some e' -> (t' = t /\ key' = key /\ e' = e) \/ cached st t' key' = Some e'.
  Lemma cached_put st t m t' key' : cached (set_cache st (minsert t m (ls_cache st))) t' key' =
    if ueqb t' t then mget key' m else cached st t' key'.
  Proof. unfold cached. cbn. rewrite mget_minsert. now destruct (ueqb t' t). Qed.
  Lemma put_new st t key e : put st t key e (set_cache st (minsert t [(key, e)] (ls_cache st))).
  Proof.
    repeat split. intros t' key' e' H. rewrite cached_put in H. destruct (ueqb_spec t' t) as [->|N]; [|auto]. left. cbn in H.
    destruct (ueqb_spec key' key) as [->|N]; [|discriminate]. injection H as <-. auto.
  Qed.
  Lemma put_old st t key e m : mget t (ls_cache st) = Some m -> put st t key e (set_cache st (minsert t (minsert key e m) (ls_cache st))).
  Proof.
    intros Hm. repeat split. intros t' key' e' H. rewrite cached_put in H. destruct (ueqb_spec t' t) as [->|N]; [|auto].
    rewrite mget_minsert in H. destruct (ueqb_spec key' key) as [->|N]; [injection H as <-; auto|]. right. unfold cached. now rewrite Hm.
  Qed.
  Lemma put_formatter_put st t key fm : put st t key (CFormatter fm) (put_formatter st t key fm).
  Proof. unfold put_formatter. destruct (mget t (ls_cache st)) as [m|] eqn:Em; [now apply put_old|apply put_new]. Qed.
  Lemma return_string_cases st b ca key s t st' r : return_string (PE := PE) st b ca key s t = (st', r) ->
    (r = Ok (s, t) /\ (st' = st \/ put st t key (CLocalised s t) st')) \/
    (r = Panic /\ st' = st /\ ca = true /\ b = true /\ mget t (ls_cache st) = None).
  Proof.
    unfold return_string, add_string_to_cache. destruct ca; [|intros [= <- <-]; auto]. destruct b; cbn.
    - destruct (mget t (ls_cache st)) as [m|] eqn:Em; intros [= <- <-]; [|auto 6]. left. split; [reflexivity|]. right. now apply put_old.
    - intros [= <- <-]. left. split; [reflexivity|]. right. apply put_new.
  Qed.

  (** ** The invariant of the cache: every entry comes from a request *)
  Definition entry_from (rs : list request) (t key : ustr) (e : cache_data) : Prop :=
    match e with
    | CLocalised s t' => t' = t /\ exists q, In q rs /\ key = combined (rq_component q) (rq_identifier q) /\
        find_string E (rq_component q) (rq_identifier q) (rq_tag q) (rq_fallback q) = Ok (s, t) /\
        (rq_literal q = true \/ s = [] \/ build t s = Err FNoGrammar)
    | CFormatter fm => exists q s t' fm0, In q rs /\ key = combined (rq_component q) (rq_identifier q) /\ rq_tag q = t /\ rq_literal q = false /\
        find_string E (rq_component q) (rq_identifier q) t (rq_fallback q) = Ok (s, t') /\ s <> [] /\ build t' s = Ok fm0 /\
        after_formatting (le_fmt E) (le_reg E) fm0 fm
    end.
  Definition cache_ok (rs : list request) (st : lstate) : Prop :=
    forall t key e, cached st t key = Some e -> entry_from rs t key e.

  Lemma put_ok rs st t key e st' : cache_ok rs st -> put st t key e st' -> entry_from rs t key e -> cache_ok rs st'.
  Proof. intros Hc (_ & _ & _ & _ & Hp) He t' key' e' H. destruct (Hp _ _ _ H) as [(-> & -> & ->)|H']; [exact He|exact (Hc _ _ _ H')]. Qed.
  Lemma cache_ok_more rs rs' st : (forall q, In q rs -> In q rs') -> cache_ok rs st -> cache_ok rs' st.
  Proof.
    intros Hi Hc t key e H. specialize (Hc t key e H). destruct e as [s t'|fm]; cbn in *.
    - destruct Hc as (H1 & q & H2 & H3). split; [exact H1|]. exists q. split; [now apply Hi|exact H3].
    - destruct Hc as (q & s & t' & fm0 & H2 & H3). exists q, s, t', fm0. split; [now apply Hi|exact H3].
  Qed.

  Lemma run_formatter_after fm0 fm vals : after_formatting (le_fmt E) (le_reg E) fm0 fm ->
    after_formatting (le_fmt E) (le_reg E) fm0 (fst (run_formatter E fm vals)).
  Proof. intros H. unfold run_formatter. pose proof (af_call _ _ _ fm vals (le_fuel E) H) as G. destruct (format _ _ _ fm vals) as [fm' r]. exact G. Qed.
  Lemma run_formatter_tag fm0 fm : after_formatting (le_fmt E) (le_reg E) fm0 fm -> fm_tag fm = fm_tag fm0.
  Proof.
    induction 1 as [|fm1 vals fuel H IH]; [reflexivity|]. rewrite <- IH. unfold format. destruct (format_pattern _ _ _ _ _ _ _). reflexivity.
  Qed.
  Lemma run_formatter_result fm vals : snd (run_formatter E fm vals) =
    let! s := map_err LFormatter (snd (format (le_fuel E) (le_fmt E) (le_reg E) fm vals)) in Ok (s, fm_tag fm).
  Proof.
    unfold run_formatter. pose proof (run_formatter_tag fm _ (af_call _ _ fm fm vals (le_fuel E) (af_fresh _ _ _))) as G.
    destruct (format _ _ _ fm vals) as [fm' r]. cbn in *. now rewrite G.
  Qed.

  (** The two ways a call can differ from the one without cache are kept apart: [hit_differs] for the content of the cache,
      and the panic when a string is stored. *)
  Definition gap_panic (st : lstate) (c i t : ustr) (fb ca : bool) : Prop :=
    ca = true /\ cached st t (combined c i) = None /\ exists s t', find_string E c i t fb = Ok (s, t') /\ cache_gap st t t'.
  Lemma mhas_gap st t t' : mhas t (ls_cache st) = true -> mget t' (ls_cache st) = None -> cache_gap st t t'.
  Proof. unfold mhas, cache_gap. destruct (mget t (ls_cache st)); [|discriminate]. intros _ H. split; [discriminate|exact H]. Qed.

  Lemma literal_step rs st c i t fb ca st' r : cache_ok rs st -> In (mk_request c i t fb true) rs ->
    actual_literal E st c i t fb ca = (st', r) -> cache_ok rs st' /\
    match cached st t (combined c i) with
    | Some (CLocalised s t') => r = Ok (s, t')
    | Some (CFormatter _) => r = Err (LCacheEntry c i)
    | None => r = find_string E c i t fb \/ (r = Panic /\ gap_panic st c i t fb ca)
    end.
  Proof.
    intros Hc Hq H. unfold actual_literal in H. destruct (cached st t (combined c i)) as [[s t'|fm]|] eqn:Ec.
    - injection H as <- <-. auto.
    - injection H as <- <-. auto.
    - destruct (find_string E c i t fb) as [[s t']|e| |] eqn:Ef; try (injection H as <- <-; auto).
      apply return_string_cases in H as [(-> & [->|Hp])|(-> & -> & -> & Hh & Hm)]; auto.
      + split; [|auto]. apply (put_ok rs st _ _ _ _ Hc Hp). cbn. split; [reflexivity|]. exists (mk_request c i t fb true). cbn. auto.
      + split; [exact Hc|]. right. split; [reflexivity|]. split; [reflexivity|]. split; [exact Ec|]. exists s, t'. split; [exact Ef|now apply mhas_gap].
  Qed.
  Lemma format_step rs st c i vals t fb ca st' r : cache_ok rs st -> In (mk_request c i t fb false) rs ->
    actual_format E st c i vals t fb ca = (st', r) -> cache_ok rs st' /\
    match cached st t (combined c i) with
    | Some (CLocalised s t') => r = Ok (s, t')
    | Some (CFormatter fm) => r = snd (run_formatter E fm vals)
    | None => r = pure_format c i vals t fb \/ (r = Panic /\ gap_panic st c i t fb ca)
    end.
  Proof.
    intros Hc Hq H. unfold actual_format in H. unfold pure_format, pure_text. destruct (cached st t (combined c i)) as [[s t'|fm]|] eqn:Ec.
    - injection H as <- <-. auto.
    - pose proof (run_formatter_after fm fm vals) as Ha. destruct (run_formatter E fm vals) as [fm' r'] eqn:Er. injection H as <- <-.
      split; [|reflexivity]. apply (put_ok rs st _ _ _ _ Hc (put_formatter_put st t _ fm')).
      specialize (Hc _ _ _ Ec). cbn in Hc. destruct Hc as (q & s & t' & fm0 & H1 & H2 & H3 & H4 & H5 & H6 & H7 & H8).
      exists q, s, t', fm0. repeat (split; [assumption|]). pose proof (run_formatter_after fm0 fm vals H8) as G. rewrite Er in G. exact G.
    - destruct (find_string E c i t fb) as [[s t']|e| |] eqn:Ef; try (injection H as <- <-; auto). cbn [bind].
      assert (Hs : forall st' r, return_string (PE := PE) st (mhas t (ls_cache st)) ca (combined c i) s t' = (st', r) ->
        (rq_literal (mk_request c i t fb false) = true \/ s = [] \/ build t' s = Err FNoGrammar) ->
        cache_ok rs st' /\ (r = Ok (s, t') \/ (r = Panic /\ gap_panic st c i t fb ca))).
      { clear H. intros st1 r1 H Hl. apply return_string_cases in H as [(-> & [->|Hp])|(-> & -> & -> & Hh & Hm)]; auto.
        - split; [|auto]. apply (put_ok rs st _ _ _ _ Hc Hp). cbn [entry_from]. split; [reflexivity|]. exists (mk_request c i t fb false). auto.
        - split; [exact Hc|]. right. split; [reflexivity|]. split; [reflexivity|]. split; [exact Ec|]. exists s, t'. split; [exact Ef|now apply mhas_gap]. }
      destruct s as [|x w]; [apply Hs; auto|].
      destruct (build t' (x :: w)) as [fm|e| |] eqn:Eb; [| |injection H as <- <-; auto ..].
      + pose proof (run_formatter_after fm fm vals (af_fresh _ _ _)) as Ha. destruct (run_formatter E fm vals) as [fm' r'] eqn:Er. injection H as <- <-.
        split; [|auto]. destruct ca; [|exact Hc]. apply (put_ok rs st _ _ _ _ Hc (put_formatter_put st t _ fm')).
        exists (mk_request c i t fb false), (x :: w), t', fm. cbn. repeat split; auto. discriminate.
      + destruct e; try (injection H as <- <-; auto). apply Hs; auto.
  Qed.

  (** ** Transparency *)
  Hypothesis Hicu : icu_ok (le_icu E).

  Lemma combined_inj c i c' i' : ~ In (ch "/") c -> ~ In (ch "/") c' -> combined c i = combined c' i' -> c = c' /\ i = i'.
  Proof.
    unfold combined. revert c'. induction c as [|x c IH]; intros [|y c'] Hc Hc' H; cbn in H.
    - injection H as ->. auto.
    - injection H as <- _. now destruct Hc'; left.
    - injection H as -> _. now destruct Hc; left.
    - injection H as -> H. destruct (IH c') as (-> & ->); auto; intros Hi; [apply Hc|apply Hc']; now right.
  Qed.
  Lemma found_again c i t fb fb' s t' : answers_again E -> found E c i t fb s t' -> found E c i t' fb' s t'.
  Proof. intros Ha [H|d _ _ _ H]; apply fd_asked; exact (Ha _ _ _ _ _ H). Qed.
  Lemma same_found rs q q' : same_fallback E rs -> In q rs -> In q' rs -> rq_component q = rq_component q' -> rq_identifier q = rq_identifier q' ->
    rq_tag q = rq_tag q' -> find_string E (rq_component q) (rq_identifier q) (rq_tag q) (rq_fallback q) =
    find_string E (rq_component q') (rq_identifier q') (rq_tag q') (rq_fallback q').
  Proof.
    intros Hf H1 H2 H3 H4 H5. pose proof (Hf q q' H1 H2 H3 H4 H5) as G. unfold find_string. rewrite <- H3, <- H4, <- H5.
    destruct (pv_string (le_provider E) _ _ (rq_tag q)) as [[r|]|e| |]; try reflexivity. cbn. now rewrite <- (G eq_refl).
  Qed.
  Lemma plain_no_grammar s t : no_syntax s -> s = [] \/ build t s = Err FNoGrammar.
  Proof.
    intros H. destruct s as [|x w]; [auto|]. right.
    apply (no_grammar_iff (le_icu E) (le_fmt E) (le_reg E) t (le_locale E t) (x :: w) Hicu); [discriminate|exact H].
  Qed.
  Lemma plain_pure vals s t : s = [] \/ build t s = Err FNoGrammar -> pure_text vals s t = Ok (s, t).
  Proof. unfold pure_text. intros [->|H]; [reflexivity|]. rewrite H. now destruct s. Qed.

  Section Harmless.
    Variable rs : list request.
    Hypothesis Hagain : answers_again E.
    Hypothesis Hhash : provider_hash_ok E.
    Hypothesis Hharm : harmless E rs.

    Lemma literal_transparent st c i t fb ca st' r : cache_ok rs st -> In (mk_request c i t fb true) rs ->
      actual_literal E st c i t fb ca = (st', r) -> cache_ok rs st' /\
      (r = find_string E c i t fb \/ (r = Panic /\ gap_panic st c i t fb ca)).
    Proof.
      intros Hc Hq H. destruct Hharm as (Hsl & Hmix & Hfb). destruct (literal_step rs st c i t fb ca st' r Hc Hq H) as (Hc' & G). split; [exact Hc'|].
      destruct (cached st t (combined c i)) as [e|] eqn:Ec; [|exact G]. specialize (Hc _ _ _ Ec). destruct e as [s t'|fm]; subst r; left.
      - destruct Hc as (-> & q & Hin & Hk & Hf & _). apply combined_inj in Hk as (-> & ->); [|exact (Hsl _ Hq)|exact (Hsl _ Hin)].
        symmetry. apply find_string_iff. apply find_string_iff in Hf. exact (found_again _ _ _ _ _ _ _ Hagain Hf).
      - destruct Hc as (q & s & t' & fm0 & Hin & Hk & Ht & Hl & Hf & Hne & Hb & _).
        apply combined_inj in Hk as (Hc1 & Hi1); [|exact (Hsl _ Hq)|exact (Hsl _ Hin)]. exfalso.
        pose proof (same_found rs _ _ Hfb Hq Hin Hc1 Hi1 (eq_sym Ht)) as Hs. cbn in Hs. rewrite Ht, Hf in Hs.
        apply find_string_iff in Hs. pose proof (Hmix _ _ _ _ Hq Hin Hc1 Hi1 eq_refl Hl Hs) as Hn.
        destruct (plain_no_grammar s t' Hn); congruence.
    Qed.
    Lemma format_transparent st c i vals t fb ca st' r : cache_ok rs st -> In (mk_request c i t fb false) rs ->
      actual_format E st c i vals t fb ca = (st', r) -> cache_ok rs st' /\
      (r = pure_format c i vals t fb \/ (r = Panic /\ gap_panic st c i t fb ca)).
    Proof.
      intros Hc Hq H. destruct Hharm as (Hsl & Hmix & Hfb). destruct (format_step rs st c i vals t fb ca st' r Hc Hq H) as (Hc' & G). split; [exact Hc'|].
      destruct (cached st t (combined c i)) as [e|] eqn:Ec; [|exact G]. specialize (Hc _ _ _ Ec). destruct e as [s t'|fm]; subst r; left.
      - destruct Hc as (-> & q & Hin & Hk & Hf & Hl). apply combined_inj in Hk as (Hc1 & Hi1); [|exact (Hsl _ Hq)|exact (Hsl _ Hin)].
        apply find_string_iff in Hf. pose proof (found_again _ _ _ _ fb _ _ Hagain Hf) as Hf'.
        assert (Hp : s = [] \/ build t s = Err FNoGrammar).
        { destruct Hl as [Hl|Hl]; [|exact Hl]. apply plain_no_grammar. exact (Hmix q _ s t Hin Hq (eq_sym Hc1) (eq_sym Hi1) Hl eq_refl Hf). }
        unfold pure_format. rewrite <- Hc1, <- Hi1 in Hf'. apply find_string_iff in Hf'. rewrite Hf'. cbn. now rewrite plain_pure.
      - destruct Hc as (q & s & t' & fm0 & Hin & Hk & Ht & Hl & Hf & Hne & Hb & Haf).
        apply combined_inj in Hk as (Hc1 & Hi1); [|exact (Hsl _ Hq)|exact (Hsl _ Hin)].
        pose proof (same_found rs _ _ Hfb Hq Hin Hc1 Hi1 (eq_sym Ht)) as Hs. cbn in Hs. rewrite Ht, Hf in Hs.
        unfold pure_format. rewrite Hs. cbn. unfold pure_text. destruct s as [|x w]; [congruence|]. rewrite Hb.
        rewrite !run_formatter_result. rewrite (run_formatter_tag fm0 fm Haf).
        destruct (built_content _ _ _ _ _ _ _ _ Hb) as (a & Ha).
        assert (Hh : hash_in_plurals_only a) by (apply find_string_iff in Hs as [Hs|d _ _ _ Hs]; exact (Hhash _ _ _ _ _ _ Hs Ha)).
        now rewrite (format_history _ _ _ _ _ _ _ a fm0 fm vals (le_fuel E) Ha Hh Hb Haf).
    Qed.

    Definition no_gaps : Prop := same_language E rs.
    Lemma no_gap_panic st q ca : no_gaps -> In q rs -> ~ gap_panic st (rq_component q) (rq_identifier q) (rq_tag q) (rq_fallback q) ca.
    Proof. intros Hn Hq (_ & _ & s & t' & Hf & H1 & H2). apply find_string_iff in Hf. apply (Hn q s t' Hq) in Hf as ->. congruence. Qed.

    Lemma data_transparent t fb ca : forall d st st' r, cache_ok rs st -> (forall q, In q (data_requests t fb d) -> In q rs) ->
      actual_format_data E d t fb ca st = (st', r) -> cache_ok rs st' /\ (r = pure_data t fb d \/ (r = Panic /\ ~ no_gaps)).
    Proof.
      fix IH 1. intros [c i [vs|]] st st' r Hc Hq H.
      - cbn [data_requests] in Hq. cbn [actual_format_data] in H. cbn [pure_data].
        assert (Hlast : In (mk_request c i t fb false) rs) by (apply Hq; apply in_or_app; right; now left).
        assert (Hfront : forall q, In q ((fix go (vs : list (ustr * pvalue)) : list request :=
           match vs with
           | [] => []
           | (_, v) :: r => (match v with VData d' => data_requests t fb d' | _ => [] end) ++ go r
           end) vs) -> In q rs) by (intros q Hi; apply Hq; apply in_or_app; now left).
        clear Hq. revert Hfront st st' r Hc H. generalize (@nil (ustr * pvalue)) at 1 2. induction vs as [|[ph v] vs IHvs]; intros new Hq st st' r Hc H.
        + destruct (format_transparent st c i new t fb ca st' r Hc Hlast H) as (Hc' & [-> | (-> & Hg)]); split; auto.
          right. split; [reflexivity|]. intros Hn. exact (no_gap_panic st _ ca Hn Hlast Hg).
        + destruct v; try (eapply IHvs; [|exact Hc|exact H]; intros q Hi; now apply Hq).
          destruct (actual_format_data E d t fb ca st) as [st1 r1] eqn:E1.
          destruct (IH d st st1 r1 Hc (fun q Hi => Hq q (in_or_app _ _ _ (or_introl Hi))) E1) as (Hc1 & [-> | (-> & Hg)]).
          * destruct (pure_data t fb d) as [[s t']|e| |] eqn:Ep; [|injection H as <- <-; auto ..].
            eapply IHvs; [|exact Hc1|exact H]. intros q Hi. apply Hq. apply in_or_app. now right.
          * injection H as <- <-. auto.
      - cbn in H. destruct (literal_transparent st c i t fb ca st' r Hc (Hq _ (or_introl eq_refl)) H) as (Hc' & [-> | (-> & Hg)]); split; auto.
        right. split; [reflexivity|]. intros Hn. exact (no_gap_panic st _ ca Hn (Hq _ (or_introl eq_refl)) Hg).
    Qed.
  End Harmless.

  (** ** Without a cache *)
  Lemma cached_empty st t key : ls_cache st = [] -> cached st t key = None.
  Proof. unfold cached. now intros ->. Qed.
  Lemma literal_uncached st c i t fb : cached st t (combined c i) = None -> actual_literal E st c i t fb false = (st, find_string E c i t fb).
  Proof. unfold actual_literal. intros ->. now destruct (find_string E c i t fb) as [[s t']|e| |]. Qed.
  Lemma format_uncached st c i vals t fb : cached st t (combined c i) = None ->
    actual_format E st c i vals t fb false = (st, pure_format c i vals t fb).
  Proof.
    unfold actual_format, pure_format, pure_text. intros ->. destruct (find_string E c i t fb) as [[s t']|e| |]; try reflexivity.
    cbn [bind return_string]. destruct s as [|x w]; [reflexivity|]. destruct (build t' (x :: w)) as [fm|e| |]; try reflexivity.
    - now destruct (run_formatter E fm vals).
    - now destruct e.
  Qed.
  Lemma data_uncached t fb : forall d st, ls_cache st = [] -> actual_format_data E d t fb false st = (st, pure_data t fb d).
  Proof.
    fix IH 1. intros [c i [vs|]] st Hst; cbn [actual_format_data pure_data].
    - generalize (@nil (ustr * pvalue)) at 1 2. induction vs as [|[ph v] vs IHvs]; intros new.
      + apply format_uncached. now apply cached_empty.
      + destruct v; try apply IHvs. rewrite (IH d st Hst). destruct (pure_data t fb d) as [[s t']|e| |]; try reflexivity. apply IHvs.
    - apply literal_uncached. now apply cached_empty.
  Qed.

  (** The result of a call as a function of the settings only. *)
  Definition pure_call (st : lstate) (c : lcall) : option (lout (PE := PE) (ustr * ustr)) :=
    match c with
    | CallFormat c i vals t f _ => Some (pure_format c i vals t (unwrap_or f (ls_fallback st)))
    | CallFormatDefaults c i vals => Some (pure_format c i vals (ls_tag st) (ls_fallback st))
    | CallLiteral c i t f _ => Some (find_string E c i t (unwrap_or f (ls_fallback st)))
    | CallLiteralDefaults c i => Some (find_string E c i (ls_tag st) (ls_fallback st))
    | CallData d t f _ => Some (pure_data t (unwrap_or f (ls_fallback st)) d)
    | CallDataDefaults d => Some (pure_data (ls_tag st) (ls_fallback st) d)
    | CallDefaults _ _ _ => None
    end.
  Lemma uncached_pure st c : uncached_result E st c = pure_call st c.
  Proof.
    unfold uncached_result. destruct c; cbn [without_caching lstep pure_call snd]; try reflexivity; f_equal;
      unfold loc_format, loc_format_with_defaults, loc_literal, loc_literal_with_defaults, loc_format_data, loc_format_data_with_defaults; cbn [unwrap_or ls_fallback ls_caching ls_tag];
      first [now rewrite format_uncached|now rewrite literal_uncached|now rewrite data_uncached].
  Qed.

  (** ** Every entry of the cache comes from a request, for every history *)
  Lemma literal_cache_ok rs st c i t fb ca : cache_ok rs st -> In (mk_request c i t fb true) rs -> cache_ok rs (fst (actual_literal E st c i t fb ca)).
  Proof. intros Hc Hq. destruct (actual_literal E st c i t fb ca) as [st' r] eqn:H. exact (proj1 (literal_step rs st c i t fb ca st' r Hc Hq H)). Qed.
  Lemma format_cache_ok rs st c i vals t fb ca : cache_ok rs st -> In (mk_request c i t fb false) rs ->
    cache_ok rs (fst (actual_format E st c i vals t fb ca)).
  Proof. intros Hc Hq. destruct (actual_format E st c i vals t fb ca) as [st' r] eqn:H. exact (proj1 (format_step rs st c i vals t fb ca st' r Hc Hq H)). Qed.
  Definition go_requests (t : ustr) (fb : bool) := fix go (vs : list (ustr * pvalue)) : list request :=
    match vs with
    | [] => []
    | (_, v) :: r => (match v with VData d' => data_requests t fb d' | _ => [] end) ++ go r
    end.
  Lemma data_cache_ok rs t fb ca : forall d st, cache_ok rs st -> (forall q, In q (data_requests t fb d) -> In q rs) ->
    cache_ok rs (fst (actual_format_data E d t fb ca st)).
  Proof.
    fix IH 1. intros [c i [vs|]] st Hc Hq.
    - cbn [data_requests] in Hq. fold (go_requests t fb) in Hq. cbn [actual_format_data].
      assert (Hlast : In (mk_request c i t fb false) rs) by (apply Hq; apply in_or_app; right; now left).
      assert (Hfront : forall q, In q (go_requests t fb vs) -> In q rs) by (intros q Hi; apply Hq; apply in_or_app; now left).
      clear Hq. revert Hfront st Hc. generalize (@nil (ustr * pvalue)) at 1. induction vs as [|[ph v] vs IHvs]; intros new Hq st Hc.
      + now apply format_cache_ok.
      + destruct v; try (apply IHvs; [intros q Hi; now apply Hq|exact Hc]).
        pose proof (IH d st Hc (fun q Hi => Hq q (in_or_app _ _ _ (or_introl Hi)))) as Hc1.
        destruct (actual_format_data E d t fb ca st) as [st1 [[s t']|e| |]]; try exact Hc1.
        apply IHvs; [|exact Hc1]. intros q Hi. apply Hq. apply in_or_app. now right.
    - cbn. apply literal_cache_ok; [exact Hc|]. apply Hq. now left.
  Qed.
  Lemma step_cache_ok rs st c : cache_ok rs st -> (forall q, In q (call_requests st c) -> In q rs) -> cache_ok rs (fst (lstep E st c)).
  Proof.
    intros Hc Hq. destruct c; cbn [lstep fst]; cbn [call_requests] in Hq.
    - apply format_cache_ok; [exact Hc|]. apply Hq. now left.
    - apply format_cache_ok; [exact Hc|]. apply Hq. now left.
    - apply literal_cache_ok; [exact Hc|]. apply Hq. now left.
    - apply literal_cache_ok; [exact Hc|]. apply Hq. now left.
    - now apply data_cache_ok.
    - now apply data_cache_ok.
    - exact Hc.
  Qed.
  Lemma run_cache_ok rs h : forall st, cache_ok rs st -> (forall q, In q (history_requests E st h) -> In q rs) -> cache_ok rs (lrun E st h).
  Proof.
    induction h as [|c h IH]; intros st Hc Hq; [exact Hc|]. cbn in *. apply IH.
    - apply step_cache_ok; [exact Hc|]. intros q Hi. apply Hq. apply in_or_app. now left.
    - intros q Hi. apply Hq. apply in_or_app. now right.
  Qed.
  Lemma history_app h c : forall st, history_requests E st (h ++ [c]) = history_requests E st h ++ call_requests (lrun E st h) c.
  Proof. induction h as [|x h IH]; intros st; cbn; [now rewrite app_nil_r|]. now rewrite IH, app_assoc. Qed.
  Lemma cache_ok_new rs fb ca tag : cache_ok rs (localiser_new E fb ca tag).
  Proof. intros t key e H. discriminate. Qed.
  Lemma run_new rs fb ca tag h : (forall q, In q (history_requests E (localiser_new E fb ca tag) h) -> In q rs) ->
    cache_ok rs (lrun E (localiser_new E fb ca tag) h).
  Proof. intros H. apply run_cache_ok; [apply cache_ok_new|exact H]. Qed.

  (** ** Transparency of the cache for histories *)
  Lemma step_transparent rs st c : answers_again E -> provider_hash_ok E -> harmless E rs -> cache_ok rs st ->
    (forall q, In q (call_requests st c) -> In q rs) ->
    snd (lstep E st c) = pure_call st c \/ (snd (lstep E st c) = Some Panic /\ ~ same_language E rs).
  Proof.
    intros Ha Hh Hr Hc Hq.
    assert (HL : forall c i t fb ca, In (mk_request c i t fb true) rs ->
      snd (actual_literal E st c i t fb ca) = find_string E c i t fb \/ (snd (actual_literal E st c i t fb ca) = Panic /\ ~ same_language E rs)).
    { intros c0 i t fb ca Hi. destruct (actual_literal E st c0 i t fb ca) as [st' r] eqn:H. cbn.
      destruct (literal_transparent rs Ha Hr st c0 i t fb ca st' r Hc Hi H) as (_ & [G|(G & Hg)]); [now left|right]. split; [exact G|].
      intros Hn. exact (no_gap_panic rs st _ ca Hn Hi Hg). }
    assert (HF : forall c i vals t fb ca, In (mk_request c i t fb false) rs ->
      snd (actual_format E st c i vals t fb ca) = pure_format c i vals t fb \/ (snd (actual_format E st c i vals t fb ca) = Panic /\ ~ same_language E rs)).
    { intros c0 i vals t fb ca Hi. destruct (actual_format E st c0 i vals t fb ca) as [st' r] eqn:H. cbn.
      destruct (format_transparent rs Ha Hh Hr st c0 i vals t fb ca st' r Hc Hi H) as (_ & [G|(G & Hg)]); [now left|right]. split; [exact G|].
      intros Hn. exact (no_gap_panic rs st _ ca Hn Hi Hg). }
    assert (HD : forall d t fb ca, (forall q, In q (data_requests t fb d) -> In q rs) ->
      snd (actual_format_data E d t fb ca st) = pure_data t fb d \/ (snd (actual_format_data E d t fb ca st) = Panic /\ ~ same_language E rs)).
    { intros d t fb ca Hi. destruct (actual_format_data E d t fb ca st) as [st' r] eqn:H. cbn.
      exact (proj2 (data_transparent rs Ha Hh Hr t fb ca d st st' r Hc Hi H)). }
    destruct c; cbn [lstep snd pure_call]; cbn [call_requests] in Hq.
    - unfold loc_format. destruct (HF component identifier vals tag (unwrap_or fallback (ls_fallback st)) (unwrap_or caching (ls_caching st)) (Hq _ (or_introl eq_refl))) as [->|(-> & G)]; auto.
    - unfold loc_format_with_defaults. destruct (HF component identifier vals (ls_tag st) (ls_fallback st) (ls_caching st) (Hq _ (or_introl eq_refl))) as [->|(-> & G)]; auto.
    - unfold loc_literal. destruct (HL component identifier tag (unwrap_or fallback (ls_fallback st)) (unwrap_or caching (ls_caching st)) (Hq _ (or_introl eq_refl))) as [->|(-> & G)]; auto.
    - unfold loc_literal_with_defaults. destruct (HL component identifier (ls_tag st) (ls_fallback st) (ls_caching st) (Hq _ (or_introl eq_refl))) as [->|(-> & G)]; auto.
    - unfold loc_format_data. destruct (HD d tag (unwrap_or fallback (ls_fallback st)) (unwrap_or caching (ls_caching st)) Hq) as [->|(-> & G)]; auto.
    - unfold loc_format_data_with_defaults. destruct (HD d (ls_tag st) (ls_fallback st) (ls_caching st) Hq) as [->|(-> & G)]; auto.
    - now left.
  Qed.
  Theorem transparent fb ca tag h c : answers_again E -> provider_hash_ok E ->
    harmless E (history_requests E (localiser_new E fb ca tag) (h ++ [c])) ->
    let st := lrun E (localiser_new E fb ca tag) h in
    snd (lstep E st c) = uncached_result E st c \/
    (snd (lstep E st c) = Some Panic /\ ~ same_language E (history_requests E (localiser_new E fb ca tag) (h ++ [c]))).
  Proof.
    intros Ha Hh Hr st. rewrite uncached_pure. rewrite history_app in *. apply step_transparent; auto.
    - apply run_new. intros q Hi. apply in_or_app. now left.
    - intros q Hi. apply in_or_app. now right.
  Qed.

  (** Without any request for caching the cache stays empty. *)
  Lemma data_empty t fb : forall d st, ls_cache st = [] -> fst (actual_format_data E d t fb false st) = st.
  Proof. intros d st H. now rewrite data_uncached. Qed.
  Lemma step_no_caching st c : ls_cache st = [] -> ls_caching st = false -> ~ asks_caching c ->
    ls_cache (fst (lstep E st c)) = [] /\ ls_caching (fst (lstep E st c)) = false /\ snd (lstep E st c) = pure_call st c.
  Proof.
    intros H1 H2 Hn. pose proof (fun t key => cached_empty st t key H1) as Hc.
    assert (Hu : forall ca, ca <> Some true -> unwrap_or ca (ls_caching st) = false) by (intros [[]|] H; [congruence|reflexivity|exact H2]).
    destruct c; cbn [lstep fst snd pure_call]; cbn [asks_caching] in Hn;
      unfold loc_format, loc_format_with_defaults, loc_literal, loc_literal_with_defaults, loc_format_data, loc_format_data_with_defaults.
    - rewrite Hu by exact Hn. now rewrite format_uncached.
    - rewrite H2. now rewrite format_uncached.
    - rewrite Hu by exact Hn. now rewrite literal_uncached.
    - rewrite H2. now rewrite literal_uncached.
    - rewrite Hu by exact Hn. now rewrite data_uncached.
    - rewrite H2. now rewrite data_uncached.
    - cbn. auto.
  Qed.
  Theorem no_caching_transparent fb tag h c : (forall x, In x (h ++ [c]) -> ~ asks_caching x) ->
    let st := lrun E (localiser_new E fb false tag) h in snd (lstep E st c) = uncached_result E st c.
  Proof.
    intros Hn st. rewrite uncached_pure.
    assert (G : ls_cache st = [] /\ ls_caching st = false).
    { subst st. assert (G : ls_cache (localiser_new E fb false tag) = [] /\ ls_caching (localiser_new E fb false tag) = false) by (split; reflexivity).
      revert G. generalize (localiser_new E fb false tag). induction h as [|x h IH]; intros st G; [exact G|]. cbn. apply IH.
      - intros y Hy. apply Hn. now right.
      - destruct G as (G1 & G2). destruct (step_no_caching st x G1 G2 (Hn x (or_introl eq_refl))) as (G3 & G4 & _). auto. }
    apply step_no_caching; [exact (proj1 G)|exact (proj2 G)|]. apply Hn. apply in_or_app. right. now left.
  Qed.

  (** ** Settings *)
  Definition same_settings (st st' : lstate) : Prop :=
    ls_fallback st' = ls_fallback st /\ ls_caching st' = ls_caching st /\ ls_tag st' = ls_tag st /\ ls_script st' = ls_script st.
  Lemma same_settings_refl st : same_settings st st.
  Proof. repeat split. Qed.
  Lemma put_settings st t key e st' : put st t key e st' -> same_settings st st'.
  Proof. intros (H1 & H2 & H3 & H4 & _). repeat split; assumption. Qed.
  Lemma return_settings st b ca key s t : same_settings st (fst (return_string (PE := PE) st b ca key s t)).
  Proof.
    destruct (return_string (PE := PE) st b ca key s t) as [st' r] eqn:H. apply return_string_cases in H as [(_ & [->|Hp])|(_ & -> & _)]; cbn.
    - apply same_settings_refl.
    - now apply put_settings in Hp.
    - apply same_settings_refl.
  Qed.
  Lemma literal_settings st c i t fb ca : same_settings st (fst (actual_literal E st c i t fb ca)).
  Proof.
    unfold actual_literal. destruct (cached st t _) as [[]|]; try apply same_settings_refl.
    destruct (find_string E c i t fb) as [[s t']|e| |]; try apply same_settings_refl. apply return_settings.
  Qed.
  Lemma format_settings st c i vals t fb ca : same_settings st (fst (actual_format E st c i vals t fb ca)).
  Proof.
    unfold actual_format. destruct (cached st t _) as [[s t'|fm]|]; [apply same_settings_refl| |].
    - destruct (run_formatter E fm vals) as [fm' r]. exact (put_settings _ _ _ _ _ (put_formatter_put st t (combined c i) fm')).
    - destruct (find_string E c i t fb) as [[[|x w] t']|e| |]; try apply same_settings_refl; [apply return_settings|].
      destruct (build t' (x :: w)) as [fm|[]| |]; try apply same_settings_refl; [|apply return_settings].
      destruct (run_formatter E fm vals) as [fm' r]. destruct ca; [|apply same_settings_refl].
      exact (put_settings _ _ _ _ _ (put_formatter_put st t (combined c i) fm')).
  Qed.
  Lemma same_settings_trans a b c : same_settings a b -> same_settings b c -> same_settings a c.
  Proof. intros (H1 & H2 & H3 & H4) (K1 & K2 & K3 & K4). repeat split; congruence. Qed.
  Lemma data_settings t fb ca : forall d st, same_settings st (fst (actual_format_data E d t fb ca st)).
  Proof.
    fix IH 1. intros [c i [vs|]] st; cbn [actual_format_data].
    - revert st. generalize (@nil (ustr * pvalue)) at 1. induction vs as [|[ph v] vs IHvs]; intros new st.
      + apply format_settings.
      + destruct v; try apply IHvs. pose proof (IH d st) as H1. destruct (actual_format_data E d t fb ca st) as [st1 [[s t']|e| |]]; try exact H1.
        exact (same_settings_trans _ _ _ H1 (IHvs _ st1)).
    - apply literal_settings.
  Qed.
  Theorem settings_history h : forall st,
    ls_tag (lrun E st h) = last_setting set_tag (ls_tag st) h /\
    ls_fallback (lrun E st h) = last_setting set_fallback (ls_fallback st) h /\
    ls_caching (lrun E st h) = last_setting set_caching (ls_caching st) h /\
    (ls_script st = le_script E (ls_tag st) -> ls_script (lrun E st h) = le_script E (ls_tag (lrun E st h))).
  Proof.
    induction h as [|c h IH]; intros st; [cbn; auto|]. cbn. destruct (IH (fst (lstep E st c))) as (I1 & I2 & I3 & I4).
    fold (lrun E (fst (lstep E st c)) h) in *.
    assert (Hs : (exists t f ca, c = CallDefaults t f ca) \/ (same_settings st (fst (lstep E st c)) /\ set_tag c = None /\ set_fallback c = None /\ set_caching c = None)).
    { destruct c; [right; split; [cbn [lstep fst]|auto] .. |left; eauto].
      - apply format_settings.
      - apply format_settings.
      - apply literal_settings.
      - apply literal_settings.
      - apply data_settings.
      - apply data_settings. }
    destruct Hs as [(t & f & ca & ->)|((H1 & H2 & H3 & H4) & -> & -> & ->)].
    - rewrite I1, I2, I3. cbn. repeat split. intros Hsc. cbn in I4, I1. rewrite I4, I1; [reflexivity|]. destruct t; [reflexivity|exact Hsc].
    - rewrite H1 in I2. rewrite H2 in I3. rewrite H3 in I1. repeat split; try assumption. intros Hsc. apply I4. now rewrite H4, H3.
  Qed.

  (** ** Panics *)
  Section Calm.
    Hypothesis Hcalm : calm E.
    Lemma find_calm c i t fb : find_string E c i t fb <> Panic.
    Proof.
      unfold find_string. pose proof (cm_string E Hcalm c i) as H. pose proof (cm_default E Hcalm c) as Hd. pose proof (H t) as Ht.
      destruct (pv_string (le_provider E) c i t) as [[r|]|e| |]; cbn; try discriminate; try congruence. destruct fb; cbn; [|discriminate].
      destruct (pv_default (le_provider E) c) as [d|e| |]; cbn; try discriminate; try congruence. pose proof (H d) as Hdd.
      destruct (pv_string (le_provider E) c i d) as [[r|]|e| |]; cbn; try discriminate; congruence.
    Qed.
    Lemma build_calm c i t fb s t' : find_string E c i t fb = Ok (s, t') -> build t' s <> Panic.
    Proof.
      intros H. assert (Ht : tree_try_new (le_icu E) s localiser_grammar <> Panic).
      { apply find_string_iff in H as [H|d _ _ _ H]; exact (cm_parser E Hcalm _ _ _ _ _ H). }
      destruct (tree_try_new (le_icu E) s localiser_grammar) as [tr|e| |] eqn:Et; try congruence.
      - apply (safe_build_no_panic _ _ _ _ _ _ _ tr); [exact (cm_commands E Hcalm)|exact Et].
      - unfold formatter_try_new. rewrite Et. discriminate.
      - unfold formatter_try_new. rewrite Et. discriminate.
    Qed.
    Lemma run_calm t' s fm0 fm vals : build t' s = Ok fm0 -> after_formatting (le_fmt E) (le_reg E) fm0 fm -> snd (run_formatter E fm vals) <> Panic.
    Proof.
      intros Hb Ha. rewrite run_formatter_result.
      pose proof (safe_format_no_panic _ _ _ _ _ _ _ _ _ vals (le_fuel E) (cm_commands E Hcalm) Hb Ha) as G.
      destruct (snd (format _ _ _ fm vals)); cbn; congruence.
    Qed.
    Lemma pure_format_calm c i vals t fb : pure_format c i vals t fb <> Panic.
    Proof.
      unfold pure_format, pure_text. pose proof (find_calm c i t fb) as H. destruct (find_string E c i t fb) as [[s t']|e| |] eqn:Ef; cbn; try congruence.
      pose proof (build_calm _ _ _ _ _ _ Ef) as Hb. destruct s as [|x w]; [discriminate|].
      destruct (build t' (x :: w)) as [fm|[]| |] eqn:Eb; try congruence. exact (run_calm _ _ _ _ vals Eb (af_fresh _ _ _)).
    Qed.

    Lemma return_panic st b ca key s t : snd (return_string (PE := PE) st b ca key s t) = Panic <-> ca = true /\ b = true /\ mget t (ls_cache st) = None.
    Proof.
      unfold return_string, add_string_to_cache. destruct ca, b; cbn; try destruct (mget t (ls_cache st)); cbn; intuition congruence.
    Qed.
    Lemma gap_iff st t t' : cache_gap st t t' <-> mhas t (ls_cache st) = true /\ mget t' (ls_cache st) = None.
    Proof. unfold cache_gap, mhas. destruct (mget t (ls_cache st)); intuition congruence. Qed.
    Lemma literal_panic st c i t fb ca : snd (actual_literal E st c i t fb ca) = Panic <->
      ca = true /\ cached st t (combined c i) = None /\ exists s t', found E c i t fb s t' /\ cache_gap st t t'.
    Proof.
      unfold actual_literal. pose proof (find_calm c i t fb) as Hf.
      destruct (cached st t (combined c i)) as [[]|]; [split; [discriminate|intros (_ & [=] & _)] ..|].
      destruct (find_string E c i t fb) as [[s t']|e| |] eqn:Ef; cbn.
      - rewrite return_panic. rewrite <- gap_iff. split.
        + intros (H1 & H2). split; [exact H1|]. split; [reflexivity|]. exists s, t'. split; [now apply find_string_iff|exact H2].
        + intros (H1 & _ & s1 & t1 & Hs & Hg). apply find_string_iff in Hs. rewrite Hs in Ef. injection Ef as -> ->. auto.
      - split; [discriminate|]. intros (_ & _ & s1 & t1 & Hs & _). apply find_string_iff in Hs. congruence.
      - congruence.
      - split; [discriminate|]. intros (_ & _ & s1 & t1 & Hs & _). apply find_string_iff in Hs. congruence.
    Qed.
    Lemma format_panic rs st c i vals t fb ca : cache_ok rs st -> snd (actual_format E st c i vals t fb ca) = Panic <->
      ca = true /\ cached st t (combined c i) = None /\ exists s t', found E c i t fb s t' /\ no_syntax s /\ cache_gap st t t'.
    Proof.
      intros Hc. unfold actual_format. pose proof (find_calm c i t fb) as Hf.
      destruct (cached st t (combined c i)) as [[s t'|fm]|] eqn:Ec; [split; [discriminate|intros (_ & [=] & _)]| |].
      - split; [|intros (_ & [=] & _)]. intros H. exfalso. destruct (Hc _ _ _ Ec) as (q & s & t' & fm0 & _ & _ & _ & _ & _ & _ & Hb & Ha).
        apply (run_calm _ _ _ _ vals Hb Ha). destruct (run_formatter E fm vals) as [fm' r]. exact H.
      - destruct (find_string E c i t fb) as [[s t']|e| |] eqn:Ef.
        + assert (Hs : (s = [] \/ build t' s = Err FNoGrammar) -> snd (return_string (PE := PE) st (mhas t (ls_cache st)) ca (combined c i) s t') = Panic <->
            ca = true /\ @None cache_data = None /\ exists s t', found E c i t fb s t' /\ no_syntax s /\ cache_gap st t t').
          { intros Hp. rewrite return_panic. rewrite <- gap_iff. split.
            - intros (H1 & H2). split; [exact H1|]. split; [reflexivity|]. exists s, t'. split; [now apply find_string_iff|]. split; [|exact H2].
              destruct Hp as [->|Hp]; [intros x []|]. destruct s as [|x w]; [intros x []|].
              refine (proj1 (no_grammar_iff (le_icu E) (le_fmt E) (le_reg E) t' (le_locale E t') (x :: w) Hicu _) Hp). discriminate.
            - intros (H1 & _ & s1 & t1 & Hs & _ & Hg). apply find_string_iff in Hs. rewrite Hs in Ef. injection Ef as -> ->. auto. }
          destruct s as [|x w]; [apply Hs; auto|]. pose proof (build_calm _ _ _ _ _ _ Ef) as Hbc.
          assert (Hno : build t' (x :: w) <> Err FNoGrammar -> ~ exists s t', found E c i t fb s t' /\ no_syntax s /\ cache_gap st t t').
          { intros Hb (s1 & t1 & Hs1 & Hn & _). apply find_string_iff in Hs1. rewrite Hs1 in Ef. injection Ef as -> ->.
            destruct (plain_no_grammar (x :: w) t' Hn); congruence. }
          destruct (build t' (x :: w)) as [fm|e| |] eqn:Eb.
          * pose proof (run_calm _ _ _ _ vals Eb (af_fresh _ _ _)) as Hr. destruct (run_formatter E fm vals) as [fm' r]. cbn in *.
            split; [intros H; congruence|]. intros (_ & _ & H). exfalso. apply Hno; [discriminate|exact H].
          * destruct e; try (split; [discriminate|]; intros (_ & _ & H); exfalso; apply Hno; [discriminate|exact H]). apply Hs. auto.
          * congruence.
          * split; [discriminate|]. intros (_ & _ & H). exfalso. apply Hno; [discriminate|exact H].
        + split; [discriminate|]. intros (_ & _ & s1 & t1 & Hs & _). apply find_string_iff in Hs. congruence.
        + congruence.
        + split; [discriminate|]. intros (_ & _ & s1 & t1 & Hs & _). apply find_string_iff in Hs. congruence.
    Qed.
    Lemma data_calm rs t fb ca : same_language E rs -> forall d st, cache_ok rs st -> (forall q, In q (data_requests t fb d) -> In q rs) ->
      snd (actual_format_data E d t fb ca st) <> Panic.
    Proof.
      intros Hn. fix IH 1. intros [c i [vs|]] st Hc Hq.
      - cbn [data_requests] in Hq. fold (go_requests t fb) in Hq. cbn [actual_format_data].
        assert (Hlast : In (mk_request c i t fb false) rs) by (apply Hq; apply in_or_app; right; now left).
        assert (Hfront : forall q, In q (go_requests t fb vs) -> In q rs) by (intros q Hi; apply Hq; apply in_or_app; now left).
        clear Hq. revert Hfront st Hc. generalize (@nil (ustr * pvalue)) at 1. induction vs as [|[ph v] vs IHvs]; intros new Hq st Hc.
        + intros H. apply (format_panic rs) in H as (_ & _ & s & t' & Hf & _ & H1 & H2); [|exact Hc]. apply (Hn _ s t' Hlast) in Hf as ->. cbn in *. congruence.
        + destruct v; try (apply IHvs; [intros q Hi; now apply Hq|exact Hc]).
          assert (Hq' : forall q, In q (data_requests t fb d) -> In q rs) by (intros q Hi; apply Hq; apply in_or_app; now left).
          pose proof (IH d st Hc Hq') as Hp1. pose proof (data_cache_ok rs t fb ca d st Hc Hq') as Hc1.
          destruct (actual_format_data E d t fb ca st) as [st1 [[s t']|e| |]]; try exact Hp1.
          apply IHvs; [|exact Hc1]. intros q Hi. apply Hq. apply in_or_app. now right.
      - cbn. intros H. apply literal_panic in H as (_ & _ & s & t' & Hf & H1 & H2). apply (Hn _ s t' (Hq _ (or_introl eq_refl))) in Hf as ->. cbn in *. congruence.
    Qed.
    Theorem history_calm fb ca tag h c : same_language E (history_requests E (localiser_new E fb ca tag) (h ++ [c])) ->
      snd (lstep E (lrun E (localiser_new E fb ca tag) h) c) <> Some Panic.
    Proof.
      rewrite history_app. set (st := lrun E (localiser_new E fb ca tag) h). set (rs := _ ++ _). intros Hn.
      assert (Hc : cache_ok rs st) by (apply run_new; intros q Hi; apply in_or_app; now left).
      assert (Hq : forall q, In q (call_requests st c) -> In q rs) by (intros q Hi; apply in_or_app; now right).
      assert (HL : forall c i t fb ca, In (mk_request c i t fb true) rs -> snd (actual_literal E st c i t fb ca) <> Panic).
      { intros c0 i t fb0 ca0 Hi H. apply literal_panic in H as (_ & _ & s & t' & Hf & H1 & H2). apply (Hn _ s t' Hi) in Hf as ->. cbn in *. congruence. }
      assert (HF : forall c i vals t fb ca, In (mk_request c i t fb false) rs -> snd (actual_format E st c i vals t fb ca) <> Panic).
      { intros c0 i vals t fb0 ca0 Hi H. apply (format_panic rs) in H as (_ & _ & s & t' & Hf & _ & H1 & H2); [|exact Hc]. apply (Hn _ s t' Hi) in Hf as ->. cbn in *. congruence. }
      intros H. destruct c; cbn [lstep snd] in H; cbn [call_requests] in Hq; try discriminate; injection H as H; revert H.
      - apply HF. apply Hq. now left.
      - apply HF. apply Hq. now left.
      - apply HL. apply Hq. now left.
      - apply HL. apply Hq. now left.
      - now apply (data_calm rs).
      - now apply (data_calm rs).
    Qed.
  End Calm.

  (** ** The text of nested data *)
  Lemma no_syntax_dec s : {no_syntax s} + {~ no_syntax s}.
  Proof.
    destruct (existsb (fun c => existsb (N.eqb c) localiser_grammar) s) eqn:Ex.
    - right. intros H. apply existsb_exists in Ex as (c & H1 & H2). apply existsb_exists in H2 as (x & H2 & H3). apply N.eqb_eq in H3 as ->.
      exact (H x H1 H2).
    - left. intros c H1 H2. assert (G : existsb (fun c => existsb (N.eqb c) localiser_grammar) s = true); [|congruence].
      apply existsb_exists. exists c. split; [exact H1|]. apply existsb_exists. exists c. split; [exact H2|apply N.eqb_refl].
  Qed.
  Lemma pure_text_iff vals s t w t' : pure_text vals s t = Ok (w, t') <-> t' = t /\ string_gives E vals s t w.
  Proof.
    destruct (no_syntax_dec s) as [Hn|Hn].
    - rewrite (plain_pure vals s t (plain_no_grammar s t Hn)). split.
      + intros [= <- <-]. split; [reflexivity|now apply sg_plain].
      + intros (-> & [_|fm w' Hc _ _]); [reflexivity|contradiction].
    - assert (Hne : s <> []) by (intros ->; apply Hn; intros x []).
      assert (Hb : build t s <> Err FNoGrammar).
      { intros Hb. apply Hn. exact (proj1 (no_grammar_iff (le_icu E) (le_fmt E) (le_reg E) t (le_locale E t) s Hicu Hne) Hb). }
      unfold pure_text. destruct s as [|x r]; [congruence|].
      destruct (build t (x :: r)) as [fm|e| |] eqn:Eb.
      + rewrite run_formatter_result. assert (Ht : fm_tag fm = t).
        { destruct (built_content _ _ _ _ _ _ _ _ Eb) as (a & Ha). exact (proj2 (proj2 (try_new_inv _ _ _ _ _ _ _ a fm Ha Eb))). }
        rewrite Ht. split.
        * intros H. destruct (snd (format _ _ _ fm vals)) as [w'|e| |] eqn:Ew; cbn in H; try discriminate. injection H as <- <-.
          split; [reflexivity|]. now apply (sg_format E vals (x :: r) t fm w').
        * intros (-> & [Hc|fm' w' _ Hb' Hw]); [contradiction|]. rewrite Eb in Hb'. injection Hb' as <-. now rewrite Hw.
      + split; [destruct e; try discriminate; congruence|]. intros (_ & [Hc|fm' w' _ Hb' Hw]); [contradiction|]. congruence.
      + split; [discriminate|]. intros (_ & [Hc|fm' w' _ Hb' Hw]); [contradiction|]. congruence.
      + split; [discriminate|]. intros (_ & [Hc|fm' w' _ Hb' Hw]); [contradiction|]. congruence.
  Qed.
  Lemma pure_format_iff c i vals t fb w t' : pure_format c i vals t fb = Ok (w, t') <->
    exists s, found E c i t fb s t' /\ string_gives E vals s t' w.
  Proof.
    unfold pure_format. split.
    - intros H. destruct (find_string E c i t fb) as [[s t1]|e| |] eqn:Ef; cbn in H; try discriminate.
      apply pure_text_iff in H as (-> & H). exists s. split; [now apply find_string_iff|exact H].
    - intros (s & H1 & H2). apply find_string_iff in H1. rewrite H1. cbn. now apply pure_text_iff.
  Qed.
  Lemma not_data (v : pvalue) : (exists d, v = VData d) \/ forall d, v <> VData d.
  Proof. destruct v; eauto; right; discriminate. Qed.
  Theorem pure_data_iff t fb : forall d, keys_distinct d -> forall w t', pure_data t fb d = Ok (w, t') <-> localised E t fb d w t'.
  Proof.
    fix IH 1. intros [c i [vs|]] Hk w t'; cbn [pure_data].
    - assert (Hk1 : NoDup (map fst (@nil (ustr * pvalue)) ++ map fst vs) /\ keys_distinct_in vs) by (inversion Hk; subst; cbn; auto).
      clear Hk. destruct Hk1 as (Hk1 & Hk2).
      match goal with |- ?go vs [] = _ <-> _ => assert (Hgo : forall new, NoDup (map fst new ++ map fst vs) -> go vs new = Ok (w, t') <->
        exists vs', localised_values E t fb vs vs' /\ pure_format c i (new ++ vs') t fb = Ok (w, t')) end.
      { clear Hk1. induction vs as [|[ph v] vs IHvs]; intros new Hk1; cbn [map fst] in Hk1.
        - split.
          + intros H. exists []. split; [constructor|]. rewrite app_nil_r. exact H.
          + intros (vs' & Hv & H). inversion Hv; subst. rewrite app_nil_r in H. exact H.
        - assert (Hn : mget ph new = None).
          { destruct (mget ph new) eqn:Em; [|reflexivity]. exfalso. apply NoDup_remove_2 in Hk1. apply Hk1. apply in_or_app. left.
            apply mget_In in Em. exact (in_map fst _ _ Em). }
          assert (Hk3 : forall v, NoDup (map fst (new ++ [(ph, v)]) ++ map fst vs)).
          { intros v'. rewrite map_app, <- app_assoc. exact Hk1. }
          assert (IHv : forall d, v = VData d -> keys_distinct d -> forall w t', pure_data t fb d = Ok (w, t') <-> localised E t fb d w t').
          { destruct v as [| | | | | |d1| | | |]; intros d0 Hd0; try discriminate Hd0. pose proof (IH d1) as IHd. injection Hd0 as <-. exact IHd. }
          clear IH. destruct (not_data v) as [(d & ->)|Hv].
          + pose proof (IHv d eq_refl) as IH. assert (Hd : keys_distinct d /\ keys_distinct_in vs).
            { inversion Hk2 as [|ph0 d0 vs0 K1 K2|ph0 v0 vs0 K1 K2]; subst; [auto|]. exfalso. now apply (K1 d). }
            destruct Hd as (Hd & Hk4). specialize (IH Hd). split.
            * intros H. destruct (pure_data t fb d) as [[s t1]|e| |] eqn:Ep; try discriminate.
              rewrite mkeys_minsert_new in H by exact Hn. apply (IHvs Hk4 _ (Hk3 _)) in H as (vs' & Hv & H).
              exists ((ph, VLocalised s t1) :: vs'). split; [constructor; [now apply IH|exact Hv]|]. now rewrite <- app_assoc in H.
            * intros (vs' & Hv & H). inversion Hv as [|ph0 d0 s t1 vs0 vs1 K1 K2|ph0 v0 vs0 vs1 K1 K2]; subst; [|exfalso; now apply (K1 d)].
              apply IH in K1. rewrite K1. rewrite mkeys_minsert_new by exact Hn. apply (IHvs Hk4 _ (Hk3 _)). exists vs1. split; [exact K2|].
              now rewrite <- app_assoc.
          + assert (Hk4 : keys_distinct_in vs).
            { inversion Hk2 as [|ph0 d0 vs0 K1 K2|ph0 v0 vs0 K1 K2]; subst; [|exact K2]. exfalso. now apply (Hv d0). }
            specialize (IHvs Hk4 (new ++ [(ph, v)]) (Hk3 v)). rewrite <- (mkeys_minsert_new ph v new Hn) in IHvs at 1.
            assert (Hl : forall vs', localised_values E t fb ((ph, v) :: vs) vs' <-> exists vs1, vs' = (ph, v) :: vs1 /\ localised_values E t fb vs vs1).
            { intros vs'. split.
              - intros K. inversion K as [|ph0 d0 s t1 vs0 vs1 K1 K2|ph0 v0 vs0 vs1 K1 K2]; subst; [exfalso; now apply (Hv d0)|eauto].
              - intros (vs1 & -> & K). now constructor. }
            transitivity (exists vs' : list (ustr * pvalue), localised_values E t fb vs vs' /\ pure_format c i ((new ++ [(ph, v)]) ++ vs') t fb = Ok (w, t')).
            { rewrite <- IHvs. destruct v; try reflexivity. exfalso. now apply (Hv d). }
            split.
            * intros (vs1 & K1 & K2). exists ((ph, v) :: vs1). split; [apply Hl; eauto|]. now rewrite <- app_assoc in K2.
            * intros (vs' & K1 & K2). apply Hl in K1 as (vs1 & -> & K1). exists vs1. split; [exact K1|]. now rewrite <- app_assoc. }
      rewrite (Hgo [] Hk1). cbn [app]. split.
      + intros (vs' & Hv & H). apply pure_format_iff in H as (s & Hf & Hg). exact (lz_format E t fb c i vs vs' s t' w Hv Hf Hg).
      + intros H. inversion H as [|c0 i0 vs0 vs' s t0 w0 Hv Hf Hg]; subst. exists vs'. split; [exact Hv|]. apply pure_format_iff. eauto.
    - rewrite find_string_iff. split; [apply lz_literal|]. intros H. inversion H; subst. assumption.
  Qed.

  (** ** Calls on a request that is not in the cache *)
  Lemma literal_fresh st c i t fb ca : cached st t (combined c i) = None ->
    snd (actual_literal E st c i t fb ca) = find_string E c i t fb \/
    (snd (actual_literal E st c i t fb ca) = Panic /\ exists s t', found E c i t fb s t' /\ cache_gap st t t').
  Proof.
    intros Hc. unfold actual_literal. rewrite Hc. destruct (find_string E c i t fb) as [[s t']|e| |] eqn:Ef; try (left; reflexivity).
    destruct (return_string (PE := PE) st _ ca _ s t') as [st' r] eqn:H. apply return_string_cases in H as [(-> & _)|(-> & _ & _ & Hh & Hm)]; [now left|].
    right. split; [reflexivity|]. exists s, t'. split; [now apply find_string_iff|now apply mhas_gap].
  Qed.
  Lemma format_fresh st c i vals t fb ca : cached st t (combined c i) = None ->
    snd (actual_format E st c i vals t fb ca) = pure_format c i vals t fb \/
    (snd (actual_format E st c i vals t fb ca) = Panic /\ exists s t', found E c i t fb s t' /\ cache_gap st t t').
  Proof.
    intros Hc. unfold actual_format, pure_format, pure_text. rewrite Hc.
    destruct (find_string E c i t fb) as [[s t']|e| |] eqn:Ef; try (left; reflexivity). cbn [bind].
    assert (Hs : snd (return_string (PE := PE) st (mhas t (ls_cache st)) ca (combined c i) s t') = Ok (s, t') \/
      (snd (return_string (PE := PE) st (mhas t (ls_cache st)) ca (combined c i) s t') = Panic /\ exists s t', found E c i t fb s t' /\ cache_gap st t t')).
    { destruct (return_string (PE := PE) st _ ca _ s t') as [st' r] eqn:H. apply return_string_cases in H as [(-> & _)|(-> & _ & _ & Hh & Hm)]; [now left|].
      right. split; [reflexivity|]. exists s, t'. split; [now apply find_string_iff|now apply mhas_gap]. }
    destruct s as [|x w]; [exact Hs|]. destruct (build t' (x :: w)) as [fm|e| |]; try (left; reflexivity).
    - left. now destruct (run_formatter E fm vals).
    - destruct e; try (left; reflexivity). exact Hs.
  Qed.
  Lemma pure_format_missing c i vals t fb c' i' t' fb' :
    pure_format c i vals t fb = Err (LStringNotFound c' i' t' fb') <-> missing E c i t fb /\ c' = c /\ i' = i /\ t' = t /\ fb' = fb.
  Proof.
    unfold pure_format. split.
    - intros H. destruct (find_string E c i t fb) as [[s t1]|e| |] eqn:Ef; cbn in H; try discriminate.
      + exfalso. unfold pure_text in H. destruct s as [|x w]; [discriminate|].
        destruct (build t1 (x :: w)) as [fm|[]| |]; try discriminate. rewrite run_formatter_result in H.
        destruct (snd (format _ _ _ fm vals)); discriminate.
      + injection H as ->. destruct (find_string_not_found _ _ _ _ _ _ _ _ Ef) as (-> & -> & -> & ->). split; [|auto]. now apply find_string_missing.
    - intros (H & -> & -> & -> & ->). apply find_string_missing in H. now rewrite H.
  Qed.
  Lemma literal_missing c i t fb c' i' t' fb' :
    find_string E c i t fb = Err (LStringNotFound c' i' t' fb') <-> missing E c i t fb /\ c' = c /\ i' = i /\ t' = t /\ fb' = fb.
  Proof.
    split.
    - intros Ef. destruct (find_string_not_found _ _ _ _ _ _ _ _ Ef) as (-> & -> & -> & ->). split; [|auto]. now apply find_string_missing.
    - intros (H & -> & -> & -> & ->). now apply find_string_missing.
  Qed.
  (** Escaped text. *)
  Lemma escape_plain w : no_syntax w -> escape w = w.
  Proof.
    unfold escape. intros H. induction w as [|c w IH]; [reflexivity|]. cbn.
    destruct (existsb (N.eqb c) l10n_grammar) eqn:Ex.
    - exfalso. apply existsb_exists in Ex as (x & H1 & H2). apply N.eqb_eq in H2 as ->. exact (H x (or_introl eq_refl) H1).
    - cbn. f_equal. apply IH. intros x Hx. apply H. now right.
  Qed.
  Lemma escape_gives vals w t : 0 < le_fuel E -> pure_text vals (escape w) t = Ok (w, t).
  Proof.
    intros Hfu. destruct (no_syntax_dec w) as [Hn|Hn].
    - rewrite escape_plain by exact Hn. exact (plain_pure vals w t (plain_no_grammar w t Hn)).
    - assert (Hex : exists c, In c w /\ In c l10n_grammar).
      { assert (G : existsb (fun c => existsb (N.eqb c) localiser_grammar) w = true).
        { destruct (existsb (fun c => existsb (N.eqb c) localiser_grammar) w) eqn:Ex; [reflexivity|]. exfalso. apply Hn. intros c H1 H2.
          assert (G : existsb (fun c => existsb (N.eqb c) localiser_grammar) w = true); [|congruence].
          apply existsb_exists. exists c. split; [exact H1|]. apply existsb_exists. exists c. split; [exact H2|apply N.eqb_refl]. }
        apply existsb_exists in G as (c & H1 & H2). apply existsb_exists in H2 as (x & H2 & H3). apply N.eqb_eq in H3 as ->. exists x. split; [exact H1|exact H2]. }
      destruct (escape_format (le_icu E) (le_fmt E) (le_reg E) t (le_locale E t) Hicu w Hex) as (fm & Hb & Hf).
      assert (Hb' : build t (escape w) = Ok fm) by exact Hb. apply pure_text_iff. split; [reflexivity|]. apply sg_format with fm.
      + intros Hp. destruct (plain_no_grammar _ t Hp) as [He|He]; [|congruence]. rewrite He in Hb'. discriminate.
      + exact Hb'.
      + apply Hf; [apply af_fresh|exact Hfu].
  Qed.
End Localiser.
