(** Proofs for C103. *)
From Verif Require Import Base BaseFacts LexerModel LexerSpec IcuExample TreeModel TreeRefine TreeSpec DocSpec ValueModel CommandModel IsoModel FormatterModel
  FormatterAbs FormatterRefine FormatterRefine2 FormatterSim FormatterActs FormatterSpec FormatterProofs FormatterProofs2 FormatterProofs3 FormatterProofs4 FormatterProofs5 RegistryModel LocaliserModel LocaliserSpec LocaliserProofs
  GrowModel GrowSpec GrowProofs GrowProofs2 GrowProofs3 NoteSpec.
Local Opaque us.

Lemma plain_text_iff s : plain_text s = true <-> no_syntax s.
Proof.
  unfold plain_text, no_syntax. rewrite forallb_forall. split.
  - intros H c Hc Hi. specialize (H c Hc). apply Bool.negb_true_iff in H. assert (G : existsb (N.eqb c) (us "{}`#") = true) by (apply existsb_exists; exists c; split; [exact Hi|apply N.eqb_refl]). congruence.
  - intros H c Hc. apply Bool.negb_true_iff. destruct (existsb (N.eqb c) (us "{}`#")) eqn:G; [|reflexivity]. apply existsb_exists in G as (c' & Hi & He). apply N.eqb_eq in He. subst c'. now apply (H c Hc) in Hi.
Qed.

Section Notes.
  Context {PE : Type}.
  Variable E : lenv PE.
  Hypothesis Hicu : icu_ok (le_icu E).
  Hypothesis Hhash : provider_hash_ok E.
  Local Notation build s t := (new_formatter E s t).

  Definition matches (e : option cache_data) (n : option note) : Prop :=
    match e, n with
    | None, None => True
    | Some (CLocalised s t), Some (Text s' t') => s = s' /\ t = t'
    | Some (CFormatter fm), Some (Pattern s t) =>
        exists fm0 a, build s t = Ok fm0 /\ held fm0 fm /\ fm_tag fm0 = t /\ content_of (le_icu E) localiser_grammar s a /\ hash_in_plurals_only a
    | _, _ => False
    end.
  Record agrees (c : cache) (b : notebook) : Prop := mk_agrees {
    ag_page : forall t, mhas t c = has_page t b;
    ag_note : forall t key, matches (match mget t c with Some m => mget key m | None => None end) (noted t key b)
  }.
  Record related (st : lstate) (x : holder) : Prop := mk_related {
    rl_fallback : ls_fallback st = nb_fallback x;
    rl_caching : ls_caching st = nb_caching x;
    rl_tag : ls_tag st = nb_tag x;
    rl_notes : agrees (ls_cache st) (nb_notes x)
  }.

  Lemma agrees_page c b t key e n : agrees c b -> matches (Some e) (Some n) ->
    agrees (minsert t [(key, e)] c) (Note t key n :: Page t :: b).
  Proof.
    intros (Hp & Hn) Hm. split.
    - intros t'. rewrite mhas_minsert, Hp. reflexivity.
    - intros t' key'. cbn [noted]. destruct (ueqb_spec t' t) as [->|Ht].
      + rewrite mget_minsert_eq. cbn [andb mget]. destruct (ueqb key' key); [exact Hm|exact Logic.I].
      + rewrite mget_minsert_ne by exact Ht. exact (Hn t' key').
  Qed.
  Lemma agrees_add c b t m key e n : agrees c b -> mget t c = Some m -> matches (Some e) (Some n) ->
    agrees (minsert t (minsert key e m) c) (Note t key n :: b).
  Proof.
    intros (Hp & Hn) Ht Hm. split.
    - intros t'. rewrite mhas_minsert. change (has_page t' (Note t key n :: b)) with (has_page t' b). rewrite <- Hp. destruct (ueqb_spec t' t) as [->|]; [|reflexivity]. symmetry. apply mhas_true. now exists m.
    - intros t' key'. cbn [noted]. specialize (Hn t' key'). destruct (ueqb_spec t' t) as [->|Hne].
      + rewrite mget_minsert_eq. rewrite Ht in Hn. destruct (ueqb_spec key' key) as [->|Hk]; cbn [andb].
        * rewrite mget_minsert_eq. exact Hm.
        * rewrite mget_minsert_ne by exact Hk. exact Hn.
      + rewrite mget_minsert_ne by exact Hne. exact Hn.
  Qed.
  (** A formatter is used where it is. *)
  Lemma agrees_same c b t m key e n : agrees c b -> mget t c = Some m -> noted t key b = Some n -> matches (Some e) (Some n) ->
    agrees (minsert t (minsert key e m) c) b.
  Proof.
    intros (Hp & Hn) Ht Hk Hm. split.
    - intros t'. rewrite mhas_minsert. rewrite <- Hp. destruct (ueqb_spec t' t) as [->|]; [|reflexivity]. symmetry. apply mhas_true. now exists m.
    - intros t' key'. specialize (Hn t' key'). destruct (ueqb_spec t' t) as [->|Hne].
      + rewrite mget_minsert_eq. rewrite Ht in Hn. destruct (ueqb_spec key' key) as [->|Hk'].
        * rewrite mget_minsert_eq, Hk. exact Hm.
        * rewrite mget_minsert_ne by exact Hk'. exact Hn.
      + rewrite mget_minsert_ne by exact Hne. exact Hn.
  Qed.

  Lemma text_step st b ca t key s t' : agrees (ls_cache st) b ->
    let x := return_string (PE := PE) st (mhas t (ls_cache st)) ca key s t' in let y := give_text (PE := PE) b ca t key s t' in
    agrees (ls_cache (fst x)) (fst y) /\ snd x = snd y /\ same_settings st (fst x).
  Proof.
    intros H. unfold return_string, give_text, add_string_to_cache. rewrite !(ag_page _ _ H). destruct ca; cbn [negb]; [|split; [exact H|]; repeat split].
    destruct (has_page t b); cbn [negb].
    - pose proof (ag_page _ _ H t') as Hp. destruct (mget t' (ls_cache st)) as [m|] eqn:Em.
      + assert (Hh : has_page t' b = true) by (rewrite <- Hp; apply mhas_true; now exists m). rewrite Hh. cbn. split; [|repeat split].
        apply agrees_add; [exact H|exact Em|now split].
      + assert (Hh : has_page t' b = false) by (rewrite <- Hp; now apply mhas_false). rewrite Hh. cbn. split; [exact H|repeat split].
    - cbn. split; [|repeat split]. apply agrees_page; [exact H|now split].
  Qed.

  Lemma fresh_result s t fm0 fm a vals : build s t = Ok fm0 -> held fm0 fm -> fm_tag fm0 = t -> content_of (le_icu E) localiser_grammar s a -> hash_in_plurals_only a ->
    snd (run_formatter E fm vals) = fresh E s t vals /\ held fm0 (fst (run_formatter E fm vals)).
  Proof.
    intros Hb Hh Ht Ha Hp. split; [|exact (held_run E _ _ _ _ vals Hb Hh)].
    rewrite run_formatter_result. rewrite (held_tag _ _ Hh), Ht. unfold fresh. rewrite Hb.
    rewrite (held_result _ _ _ _ _ _ _ _ Hb a fm vals (le_fuel E) Ha Hp Hh). now destruct (snd (format _ _ _ fm0 vals)).
  Qed.
  Lemma built s t fm0 c i t0 fb : find_string E c i t0 fb = Ok (s, t) -> build s t = Ok fm0 ->
    exists a, fm_tag fm0 = t /\ content_of (le_icu E) localiser_grammar s a /\ hash_in_plurals_only a.
  Proof.
    intros Hf Hb. destruct (built_content _ _ _ _ _ _ _ _ Hb) as (a & Ha). exists a. destruct (try_new_inv _ _ _ _ _ _ _ _ _ Ha Hb) as (_ & _ & Ht).
    split; [exact Ht|]. split; [exact Ha|]. apply find_string_iff in Hf as [Hs|d _ _ _ Hs]; exact (Hhash _ _ _ _ _ _ Hs Ha).
  Qed.

  Definition goes (st : lstate) (b : notebook) (x : lstate * lout (PE := PE) (ustr * ustr)) (y : notebook * lout (PE := PE) (ustr * ustr)) : Prop :=
    agrees (ls_cache (fst x)) (fst y) /\ snd x = snd y /\ same_settings st (fst x).
  Lemma goes_stay st b r : agrees (ls_cache st) b -> goes st b (st, r) (b, r).
  Proof. intros H. split; [exact H|]. split; [reflexivity|apply same_settings_refl]. Qed.

  Lemma literal_goes st b c i t fb ca : agrees (ls_cache st) b -> goes st b (actual_literal E st c i t fb ca) (note_literal E b c i t fb ca).
  Proof.
    intros H. unfold actual_literal, note_literal. change (combined c i) with (full_name c i). pose proof (ag_note _ _ H t (full_name c i)) as Hn.
    unfold cached. destruct (match mget t (ls_cache st) with Some m => mget (full_name c i) m | None => None end) as [[s t'|fm]|];
      destruct (noted t (full_name c i) b) as [[s1 t1|s1 t1]|]; cbn in Hn; try contradiction.
    - destruct Hn as (-> & ->). now apply goes_stay.
    - now apply goes_stay.
    - destruct (find_string E c i t fb) as [(s & t')|e| |]; try (now apply goes_stay). exact (text_step st b ca t _ s t' H).
  Qed.
  Lemma put_settings_same st t key fm : same_settings st (put_formatter st t key fm).
  Proof. unfold put_formatter. destruct (mget t (ls_cache st)); repeat split. Qed.
  Lemma format_goes st b c i vals t fb ca : agrees (ls_cache st) b -> goes st b (actual_format E st c i vals t fb ca) (note_format E b c i vals t fb ca).
  Proof.
    intros H. unfold actual_format, note_format. change (combined c i) with (full_name c i). pose proof (ag_note _ _ H t (full_name c i)) as Hn.
    unfold cached. destruct (match mget t (ls_cache st) with Some m => mget (full_name c i) m | None => None end) as [[s t'|fm]|] eqn:Ec;
      destruct (noted t (full_name c i) b) as [[s1 t1|s1 t1]|] eqn:En; cbn [matches] in Hn; try contradiction.
    - destruct Hn as (-> & ->). now apply goes_stay.
    - destruct Hn as (fm0 & a & Hb & Hh & Ht & Ha & Hp). destruct (fresh_result s1 t1 fm0 fm a vals Hb Hh Ht Ha Hp) as (Hr & Hh').
      destruct (run_formatter E fm vals) as (fm' & r). cbn [fst snd] in Hr, Hh'. split; [|split; [exact Hr|apply put_settings_same]].
      cbn [fst]. unfold put_formatter. destruct (mget t (ls_cache st)) as [m|] eqn:Em; [|discriminate Ec]. cbn [set_cache ls_cache].
      apply (agrees_same _ _ _ _ _ _ (Pattern s1 t1) H Em En). cbn [matches]. exists fm0, a. repeat (split; [assumption|]). assumption.
    - destruct (find_string E c i t fb) as [(s & t')|e| |] eqn:Ef; try (now apply goes_stay).
      assert (Hgr : localiser_grammar = us "{}`#") by reflexivity.
      destruct (plain_text s) eqn:Ep.
      + apply plain_text_iff in Ep. destruct (plain_no_grammar E Hicu s t' Ep) as [->|Hb]; [exact (text_step st b ca t _ _ t' H)|].
        rewrite Hb. destruct s as [|x w]; [exact (text_step st b ca t _ _ t' H)|exact (text_step st b ca t _ _ t' H)].
      + assert (Hnb : build s t' <> Err FNoGrammar).
        { intros Hb. assert (Hs : s <> []) by (intros ->; discriminate Ep). pose proof (proj1 (no_grammar_iff (le_icu E) (le_fmt E) (le_reg E) t' (le_locale E t') s Hicu Hs) Hb) as Hb'.
          apply plain_text_iff in Hb'. congruence. }
        destruct s as [|x w]; [discriminate Ep|]. fold (new_formatter E (x :: w) t'). change (formatter_try_new (le_icu E) localiser_grammar (le_fmt E) (le_reg E) t' (le_locale E t') (x :: w)) with (build (x :: w) t').
        pose proof (built (x :: w) t') as Hbt. unfold fresh at 1.
        destruct (build (x :: w) t') as [fm|e| |] eqn:Eb; try (destruct e; try (now apply goes_stay); congruence); try (now apply goes_stay).
        destruct (Hbt fm c i t fb Ef eq_refl) as (a & Ht & Ha & Hp).
        destruct (fresh_result (x :: w) t' fm fm a vals Eb (held_fresh _ _ _ _ _ _ _ _ Eb) Ht Ha Hp) as (Hr & Hh). unfold fresh in Hr. rewrite Eb in Hr.
        destruct (run_formatter E fm vals) as (fm' & r). cbn [fst snd] in Hr, Hh.
        assert (Hm : matches (Some (CFormatter fm')) (Some (Pattern (x :: w) t'))) by (cbn [matches]; exists fm, a; repeat (split; [assumption|]); assumption).
        destruct ca; [|split; [exact H|split; [exact Hr|apply same_settings_refl]]]. split; [|split; [exact Hr|apply put_settings_same]].
        cbn [fst]. unfold put_formatter. pose proof (ag_page _ _ H t) as Hpg. destruct (mget t (ls_cache st)) as [m|] eqn:Em.
        * assert (Hh' : has_page t b = true) by (rewrite <- Hpg; apply mhas_true; now exists m). rewrite Hh'. cbn [set_cache ls_cache]. now apply agrees_add.
        * assert (Hh' : has_page t b = false) by (rewrite <- Hpg; now apply mhas_false). rewrite Hh'. cbn [set_cache ls_cache]. now apply agrees_page.
  Qed.

  Lemma goes_settings st st1 b x y : same_settings st st1 -> goes st1 b x y -> goes st b x y.
  Proof. intros (H1 & H2 & H3 & H4) (G & Gr & K1 & K2 & K3 & K4). split; [exact G|]. split; [exact Gr|]. repeat split; congruence. Qed.
  Lemma data_goes t fb ca : forall d st b, agrees (ls_cache st) b -> goes st b (actual_format_data E d t fb ca st) (note_data E d t fb ca b).
  Proof.
    fix IH 1. intros [c i [vs|]] st b H; [|exact (literal_goes st b c i t fb ca H)]. cbn [actual_format_data note_data].
    generalize (@nil (ustr * pvalue)) as new. revert st b H. induction vs as [|(ph & v) r IHr]; intros st b H new; [exact (format_goes st b c i new t fb ca H)|].
    destruct v as [| | | | | |inner| | | |]; try exact (IHr st b H _).
    pose proof (IH inner st b H) as (Ha & Hr & Hs). destruct (actual_format_data E inner t fb ca st) as (st1 & x), (note_data E inner t fb ca b) as (b1 & y).
    cbn [fst snd] in Ha, Hr, Hs. subst y. destruct x as [(s & t')|e| |]; try (split; [exact Ha|split; [reflexivity|exact Hs]]).
    apply (goes_settings st st1 b); [exact Hs|]. exact (IHr st1 b1 Ha _).
  Qed.
  Lemma step_goes st x c : related st x -> related (fst (lstep E st c)) (fst (note_step E x c)) /\ snd (lstep E st c) = snd (note_step E x c).
  Proof.
    intros [Hf Hc Ht Hn].
    assert (G : forall p q, goes st (nb_notes x) p q -> related (fst p) (mk_holder (nb_fallback x) (nb_caching x) (nb_tag x) (fst q)) /\ Some (snd p) = Some (snd q)).
    { intros p q (Ha & Hr & K1 & K2 & K3 & _). split; [|now f_equal]. split; cbn [nb_fallback nb_caching nb_tag nb_notes]; [congruence|congruence|congruence|exact Ha]. }
    destruct c as [c i vals t fb ca|c i vals|c i t fb ca|c i|d t fb ca|d|t fb ca]; cbn [lstep note_step]; rewrite <- ?Hf, <- ?Hc, <- ?Ht.
    - rewrite Hf, Hc, Ht. apply G. rewrite <- Hf, <- Hc. exact (format_goes st _ c i vals t _ _ Hn).
    - rewrite Hf, Hc, Ht. apply G. rewrite <- Hf, <- Hc, <- Ht. exact (format_goes st _ c i vals _ _ _ Hn).
    - rewrite Hf, Hc, Ht. apply G. rewrite <- Hf, <- Hc. exact (literal_goes st _ c i t _ _ Hn).
    - rewrite Hf, Hc, Ht. apply G. rewrite <- Hf, <- Hc, <- Ht. exact (literal_goes st _ c i _ _ _ Hn).
    - rewrite Hf, Hc, Ht. apply G. rewrite <- Hf, <- Hc. exact (data_goes t _ _ d st _ Hn).
    - rewrite Hf, Hc, Ht. apply G. rewrite <- Hf, <- Hc, <- Ht. exact (data_goes _ _ _ d st _ Hn).
    - split; [|reflexivity]. split; cbn; [reflexivity|reflexivity|reflexivity|exact Hn].
  Qed.
End Notes.

Section Run.
  Context {PE : Type}.
  Variable E : lenv PE.
  Hypothesis Hicu : icu_ok (le_icu E).
  Hypothesis Hhash : provider_hash_ok E.
  Lemma matches_grow r r' e n : extends r r' -> matches (with_reg E r) e n -> matches (with_reg E r') e n.
  Proof.
    intros Hx. destruct e as [[s t|fm]|], n as [[s1 t1|s1 t1]|]; cbn [matches]; auto. intros (fm0 & a & Hb & Hr). exists fm0, a. split; [|exact Hr].
    unfold new_formatter in *. cbn [with_reg le_icu le_fmt le_reg le_locale] in *.
    destruct (less_build r r' Hx (le_icu E) (us "{}`#") (le_fmt E) t1 (le_locale E t1) s1) as [G|(e & _ & G)]; [now rewrite <- G|rewrite G in Hb; discriminate Hb].
  Qed.
  Lemma related_grow r r' st x : extends r r' -> related (with_reg E r) st x -> related (with_reg E r') st x.
  Proof.
    intros Hx [H1 H2 H3 [H4 H5]]. split; [assumption..|]. split; [exact H4|]. intros t key. exact (matches_grow r r' _ _ Hx (H5 t key)).
  Qed.
  Lemma grun_insert st (r : cregistry) name f h : let x := grun E (st, r) (Insert name f :: h) in let y := grun E (st, fst (creg_insert r name f)) h in
    answers (snd x) = answers (snd y) /\ fst x = fst y.
  Proof. cbn [grun gstep fst snd]. destruct (creg_insert r name f) as (r1 & a). cbn [fst snd]. destruct (grun E (st, r1) h). now split. Qed.
  Lemma run_goes h : forall st x r, related (with_reg E r) st x ->
    answers (snd (grun E (st, r) h)) = snd (note_run E x r h) /\
    related (with_reg E (snd (fst (grun E (st, r) h)))) (fst (fst (grun E (st, r) h))) (fst (note_run E x r h)).
  Proof.
    induction h as [|e h IH]; intros st x r H; [split; [reflexivity|exact H]|]. destruct e as [name f|c].
    - destruct (grun_insert st r name f h) as (G1 & G2). rewrite G1, G2. clear G1 G2. cbn [note_run]. unfold creg_insert. destruct (mhas name r) eqn:Em.
      + exact (IH st x r H).
      + assert (Hr : minsert name f r = r ++ [(name, f)]) by (apply mkeys_minsert_new; now apply mhas_false).
        assert (Hx : extends r (minsert name f r)) by (intros n g Hg; rewrite mget_minsert_ne; [exact Hg|intros ->; apply mhas_false in Em; congruence]).
        rewrite <- Hr. exact (IH st x (minsert name f r) (related_grow _ _ _ _ Hx H)).
    - cbn [grun gstep note_run fst snd]. destruct (step_goes (with_reg E r) Hicu Hhash st x c H) as (H1 & H2).
      destruct (lstep (with_reg E r) st c) as (st1 & a), (note_step (with_reg E r) x c) as (x1 & a'). cbn [fst snd] in H1, H2. subst a'.
      specialize (IH st1 x1 r H1). destruct (grun E (st1, r) h) as (y & l), (note_run E x1 r h) as (x2 & l'). cbn [fst snd] in *. destruct IH as (I1 & I2).
      split; [|exact I2]. change (answers (Answered a :: l)) with (a :: answers l). now rewrite I1.
  Qed.
  Lemma new_related fb ca tag : related E (localiser_new E fb ca tag) (mk_holder fb ca tag []).
  Proof. split; [reflexivity..|]. split; [reflexivity|]. intros t key. exact Logic.I. Qed.
End Run.
