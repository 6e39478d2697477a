(** Proofs for C100: when commands that ask do not make a localiser forget. *)
From Verif Require Import Base BaseFacts LexerModel LexerSpec TreeModel TreeSpec TreeRefine DocSpec ValueModel CommandModel IsoModel FormatterModel FormatterSpec FormatterProofs4 RegistryModel LocaliserModel
  LocaliserSpec LocaliserProofs MemorySpec MemoryProofs CallsModel CallsSpec LocCallsModel LocCallsSpec ReenterModel ReenterSpec ReenterProofs ReenterProofs2.
Local Opaque us.

Section Within.
  Context {PE W : Type}.
  Variables (E : lenv PE) (cmds : commands PE W) (T : ustr -> Prop).
  Notation answer := (option (lout (PE := PE) (ustr * ustr))).

  (** Something about the localiser and the world that is kept when an entry is added for a language that has entries. *)
  Section Grows.
    Variables (J : lstate -> W -> Prop) (ask : lcall -> rst W -> rst W * answer).
    Notation P := (fun s : rst W => J (rs_loc s) (rs_world s)).
    Hypothesis Hgrow : forall st w t key e m, J st w -> mget t (ls_cache st) = Some m -> J (set_cache st (minsert t (minsert key e m) (ls_cache st))) w.
    Hypothesis Hhas : forall st w t, J st w -> T t -> mhas t (ls_cache st) = true.
    Hypothesis Hkeeps : forall name, keeps P (reg cmds ask) name.
    Lemma grow_formatter s t key fm : T t -> P s -> P (set_loc s (put_formatter (rs_loc s) t key fm)).
    Proof.
      intros Ht H. unfold put_formatter. pose proof (Hhas _ _ t H Ht) as Hm. unfold mhas in Hm. destruct (mget t (ls_cache (rs_loc s))) as [m|] eqn:Em; [|discriminate].
      now apply Hgrow.
    Qed.
    Lemma return_grows s b ca key str t : b = true -> P s -> P (fst (rreturn_string (PE := PE) s b ca key str t)).
    Proof.
      intros -> H. unfold rreturn_string. destruct ca; [|exact H]. destruct (Nat.ltb 0 (rs_readers s)); [exact H|]. unfold add_string_to_cache. cbn [negb].
      destruct (mget t (ls_cache (rs_loc s))) as [m|] eqn:Em; [|exact H]. now apply Hgrow.
    Qed.
    Lemma run_grows fm vals s : P s -> P (fst (wrun_formatter E (reg cmds ask) fm vals s)).
    Proof.
      intros H. unfold wrun_formatter. pose proof (format_keeps P (reg cmds ask) (le_fuel E) (le_fmt E) fm vals s (fun name _ => Hkeeps name) H) as G.
      now destruct (wformat (le_fuel E) (le_fmt E) (reg cmds ask) fm vals s) as (s' & fm' & r).
    Qed.
    Lemma cached_grows s tag key fm vals : T tag -> P s -> P (fst (rformat_cached E cmds ask s tag key fm vals)).
    Proof.
      intros Ht H. unfold rformat_cached. destruct (existsb _ _); [exact H|]. pose proof (run_grows fm vals (hold s (tag, key)) H) as H1.
      destruct (wrun_formatter E (reg cmds ask) fm vals (hold s (tag, key))) as (s1 & fm' & r). exact (grow_formatter s1 tag key fm' Ht H1).
    Qed.
    Lemma literal_grows s c i t fb ca : T t -> P s -> P (fst (ractual_literal E s c i t fb ca)).
    Proof.
      intros Ht H. unfold ractual_literal. destruct (cached _ _ _) as [[str t'|fm]|]; [exact H..|]. destruct (find_string E c i t fb) as [(str & t')|e| |]; try exact H.
      apply return_grows; [exact (Hhas _ _ t H Ht)|exact H].
    Qed.
    Lemma format_grows s c i vals t fb ca : T t -> P s -> P (fst (ractual_format E cmds ask s c i vals t fb ca)).
    Proof.
      intros Ht H. unfold ractual_format. destruct (cached _ _ _) as [[str t'|fm]|]; [exact H|now apply cached_grows|]. rewrite (Hhas _ _ t H Ht).
      destruct (find_string E c i t fb) as [(str & t')|e| |]; try exact H. destruct str as [|x str]; [now apply return_grows|].
      pose proof (build_keeps P (reg cmds ask) (le_icu E) localiser_grammar (le_fmt E) t' (le_locale E t') (x :: str) s Hkeeps H) as H1.
      destruct (wformatter_try_new _ _ _ _ _ _ _ s) as (s1 & [fm|e| |]); cbn [fst] in H1; [|destruct e; try exact H1; now apply return_grows|exact H1..].
      destruct ca.
      - destruct (Nat.ltb 0 (rs_readers s1)); [exact H1|]. unfold radd_formatter. cbn [negb].
        destruct (mget t (ls_cache (rs_loc s1))) as [m|] eqn:Em; [|exact H1]. apply cached_grows; [exact Ht|]. now apply Hgrow.
      - pose proof (run_grows fm vals s1 H1) as H2. now destruct (wrun_formatter E (reg cmds ask) fm vals s1) as (s2 & fm' & r).
    Qed.
    Lemma call_grows c s : within T c -> T (ls_tag (rs_loc s)) -> P s -> P (fst (rcall E cmds ask c s)) \/ exists t f ca, c = CallDefaults t f ca.
    Proof.
      intros Hc Ht H. destruct c; cbn [rcall fst]; cbn [within] in Hc; [left..|right; eauto].
      - now apply format_grows.
      - now apply format_grows.
      - now apply literal_grows.
      - now apply literal_grows.
      - apply data_keeps with (P := P); [intros; now apply literal_grows|intros; now apply format_grows|exact H].
      - apply data_keeps with (P := P); [intros; now apply literal_grows|intros; now apply format_grows|exact H].
    Qed.
  End Grows.

  Lemma kept_insert st t key e m : mget t (ls_cache st) = Some m -> kept st (set_cache st (minsert t (minsert key e m) (ls_cache st))).
  Proof.
    intros Hm t' key' H. rewrite cached_put. destruct (ueqb_spec t' t) as [->|N]; [|exact H]. unfold cached in H. rewrite Hm in H. rewrite mget_minsert.
    destruct (ueqb key' key); [discriminate|exact H].
  Qed.

  (** ** Nothing that was remembered before is forgotten *)
  Section Kept.
    Hypothesis Hcmds : forall name, command_asks_only (within T) cmds name.
    Variable st0 : lstate.
    Definition remembering (st : lstate) (w : W) : Prop := kept st0 st /\ (forall t, T t -> mhas t (ls_cache st) = true) /\ T (ls_tag st).
    Theorem step_remembering n : forall c s, within T c -> remembering (rs_loc s) (rs_world s) ->
      remembering (rs_loc (fst (rstep E cmds n c s))) (rs_world (fst (rstep E cmds n c s))).
    Proof.
      induction n as [|n IH]; intros c s Hc H; [exact H|]. cbn [rstep].
      destruct (call_grows remembering (rstep E cmds n)) with (c := c) (s := s) as [G|(t & f & ca & ->)]; [..|exact G|].
      - intros st w t key e m (H1 & H2 & H3) Hm. split; [exact (kept_trans _ _ _ H1 (kept_insert _ _ _ _ _ Hm))|]. split; [|exact H3].
        intros t' Ht. cbn. now rewrite mhas_minsert, (H2 t' Ht), Bool.orb_true_r.
      - intros st w t (_ & H2 & _). apply H2.
      - intros name. apply (command_keeps cmds (fun s => remembering (rs_loc s) (rs_world s)) (within T)); [intros s1 w H1; exact H1|exact IH|exact (Hcmds name)].
      - exact Hc.
      - exact (proj2 (proj2 H)).
      - exact H.
      - cbn [rcall fst]. destruct H as (H1 & H2 & H3). split; [exact H1|]. split; [exact H2|]. cbn. destruct t; cbn; auto.
    Qed.
  End Kept.
End Within.

(** ** Nothing that a command asked for meanwhile is forgotten *)
Section Meanwhile.
  Context {PE : Type}.
  Variables (E : lenv PE) (name0 c0 i0 tag : ustr).
  Notation cmds := ([(name0, witness c0 i0)] : commands PE bool).
  Hypothesis Hfound : forall fb s t', found E c0 i0 tag fb s t' -> t' = tag.
  Definition marked (st : lstate) (w : bool) : Prop :=
    (w = true -> cached st tag (combined c0 i0) <> None) /\ mhas tag (ls_cache st) = true /\ ls_tag st = tag /\ ls_caching st = true.
  Notation P := (fun s : rst bool => marked (rs_loc s) (rs_world s)).
  Lemma marked_grows st w t key e m : marked st w -> mget t (ls_cache st) = Some m -> marked (set_cache st (minsert t (minsert key e m) (ls_cache st))) w.
  Proof.
    intros (H1 & H2 & H3 & H4) Hm. split; [|split; [|now split]].
    - intros Hw. exact (kept_insert st t key e m Hm _ _ (H1 Hw)).
    - cbn. now rewrite mhas_minsert, H2, Bool.orb_true_r.
  Qed.
  Lemma witness_keeps n name : keeps P (reg cmds (rstep E cmds n)) name.
  Proof.
    intros f ps s Hf H. unfold reg in Hf. rewrite get_running in Hf. cbn in Hf. destruct (ueqb name name0); [|discriminate]. injection Hf as <-. unfold witness. cbn [interp].
    destruct n as [|n]; [exact H|]. cbn [rstep rcall]. pose proof H as Hm0. destruct H as (H1 & H2 & H3 & H4).
    assert (G : marked (rs_loc (fst (ractual_literal E s c0 i0 (ls_tag (rs_loc s)) (ls_fallback (rs_loc s)) (ls_caching (rs_loc s))))) (rs_world s) /\
      rs_world (fst (ractual_literal E s c0 i0 (ls_tag (rs_loc s)) (ls_fallback (rs_loc s)) (ls_caching (rs_loc s)))) = rs_world s /\
      forall x, snd (ractual_literal E s c0 i0 (ls_tag (rs_loc s)) (ls_fallback (rs_loc s)) (ls_caching (rs_loc s))) = Ok x ->
        cached (rs_loc (fst (ractual_literal E s c0 i0 (ls_tag (rs_loc s)) (ls_fallback (rs_loc s)) (ls_caching (rs_loc s))))) tag (combined c0 i0) <> None).
    { rewrite H3, H4. unfold ractual_literal. destruct (cached (rs_loc s) tag (combined c0 i0)) as [[str t'|fm]|] eqn:Ec.
      - split; [exact Hm0|]. split; [reflexivity|]. intros x _. cbn [fst]. congruence.
      - split; [exact Hm0|]. split; [reflexivity|]. discriminate.
      - destruct (find_string E c0 i0 tag (ls_fallback (rs_loc s))) as [(str & t')|e| |] eqn:Ef.
        2-4: (split; [exact Hm0|]; split; [reflexivity|]; discriminate).
        apply find_string_iff in Ef. rewrite (Hfound _ _ _ Ef). unfold rreturn_string. destruct (Nat.ltb 0 (rs_readers s)); [split; [exact Hm0|]; split; [reflexivity|]; discriminate|].
        rewrite H2. unfold add_string_to_cache. cbn [negb]. unfold mhas in H2. destruct (mget tag (ls_cache (rs_loc s))) as [m|] eqn:Em; [|discriminate].
        split; [exact (marked_grows _ _ tag (combined c0 i0) (CLocalised str tag) m Hm0 Em)|]. split; [reflexivity|]. intros x _. cbn [fst rs_loc set_loc]. rewrite cached_put, ueqb_refl, mget_minsert_eq. discriminate. }
    destruct (ractual_literal E s c0 i0 _ _ _) as (s1 & o). cbn [fst snd] in G |- *. destruct G as (G1 & G2 & G3). rewrite <- G2 in G1.
    destruct o as [(str & t')|e| |]; cbn; try exact G1. destruct G1 as (_ & G1). split; [|exact G1]. intros _. exact (G3 _ eq_refl).
  Qed.
  Theorem meanwhile n c s s' y : within (eq tag) c -> ls_tag (rs_loc s) = tag -> ls_caching (rs_loc s) = true -> mhas tag (ls_cache (rs_loc s)) = true -> rs_world s = false ->
    rstep E cmds n c s = (s', Some (Ok y)) -> rs_world s' = true -> cached (rs_loc s') tag (combined c0 i0) <> None.
  Proof.
    intros Hc Ht Hca Hh Hw Hs Hw'. destruct n as [|n]; [discriminate|]. cbn [rstep] in Hs.
    destruct (call_grows E cmds (eq tag) marked (rstep E cmds n)) with (c := c) (s := s) as [G|(t & f & ca & ->)].
    - intros st w t key e m. apply marked_grows.
    - intros st w t (_ & H2 & _) <-. exact H2.
    - apply witness_keeps.
    - exact Hc.
    - congruence.
    - split; [congruence|]. now repeat split.
    - rewrite Hs in G. exact (proj1 G Hw').
    - discriminate Hs.
  Qed.
End Meanwhile.
