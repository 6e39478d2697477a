(** Proofs for C100: what commands do to the settings; formatters that may be used meanwhile. *)
From Verif Require Import Base BaseFacts LexerModel LexerSpec TreeModel TreeSpec DocSpec ValueModel CommandModel IsoModel FormatterModel FormatterSpec FormatterProofs4 RegistryModel LocaliserModel
  LocaliserSpec LocaliserProofs MemorySpec MemoryProofs CallsModel CallsSpec CallsProofs CallsProofs2 LocCallsModel LocCallsSpec ReenterModel ReenterSpec ReenterProofs ReenterProofs2.
Local Opaque us.

Section Settings.
  Context {PE W : Type}.
  Variables (E : lenv PE) (cmds : commands PE W).
  Notation answer := (option (lout (PE := PE) (ustr * ustr))).
  Variable K : lstate -> W -> Prop.
  Hypothesis Hset : forall st st' w, same_settings st st' -> K st w -> K st' w.
  Notation P := (fun s : rst W => K (rs_loc s) (rs_world s)).
  Variable ask : lcall -> rst W -> rst W * answer.
  Hypothesis Hkeeps : forall name, keeps P (reg cmds ask) name.
  Lemma run_settings fm vals s : P s -> P (fst (wrun_formatter E (reg cmds ask) fm vals s)).
  Proof.
    intros H. unfold wrun_formatter. pose proof (format_keeps P (reg cmds ask) (le_fuel E) (le_fmt E) fm vals s (fun name _ => Hkeeps name) H) as G.
    now destruct (wformat (le_fuel E) (le_fmt E) (reg cmds ask) fm vals s) as (s' & fm' & r).
  Qed.
  Lemma cached_settings s tag key fm vals : P s -> P (fst (rformat_cached E cmds ask s tag key fm vals)).
  Proof.
    intros H. unfold rformat_cached. destruct (existsb _ _); [exact H|]. pose proof (run_settings fm vals (hold s (tag, key)) H) as H1.
    destruct (wrun_formatter E (reg cmds ask) fm vals (hold s (tag, key))) as (s1 & fm' & r). cbn in H1 |- *.
    exact (Hset _ _ _ (put_settings _ _ _ _ _ (put_formatter_put _ _ _ _)) H1).
  Qed.
  Lemma return_settings' s b ca key str t : P s -> P (fst (rreturn_string (PE := PE) s b ca key str t)).
  Proof.
    intros H. unfold rreturn_string. destruct ca; [|exact H]. destruct (Nat.ltb 0 (rs_readers s)); [exact H|]. unfold add_string_to_cache. destruct b; cbn [negb].
    - destruct (mget t (ls_cache (rs_loc s))) as [m|] eqn:Em; [|exact H]. exact (Hset _ _ _ (put_settings _ _ _ _ _ (put_old _ _ key (CLocalised str t) m Em)) H).
    - exact (Hset _ _ _ (put_settings _ _ _ _ _ (put_new _ t key (CLocalised str t))) H).
  Qed.
  Lemma literal_settings' s c i t fb ca : P s -> P (fst (ractual_literal E s c i t fb ca)).
  Proof.
    intros H. unfold ractual_literal. destruct (cached _ _ _) as [[str t'|fm]|]; [exact H..|]. destruct (find_string E c i t fb) as [(str & t')|e| |]; try exact H.
    now apply return_settings'.
  Qed.
  Lemma format_settings' s c i vals t fb ca : P s -> P (fst (ractual_format E cmds ask s c i vals t fb ca)).
  Proof.
    intros H. unfold ractual_format. destruct (cached _ _ _) as [[str t'|fm]|]; [exact H|now apply cached_settings|].
    destruct (find_string E c i t fb) as [(str & t')|e| |]; try exact H. destruct str as [|x str]; [now apply return_settings'|].
    pose proof (build_keeps P (reg cmds ask) (le_icu E) localiser_grammar (le_fmt E) t' (le_locale E t') (x :: str) s Hkeeps H) as H1.
    destruct (wformatter_try_new _ _ _ _ _ _ _ s) as (s1 & [fm|e| |]); cbn [fst] in H1; [|destruct e; try exact H1; now apply return_settings'|exact H1..].
    destruct ca.
    - destruct (Nat.ltb 0 (rs_readers s1)); [exact H1|]. destruct (radd_formatter _ _ _ _ _) as [st|] eqn:Ea; [|exact H1]. apply cached_settings. cbn.
      unfold radd_formatter in Ea. destruct (negb _).
      + injection Ea as <-. exact (Hset _ _ _ (put_settings _ _ _ _ _ (put_new _ t (combined c i) (CFormatter fm))) H1).
      + destruct (mget t (ls_cache (rs_loc s1))) as [m|] eqn:Em; [|discriminate]. injection Ea as <-. exact (Hset _ _ _ (put_settings _ _ _ _ _ (put_old _ _ (combined c i) (CFormatter fm) m Em)) H1).
    - pose proof (run_settings fm vals s1 H1) as H2. now destruct (wrun_formatter E (reg cmds ask) fm vals s1) as (s2 & fm' & r).
  Qed.
  Theorem call_settings c s : (forall t f ca, c <> CallDefaults t f ca) -> P s -> P (fst (rcall E cmds ask c s)).
  Proof.
    intros Hc H. destruct c; cbn [rcall fst].
    - now apply format_settings'.
    - now apply format_settings'.
    - now apply literal_settings'.
    - now apply literal_settings'.
    - apply data_keeps with (P := P); [intros; now apply literal_settings'|intros; now apply format_settings'|exact H].
    - apply data_keeps with (P := P); [intros; now apply literal_settings'|intros; now apply format_settings'|exact H].
    - now destruct (Hc tag fallback caching).
  Qed.
End Settings.

(** ** A formatter that is not formatting, while another one is *)
Section Other.
  Context {PE W : Type}.
  Variables (E : lenv PE) (cmds : commands PE W) (ask : lcall -> rst W -> rst W * option (lout (PE := PE) (ustr * ustr))).
  Definition same_inside (s1 s2 : rst W) : Prop := rs_loc s1 = rs_loc s2 /\ rs_world s1 = rs_world s2.
  Definition steady_at (s0 s : rst W) : Prop := rs_loc s = rs_loc s0 /\ rs_readers s = rs_readers s0 /\ rs_locked s = rs_locked s0 /\ rs_failed s = rs_failed s0.
  Lemma interp_quiet p : asks_only (fun _ => False) p -> forall s1 s2, same_inside s1 s2 ->
    steady_at s1 (fst (interp ask p s1)) /\ steady_at s2 (fst (interp ask p s2)) /\ rs_world (fst (interp ask p s1)) = rs_world (fst (interp ask p s2)) /\ snd (interp ask p s1) = snd (interp ask p s2).
  Proof.
    induction 1 as [r|c k Hc _ IH|k _ IH|w k _ IH]; intros s1 s2 (H1 & H2); cbn [interp].
    - repeat split. exact H2.
    - contradiction.
    - rewrite H2. apply IH. now split.
    - destruct (IH (set_world s1 w) (set_world s2 w) (conj H1 eq_refl)) as (A & B & C & D). now repeat split; try apply A; try apply B.
  Qed.
  Lemma run_quiet fm vals s1 s2 : (forall name, uses fm name -> quiet cmds name) -> same_inside s1 s2 ->
    let x1 := wrun_formatter E (reg cmds ask) fm vals s1 in let x2 := wrun_formatter E (reg cmds ask) fm vals s2 in
    steady_at s1 (fst x1) /\ steady_at s2 (fst x2) /\ rs_world (fst x1) = rs_world (fst x2) /\ snd x1 = snd x2.
  Proof.
    intros Hu Hi. unfold wrun_formatter.
    assert (G : (fun v w => steady_at s1 v /\ steady_at s2 w /\ rs_world v = rs_world w) (fst (wformat (le_fuel E) (le_fmt E) (reg cmds ask) fm vals s1)) (fst (wformat (le_fuel E) (le_fmt E) (reg cmds ask) fm vals s2)) /\
      snd (wformat (le_fuel E) (le_fmt E) (reg cmds ask) fm vals s1) = snd (wformat (le_fuel E) (le_fmt E) (reg cmds ask) fm vals s2)).
    { apply (format_rel (fun v w => steady_at s1 v /\ steady_at s2 w /\ rs_world v = rs_world w)).
      - intros name Hn. unfold related, reg. rewrite get_running. destruct (mget name cmds) as [p|] eqn:Ep; cbn [option_map]; [|exact Logic.I].
        intros ps v w (A & B & C). assert (Hvw : same_inside v w) by (split; [|exact C]; rewrite (proj1 A), (proj1 B); apply Hi).
        destruct (interp_quiet (p ps) (Hu name Hn p ps Ep) v w Hvw) as (A' & B' & C' & D'). split; [|exact D']. split; [|split; [|exact C']].
        + destruct A as (A1 & A2 & A3 & A4), A' as (A5 & A6 & A7 & A8). repeat split; congruence.
        + destruct B as (A1 & A2 & A3 & A4), B' as (A5 & A6 & A7 & A8). repeat split; congruence.
      - split; [now repeat split|]. split; [now repeat split|apply Hi]. }
    destruct (wformat _ _ (reg cmds ask) fm vals s1) as (v & fm1 & r1), (wformat _ _ (reg cmds ask) fm vals s2) as (w & fm2 & r2). cbn in *.
    destruct G as ((A & B & C) & [= -> ->]). now repeat split; try apply A; try apply B.
  Qed.
  (** The same call, with other things borrowed. *)
  Definition rest_of (s : rst W) : rst W := mk_rst (rs_loc s) 0 [] (rs_failed s) (rs_world s).
  Lemma cached_other s tag key fm vals : ~ In (tag, key) (rs_locked s) -> (forall name, uses fm name -> quiet cmds name) ->
    let x := rformat_cached E cmds ask s tag key fm vals in let y := rformat_cached E cmds ask (rest_of s) tag key fm vals in
    rs_failed (fst x) = rs_failed s /\ snd x = snd y /\ rs_loc (fst x) = rs_loc (fst y) /\ rs_world (fst x) = rs_world (fst y).
  Proof.
    intros Hl Hu. unfold rformat_cached. assert (He : existsb (same_entry (tag, key)) (rs_locked s) = false).
    { destruct (existsb (same_entry (tag, key)) (rs_locked s)) eqn:Ee; [|reflexivity]. apply existsb_exists in Ee as (x & Hx & Hs). apply same_entry_iff in Hs as <-. contradiction. }
    rewrite He. cbn [rest_of rs_locked existsb]. pose proof (run_quiet fm vals (hold s (tag, key)) (hold (rest_of s) (tag, key)) Hu (conj eq_refl eq_refl)) as H. cbv zeta in H.
    destruct (wrun_formatter E (reg cmds ask) fm vals (hold s (tag, key))) as (s1 & fm1 & r1), (wrun_formatter E (reg cmds ask) fm vals (hold (rest_of s) (tag, key))) as (s2 & fm2 & r2).
    cbn in *. destruct H as ((A1 & A2 & A3 & A4) & (B1 & B2 & B3 & B4) & C & [= -> ->]). cbn in *. repeat split; congruence.
  Qed.
End Other.
