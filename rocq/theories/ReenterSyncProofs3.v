(** Proofs for C101: when a thread does not wait; locks are given back; commands that do not ask. *)
From Verif Require Import Base BaseFacts LexerModel LexerSpec TreeModel TreeSpec DocSpec ValueModel CommandModel IsoModel FormatterModel FormatterSpec FormatterProofs4 RegistryModel LocaliserModel
  LocaliserSpec LocaliserProofs SyncModel CallsModel CallsSpec CallsProofs CallsProofs2 LocCallsModel LocCallsSpec LocCallsProofs2 ReenterModel ReenterSpec ReenterProofs ReenterProofs2 ReenterProofs3 ReenterSyncModel
  ReenterSyncSpec ReenterSyncProofs ReenterSyncProofs2.
Local Opaque us.

Section Waits.
  Context {PE W : Type}.
  Variables (E : lenv PE) (cmds : commands PE W).
  Notation answer := (option (lout (PE := PE) (ustr * ustr))).
  Notation sasker := (lcall -> sst W -> sst W * answer).

  (** ** Locks are given back *)
  Definition given_back (s0 s : sst W) : Prop := ss_waits s = true \/ (ss_readers s = ss_readers s0 /\ ss_locked s = ss_locked s0).
  Lemma given_refl s : given_back s s.
  Proof. right. now split. Qed.
  Lemma given_trans a b c : given_back a b -> (ss_waits b = true -> ss_waits c = true) -> given_back b c -> given_back a c.
  Proof. intros [H|(A1 & A2)] Hw [H'|(B1 & B2)]; [now left; auto..|now left|]. right. split; congruence. Qed.
  (** What a call does to a state: a thread that waits goes on waiting, and locks are given back. *)
  Definition orderly (s0 s : sst W) : Prop := (ss_waits s0 = true -> ss_waits s = true) /\ given_back s0 s.
  Lemma orderly_refl s : orderly s s.
  Proof. split; [auto|apply given_refl]. Qed.
  Lemma orderly_trans a b c : orderly a b -> orderly b c -> orderly a c.
  Proof. intros (A1 & A2) (B1 & B2). split; [auto|]. exact (given_trans _ _ _ A2 B1 B2). Qed.
  Lemma orderly_wait {A} s : orderly s (fst (wait (PE := PE) (A := A) s)).
  Proof. split; [reflexivity|now left]. Qed.
  Section Orderly.
    Variable ask : sasker.
    Hypothesis Hask : forall c s, orderly s (fst (ask c s)).
    Let Hask' s0 c s : True -> orderly s0 s -> orderly s0 (fst (ask c s)).
    Proof. intros _ H. exact (orderly_trans _ _ _ H (Hask c s)). Qed.
    Let any name : command_asks_only (fun _ => True) cmds name.
    Proof. intros f ps _. apply asks_any. Qed.
    Lemma run_orderly fm vals s : orderly s (fst (wrun_formatter E (sreg cmds ask) fm vals s)).
    Proof. apply (srun_keeps E cmds _ (fun _ => True)); [auto|apply Hask'|auto|apply orderly_refl]. Qed.
    Lemma new_orderly t l str s : orderly s (fst (wformatter_try_new (le_icu E) localiser_grammar (le_fmt E) (sreg cmds ask) t l str s)).
    Proof. apply (snew_keeps E cmds _ (fun _ => True)); [auto|apply Hask'|auto|apply orderly_refl]. Qed.
    Lemma cached_orderly s tag key fm vals : orderly s (fst (sformat_cached E cmds ask s tag key fm vals)).
    Proof.
      unfold sformat_cached. destruct (existsb (same_entry (tag, key)) (ss_locked s)) eqn:Ee; [apply orderly_wait|]. destruct (existsb _ (ss_bad s)); [apply orderly_refl|].
      pose proof (run_orderly fm vals (lock s (tag, key))) as H. destruct (wrun_formatter E (sreg cmds ask) fm vals (lock s (tag, key))) as (s1 & fm' & r). cbn [fst] in H.
      destruct H as (H1 & H2). destruct (ss_waits s1) eqn:Ew; [split; [now intros _|now left]|].
      assert (G : given_back s (unlock (with_loc s1 (put_formatter (ss_loc s1) tag key fm')) (tag, key))).
      { destruct H2 as [H2|(A1 & A2)]; [congruence|]. right. cbn. rewrite A1, A2. cbn. split; [reflexivity|]. rewrite (proj2 (same_entry_iff _ _) eq_refl). cbn. now apply filter_absent. }
      split; [intros H; specialize (H1 H); congruence|]. destruct r; exact G.
    Qed.
    Lemma return_orderly s b ca key str t : orderly s (fst (sreturn_string (PE := PE) s b ca key str t)).
    Proof.
      unfold sreturn_string. destruct ca; [|apply orderly_refl]. destruct (Nat.ltb 0 (ss_readers s)); [apply orderly_wait|]. destruct (ss_poisoned s); [apply orderly_refl|].
      destruct (add_string_to_cache _ _ _ _ _); (split; [auto|now right]).
    Qed.
    Lemma literal_orderly s c i t fb ca : orderly s (fst (sactual_literal E s c i t fb ca)).
    Proof.
      unfold sactual_literal. destruct (ss_poisoned s); [apply orderly_refl|]. destruct (cached _ _ _) as [[str t'|fm]|]; [apply orderly_refl..|].
      destruct (find_string E c i t fb) as [(str & t')|e| |]; try apply orderly_refl. apply return_orderly.
    Qed.
    Lemma format_orderly s c i vals t fb ca : orderly s (fst (sactual_format E cmds ask s c i vals t fb ca)).
    Proof.
      unfold sactual_format. destruct (ss_poisoned s); [apply orderly_refl|]. destruct (cached _ _ _) as [[str t'|fm]|]; [apply orderly_refl|apply cached_orderly|].
      destruct (find_string E c i t fb) as [(str & t')|e| |]; try apply orderly_refl. destruct str as [|x str]; [apply return_orderly|].
      pose proof (new_orderly t' (le_locale E t') (x :: str) s) as H.
      destruct (wformatter_try_new _ _ _ _ _ _ _ s) as (s1 & [fm|e| |]); cbn [fst] in H; [|destruct e; try exact H; exact (orderly_trans _ _ _ H (return_orderly _ _ _ _ _ _))|exact H..].
      destruct ca.
      - destruct (Nat.ltb 0 (ss_readers s1)); [exact (orderly_trans _ _ _ H (orderly_wait s1))|]. destruct (ss_poisoned s1); [exact H|].
        destruct (radd_formatter _ _ _ _ _) as [st|].
        + refine (orderly_trans _ _ _ H (orderly_trans _ (fresh s1 st (negb (mhas t (ls_cache (ss_loc s)))) t (combined c i)) _ _ (cached_orderly _ _ _ _ _))). split; [auto|now right].
        + refine (orderly_trans _ _ _ H _). split; [auto|now right].
      - pose proof (run_orderly fm vals s1) as H'. destruct (wrun_formatter E (sreg cmds ask) fm vals s1) as (s2 & fm' & r). exact (orderly_trans _ _ _ H H').
    Qed.
    Lemma call_orderly c s : orderly s (fst (scall E cmds ask c s)).
    Proof.
      apply scall_keeps; [apply orderly_refl|..].
      - intros t fb ca s1 c1 i H. exact (orderly_trans _ _ _ H (literal_orderly _ _ _ _ _ _)).
      - intros t fb ca s1 c1 i vals H. exact (orderly_trans _ _ _ H (format_orderly _ _ _ _ _ _ _)).
      - intros s1 t f ca H. exact H.
    Qed.
  End Orderly.
  Theorem step_orderly n : forall c s, orderly s (fst (sstep E cmds n c s)).
  Proof. induction n as [|n IH]; intros c s; [apply orderly_refl|]. cbn [sstep]. now apply call_orderly. Qed.

  (** ** Delayed commands that do not ask *)
  Section Delayed.
    Hypothesis Hquiet : delayed_quiet E cmds.
    Definition at_ease (s : sst W) : Prop := entries_quiet cmds (ss_loc s) /\ ss_readers s = 0 /\ ss_locked s = [] /\ ss_waits s = false.
    Lemma return_ease s b ca key str t : at_ease s -> at_ease (fst (sreturn_string (PE := PE) s b ca key str t)).
    Proof.
      intros (H1 & H2 & H3 & H4). unfold sreturn_string. destruct ca; [|now split]. rewrite H2. cbn [Nat.ltb Nat.leb]. destruct (ss_poisoned s); [now split|].
      unfold add_string_to_cache. destruct b; cbn [negb].
      - destruct (mget t (ls_cache (ss_loc s))) as [m|] eqn:Em; [|now split]. split; [|now split]. cbn. apply (put_quiet cmds _ t key _ _ H1 (put_old _ _ _ _ m Em)). discriminate.
      - split; [|now split]. cbn. apply (put_quiet cmds _ t key _ _ H1 (put_new _ _ _ _)). discriminate.
    Qed.
    Definition only_world (s0 s : sst W) : Prop := s = with_other s0 (ss_world s).
    Lemma cached_ease (ask : sasker) s tag key fm vals : at_ease s -> (forall name, uses fm name -> quiet cmds name) -> at_ease (fst (sformat_cached E cmds ask s tag key fm vals)).
    Proof.
      intros (H1 & H2 & H3 & H4) Hu. unfold sformat_cached. rewrite H3. cbn [existsb]. destruct (existsb _ (ss_bad s)); [now split|].
      assert (Hb : only_world (lock s (tag, key)) (fst (wrun_formatter E (sreg cmds ask) fm vals (lock s (tag, key))))).
      { apply (srun_keeps E cmds _ (fun _ => False)).
        - intros s1 w1 Hs1. unfold only_world in *. rewrite Hs1. reflexivity.
        - contradiction.
        - exact Hu.
        - unfold only_world. now destruct s. }
      destruct (wrun_formatter E (sreg cmds ask) fm vals (lock s (tag, key))) as (s1 & fm' & r) eqn:Er. cbn [fst] in Hb |- *.
      assert (Hw : ss_waits s1 = false) by now rewrite Hb.
      assert (Hl : ss_loc s1 = ss_loc s) by now rewrite Hb. assert (Hr : ss_readers s1 = 1) by (rewrite Hb; cbn; now rewrite H2).
      assert (Hk : ss_locked s1 = [(tag, key)]) by (rewrite Hb; cbn; now rewrite H3).
      rewrite Hw. assert (G : at_ease (unlock (with_loc s1 (put_formatter (ss_loc s1) tag key fm')) (tag, key))).
      { split; [|split; [|split]]; cbn.
        - rewrite Hl. apply (put_quiet cmds _ tag key _ _ H1 (put_formatter_put _ _ _ _)). intros fm1 [= <-] name (n & ps & l & Hn & Hi). apply Hu.
          rewrite (srun_patterns E cmds ask fm vals _ _ _ _ Er) in Hn. exists n, ps, l. now split.
        - now rewrite Hr.
        - rewrite Hk. cbn. now rewrite (proj2 (same_entry_iff _ _) eq_refl).
        - exact Hw. }
      destruct r; exact G.
    Qed.
    Section Ask.
      Variable ask : sasker.
      Hypothesis Hask : forall c s, at_ease s -> at_ease (fst (ask c s)).
      Let any name : command_asks_only (fun _ => True) cmds name.
      Proof. intros g ps _. apply asks_any. Qed.
      Lemma literal_ease s c i t fb ca : at_ease s -> at_ease (fst (sactual_literal E s c i t fb ca)).
      Proof.
        intros H. unfold sactual_literal. destruct (ss_poisoned s); [exact H|]. destruct (cached _ _ _) as [[str t'|fm]|]; [exact H..|].
        destruct (find_string E c i t fb) as [(str & t')|e| |]; try exact H. now apply return_ease.
      Qed.
      Lemma format_ease s c i vals t fb ca : at_ease s -> at_ease (fst (sactual_format E cmds ask s c i vals t fb ca)).
      Proof.
        intros H. unfold sactual_format. destruct (ss_poisoned s); [exact H|]. destruct (cached (ss_loc s) t (combined c i)) as [[str t'|fm]|] eqn:Ec.
        { exact H. }
        { apply cached_ease; [exact H|]. exact (proj1 H _ _ _ Ec). }
        destruct (find_string E c i t fb) as [(str & t')|e| |] eqn:Ef; try exact H. destruct str as [|x str]; [now apply return_ease|].
        pose proof (snew_keeps E cmds at_ease (fun _ => True) ask (fun s w Hs => Hs) (fun c s _ => Hask c s) t' (le_locale E t') (x :: str) s any H) as Hn.
        destruct (wformatter_try_new _ _ _ (sreg cmds ask) _ _ _ s) as (s1 & [fm|e| |]) eqn:En; cbn [fst] in Hn;
          [|destruct e; try exact Hn; now apply return_ease|exact Hn..].
        assert (Hu : forall name, uses fm name -> quiet cmds name).
        { assert (Ht : exists tr, tree_try_new (le_icu E) (x :: str) localiser_grammar = Ok tr).
          { unfold wformatter_try_new in En. destruct (tree_try_new (le_icu E) (x :: str) localiser_grammar) as [tr|e| |]; [eauto|discriminate En..]. }
          destruct Ht as (tr & Ht). destruct (accepted_content _ _ _ _ Ht) as (a & Ha & _). intros name Hnm.
          apply find_string_iff in Ef. apply (Hquiet _ _ _ _ _ _ a name Ef Ha).
          exact (uses_delays _ _ _ _ _ (build_wfm _ _ _ _ _ _ _ a _ _ _ Ha En) Hnm). }
        destruct ca.
        - destruct Hn as (H1 & H2 & H3 & H4). rewrite H2. cbn [Nat.ltb Nat.leb]. destruct (ss_poisoned s1); [now split|]. unfold radd_formatter.
          destruct (mhas t (ls_cache (ss_loc s))); cbn [negb].
          + destruct (mget t (ls_cache (ss_loc s1))) as [m|] eqn:Em; [|now split]. apply cached_ease; [|exact Hu]. split; [|now split]. cbn.
            apply (put_quiet cmds _ t (combined c i) (CFormatter fm) _ H1 (put_old _ _ _ _ m Em)). now intros fm1 [= <-].
          + apply cached_ease; [|exact Hu]. split; [|now split]. cbn. apply (put_quiet cmds _ t (combined c i) (CFormatter fm) _ H1 (put_new _ _ _ _)). now intros fm1 [= <-].
        - pose proof (srun_keeps E cmds at_ease (fun _ => True) ask (fun s w Hs => Hs) (fun c s _ => Hask c s) fm vals s1 (fun name _ => any name) Hn) as Hr.
          now destruct (wrun_formatter E (sreg cmds ask) fm vals s1) as (s2 & fm' & r).
      Qed.
    End Ask.
    Theorem step_ease n : forall c s, at_ease s -> at_ease (fst (sstep E cmds n c s)).
    Proof.
      induction n as [|n IH]; intros c s H; [exact H|]. cbn [sstep]. apply scall_keeps; [exact H|..].
      - intros t fb ca s1 c1 i. apply literal_ease.
      - intros t fb ca s1 c1 i vals. apply format_ease. exact IH.
      - intros s1 t fl ca H1. exact H1.
    Qed.
    Theorem run_ease n h : forall s, at_ease s -> at_ease (srun E cmds n s h).
    Proof. induction h as [|c h IH]; intros s H; [exact H|]. cbn [srun fold_left]. apply IH. replace (ss_waits s) with false by (symmetry; apply H). now apply step_ease. Qed.
  End Delayed.

  (** ** Nothing is remembered *)
  Section Off.
    Hypothesis Hcmds : forall name, command_asks_only forgets cmds name.
    Definition soff (s : sst W) : Prop :=
      (forall tag key fm, cached (ss_loc s) tag key <> Some (CFormatter fm)) /\ ls_caching (ss_loc s) = false /\ ss_readers s = 0 /\ ss_locked s = [] /\ ss_waits s = false.
    Section Ask.
      Variable ask : sasker.
      Hypothesis Hask : forall c s, forgets c -> soff s -> soff (fst (ask c s)).
      Lemma literal_soff s c i t fb : soff s -> soff (fst (sactual_literal E s c i t fb false)).
      Proof.
        intros H. unfold sactual_literal. destruct (ss_poisoned s); [exact H|]. destruct (cached _ _ _) as [[str t'|fm]|]; [exact H..|].
        destruct (find_string E c i t fb) as [(str & t')|e| |]; exact H.
      Qed.
      Lemma format_soff s c i vals t fb : soff s -> soff (fst (sactual_format E cmds ask s c i vals t fb false)).
      Proof.
        intros H. unfold sactual_format. destruct (ss_poisoned s); [exact H|]. destruct (cached (ss_loc s) t (combined c i)) as [[str t'|fm]|] eqn:Ec; [exact H|now destruct (proj1 H _ _ _ Ec)|].
        destruct (find_string E c i t fb) as [(str & t')|e| |] eqn:Ef; try exact H. destruct str as [|x str]; [exact H|].
        pose proof (snew_keeps E cmds soff forgets ask (fun s w Hs => Hs) Hask t' (le_locale E t') (x :: str) s Hcmds H) as Hn.
        destruct (wformatter_try_new _ _ _ (sreg cmds ask) _ _ _ s) as (s1 & [fm|e| |]) eqn:En; cbn [fst] in Hn; [|destruct e; exact Hn|exact Hn..].
        pose proof (srun_keeps E cmds soff forgets ask (fun s w Hs => Hs) Hask fm vals s1 (fun name _ => Hcmds name) Hn) as Hr.
        now destruct (wrun_formatter E (sreg cmds ask) fm vals s1) as (s2 & fm' & r).
      Qed.
      Lemma call_soff c s : forgets c -> soff s -> soff (fst (scall E cmds ask c s)).
      Proof.
        intros Hc H. assert (Hca : ls_caching (ss_loc s) = false) by apply H.
        assert (Hun : forall ca, ca <> Some true -> unwrap_or ca (ls_caching (ss_loc s)) = false).
        { intros [[|]|] Hn; cbn; [congruence|reflexivity|exact Hca]. }
        destruct c; cbn [scall fst]; cbn [forgets] in Hc; rewrite ?(Hun _ Hc), ?Hca.
        - now apply format_soff.
        - now apply format_soff.
        - now apply literal_soff.
        - now apply literal_soff.
        - apply sdata_keeps; [intros; now apply literal_soff|intros; now apply format_soff|exact H].
        - apply sdata_keeps; [intros; now apply literal_soff|intros; now apply format_soff|exact H].
        - destruct H as (H1 & H2 & H3). split; [exact H1|]. split; [|exact H3]. cbn. unfold loc_defaults. cbn. destruct caching as [[|]|]; [congruence|reflexivity|exact H2].
      Qed.
    End Ask.
    Theorem step_soff n : forall c s, forgets c -> soff s -> soff (fst (sstep E cmds n c s)).
    Proof. induction n as [|n IH]; intros c s Hc H; [exact H|]. cbn [sstep]. now apply call_soff. Qed.
    Theorem run_soff n h : forall s, Forall forgets h -> soff s -> soff (srun E cmds n s h).
    Proof.
      induction h as [|c h IH]; intros s Hh H; [exact H|]. inversion Hh; subst. cbn [srun fold_left]. apply IH; [assumption|].
      replace (ss_waits s) with false by (symmetry; apply H). now apply step_soff.
    Qed.
  End Off.
End Waits.

(** ** Commands that neither ask nor have effects: [SyncModel] with one thread *)
Section Alone.
  Context {PE : Type}.
  Variable E : lenv PE.
  Notation cmds := (none_asking (without_effects (le_reg E)) : commands PE unit).
  Notation gets_to := (ReenterSyncSpec.gets_to E).
  Section Ask.
    Variable ask : lcall -> sst unit -> sst unit * option (lout (PE := PE) (ustr * ustr)).
    Lemma related_alone s0 name : related (fun s (_ : unit) => s = s0) (sreg cmds ask) (without_effects (le_reg E)) name.
    Proof.
      unfold related, sreg. rewrite get_srunning, get_none_asking. unfold without_effects. induction (le_reg E) as [|[k f] l IH]; [exact Logic.I|]. cbn [map mget fst snd].
      destruct (ueqb name k); [|exact IH]. cbn [option_map without_effect without_asking sinterp]. intros ps v w ->. split; [now destruct s0 as [? ? ? ? ? ? ? []]|reflexivity].
    Qed.
    Lemma run_alone s fm vals : wrun_formatter E (sreg cmds ask) fm vals s = (s, run_formatter E fm vals).
    Proof.
      pose proof (format_rel _ (sreg cmds ask) (without_effects (le_reg E)) (le_fmt E) fm vals (fun name _ => related_alone s name) (le_fuel E) s tt eq_refl) as (H1 & H2).
      unfold wrun_formatter, run_formatter. rewrite format_without in H2. cbn [snd] in H2. destruct (wformat _ _ (sreg cmds ask) fm vals s) as (s' & fm' & r). cbn [fst snd] in *. subst s'.
      destruct (format (le_fuel E) (le_fmt E) (le_reg E) fm vals) as (fm1 & r1). now injection H2 as -> ->.
    Qed.
    Lemma new_alone s t l str : wformatter_try_new (le_icu E) localiser_grammar (le_fmt E) (sreg cmds ask) t l str s =
      (s, formatter_try_new (le_icu E) localiser_grammar (le_fmt E) (le_reg E) t l str).
    Proof.
      pose proof (build_rel _ (sreg cmds ask) (without_effects (le_reg E)) (related_alone s) (le_icu E) localiser_grammar (le_fmt E) t l str s tt eq_refl) as (H1 & H2).
      rewrite build_without in H2. cbn [snd] in H2. destruct (wformatter_try_new _ _ _ (sreg cmds ask) _ _ _ s) as (s' & r). cbn [fst snd] in *. now subst.
    Qed.

    Lemma gets_trans p g p1 g1 p2 g2 : gets_to p g p1 g1 -> gets_to p1 g1 p2 g2 -> gets_to p g p2 g2.
    Proof. induction 1 as [|p g p1 g1 p2' g2' Hs _ IH]; intros H'; [exact H'|]. exact (gt_step _ _ _ _ _ _ Hs (IH H')). Qed.
    Lemma bad_same s t key : is_bad (shared s) t key = existsb (same_entry (t, key)) (ss_bad s).
    Proof.
      unfold is_bad. cbn [shared sy_bad]. induction (ss_bad s) as [|x l IH]; [reflexivity|]. cbn [existsb]. rewrite IH. f_equal. unfold same_entry. cbn [fst snd].
      destruct (ueqb_spec (fst x) t), (ueqb_spec t (fst x)), (ueqb_spec (snd x) key), (ueqb_spec key (snd x)); congruence.
    Qed.
    (** A thread comes to [k] with the result, or to the end in a panic. *)
    Definition arrives (p : prog (PE := PE)) (g : systate) (k : lout (PE := PE) (ustr * ustr) -> prog) (x : sst unit * lout (PE := PE) (ustr * ustr)) : Prop :=
      alone (fst x) /\ (gets_to p g (k (snd x)) (shared (fst x)) \/ (snd x = Panic /\ gets_to p g (PRet (Some Panic)) (shared (fst x)))).
    Lemma arrives_now k s r : alone s -> arrives (k r) (shared s) k (s, r).
    Proof. intros H. split; [exact H|]. left. apply gt_here. Qed.
    Lemma arrives_panic k s : alone s -> arrives (PRet (Some Panic)) (shared s) k (s, Panic).
    Proof. intros H. split; [exact H|]. right. split; [reflexivity|]. apply gt_here. Qed.
    Lemma arrives_step p g p1 g1 k x : prog_step E p g = Some (g1, p1) -> arrives p1 g1 k x -> arrives p g k x.
    Proof. intros Hs (Ha & [H|(H1 & H2)]); (split; [exact Ha|]); [left; exact (gt_step _ _ _ _ _ _ Hs H)|right; split; [exact H1|exact (gt_step _ _ _ _ _ _ Hs H2)]]. Qed.

    Lemma return_alone s b key str t (ca : bool) k : alone s ->
      arrives (if ca then PAdd b key str t (k (Ok (str, t))) else k (Ok (str, t))) (shared s) k (sreturn_string s b ca key str t).
    Proof.
      intros Ha. unfold sreturn_string. destruct ca; [|now apply arrives_now]. pose proof Ha as (H1 & H2 & H3). rewrite H1. cbn [Nat.ltb Nat.leb].
      destruct (ss_poisoned s) eqn:Ep.
      - refine (arrives_step _ _ _ _ _ _ _ (arrives_panic k s Ha)). cbn [prog_step shared sy_poisoned]. now rewrite Ep.
      - destruct (add_string_to_cache (ss_loc s) b key str t) as [st|] eqn:Ea.
        + refine (arrives_step _ _ _ _ _ _ _ (arrives_now k (fresh s st (negb b) t key) (Ok (str, t)) Ha)). cbn [prog_step shared sy_poisoned sy_ls]. rewrite Ep, Ea. reflexivity.
        + refine (arrives_step _ _ _ _ _ _ _ (arrives_panic k (spoil_cache s) Ha)). cbn [prog_step shared sy_poisoned sy_ls]. rewrite Ep, Ea. reflexivity.
    Qed.
    Lemma cached_alone s t key fm vals : alone s ->
      let x := sformat_cached E cmds ask s t key fm vals in
      alone (fst x) /\ use_formatter E (shared s) t key fm vals = (shared (fst x), snd x).
    Proof.
      intros (H1 & H2 & H3). unfold sformat_cached, use_formatter. rewrite H2, bad_same. cbn [existsb]. destruct (existsb (same_entry (t, key)) (ss_bad s)); [now split|].
      rewrite run_alone. destruct (run_formatter E fm vals) as (fm' & r). cbn [lock ss_waits]. rewrite H3.
      assert (Hk : filter (fun x => negb (same_entry (t, key) x)) ((t, key) :: ss_locked s) = []) by (rewrite H2; cbn; now rewrite (proj2 (same_entry_iff _ _) eq_refl)).
      destruct r; (split; [split; [exact H1|split; [exact Hk|exact H3]]|reflexivity]).
    Qed.
    Lemma format_alone' s c i vals t fb ca k : alone s -> arrives (sync_format E c i vals t fb ca k) (shared s) k (sactual_format E cmds ask s c i vals t fb ca).
    Proof.
      intros Ha. unfold sync_format, sactual_format. destruct (ss_poisoned s) eqn:Ep.
      { refine (arrives_step _ _ _ _ _ _ _ (arrives_panic k s Ha)). cbn [prog_step shared sy_poisoned]. now rewrite Ep. }
      destruct (cached (ss_loc s) t (combined c i)) as [[str t'|fm]|] eqn:Ec.
      - refine (arrives_step _ _ _ _ _ _ _ (arrives_now k s (Ok (str, t')) Ha)). cbn [prog_step shared sy_poisoned sy_ls]. now rewrite Ep, Ec.
      - destruct (cached_alone s t (combined c i) fm vals Ha) as (H1 & H2). destruct (sformat_cached E cmds ask s t (combined c i) fm vals) as (s1 & r). cbn [fst snd] in *.
        refine (arrives_step _ _ _ _ _ _ _ (arrives_now k s1 r H1)). cbn [prog_step]. change (sy_poisoned (shared s)) with (ss_poisoned s). change (sy_ls (shared s)) with (ss_loc s). now rewrite Ep, Ec, H2.
      - eapply arrives_step.
        { cbn [prog_step]. change (sy_poisoned (shared s)) with (ss_poisoned s). change (sy_ls (shared s)) with (ss_loc s). rewrite Ep, Ec. reflexivity. }
        cbv beta iota zeta.
        destruct (find_string E c i t fb) as [(str & t')|e| |]; try (now apply arrives_now). destruct str as [|y str]; [now apply return_alone|].
        rewrite new_alone. destruct (formatter_try_new _ _ _ _ _ _ _) as [fm|e| |]; try (now apply arrives_now).
        + destruct ca; [|rewrite run_alone; destruct (run_formatter E fm vals) as (fm' & r); now apply arrives_now].
          pose proof Ha as (H1 & H2 & H3). rewrite H1. cbn [Nat.ltb Nat.leb]. rewrite Ep.
          change (insert_formatter (ss_loc s)) with (radd_formatter (ss_loc s)).
          destruct (radd_formatter (ss_loc s) (mhas t (ls_cache (ss_loc s))) t (combined c i) fm) as [st|] eqn:Er.
          * set (s2 := fresh s st (negb (mhas t (ls_cache (ss_loc s)))) t (combined c i)).
            assert (Ha2 : alone s2) by exact Ha. destruct (cached_alone s2 t (combined c i) fm vals Ha2) as (G1 & G2).
            destruct (sformat_cached E cmds ask s2 t (combined c i) fm vals) as (s3 & r). cbn [fst snd] in *.
            apply (arrives_step _ _ (PUse t (combined c i) vals k) (shared s2)).
            { cbn [prog_step shared sy_poisoned sy_ls]. rewrite Ep. change (insert_formatter (ss_loc s)) with (radd_formatter (ss_loc s)). rewrite Er. unfold insertion, s2, shared, fresh. cbn. now rewrite Ep. }
            refine (arrives_step _ _ _ _ _ _ _ (arrives_now k s3 r G1)). cbn [prog_step]. change (sy_poisoned (shared s2)) with (ss_poisoned s). rewrite Ep. change (sy_ls (shared s2)) with st.
            assert (Hc : cached st t (combined c i) = Some (CFormatter fm)).
            { unfold radd_formatter in Er. destruct (negb _).
              - injection Er as <-. unfold cached. cbn. rewrite mget_minsert_eq. cbn. now rewrite ueqb_refl.
              - destruct (mget t (ls_cache (ss_loc s))) as [m|]; [|discriminate Er]. injection Er as <-. unfold cached. cbn. rewrite mget_minsert_eq. now rewrite mget_minsert_eq. }
            now rewrite Hc, G2.
          * refine (arrives_step _ _ _ _ _ _ _ (arrives_panic k (spoil_cache s) Ha)). cbn [prog_step shared sy_poisoned sy_ls]. rewrite Ep.
            change (insert_formatter (ss_loc s)) with (radd_formatter (ss_loc s)). now rewrite Er.
        + destruct e; try (now apply arrives_now). now apply return_alone.
    Qed.
    Lemma literal_alone' s c i t fb ca k : alone s -> arrives (sync_literal E c i t fb ca k) (shared s) k (sactual_literal E s c i t fb ca).
    Proof.
      intros Ha. unfold sync_literal, sactual_literal. destruct (ss_poisoned s) eqn:Ep.
      { refine (arrives_step _ _ _ _ _ _ _ (arrives_panic k s Ha)). cbn [prog_step shared sy_poisoned]. now rewrite Ep. }
      eapply arrives_step.
      { cbn [prog_step]. change (sy_poisoned (shared s)) with (ss_poisoned s). change (sy_ls (shared s)) with (ss_loc s). rewrite Ep. reflexivity. }
      cbv beta iota zeta.
      destruct (cached (ss_loc s) t (combined c i)) as [[str t'|fm]|]; [now apply arrives_now..|]. destruct (find_string E c i t fb) as [(str & t')|e| |]; try (now apply arrives_now).
      now apply return_alone.
    Qed.
    Lemma arrives_bind p g k k' x y : arrives p g k x -> (snd x <> Panic -> arrives (k (snd x)) (shared (fst x)) k' y) -> (snd x = Panic -> y = x /\ k Panic = k' Panic) -> arrives p g k' y.
    Proof.
      intros (Ha & H) Hn Hp. assert (D : snd x = Panic \/ snd x <> Panic) by (destruct (snd x); [right..|left|right]; congruence). destruct D as [D|D].
      - destruct (Hp D) as (-> & Hk). split; [exact Ha|]. rewrite D in H |- *. destruct H as [H|(_ & H)]; [left; now rewrite <- Hk|right; now split].
      - destruct H as [H|(H & _)]; [|contradiction]. destruct (Hn D) as (A & B). split; [exact A|]. destruct B as [B|(B1 & B2)]; [left; exact (gets_trans _ _ _ _ _ _ H B)|right; split; [exact B1|exact (gets_trans _ _ _ _ _ _ H B2)]].
    Qed.
    Lemma data_alone' t fb ca : forall d s k, alone s -> arrives (sync_data E d t fb ca k) (shared s) k (sactual_format_data E cmds ask d t fb ca s).
    Proof.
      fix IH 1. intros [c i [vs|]] s k Ha; [|now apply literal_alone']. cbn [sync_data sactual_format_data]. revert s Ha. generalize (@nil (ustr * pvalue)).
      induction vs as [|[ph v] vs IHvs]; intros new s Ha; [now apply format_alone'|]. destruct v; try (now apply IHvs).
      refine (arrives_bind _ _ _ _ _ _ (IH d s _ Ha) _ _).
      - intros Hn. pose proof (proj1 (IH d s k Ha)) as Ha'. destruct (sactual_format_data E cmds ask d t fb ca s) as (s1 & [(str & t')|e| |]); cbn [fst snd] in *; try (now apply arrives_now). now apply IHvs.
      - intros Hp. destruct (sactual_format_data E cmds ask d t fb ca s) as (s1 & r). cbn [snd] in Hp. subst r. now split.
    Qed.
    Theorem call_alone' c s : alone s -> let x := scall E cmds ask c s in alone (fst x) /\ gets_to (sync_call E c) (shared s) (PRet (snd x)) (shared (fst x)).
    Proof.
      intros Ha.
      assert (Fin : forall p y, arrives p (shared s) finish y -> alone (fst y) /\ gets_to p (shared s) (PRet (Some (snd y))) (shared (fst y))).
      { intros p y (H1 & [H2|(H2 & H3)]); (split; [exact H1|]); [exact H2|]. now rewrite H2. }
      assert (Two : forall f x, gets_to (f (ls_fallback (ss_loc s)) (ls_caching (ss_loc s))) (shared s) x (shared (fst (scall E cmds ask c s))) ->
        gets_to (PFallback (fun fb => PCaching (fun cb => f fb cb))) (shared s) x (shared (fst (scall E cmds ask c s)))).
      { intros f x H. do 2 (eapply gt_step; [reflexivity|]). exact H. }
      assert (Three : forall f x, gets_to (f (ls_tag (ss_loc s)) (ls_fallback (ss_loc s)) (ls_caching (ss_loc s))) (shared s) x (shared (fst (scall E cmds ask c s))) ->
        gets_to (PTag (fun t => PFallback (fun fb => PCaching (fun cb => f t fb cb)))) (shared s) x (shared (fst (scall E cmds ask c s)))).
      { intros f x H. do 3 (eapply gt_step; [reflexivity|]). exact H. }
      destruct c as [c i vals t f ca|c i vals|c i t f ca|c i|d t f ca|d|t f ca].
      - destruct (Fin _ _ (format_alone' s c i vals t (unwrap_or f (ls_fallback (ss_loc s))) (unwrap_or ca (ls_caching (ss_loc s))) finish Ha)) as (H1 & H2).
        split; [exact H1|]. exact (Two (fun fb cb => sync_format E c i vals t (unwrap_or f fb) (unwrap_or ca cb) finish) _ H2).
      - destruct (Fin _ _ (format_alone' s c i vals (ls_tag (ss_loc s)) (ls_fallback (ss_loc s)) (ls_caching (ss_loc s)) finish Ha)) as (H1 & H2).
        split; [exact H1|]. exact (Three (fun t fb cb => sync_format E c i vals t fb cb finish) _ H2).
      - destruct (Fin _ _ (literal_alone' s c i t (unwrap_or f (ls_fallback (ss_loc s))) (unwrap_or ca (ls_caching (ss_loc s))) finish Ha)) as (H1 & H2).
        split; [exact H1|]. exact (Two (fun fb cb => sync_literal E c i t (unwrap_or f fb) (unwrap_or ca cb) finish) _ H2).
      - destruct (Fin _ _ (literal_alone' s c i (ls_tag (ss_loc s)) (ls_fallback (ss_loc s)) (ls_caching (ss_loc s)) finish Ha)) as (H1 & H2).
        split; [exact H1|]. exact (Three (fun t fb cb => sync_literal E c i t fb cb finish) _ H2).
      - destruct (Fin _ _ (data_alone' t (unwrap_or f (ls_fallback (ss_loc s))) (unwrap_or ca (ls_caching (ss_loc s))) d s finish Ha)) as (H1 & H2).
        split; [exact H1|]. exact (Two (fun fb cb => sync_data E d t (unwrap_or f fb) (unwrap_or ca cb) finish) _ H2).
      - destruct (Fin _ _ (data_alone' (ls_tag (ss_loc s)) (ls_fallback (ss_loc s)) (ls_caching (ss_loc s)) d s finish Ha)) as (H1 & H2).
        split; [exact H1|]. exact (Three (fun t fb cb => sync_data E d t fb cb finish) _ H2).
      - split; [exact Ha|]. destruct s as [[ca' fb' cb' t' sc'] ? ? ? ? ? ? ?]. destruct t as [t|], f as [f|], ca as [ca|]; cbn; repeat (eapply gt_step; [reflexivity|]); apply gt_here.
    Qed.
  End Ask.
End Alone.
