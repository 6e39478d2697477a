(** Proofs for C100: what calls of a localiser keep whose commands use it. *)
From Verif Require Import Base BaseFacts LexerModel LexerSpec TreeModel TreeSpec DocSpec ValueModel CommandModel IsoModel FormatterModel FormatterSpec FormatterProofs4 RegistryModel LocaliserModel
  LocaliserSpec LocaliserProofs CallsModel CallsSpec CallsProofs CallsProofs2 LocCallsModel LocCallsSpec ReenterModel ReenterSpec ReenterProofs.
Local Opaque us.

Section Keep.
  Context {PE W : Type}.
  Variables (E : lenv PE) (cmds : commands PE W).
  Notation answer := (option (lout (PE := PE) (ustr * ustr))).
  Notation asker := (lcall -> rst W -> rst W * answer).

  Lemma get_running (ask : asker) name : mget name (running ask cmds) = option_map (fun p ps s => interp ask (p ps) s) (mget name cmds).
  Proof. unfold running. induction cmds as [|[k p] l IH]; [reflexivity|]. cbn. now destruct (ueqb name k). Qed.
  Lemma asks_any (p : cprog PE W) : asks_only (fun _ => True) p.
  Proof. induction p; constructor; auto. Qed.

  Section Any.
    Variables (P : rst W -> Prop) (Q : lcall -> Prop) (ask : asker).
    Hypothesis Hw : forall s w, P s -> P (set_world s w).
    Hypothesis Hask : forall c s, Q c -> P s -> P (fst (ask c s)).
    Lemma interp_keeps p s : asks_only Q p -> P s -> P (fst (interp ask p s)).
    Proof.
      intros Hp. revert s. induction Hp as [r|c k Hc _ IH|k _ IH|w k _ IH]; intros s Hs; cbn [interp]; auto.
      pose proof (Hask c s Hc Hs) as H. destruct (ask c s) as (s' & [[x|e| |]|]); cbn in *; auto.
    Qed.
    Lemma command_keeps name : command_asks_only Q cmds name -> keeps P (running ask cmds) name.
    Proof.
      intros Hn f ps s Hf Hs. rewrite get_running in Hf. destruct (mget name cmds) as [p|] eqn:Ep; [|discriminate]. injection Hf as <-.
      apply interp_keeps; [exact (Hn p ps Ep)|exact Hs].
    Qed.
    Lemma run_keeps fm vals s : (forall name, uses fm name -> command_asks_only Q cmds name) -> P s -> P (fst (wrun_formatter E (running ask cmds) fm vals s)).
    Proof.
      intros H Hs. unfold wrun_formatter. pose proof (format_keeps P (running ask cmds) (le_fuel E) (le_fmt E) fm vals s (fun name Hu => command_keeps name (H name Hu)) Hs) as G.
      destruct (wformat (le_fuel E) (le_fmt E) (running ask cmds) fm vals s) as (s' & fm' & r). exact G.
    Qed.
    Lemma new_keeps t l str s : (forall name, command_asks_only Q cmds name) -> P s ->
      P (fst (wformatter_try_new (le_icu E) localiser_grammar (le_fmt E) (running ask cmds) t l str s)).
    Proof. intros H Hs. apply build_keeps; [|exact Hs]. intros name. apply command_keeps, H. Qed.
  End Any.

  Lemma run_patterns ask fm vals (s s' : rst W) fm' (r : lout (PE := PE) (ustr * ustr)) : wrun_formatter E (running ask cmds) fm vals s = (s', (fm', r)) -> fm_patterns fm' = fm_patterns fm.
  Proof.
    unfold wrun_formatter, wformat. destruct (wformat_pattern _ _ _ _ _ _ _ _) as ((ns & w1) & x). now intros [= _ <- _].
  Qed.

  Lemma data_keeps (P : rst W -> Prop) (ask : asker) t fb ca : (forall s c i, P s -> P (fst (ractual_literal E s c i t fb ca))) ->
    (forall s c i vals, P s -> P (fst (ractual_format E cmds ask s c i vals t fb ca))) -> forall d s, P s -> P (fst (ractual_format_data E cmds ask d t fb ca s)).
  Proof.
    intros Hl Hf. fix IH 1. intros [c i [vs|]] s Hs; [|exact (Hl s c i Hs)]. cbn [ractual_format_data]. revert s Hs. generalize (@nil (ustr * pvalue)).
    induction vs as [|[ph v] vs IHvs]; intros new s Hs; [now apply Hf|]. destruct v; try (now apply IHvs).
    pose proof (IH d s Hs) as H. destruct (ractual_format_data E cmds ask d t fb ca s) as (s1 & [(str & t')|e| |]); cbn in H |- *; auto.
  Qed.
  Lemma call_keeps (P : rst W -> Prop) (ask : asker) s c : P s ->
    (forall t fb ca s c i, P s -> P (fst (ractual_literal E s c i t fb ca))) ->
    (forall t fb ca s c i vals, P s -> P (fst (ractual_format E cmds ask s c i vals t fb ca))) ->
    (forall s t f ca, P s -> P (set_loc s (loc_defaults E (rs_loc s) t f ca))) -> P (fst (rcall E cmds ask c s)).
  Proof.
    intros Hs Hl Hf Hd. destruct c; cbn [rcall fst]; auto; apply data_keeps; auto.
  Qed.

  (** ** Borrows end *)
  Definition balanced (s0 s : rst W) : Prop := rs_readers s = rs_readers s0 /\ rs_locked s = rs_locked s0 /\ rs_failed s0 <= rs_failed s.
  Lemma balanced_refl s : balanced s s.
  Proof. repeat split. apply le_n. Qed.
  Lemma balanced_trans a b c : balanced a b -> balanced b c -> balanced a c.
  Proof. intros (A1 & A2 & A3) (B1 & B2 & B3). repeat split; [congruence..|]. exact (Nat.le_trans _ _ _ A3 B3). Qed.
  Lemma balanced_loc s0 s l : balanced s0 s -> balanced s0 (set_loc s l).
  Proof. exact (fun H => H). Qed.
  Lemma same_entry_iff x y : same_entry x y = true <-> x = y.
  Proof.
    destruct x as (a & b), y as (c & d). unfold same_entry. cbn. destruct (ueqb_spec a c) as [->|N], (ueqb_spec b d) as [->|N']; cbn; split; congruence.
  Qed.
  Lemma filter_absent e l : existsb (same_entry e) l = false -> filter (fun x => negb (same_entry e x)) l = l.
  Proof.
    induction l as [|x l IH]; [reflexivity|]. cbn. intros H. apply Bool.orb_false_iff in H as (H1 & H2). rewrite H1. cbn. now rewrite IH.
  Qed.
  Lemma release_held s s1 e : existsb (same_entry e) (rs_locked s) = false -> balanced (hold s e) s1 -> balanced s (release s1 e).
  Proof.
    intros He (H1 & H2 & H3). split; [|split].
    - cbn. now rewrite H1.
    - cbn. rewrite H2. cbn. rewrite (proj2 (same_entry_iff e e) eq_refl). cbn. now apply filter_absent.
    - exact H3.
  Qed.
  Section Balanced.
    Variable ask : asker.
    Hypothesis Hask : forall c s, balanced s (fst (ask c s)).
    Let Hask' s0 c s : True -> balanced s0 s -> balanced s0 (fst (ask c s)).
    Proof. intros _ H. exact (balanced_trans _ _ _ H (Hask c s)). Qed.
    Let any name : command_asks_only (fun _ => True) cmds name.
    Proof. intros f ps _. apply asks_any. Qed.
    Lemma run_balanced fm vals s : balanced s (fst (wrun_formatter E (running ask cmds) fm vals s)).
    Proof. apply (run_keeps _ (fun _ => True)); [auto|apply Hask'|auto|apply balanced_refl]. Qed.
    Lemma new_balanced t l str s : balanced s (fst (wformatter_try_new (le_icu E) localiser_grammar (le_fmt E) (running ask cmds) t l str s)).
    Proof. apply (new_keeps _ (fun _ => True)); [auto|apply Hask'|auto|apply balanced_refl]. Qed.
    Lemma cached_balanced s tag key fm vals : balanced s (fst (rformat_cached E cmds ask s tag key fm vals)).
    Proof.
      unfold rformat_cached. destruct (existsb (same_entry (tag, key)) (rs_locked s)) eqn:Ee; [repeat split; cbn; apply Nat.le_succ_diag_r|].
      pose proof (run_balanced fm vals (hold s (tag, key))) as H. fold (reg cmds ask) in H. destruct (wrun_formatter E (reg cmds ask) fm vals (hold s (tag, key))) as (s1 & fm' & r). cbn in H |- *.
      exact (release_held _ _ _ Ee H).
    Qed.
    Lemma return_balanced s b ca key str t : balanced s (fst (rreturn_string (PE := PE) s b ca key str t)).
    Proof.
      unfold rreturn_string. destruct ca; [|apply balanced_refl]. destruct (Nat.ltb 0 (rs_readers s)); [repeat split; cbn; apply Nat.le_succ_diag_r|].
      destruct (add_string_to_cache _ _ _ _ _); [|apply balanced_refl]. apply balanced_loc, balanced_refl.
    Qed.
    Lemma literal_balanced s c i t fb ca : balanced s (fst (ractual_literal E s c i t fb ca)).
    Proof.
      unfold ractual_literal. destruct (cached _ _ _) as [[str t'|fm]|]; [apply balanced_refl..|]. destruct (find_string E c i t fb) as [(str & t')|e| |]; try apply balanced_refl.
      apply return_balanced.
    Qed.
    Lemma format_balanced s c i vals t fb ca : balanced s (fst (ractual_format E cmds ask s c i vals t fb ca)).
    Proof.
      unfold ractual_format. destruct (cached _ _ _) as [[str t'|fm]|]; [apply balanced_refl|apply cached_balanced|].
      destruct (find_string E c i t fb) as [(str & t')|e| |]; try apply balanced_refl. destruct str as [|x str]; [apply return_balanced|].
      pose proof (new_balanced t' (le_locale E t') (x :: str) s) as H. fold (reg cmds ask) in H.
      destruct (wformatter_try_new _ _ _ _ _ _ _ s) as (s1 & [fm|e| |]); cbn [fst] in H; [|destruct e; try exact H; exact (balanced_trans _ _ _ H (return_balanced _ _ _ _ _ _))|exact H..].
      destruct ca.
      - destruct (Nat.ltb 0 (rs_readers s1)); [apply (balanced_trans _ _ _ H); repeat split; cbn; apply Nat.le_succ_diag_r|].
        destruct (radd_formatter _ _ _ _ _) as [st|]; [|exact H]. exact (balanced_trans _ _ _ H (cached_balanced (set_loc s1 st) _ _ _ _)).
      - pose proof (run_balanced fm vals s1) as H'. fold (reg cmds ask) in H'. destruct (wrun_formatter E (reg cmds ask) fm vals s1) as (s2 & fm' & r). exact (balanced_trans _ _ _ H H').
    Qed.
    Lemma call_balanced c s : balanced s (fst (rcall E cmds ask c s)).
    Proof.
      apply call_keeps; [apply balanced_refl|..].
      - intros t fb ca s1 c1 i H. exact (balanced_trans _ _ _ H (literal_balanced _ _ _ _ _ _)).
      - intros t fb ca s1 c1 i vals H. exact (balanced_trans _ _ _ H (format_balanced _ _ _ _ _ _ _)).
      - intros s1 t f ca H. exact H.
    Qed.
  End Balanced.
  Theorem step_balanced n : forall c s, balanced s (fst (rstep E cmds n c s)).
  Proof. induction n as [|n IH]; intros c s; [apply balanced_refl|]. cbn [rstep]. now apply call_balanced. Qed.
  Theorem run_all_balanced n h : forall s, balanced s (rrun E cmds n s h).
  Proof. induction h as [|c h IH]; intros s; [apply balanced_refl|]. exact (balanced_trans _ _ _ (step_balanced n c s) (IH _)). Qed.

  (** ** Delayed commands that do not ask *)
  Section Delayed.
    Hypothesis Hquiet : delayed_quiet E cmds.
    Definition entries_quiet (st : lstate) : Prop := forall tag key fm, cached st tag key = Some (CFormatter fm) -> forall name, uses fm name -> quiet cmds name.
    Definition calm (f : nat) (s : rst W) : Prop := entries_quiet (rs_loc s) /\ rs_readers s = 0 /\ rs_locked s = [] /\ rs_failed s = f.
    Lemma put_quiet st t key e st' : entries_quiet st -> put st t key e st' -> (forall fm, e = CFormatter fm -> forall name, uses fm name -> quiet cmds name) -> entries_quiet st'.
    Proof. intros Hs (_ & _ & _ & _ & Hp) He tag' key' fm' H. destruct (Hp _ _ _ H) as [(-> & -> & <-)|H']; [exact (He fm' eq_refl)|exact (Hs _ _ _ H')]. Qed.
    Lemma return_calm f s b ca key str t : calm f s -> calm f (fst (rreturn_string (PE := PE) s b ca key str t)).
    Proof.
      intros (H1 & H2 & H3 & H4). unfold rreturn_string. destruct ca; [|now split]. rewrite H2. cbn [Nat.ltb Nat.leb].
      unfold add_string_to_cache. destruct b; cbn [negb].
      - destruct (mget t (ls_cache (rs_loc s))) as [m|] eqn:Em; [|now split]. split; [|now split]. cbn. apply (put_quiet _ t key _ _ H1 (put_old _ _ _ _ m Em)). discriminate.
      - split; [|now split]. cbn. apply (put_quiet _ t key _ _ H1 (put_new _ _ _ _)). discriminate.
    Qed.
    (** The whole state but for the world. *)
    Definition same_but_world (s0 s : rst W) : Prop := s = set_world s0 (rs_world s).
    Lemma cached_calm (ask : asker) f s tag key fm vals : calm f s -> (forall name, uses fm name -> quiet cmds name) -> calm f (fst (rformat_cached E cmds ask s tag key fm vals)).
    Proof.
      intros (H1 & H2 & H3 & H4) Hu. unfold rformat_cached. rewrite H3. cbn [existsb].
      assert (Hb : same_but_world (hold s (tag, key)) (fst (wrun_formatter E (running ask cmds) fm vals (hold s (tag, key))))).
      { apply (run_keeps _ (fun _ => False)).
        - intros s1 w1 Hs1. unfold same_but_world in *. rewrite Hs1. reflexivity.
        - contradiction.
        - exact Hu.
        - unfold same_but_world. now destruct s. }
      fold (reg cmds ask) in Hb. destruct (wrun_formatter E (reg cmds ask) fm vals (hold s (tag, key))) as (s1 & fm' & r) eqn:Er. cbn [fst] in Hb |- *.
      assert (Hl : rs_loc s1 = rs_loc s) by now rewrite Hb. assert (Hr : rs_readers s1 = 1) by (rewrite Hb; cbn; now rewrite H2).
      assert (Hk : rs_locked s1 = [(tag, key)]) by (rewrite Hb; cbn; now rewrite H3). assert (Hf : rs_failed s1 = f) by now rewrite Hb.
      split; [|split; [|split]]; cbn.
      - rewrite Hl. apply (put_quiet _ tag key _ _ H1 (put_formatter_put _ _ _ _)). intros fm1 [= <-] name (n & ps & l & Hn & Hi). apply Hu.
        rewrite (run_patterns ask fm vals _ _ _ _ Er) in Hn. exists n, ps, l. now split.
      - now rewrite Hr.
      - rewrite Hk. cbn. now rewrite (proj2 (same_entry_iff _ _) eq_refl).
      - exact Hf.
    Qed.
    Section Calm.
      Variables (f : nat) (ask : asker).
      Hypothesis Hask : forall c s, calm f s -> calm f (fst (ask c s)).
      Let any name : command_asks_only (fun _ => True) cmds name.
      Proof. intros g ps _. apply asks_any. Qed.
      Lemma literal_calm s c i t fb ca : calm f s -> calm f (fst (ractual_literal E s c i t fb ca)).
      Proof.
        intros H. unfold ractual_literal. destruct (cached _ _ _) as [[str t'|fm]|]; [exact H..|]. destruct (find_string E c i t fb) as [(str & t')|e| |]; try exact H.
        now apply return_calm.
      Qed.
      Lemma format_calm s c i vals t fb ca : calm f s -> calm f (fst (ractual_format E cmds ask s c i vals t fb ca)).
      Proof.
        intros H. unfold ractual_format. destruct (cached (rs_loc s) t (combined c i)) as [[str t'|fm]|] eqn:Ec.
        { exact H. }
        { apply cached_calm; [exact H|]. exact (proj1 H _ _ _ Ec). }
        destruct (find_string E c i t fb) as [(str & t')|e| |] eqn:Ef; try exact H. destruct str as [|x str]; [now apply return_calm|].
        assert (Hn : calm f (fst (wformatter_try_new (le_icu E) localiser_grammar (le_fmt E) (running ask cmds) t' (le_locale E t') (x :: str) s))).
        { apply (new_keeps (calm f) (fun _ => True)); [intros s1 w1 Hs1; exact Hs1|intros c1 s1 _; apply Hask|exact any|exact H]. }
        fold (reg cmds ask) in Hn. destruct (wformatter_try_new _ _ _ (reg cmds ask) _ _ _ s) as (s1 & [fm|e| |]) eqn:En; cbn [fst] in Hn;
          [|destruct e; try exact Hn; now apply return_calm|exact Hn..].
        assert (Hu : forall name, uses fm name -> quiet cmds name).
        { assert (Ht : exists tr, tree_try_new (le_icu E) (x :: str) localiser_grammar = Ok tr).
          { unfold wformatter_try_new in En. destruct (tree_try_new (le_icu E) (x :: str) localiser_grammar) as [tr|e| |]; [eauto|discriminate En..]. }
          destruct Ht as (tr & Ht). destruct (accepted_content _ _ _ _ Ht) as (a & Ha & _). intros name Hnm.
          apply find_string_iff in Ef. apply (Hquiet _ _ _ _ _ _ a name Ef Ha).
          exact (uses_delays _ _ _ _ _ (build_wfm _ _ _ _ _ _ _ a _ _ _ Ha En) Hnm). }
        destruct ca.
        - destruct Hn as (H1 & H2 & H3 & H4). rewrite H2. cbn [Nat.ltb Nat.leb]. unfold radd_formatter.
          destruct (mhas t (ls_cache (rs_loc s))); cbn [negb].
          + destruct (mget t (ls_cache (rs_loc s1))) as [m|] eqn:Em; [|now split]. apply cached_calm; [|exact Hu]. split; [|now split]. cbn.
            apply (put_quiet _ t (combined c i) (CFormatter fm) _ H1 (put_old _ _ _ _ m Em)). now intros fm1 [= <-].
          + apply cached_calm; [|exact Hu]. split; [|now split]. cbn. apply (put_quiet _ t (combined c i) (CFormatter fm) _ H1 (put_new _ _ _ _)). now intros fm1 [= <-].
        - pose proof (run_keeps (calm f) (fun _ => True) ask (fun s w Hs => Hs) (fun c s _ => Hask c s) fm vals s1 (fun name _ => any name) Hn) as Hr.
          fold (reg cmds ask) in Hr. now destruct (wrun_formatter E (reg cmds ask) fm vals s1) as (s2 & fm' & r).
      Qed.
    End Calm.
    Theorem step_calm n f : forall c s, calm f s -> calm f (fst (rstep E cmds n c s)).
    Proof.
      induction n as [|n IH]; intros c s H; [exact H|]. cbn [rstep]. apply call_keeps; [exact H|..].
      - intros t fb ca s1 c1 i. apply literal_calm.
      - intros t fb ca s1 c1 i vals. apply format_calm. exact IH.
      - intros s1 t fl ca H1. exact H1.
    Qed.
    Theorem run_all_calm n f h : forall s, calm f s -> calm f (rrun E cmds n s h).
    Proof. induction h as [|c h IH]; intros s H; [exact H|]. apply IH. now apply step_calm. Qed.
  End Delayed.

  (** ** Nothing is remembered *)
  Section Off.
    Hypothesis Hcmds : forall name, command_asks_only forgets cmds name.
    Definition off (f : nat) (s : rst W) : Prop :=
      (forall tag key fm, cached (rs_loc s) tag key <> Some (CFormatter fm)) /\ ls_caching (rs_loc s) = false /\ rs_readers s = 0 /\ rs_locked s = [] /\ rs_failed s = f.
    Section Ask.
      Variables (f : nat) (ask : asker).
      Hypothesis Hask : forall c s, forgets c -> off f s -> off f (fst (ask c s)).
      Lemma literal_off s c i t fb : off f s -> off f (fst (ractual_literal E s c i t fb false)).
      Proof.
        intros H. unfold ractual_literal. destruct (cached _ _ _) as [[str t'|fm]|]; [exact H..|]. destruct (find_string E c i t fb) as [(str & t')|e| |]; exact H.
      Qed.
      Lemma format_off s c i vals t fb : off f s -> off f (fst (ractual_format E cmds ask s c i vals t fb false)).
      Proof.
        intros H. unfold ractual_format. destruct (cached (rs_loc s) t (combined c i)) as [[str t'|fm]|] eqn:Ec; [exact H|now destruct (proj1 H _ _ _ Ec)|].
        destruct (find_string E c i t fb) as [(str & t')|e| |] eqn:Ef; try exact H. destruct str as [|x str]; [exact H|].
        assert (Hn : off f (fst (wformatter_try_new (le_icu E) localiser_grammar (le_fmt E) (running ask cmds) t' (le_locale E t') (x :: str) s))).
        { apply (new_keeps (off f) forgets); [intros s1 w1 Hs1; exact Hs1|exact Hask|exact Hcmds|exact H]. }
        fold (reg cmds ask) in Hn. destruct (wformatter_try_new _ _ _ (reg cmds ask) _ _ _ s) as (s1 & [fm|e| |]) eqn:En; cbn [fst] in Hn; [|destruct e; exact Hn|exact Hn..].
        pose proof (run_keeps (off f) forgets ask (fun s w Hs => Hs) Hask fm vals s1 (fun name _ => Hcmds name) Hn) as Hr.
        fold (reg cmds ask) in Hr. now destruct (wrun_formatter E (reg cmds ask) fm vals s1) as (s2 & fm' & r).
      Qed.
      Lemma call_off c s : forgets c -> off f s -> off f (fst (rcall E cmds ask c s)).
      Proof.
        intros Hc H. assert (Hca : ls_caching (rs_loc s) = false) by apply H.
        assert (Hun : forall ca, ca <> Some true -> unwrap_or ca (ls_caching (rs_loc s)) = false).
        { intros [[|]|] Hn; cbn; [congruence|reflexivity|exact Hca]. }
        destruct c; cbn [rcall fst]; cbn [forgets] in Hc; rewrite ?(Hun _ Hc), ?Hca.
        - now apply format_off.
        - now apply format_off.
        - now apply literal_off.
        - now apply literal_off.
        - apply data_keeps; [intros; now apply literal_off|intros; now apply format_off|exact H].
        - apply data_keeps; [intros; now apply literal_off|intros; now apply format_off|exact H].
        - destruct H as (H1 & H2 & H3). split; [exact H1|]. split; [|exact H3]. cbn. unfold loc_defaults. cbn. destruct caching as [[|]|]; [congruence|reflexivity|exact H2].
      Qed.
    End Ask.
    Theorem step_off n f : forall c s, forgets c -> off f s -> off f (fst (rstep E cmds n c s)).
    Proof. induction n as [|n IH]; intros c s Hc H; [exact H|]. cbn [rstep]. now apply call_off. Qed.
    Theorem run_all_off n f h : forall s, Forall forgets h -> off f s -> off f (rrun E cmds n s h).
    Proof. induction h as [|c h IH]; intros s Hh H; [exact H|]. inversion Hh; subst. apply IH; [assumption|]. now apply step_off. Qed.
  End Off.
End Keep.
