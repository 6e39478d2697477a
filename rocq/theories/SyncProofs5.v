(** Poisoned formatters (C63). *)
From Verif Require Import Base BaseFacts LexerModel ValueModel CommandModel FormatterModel RegistryModel LocaliserModel LocaliserSpec LocaliserProofs SyncModel SyncSpec.
Local Opaque us.

Section Bad.
  Context {PE : Type}.
  Variable E : lenv PE.

  Lemma bad_iff g t key : is_bad g t key = true <-> In (t, key) (sy_bad g).
  Proof.
    unfold is_bad. rewrite existsb_exists. split.
    - intros ((t' & key') & Hi & H). cbn in H. apply Bool.andb_true_iff in H as (H1 & H2). apply ueqb_eq in H1 as ->. apply ueqb_eq in H2 as ->. exact Hi.
    - intros Hi. exists (t, key). split; [exact Hi|]. cbn. now rewrite !ueqb_refl.
  Qed.
  Lemma bad_false g t key : is_bad g t key = false <-> ~ In (t, key) (sy_bad g).
  Proof. rewrite <- bad_iff. destruct (is_bad g t key); split; congruence. Qed.
  Lemma replaced_iff g whole t key x : In x (replaced g whole t key) <-> In x (sy_bad g) /\ ~ (fst x = t /\ (whole = true \/ snd x = key)).
  Proof.
    unfold replaced. rewrite filter_In. apply and_iff_compat_l. destruct x as (t' & key'). cbn [fst snd].
    destruct (ueqb_spec t' t) as [->|Hn]; cbn [andb negb]; [|split; [intros _ (H & _); contradiction|reflexivity]].
    destruct whole; cbn [orb negb]; [split; [discriminate|intros H; exfalso; apply H; auto]|].
    destruct (ueqb_spec key' key) as [->|Hn]; cbn [negb].
    - split; [discriminate|intros H; exfalso; apply H; auto].
    - split; [|reflexivity]. intros _ (_ & [H|H]); [discriminate|contradiction].
  Qed.
  Lemma panicked_iff {A} (r : outcome (localiser_error PE) A) : panicked r = true <-> r = Panic.
  Proof. destruct r; cbn; split; congruence. Qed.

  (** A formatter that is used. *)
  Lemma use_bad g t key fm vals g' r : use_formatter E g t key fm vals = (g', r) ->
    (In (t, key) (sy_bad g) -> g' = g /\ r = Panic) /\
    (~ In (t, key) (sy_bad g) -> r = snd (run_formatter E fm vals) /\ (forall x, In x (sy_bad g') <-> In x (sy_bad g) \/ (x = (t, key) /\ r = Panic))).
  Proof.
    unfold use_formatter. destruct (is_bad g t key) eqn:Eb.
    - intros [= <- <-]. apply bad_iff in Eb. split; [auto|contradiction].
    - apply bad_false in Eb. destruct (run_formatter E fm vals) as (fm' & r') eqn:Er. intros [= <- <-]. split; [contradiction|]. intros _. split; [reflexivity|].
      intros x. cbn [sy_bad]. destruct (panicked r') eqn:Ep.
      + apply panicked_iff in Ep as ->. cbn. split; [intros [<-|H]; auto|intros [H|(-> & _)]; auto].
      + split; [auto|]. intros [H|(_ & H)]; [exact H|]. apply panicked_iff in H. congruence.
  Qed.
  Theorem format_alone st n bad c i vals t f ca fm : cached st t (combined c i) = Some (CFormatter fm) ->
    let x := CallFormat c i vals t f ca in
    exists g r, sys_run E (mk_sys (mk_systate st n false bad) [mk_sthread [] None [x]]) (repeat 0 5) = mk_sys g [mk_sthread [(x, Some r)] None []] /\
      (In (t, combined c i) bad -> r = Panic /\ g = mk_systate st n false bad) /\
      (~ In (t, combined c i) bad -> r = snd (run_formatter E fm vals) /\ (forall y, In y (sy_bad g) <-> In y bad \/ (y = (t, combined c i) /\ r = Panic))).
  Proof.
    intros Hc x. destruct (use_formatter E (mk_systate st n false bad) t (combined c i) fm vals) as (g & r) eqn:Eu. exists g, r. split.
    - unfold x. cbn [repeat sys_run sys_step nth_error sys_threads thread_step th_now th_todo th_done sys_state sync_call lset prog_step sync_format sy_ls sy_poisoned].
      rewrite Hc, Eu. cbn. destruct r; reflexivity.
    - destruct (use_bad _ _ _ _ _ _ _ Eu) as (H1 & H2). split; [intros Hi; destruct (H1 Hi); auto|exact H2].
  Qed.
  (** Any other step. *)
  Theorem step_bad p g g' p' : prog_step E p g = Some (g', p') -> sy_poisoned g' = false -> forall x, In x (sy_bad g) -> ~ In x (sy_bad g') ->
    (exists b key s t k, p = PAdd b key s t k /\ fst x = t /\ (b = false \/ snd x = key)) \/
    (exists b t key fm k, p = PPut b t key fm k /\ fst x = t /\ (b = false \/ snd x = key)).
  Proof.
    assert (Hu : forall t key fm vals g1 r x, use_formatter E g t key fm vals = (g1, r) -> In x (sy_bad g) -> In x (sy_bad g1)).
    { intros t key fm vals g1 r x. unfold use_formatter. destruct (is_bad g t key); [intros [= <- _]; auto|]. destruct (run_formatter E fm vals) as (fm' & r').
      intros [= <- _] Hx. cbn. destruct (panicked r'); [now right|exact Hx]. }
    assert (Hi : forall b t key o (k : prog (PE := PE)) g1 p1 x, insertion g (negb b) t key o k = (g1, p1) -> sy_poisoned g1 = false -> In x (sy_bad g) -> ~ In x (sy_bad g1) ->
      fst x = t /\ (b = false \/ snd x = key)).
    { intros b t key o k g1 p1 x. unfold insertion. destruct o as [st|]; intros [= <- _] Hp Hx Hn; [|discriminate]. cbn [sy_bad] in Hn.
      destruct (ueqb_spec (fst x) t) as [Ht|Ht].
      - split; [exact Ht|]. destruct b; [|now left]. right. destruct (ueqb_spec (snd x) key) as [Hk|Hk]; [exact Hk|]. exfalso. apply Hn. apply replaced_iff.
        split; [exact Hx|]. intros (_ & [H|H]); [discriminate|contradiction].
      - exfalso. apply Hn. apply replaced_iff. split; [exact Hx|]. intros (H & _). contradiction. }
    intros H Hp x Hx Hn. destruct p as [r|k|k|k|t k|k|s k|b k|b k|t key k|t key vals k|b key s t k|b t key fm k|t key vals k]; cbn [prog_step] in H.
    - discriminate.
    - injection H as <- _. contradiction.
    - injection H as <- _. contradiction.
    - injection H as <- _. contradiction.
    - destruct (sy_readers g); [|discriminate]. injection H as <- _. contradiction.
    - injection H as <- _. contradiction.
    - injection H as <- _. contradiction.
    - injection H as <- _. contradiction.
    - injection H as <- _. contradiction.
    - destruct (sy_poisoned g); injection H as <- _; contradiction.
    - destruct (sy_poisoned g); [injection H as <- _; contradiction|]. destruct (cached (sy_ls g) t key) as [[s t'|fm]|]; try (injection H as <- _; contradiction).
      destruct (use_formatter E g t key fm vals) as (g1 & r1) eqn:Eu. injection H as <- _. destruct Hn. now apply (Hu _ _ _ _ _ _ _ Eu).
    - destruct (sy_poisoned g); [injection H as <- _; contradiction|]. left. exists b, key, s, t, k. split; [reflexivity|].
      destruct (insertion g (negb b) t key (add_string_to_cache (sy_ls g) b key s t) k) as (g1 & p1) eqn:Ei. injection H as <- _. now apply (Hi _ _ _ _ _ _ _ _ Ei).
    - destruct (sy_poisoned g); [injection H as <- _; contradiction|]. right. exists b, t, key, fm, k. split; [reflexivity|].
      destruct (insertion g (negb b) t key (insert_formatter (sy_ls g) b t key fm) k) as (g1 & p1) eqn:Ei. injection H as <- _. now apply (Hi _ _ _ _ _ _ _ _ Ei).
    - destruct (sy_poisoned g); [injection H as <- _; contradiction|]. destruct (cached (sy_ls g) t key) as [[s t'|fm]|]; try (injection H as <- _; contradiction).
      destruct (use_formatter E g t key fm vals) as (g1 & r1) eqn:Eu. injection H as <- _. destruct Hn. now apply (Hu _ _ _ _ _ _ _ Eu).
  Qed.
  Theorem put_bad b t key fm k g g' p' : prog_step E (PPut b t key fm k) g = Some (g', p') -> sy_poisoned g' = false ->
    cached (sy_ls g') t key = Some (CFormatter fm) /\ ~ In (t, key) (sy_bad g').
  Proof.
    cbn [prog_step]. destruct (sy_poisoned g) eqn:Ep; [intros [= <- _]; congruence|]. intros [= H] Hp. unfold insertion in H.
    destruct (insert_formatter (sy_ls g) b t key fm) as [st|] eqn:Ei; injection H as <- _; [|discriminate]. cbn [sy_ls sy_bad]. split.
    - unfold insert_formatter in Ei. destruct b; cbn [negb] in Ei.
      + destruct (mget t (ls_cache (sy_ls g))) as [m|]; [|discriminate]. injection Ei as <-. unfold cached, set_cache. cbn [ls_cache]. rewrite mget_minsert, ueqb_refl. now rewrite mget_minsert, ueqb_refl.
      + injection Ei as <-. unfold cached, set_cache. cbn [ls_cache]. rewrite mget_minsert, ueqb_refl. cbn. now rewrite ueqb_refl.
    - rewrite replaced_iff. cbn. intuition.
  Qed.
End Bad.
