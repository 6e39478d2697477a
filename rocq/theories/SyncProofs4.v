(** One thread alone: the locks change nothing. *)
From Verif Require Import Base BaseFacts LexerModel LexerSpec TreeModel TreeSpec DocSpec ValueModel CommandModel IsoModel FormatterModel
  FormatterSpec RegistryModel LocaliserModel LocaliserSpec LocaliserProofs SyncModel SyncSpec SyncProofs SyncProofs3.
Local Opaque us.

Section Alone.
  Context {PE : Type}.
  Variable E : lenv PE.
  Local Notation text := (outcome (localiser_error PE) (ustr * ustr)).
  Local Notation prog := (prog (PE := PE)).
  Local Notation sthread := (sthread (PE := PE)).
  Local Notation sys := (sys (PE := PE)).
  Local Notation build t s := (formatter_try_new (le_icu E) localiser_grammar (le_fmt E) (le_reg E) t (le_locale E t) s).

  Inductive runs : prog -> systate -> prog -> systate -> Prop :=
  | runs_refl p g : runs p g p g
  | runs_step p g p1 g1 p' g' : prog_step E p g = Some (g1, p1) -> runs p1 g1 p' g' -> runs p g p' g'.
  Lemma runs_trans p g p1 g1 p2 g2 : runs p g p1 g1 -> runs p1 g1 p2 g2 -> runs p g p2 g2.
  Proof. induction 1 as [|p g p1 g1 p' g' Hs H IH]; intros H2; [exact H2|]. exact (runs_step _ _ _ _ _ _ Hs (IH H2)). Qed.
  Lemma runs_one p g p1 g1 : prog_step E p g = Some (g1, p1) -> runs p g p1 g1.
  Proof. intros H. exact (runs_step _ _ _ _ _ _ H (runs_refl _ _)). Qed.

  Definition clean (st : lstate) : systate := mk_systate st 0 false [].
  (** [p] runs to the continuation [k], or panics. *)
  Definition becomes (p : prog) (st : lstate) (k : text -> prog) (x : lstate * text) : Prop :=
    match snd x with
    | Panic => exists g, runs p (clean st) (PRet (Some Panic)) g
    | r => runs p (clean st) (k r) (clean (fst x))
    end.

  Lemma minsert_twice {V} k (v w : V) m : minsert k v (minsert k w m) = minsert k v m.
  Proof. induction m as [|[k' v'] m IH]; cbn; [now rewrite ueqb_refl|]. destruct (ueqb k k') eqn:Ek; cbn; rewrite Ek; [reflexivity|now rewrite IH]. Qed.
  Lemma put_twice st t key fm fm' st' : insert_formatter st (mhas t (ls_cache st)) t key fm = Some st' ->
    put_formatter st' t key fm' = put_formatter st t key fm' /\ cached st' t key = Some (CFormatter fm).
  Proof.
    unfold insert_formatter, put_formatter, mhas, cached. destruct (mget t (ls_cache st)) as [m|] eqn:Em; cbn; intros [= <-]; cbn;
      rewrite mget_minsert_eq; cbn; rewrite ?mget_minsert_eq, ?ueqb_refl; unfold set_cache; cbn; rewrite ?minsert_twice; auto.
  Qed.
  Lemma insert_some st t key fm : insert_formatter st (mhas t (ls_cache st)) t key fm <> None.
  Proof. unfold insert_formatter, mhas. now destruct (mget t (ls_cache st)). Qed.

  Lemma becomes_step p st p1 st1 k x : prog_step E p (clean st) = Some (clean st1, p1) -> becomes p1 st1 k x -> becomes p st k x.
  Proof.
    unfold becomes. intros Hs. destruct (snd x) as [r|e| |]; try (intros H; exact (runs_step _ _ _ _ _ _ Hs H)).
    intros (g & H). exists g. exact (runs_step _ _ _ _ _ _ Hs H).
  Qed.
  Lemma becomes_done st k r : (r = Panic -> k r = PRet (Some Panic)) -> becomes (k r) st k (st, r).
  Proof. unfold becomes. cbn. destruct r; intros H; try apply runs_refl. rewrite H by reflexivity. eexists. apply runs_refl. Qed.

  Lemma becomes_use st t key fm vals :
    exists g, use_formatter E (clean st) t key fm vals = (g, snd (run_formatter E fm vals)) /\
    (snd (run_formatter E fm vals) <> Panic -> g = clean (put_formatter st t key (fst (run_formatter E fm vals)))).
  Proof.
    unfold use_formatter. cbn. destruct (run_formatter E fm vals) as [fm' r]. eexists. split; [reflexivity|]. cbn. intros Hr.
    destruct r; try reflexivity. congruence.
  Qed.
  Lemma becomes_used st t key fm vals (k : text -> prog) p : k Panic = PRet (Some Panic) ->
    prog_step E p (clean st) = (let (g', r) := use_formatter E (clean st) t key fm vals in Some (g', k r)) ->
    becomes p st k (let (fm', r) := run_formatter E fm vals in (put_formatter st t key fm', r)).
  Proof.
    intros Hk Hs. destruct (becomes_use st t key fm vals) as (g & Hu & Hg). rewrite Hu in Hs.
    destruct (run_formatter E fm vals) as [fm' r]. cbn [fst snd] in *. unfold becomes. cbn [fst snd].
    destruct r; try (rewrite Hg in Hs by discriminate; exact (runs_one _ _ _ _ Hs)). rewrite Hk in Hs. exists g. exact (runs_one _ _ _ _ Hs).
  Qed.
  Lemma becomes_string st b (ca : bool) key s t (k : text -> prog) : k Panic = PRet (Some Panic) ->
    becomes (if ca then PAdd b key s t (k (Ok (s, t))) else k (Ok (s, t))) st k (return_string st b ca key s t).
  Proof.
    intros Hk. unfold return_string. destruct ca; cbn [negb]; [|now apply becomes_done].
    destruct (add_string_to_cache st b key s t) as [st'|] eqn:Ea.
    - unfold becomes. cbn [fst snd]. apply runs_one. cbn. rewrite Ea. reflexivity.
    - unfold becomes. cbn [fst snd]. eexists. apply runs_one. cbn. rewrite Ea. reflexivity.
  Qed.
  Lemma alone_format st c i vals t fb ca (k : text -> prog) : k Panic = PRet (Some Panic) ->
    becomes (sync_format E c i vals t fb ca k) st k (actual_format E st c i vals t fb ca).
  Proof.
    intros Hk. assert (Hd : forall st r, becomes (k r) st k (st, r)) by (intros; apply becomes_done; now intros ->).
    unfold actual_format. destruct (cached st t (combined c i)) as [[s t'|fm]|] eqn:Ec.
    - apply (becomes_step _ _ (k (Ok (s, t'))) st); [|apply Hd]. cbn. now rewrite Ec.
    - apply becomes_used; [exact Hk|]. cbn [sync_format prog_step]. cbn [clean sy_poisoned sy_ls]. rewrite Ec. fold (clean st).
      now destruct (use_formatter E (clean st) t (combined c i) fm vals).
    - eapply becomes_step; [cbn [sync_format prog_step clean sy_poisoned sy_ls]; rewrite Ec; reflexivity|]. cbv beta iota.
      destruct (find_string E c i t fb) as [[s t']|e| |]; [|apply Hd ..]. cbv beta iota.
      destruct s as [|x w]; [now apply becomes_string|]. cbv beta iota.
      destruct (build t' (x :: w)) as [fm|e| |]; [|destruct e; try apply Hd; now apply becomes_string|apply Hd ..].
      destruct ca; [|destruct (run_formatter E fm vals); apply Hd].
      destruct (insert_formatter st (mhas t (ls_cache st)) t (combined c i) fm) as [st'|] eqn:Ei; [|now destruct (insert_some st t (combined c i) fm)].
      apply (becomes_step _ _ (PUse t (combined c i) vals k) st'); [cbn [prog_step clean sy_poisoned sy_ls]; rewrite Ei; reflexivity|].
      replace (let (fm', r) := run_formatter E fm vals in (put_formatter st t (combined c i) fm', r))
        with (let (fm', r) := run_formatter E fm vals in (put_formatter st' t (combined c i) fm', r)).
      + apply becomes_used; [exact Hk|]. cbn [prog_step clean sy_poisoned sy_ls]. destruct (put_twice _ _ _ _ fm _ Ei) as (_ & ->). reflexivity.
      + destruct (run_formatter E fm vals) as [fm' r]. destruct (put_twice _ _ _ _ fm' _ Ei) as (-> & _). reflexivity.
  Qed.
  Lemma alone_literal st c i t fb ca (k : text -> prog) : k Panic = PRet (Some Panic) ->
    becomes (sync_literal E c i t fb ca k) st k (actual_literal E st c i t fb ca).
  Proof.
    intros Hk. assert (Hd : forall st r, becomes (k r) st k (st, r)) by (intros; apply becomes_done; now intros ->).
    eapply becomes_step; [reflexivity|]. cbv beta. cbn [clean sy_ls]. unfold actual_literal.
    destruct (cached st t (combined c i)) as [[s t'|fm]|]; [apply Hd|apply Hd|]. cbv iota beta.
    destruct (find_string E c i t fb) as [[s t']|e| |]; [|apply Hd ..]. now apply becomes_string.
  Qed.
  Lemma becomes_then p st k1 x k y : becomes p st k1 x -> (snd x = Panic -> snd y = Panic) ->
    (snd x <> Panic -> becomes (k1 (snd x)) (fst x) k y) -> becomes p st k y.
  Proof.
    unfold becomes. intros H Hp Hn. destruct (snd x) as [r|e| |] eqn:Ex; [| |rewrite Hp by reflexivity; exact H|];
      (specialize (Hn ltac:(discriminate)); destruct (snd y) as [r'|e'| |]; [exact (runs_trans _ _ _ _ _ _ H Hn)|exact (runs_trans _ _ _ _ _ _ H Hn)| |exact (runs_trans _ _ _ _ _ _ H Hn)];
       destruct Hn as (g & Hn); exists g; exact (runs_trans _ _ _ _ _ _ H Hn)).
  Qed.
  Lemma alone_data t fb ca : forall d st k, k Panic = PRet (Some Panic) -> becomes (sync_data E d t fb ca k) st k (actual_format_data E d t fb ca st).
  Proof.
    fix IH 1. intros [c i [vs|]] st k Hk; cbn [sync_data actual_format_data]; [|now apply alone_literal].
    generalize (@nil (ustr * pvalue)). revert st. induction vs as [|[ph v] vs IHvs]; intros st new; [now apply alone_format|].
    destruct v.
    1-6, 8-11: apply IHvs.
    match goal with |- becomes (sync_data E d t fb ca ?k1) _ _ _ => assert (H : becomes (sync_data E d t fb ca k1) st k1 (actual_format_data E d t fb ca st)) by (apply IH; exact Hk) end.
    apply (becomes_then _ _ _ _ _ _ H).
    - destruct (actual_format_data E d t fb ca st) as [st' r]. cbn. now intros ->.
    - destruct (actual_format_data E d t fb ca st) as [st' r]. cbn [fst snd]. intros Hr.
      destruct r as [[s t']|e| |]; [apply IHvs|apply becomes_done; discriminate|congruence|apply becomes_done; discriminate].
  Qed.

  Lemma alone_call st c : match snd (lstep E st c) with
    | Some Panic => exists g, runs (sync_call E c) (clean st) (PRet (Some Panic)) g
    | r => runs (sync_call E c) (clean st) (PRet r) (clean (fst (lstep E st c)))
    end.
  Proof.
    assert (Hb : forall p x, becomes p st finish x -> match Some (snd x) with Some Panic => exists g, runs p (clean st) (PRet (Some Panic)) g | r => runs p (clean st) (PRet r) (clean (fst x)) end).
    { intros p x H. unfold becomes in H. destruct (snd x); exact H. }
    assert (Hs : forall k x, becomes (k (ls_fallback st) (ls_caching st)) st finish x -> becomes (PFallback (fun a => PCaching (k a))) st finish x).
    { intros k x H. eapply becomes_step; [reflexivity|]. eapply becomes_step; [reflexivity|]. exact H. }
    assert (Ht : forall k x, becomes (k (ls_tag st)) st finish x -> becomes (PTag k) st finish x) by (intros k x H; eapply becomes_step; [reflexivity|exact H]).
    destruct c; cbn [lstep snd fst sync_call]; try apply Hb.
    - apply Hs. now apply alone_format.
    - apply Ht. apply Hs. now apply alone_format.
    - apply Hs. now apply alone_literal.
    - apply Ht. apply Hs. now apply alone_literal.
    - apply Hs. now apply alone_data.
    - apply Ht. apply Hs. now apply alone_data.
    - destruct st as [cache fb0 ca0 tag0 script0]. unfold loc_defaults. cbn [ls_cache ls_fallback ls_caching ls_tag ls_script].
      destruct tag as [t|]; [eapply runs_step; [reflexivity|]; eapply runs_step; [reflexivity|]; eapply runs_step; [reflexivity|]|];
        destruct fallback as [b|]; try (eapply runs_step; [reflexivity|]); destruct caching as [b'|]; try (eapply runs_step; [reflexivity|]); apply runs_refl.
  Qed.

  (** A system of one thread. *)
  Inductive steps : nat -> sys -> sys -> Prop :=
  | steps_none x : steps 0 x x
  | steps_more n x y z : sys_step E x 0 = Some y -> steps n y z -> steps (S n) x z.
  Lemma steps_trans n m x y z : steps n x y -> steps m y z -> steps (n + m) x z.
  Proof. induction 1 as [|n x y0 y H1 H2 IH]; intros H; cbn; [exact H|]. exact (steps_more _ _ _ _ H1 (IH H)). Qed.
  Lemma runs_steps p g p' g' : runs p g p' g' -> forall c d td,
    exists n, steps n (mk_sys g [mk_sthread d (Some (c, p)) td]) (mk_sys g' [mk_sthread d (Some (c, p')) td]).
  Proof.
    induction 1 as [|p g p1 g1 p' g' Hs H IH]; intros c d td; [exists 0; apply steps_none|]. destruct (IH c d td) as (n & Hn). exists (S n).
    eapply steps_more; [|exact Hn]. unfold sys_step. cbn [nth_error sys_threads sys_state]. unfold thread_step. cbn [th_now th_done th_todo].
    destruct p; [discriminate|..]; rewrite Hs; reflexivity.
  Qed.
  Lemma alone_steps cs : forall st d, exists n g, steps n (mk_sys (clean st) [mk_sthread d None cs]) (mk_sys g [mk_sthread (d ++ results E st cs) None []]) /\
    ((forall c, ~ In (c, Some Panic) (results E st cs)) -> g = clean (lrun E st cs)).
  Proof.
    induction cs as [|c cs IH]; intros st d; [exists 0, (clean st); rewrite app_nil_r; split; [apply steps_none|reflexivity]|].
    assert (Hfirst : steps 1 (mk_sys (clean st) [mk_sthread d None (c :: cs)]) (mk_sys (clean st) [mk_sthread d (Some (c, sync_call E c)) cs])).
    { eapply steps_more; [reflexivity|apply steps_none]. }
    pose proof (alone_call st c) as Hc. cbn [results]. change (lrun E st (c :: cs)) with (lrun E (fst (lstep E st c)) cs).
    destruct (lstep E st c) as [st' o]. cbn [fst snd] in *.
    assert (Hnext : o <> Some Panic -> runs (sync_call E c) (clean st) (PRet o) (clean st') ->
      exists n g, steps n (mk_sys (clean st) [mk_sthread d None (c :: cs)]) (mk_sys g [mk_sthread (d ++ (c, o) :: results E st' cs) None []]) /\
      ((forall c0, ~ In (c0, Some Panic) ((c, o) :: results E st' cs)) -> g = clean (lrun E st' cs))).
    { intros Hn Hr. destruct (runs_steps _ _ _ _ Hr c d cs) as (n1 & H1). destruct (IH st' (d ++ [(c, o)])) as (n2 & g & H2 & H3).
      rewrite <- app_assoc in H2. cbn in H2. exists (1 + (n1 + S n2)), g. split.
      - apply (steps_trans _ _ _ _ _ Hfirst). apply (steps_trans _ _ _ _ _ H1). eapply steps_more; [|exact H2].
        unfold sys_step. cbn. destruct o as [[]|]; try reflexivity. exfalso. apply Hn. reflexivity.
      - intros Hno. apply H3. intros c0 Hin. exact (Hno c0 (or_intror Hin)). }
    destruct o as [[r|e| |]|]; try (apply Hnext; [discriminate|exact Hc]).
    destruct Hc as (g & Hc). destruct (runs_steps _ _ _ _ Hc c d cs) as (n1 & H1). exists (1 + (n1 + 1)), g. split.
    - apply (steps_trans _ _ _ _ _ Hfirst). apply (steps_trans _ _ _ _ _ H1). eapply steps_more; [reflexivity|apply steps_none].
    - intros Hno. destruct (Hno c). now left.
  Qed.
  Lemma steps_run n x y : steps n x y -> sys_run E x (repeat 0 n) = y.
  Proof. induction 1 as [|n x y z Hs H IH]; cbn; [reflexivity|]. rewrite Hs. exact IH. Qed.
  Lemma steps_left n x y : steps n x y -> forall ns, all_left E x ns -> n <= total ns.
  Proof. induction 1 as [|n x y z Hs H IH]; intros ns Hx; [lia|]. destruct (sys_step_left E _ _ _ _ Hx Hs) as (ns' & K1 & K2). specialize (IH ns' K1). lia. Qed.
  Lemma run_stuck g d n : sys_run E (mk_sys g [mk_sthread d None []]) (repeat 0 n) = mk_sys g [mk_sthread d None []].
  Proof. induction n as [|n IH]; [reflexivity|exact IH]. Qed.

  Theorem alone_results st cs n : left cs <= n ->
    exists g, sys_run E (sys_start st [cs]) (repeat 0 n) = mk_sys g [mk_sthread (results E st cs) None []] /\
    ((forall c, ~ In (c, Some Panic) (results E st cs)) -> sy_ls g = lrun E st cs).
  Proof.
    intros Hn. destruct (alone_steps cs st []) as (m & g & Hm & Hg). exists g. split; [|intros H; now rewrite (Hg H)].
    pose proof (steps_left _ _ _ Hm _ (start_left E st [cs])) as Hl. cbn in Hl.
    replace n with (m + (n - m)) by lia. rewrite repeat_app, run_app. change (sys_start st [cs]) with (mk_sys (clean st) [mk_sthread [] None cs] : sys).
    rewrite (steps_run _ _ _ Hm). apply run_stuck.
  Qed.
End Alone.
