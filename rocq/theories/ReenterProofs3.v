(** Proofs for C100: calls while a formatter of the cache formats; commands that do not ask. *)
From Verif Require Import Base BaseFacts LexerModel LexerSpec TreeModel TreeSpec DocSpec ValueModel CommandModel IsoModel FormatterModel FormatterSpec FormatterProofs4 RegistryModel LocaliserModel
  LocaliserSpec LocaliserProofs MemorySpec MemoryProofs SyncProofs4 CallsModel CallsSpec CallsProofs CallsProofs2 LocCallsModel LocCallsSpec ReenterModel ReenterSpec ReenterProofs ReenterProofs2.
Local Opaque us.

Section Busy.
  Context {PE W : Type}.
  Variables (E : lenv PE) (cmds : commands PE W).
  Notation answer := (option (lout (PE := PE) (ustr * ustr))).
  Notation asker := (lcall -> rst W -> rst W * answer).

  (** ** Nothing new is remembered meanwhile *)
  Definition same_memory (st st' : lstate) : Prop := forall t key, cached st' t key = None <-> cached st t key = None.
  Definition frozen (s0 s : rst W) : Prop := balanced s0 s /\ same_memory (rs_loc s0) (rs_loc s).
  Lemma frozen_refl s : frozen s s.
  Proof. split; [apply balanced_refl|]. now intros t key. Qed.
  Lemma frozen_trans a b c : frozen a b -> frozen b c -> frozen a c.
  Proof. intros (A1 & A2) (B1 & B2). split; [exact (balanced_trans _ _ _ A1 B1)|]. intros t key. rewrite (B2 t key). apply A2. Qed.
  Lemma put_same_memory st t key fm : cached st t key <> None -> same_memory st (put_formatter st t key fm).
  Proof.
    intros H t' key'. unfold put_formatter. unfold cached in H. destruct (mget t (ls_cache st)) as [m|] eqn:Em; [|congruence]. rewrite cached_put.
    destruct (ueqb_spec t' t) as [->|N]; [|reflexivity]. unfold cached. rewrite Em, mget_minsert. destruct (ueqb_spec key' key) as [->|N]; [|reflexivity].
    split; [discriminate|contradiction].
  Qed.
  Lemma same_memory_trans a b c : same_memory a b -> same_memory b c -> same_memory a c.
  Proof. intros A B t key. rewrite (B t key). apply A. Qed.

  Section Ask.
    Variable ask : asker.
    Hypothesis Hask : forall c s, 0 < rs_readers s -> frozen s (fst (ask c s)).
    Let kept_ask s0 c s : 0 < rs_readers s0 -> True -> frozen s0 s -> frozen s0 (fst (ask c s)).
    Proof.
      intros H0 _ H. apply (frozen_trans _ _ _ H). apply Hask. destruct H as ((H & _) & _). now rewrite H.
    Qed.
    Let any name : command_asks_only (fun _ => True) cmds name.
    Proof. intros f ps _. apply asks_any. Qed.
    Lemma run_frozen fm vals s : 0 < rs_readers s -> frozen s (fst (wrun_formatter E (running ask cmds) fm vals s)).
    Proof. intros H. apply (run_keeps E cmds _ (fun _ => True)); [now auto|now intros; apply kept_ask|auto|apply frozen_refl]. Qed.
    Lemma new_frozen t l str s : 0 < rs_readers s -> frozen s (fst (wformatter_try_new (le_icu E) localiser_grammar (le_fmt E) (running ask cmds) t l str s)).
    Proof. intros H. apply (new_keeps E cmds _ (fun _ => True)); [now auto|now intros; apply kept_ask|auto|apply frozen_refl]. Qed.
    Lemma fail_frozen s {A} : frozen s (fst (fail (PE := PE) (A := A) s)).
    Proof. split; [|now intros t key]. repeat split. apply Nat.le_succ_diag_r. Qed.
    Lemma cached_frozen s tag key fm vals : cached (rs_loc s) tag key <> None -> frozen s (fst (rformat_cached E cmds ask s tag key fm vals)).
    Proof.
      intros Hc. unfold rformat_cached. destruct (existsb (same_entry (tag, key)) (rs_locked s)) eqn:Ee; [apply fail_frozen|].
      pose proof (run_frozen fm vals (hold s (tag, key)) ltac:(apply Nat.lt_0_succ)) as H. fold (reg cmds ask) in H.
      destruct (wrun_formatter E (reg cmds ask) fm vals (hold s (tag, key))) as (s1 & fm' & r). cbn [fst] in H |- *. destruct H as (H1 & H2). split.
      - exact (release_held _ (set_loc s1 _) _ Ee H1).
      - cbn. cbn in H2. apply (same_memory_trans _ _ _ H2). apply put_same_memory. now rewrite (H2 tag key).
    Qed.
    Lemma return_frozen s b ca key str t : 0 < rs_readers s -> frozen s (fst (rreturn_string (PE := PE) s b ca key str t)).
    Proof.
      intros H. unfold rreturn_string. destruct ca; [|apply frozen_refl]. apply Nat.ltb_lt in H. rewrite H. apply fail_frozen.
    Qed.
    Lemma literal_frozen s c i t fb ca : 0 < rs_readers s -> frozen s (fst (ractual_literal E s c i t fb ca)).
    Proof.
      intros H. unfold ractual_literal. destruct (cached _ _ _) as [[str t'|fm]|]; [apply frozen_refl..|]. destruct (find_string E c i t fb) as [(str & t')|e| |]; try apply frozen_refl.
      now apply return_frozen.
    Qed.
    Lemma format_frozen s c i vals t fb ca : 0 < rs_readers s -> frozen s (fst (ractual_format E cmds ask s c i vals t fb ca)).
    Proof.
      intros H0. unfold ractual_format. destruct (cached _ _ _) as [[str t'|fm]|] eqn:Ec; [apply frozen_refl|apply cached_frozen; congruence|].
      destruct (find_string E c i t fb) as [(str & t')|e| |]; try apply frozen_refl. destruct str as [|x str]; [now apply return_frozen|].
      pose proof (new_frozen t' (le_locale E t') (x :: str) s H0) as H. fold (reg cmds ask) in H.
      destruct (wformatter_try_new _ _ _ _ _ _ _ s) as (s1 & o). cbn [fst] in H. assert (H1 : 0 < rs_readers s1) by (destruct H as ((H & _) & _); now rewrite H).
      destruct o as [fm|e| |]; [|destruct e; try exact H; exact (frozen_trans _ _ _ H (return_frozen _ _ _ _ _ _ H1))|exact H..].
      destruct ca.
      - pose proof (proj2 (Nat.ltb_lt _ _) H1) as H2. rewrite H2. exact (frozen_trans _ _ _ H (fail_frozen s1)).
      - pose proof (run_frozen fm vals s1 H1) as H'. fold (reg cmds ask) in H'. destruct (wrun_formatter E (reg cmds ask) fm vals s1) as (s2 & fm' & r). exact (frozen_trans _ _ _ H H').
    Qed.
    Lemma call_frozen c s : 0 < rs_readers s -> frozen s (fst (rcall E cmds ask c s)).
    Proof.
      intros H0. assert (K : forall s1, frozen s s1 -> 0 < rs_readers s1) by (intros s1 ((H & _) & _); now rewrite H).
      apply call_keeps; [apply frozen_refl|..].
      - intros t fb ca s1 c1 i H. exact (frozen_trans _ _ _ H (literal_frozen _ _ _ _ _ _ (K _ H))).
      - intros t fb ca s1 c1 i vals H. exact (frozen_trans _ _ _ H (format_frozen _ _ _ _ _ _ _ (K _ H))).
      - intros s1 t f ca H. exact H.
    Qed.

    (** ** Something not remembered, to be remembered *)
    Lemma return_fails (s : rst W) b key str t : 0 < rs_readers s -> rreturn_string (PE := PE) s b true key str t = fail s.
    Proof. intros H. unfold rreturn_string. apply Nat.ltb_lt in H. now rewrite H. Qed.
    Lemma literal_fails (s : rst W) c i t fb x : 0 < rs_readers s -> cached (rs_loc s) t (combined c i) = None -> snd (ractual_literal E s c i t fb true) <> Ok x.
    Proof.
      intros H Hc. unfold ractual_literal. rewrite Hc. destruct (find_string E c i t fb) as [(str & t')|e| |]; try discriminate. rewrite (return_fails _ _ _ _ _ H). discriminate.
    Qed.
    Lemma format_fails s c i vals t fb x : 0 < rs_readers s -> cached (rs_loc s) t (combined c i) = None -> snd (ractual_format E cmds ask s c i vals t fb true) <> Ok x.
    Proof.
      intros H Hc. unfold ractual_format. rewrite Hc. destruct (find_string E c i t fb) as [(str & t')|e| |]; try discriminate.
      destruct str as [|y str]; [rewrite (return_fails _ _ _ _ _ H); discriminate|].
      pose proof (new_frozen t' (le_locale E t') (y :: str) s H) as Hn. fold (reg cmds ask) in Hn.
      destruct (wformatter_try_new _ _ _ _ _ _ _ s) as (s1 & o). cbn [fst] in Hn. assert (H1 : 0 < rs_readers s1) by (destruct Hn as ((Hn & _) & _); now rewrite Hn).
      destruct o as [fm|e| |]; [|destruct e; try discriminate; rewrite (return_fails _ _ _ _ _ H1); discriminate|discriminate..].
      apply Nat.ltb_lt in H1. rewrite H1. discriminate.
    Qed.
    Lemma data_fails t fb : forall d s x, 0 < rs_readers s -> ~ covered (rs_loc s) (data_requests t fb d) -> snd (ractual_format_data E cmds ask d t fb true s) <> Ok x.
    Proof.
      fix IH 1. intros [c i [vs|]] s x H Hn.
      - cbn [data_requests] in Hn. fold (go_requests t fb) in Hn. cbn [ractual_format_data]. revert s H Hn. generalize (@nil (ustr * pvalue)).
        induction vs as [|[ph v] vs IHvs]; intros new s H Hn.
        + apply format_fails; [exact H|]. cbn in Hn. destruct (cached (rs_loc s) t (combined c i)) as [e|] eqn:Ec; [|reflexivity]. destruct Hn.
          intros q [<-|[]]. cbn [rq_tag rq_component rq_identifier]. congruence.
        + destruct v; try exact (IHvs _ s H Hn). cbn [go_requests] in Hn. rewrite <- app_assoc in Hn.
          assert (Hf : frozen s (fst (ractual_format_data E cmds ask d t fb true s))).
          { apply data_keeps; [..|apply frozen_refl].
            - intros s1 c1 i1 H1. apply (frozen_trans _ _ _ H1). apply literal_frozen. destruct H1 as ((H1 & _) & _). now rewrite H1.
            - intros s1 c1 i1 vals H1. apply (frozen_trans _ _ _ H1). apply format_frozen. destruct H1 as ((H1 & _) & _). now rewrite H1. }
          specialize (IH d s). destruct (ractual_format_data E cmds ask d t fb true s) as (s1 & [(str & t')|e| |]); cbn [fst snd] in *; try discriminate.
          assert (Hc : covered (rs_loc s) (data_requests t fb d)).
          { intros q Hq Hno. refine (IH (str, t') H _ eq_refl). intros Hc. exact (Hc q Hq Hno). }
          apply IHvs; [destruct Hf as ((Hf & _) & _); now rewrite Hf|]. intros Hc1. apply Hn. intros q Hq. apply in_app_or in Hq as [Hq|Hq]; [now apply Hc|].
          intros Hno. apply (proj2 Hf) in Hno. exact (Hc1 q Hq Hno).
      - cbn [ractual_format_data]. apply literal_fails; [exact H|]. cbn in Hn. destruct (cached (rs_loc s) t (combined c i)) as [e|] eqn:Ec; [|reflexivity]. destruct Hn.
        intros q [<-|[]]. cbn [rq_tag rq_component rq_identifier]. congruence.
    Qed.
  End Ask.
  Theorem step_frozen n : forall c s, 0 < rs_readers s -> frozen s (fst (rstep E cmds n c s)).
  Proof. induction n as [|n IH]; intros c s H; [apply frozen_refl|]. cbn [rstep]. now apply call_frozen. Qed.
  Theorem step_fails n c s x : 0 < rs_readers s -> caches (rs_loc s) c = true -> ~ covered (rs_loc s) (call_requests (rs_loc s) c) -> snd (rstep E cmds n c s) <> Some (Ok x).
  Proof.
    intros H Hc Hn. destruct n as [|n]; [discriminate|]. cbn [rstep]. pose proof (step_frozen n) as Hf.
    assert (One : forall cc ii tt f l, ~ covered (rs_loc s) [mk_request cc ii tt f l] -> cached (rs_loc s) tt (combined cc ii) = None).
    { intros cc ii tt f l Hno. destruct (cached (rs_loc s) tt (combined cc ii)) as [e|] eqn:Ec; [|reflexivity]. destruct Hno. intros q [<-|[]]. cbn [rq_tag rq_component rq_identifier]. congruence. }
    destruct c; cbn [rcall caches call_requests] in *; try discriminate; rewrite Hc; intros Hx; injection Hx.
    - exact (format_fails _ Hf _ _ _ _ _ _ _ H (One _ _ _ _ _ Hn)).
    - exact (format_fails _ Hf _ _ _ _ _ _ _ H (One _ _ _ _ _ Hn)).
    - exact (literal_fails _ _ _ _ _ _ H (One _ _ _ _ _ Hn)).
    - exact (literal_fails _ _ _ _ _ _ H (One _ _ _ _ _ Hn)).
    - exact (data_fails _ Hf _ _ _ _ _ H Hn).
    - exact (data_fails _ Hf _ _ _ _ _ H Hn).
  Qed.

  (** ** Literal strings: exactly when *)
  Lemma literal_busy (s : rst W) c i t fb ca : 0 < rs_readers s ->
    ractual_literal E s c i t fb ca =
    match cached (rs_loc s) t (combined c i), find_string E c i t fb, ca with
    | None, Ok _, true => fail s
    | _, _, _ => (s, snd (actual_literal E (rs_loc s) c i t fb false))
    end.
  Proof.
    intros H. unfold ractual_literal, actual_literal. destruct (cached (rs_loc s) t (combined c i)) as [[str t'|fm]|]; [now destruct (find_string E c i t fb) as [(? & ?)|? | |], ca..|].
    destruct (find_string E c i t fb) as [(str & t')|e| |]; try (now destruct ca). unfold rreturn_string, return_string. destruct ca; [|reflexivity]. apply Nat.ltb_lt in H. now rewrite H.
  Qed.
  (** A formatter that is formatting. *)
  Lemma locked_fails ask s tag key fm vals : In (tag, key) (rs_locked s) -> rformat_cached E cmds ask s tag key fm vals = fail s.
  Proof.
    intros H. unfold rformat_cached. assert (He : existsb (same_entry (tag, key)) (rs_locked s) = true).
    { apply existsb_exists. exists (tag, key). split; [exact H|]. now apply same_entry_iff. }
    now rewrite He.
  Qed.
End Busy.

(** ** Commands that do not ask *)
Section Alone.
  Context {PE W : Type}.
  Variables (E : lenv PE) (r : wregistry W).
  Notation cmds := (none_asking r : commands PE W).
  Notation answer := (option (lout (PE := PE) (ustr * ustr))).
  Lemma get_none_asking name : mget name cmds = option_map without_asking (mget name r).
  Proof. unfold none_asking. induction r as [|[k p] l IH]; [reflexivity|]. cbn. now destruct (ueqb name k). Qed.
  Section At.
    Variables (ask : lcall -> rst W -> rst W * answer) (rd : nat) (lk : list (ustr * ustr)) (f : nat).
    Definition with_world (st : lstate) (w : W) : rst W := mk_rst st rd lk f w.
    Lemma alone_related st name : related (fun s w => s = with_world st w) (running ask cmds) r name.
    Proof.
      unfold related. rewrite get_running, get_none_asking. destruct (mget name r) as [g|]; [|exact Logic.I]. cbn [option_map]. intros ps s w ->. unfold without_asking. cbn.
      destruct (g ps w) as (w' & x). now split.
    Qed.
    Lemma run_alone st fm vals w : wrun_formatter E (reg cmds ask) fm vals (with_world st w) =
      (with_world st (fst (wrun_formatter E r fm vals w)), snd (wrun_formatter E r fm vals w)).
    Proof.
      unfold wrun_formatter, reg. pose proof (format_rel _ (running ask cmds) r (le_fmt E) fm vals (fun name _ => alone_related st name) (le_fuel E) (with_world st w) w eq_refl) as H.
      destruct (wformat _ _ (running ask cmds) fm vals _) as (s1 & fm1 & x1), (wformat _ _ r fm vals w) as (w2 & fm2 & x2). cbn in *. destruct H as (-> & [= -> ->]). reflexivity.
    Qed.
    Lemma new_alone st t l str w : wformatter_try_new (le_icu E) localiser_grammar (le_fmt E) (reg cmds ask) t l str (with_world st w) =
      (with_world st (fst (wformatter_try_new (le_icu E) localiser_grammar (le_fmt E) r t l str w)), snd (wformatter_try_new (le_icu E) localiser_grammar (le_fmt E) r t l str w)).
    Proof.
      unfold reg. destruct (build_rel _ (running ask cmds) r (alone_related st) (le_icu E) localiser_grammar (le_fmt E) t l str (with_world st w) w eq_refl) as (H1 & H2).
      rewrite <- H1, <- H2. apply surjective_pairing.
    Qed.
  End At.
  Section Idle.
    Variables (ask : lcall -> rst W -> rst W * answer) (f : nat).
    Notation at_rest := (with_world 0 [] f).
    Definition lifted {A} (x : W * (lstate * A)) : rst W * A := (at_rest (fst (snd x)) (fst x), snd (snd x)).
    Lemma cached_alone st tag key fm vals w : rformat_cached E cmds ask (at_rest st w) tag key fm vals =
      lifted (let '(w', (fm', x)) := wrun_formatter E r fm vals w in (w', (put_formatter st tag key fm', x))).
    Proof.
      unfold rformat_cached. cbn [rs_locked with_world existsb]. change (hold (at_rest st w) (tag, key)) with (with_world 1 [(tag, key)] f st w). rewrite run_alone.
      destruct (wrun_formatter E r fm vals w) as (w' & fm' & x). unfold lifted, release, with_world. cbn. rewrite (proj2 (same_entry_iff (tag, key) (tag, key)) eq_refl). reflexivity.
    Qed.
    Lemma return_alone st ca b key str t w : rreturn_string (PE := PE) (at_rest st w) b ca key str t = lifted (w, return_string st b ca key str t).
    Proof.
      unfold rreturn_string, return_string, lifted. destruct ca; [|reflexivity]. cbn [rs_readers with_world Nat.ltb Nat.leb rs_loc]. now destruct (add_string_to_cache st b key str t).
    Qed.
    Lemma add_put st tag key fm fm' st1 : radd_formatter st (mhas tag (ls_cache st)) tag key fm = Some st1 -> put_formatter st1 tag key fm' = put_formatter st tag key fm'.
    Proof.
      unfold radd_formatter, put_formatter, mhas. destruct (mget tag (ls_cache st)) as [m|] eqn:Em; cbn [negb].
      - intros [= <-]. cbn. rewrite mget_minsert_eq. unfold set_cache. cbn. now rewrite !minsert_twice.
      - intros [= <-]. cbn. rewrite mget_minsert_eq. unfold set_cache. cbn. rewrite minsert_twice. cbn. now rewrite ueqb_refl.
    Qed.
    Lemma format_alone st c i vals t fb ca w : ractual_format E cmds ask (at_rest st w) c i vals t fb ca = lifted (wactual_format E r st c i vals t fb ca w).
    Proof.
      unfold ractual_format, wactual_format. cbn [rs_loc with_world]. destruct (cached st t (combined c i)) as [[str t'|fm]|]; [reflexivity|apply cached_alone|].
      destruct (find_string E c i t fb) as [(str & t')|e| |]; try reflexivity. destruct str as [|y str]; [apply return_alone|]. rewrite new_alone.
      destruct (wformatter_try_new _ _ _ r _ _ _ w) as (w1 & [fm|e| |]); cbn [fst snd]; [|destruct e; try reflexivity; apply return_alone|reflexivity..].
      destruct ca; [|rewrite run_alone; now destruct (wrun_formatter E r fm vals w1) as (w2 & fm' & x)].
      cbn [rs_readers with_world Nat.ltb Nat.leb rs_loc]. destruct (radd_formatter st (mhas t (ls_cache st)) t (combined c i) fm) as [st1|] eqn:Ea.
      - change (set_loc (at_rest st w1) st1) with (at_rest st1 w1). rewrite cached_alone. destruct (wrun_formatter E r fm vals w1) as (w2 & fm' & x). now rewrite (add_put _ _ _ _ _ _ Ea).
      - unfold radd_formatter, mhas in Ea. destruct (mget t (ls_cache st)); discriminate.
    Qed.
    Lemma literal_alone st c i t fb ca w : ractual_literal E (at_rest st w) c i t fb ca = lifted (w, actual_literal E st c i t fb ca).
    Proof.
      unfold ractual_literal, actual_literal. cbn [rs_loc with_world]. destruct (cached st t (combined c i)) as [[str t'|fm]|]; [reflexivity..|].
      destruct (find_string E c i t fb) as [(str & t')|e| |]; try reflexivity. apply return_alone.
    Qed.
    Lemma data_alone t fb ca : forall d st w, ractual_format_data E cmds ask d t fb ca (at_rest st w) = lifted (wactual_format_data E r d t fb ca st w).
    Proof.
      fix IH 1. intros [c i [vs|]] st w; [|apply literal_alone]. cbn [ractual_format_data wactual_format_data]. revert st w. generalize (@nil (ustr * pvalue)).
      induction vs as [|[ph v] vs IHvs]; intros new st w; [apply format_alone|]. destruct v; try apply IHvs. rewrite IH.
      destruct (wactual_format_data E r d t fb ca st w) as (w1 & st1 & [(str & t')|e| |]); try reflexivity. apply IHvs.
    Qed.
    Theorem call_alone st c w : rcall E cmds ask c (at_rest st w) = lifted (wlstep E r st c w).
    Proof.
      destruct c; cbn [rcall wlstep]; cbn [rs_loc with_world]; rewrite ?format_alone, ?literal_alone, ?data_alone; try reflexivity.
    Qed.
  End Idle.
End Alone.
