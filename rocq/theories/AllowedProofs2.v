(** Texts of threads that use one localiser have no characters but those of the strings stored and of what is supplied (C116). *)
From Verif Require Import Base BaseFacts LexerModel TreeModel ValueModel CommandModel FormatterModel FormatterSpec
  RegistryModel LocaliserModel LocaliserSpec LocaliserProofs SyncModel AllowedSpec AllowedProofs.

Section Threads.
  Variable P : N -> Prop.
  Context {PE : Type}.
  Variable E : lenv PE.
  Hypothesis HA : surroundings_allowed P E.
  Local Notation build t s := (formatter_try_new (le_icu E) localiser_grammar (le_fmt E) (le_reg E) t (le_locale E t) s).
  Local Notation text := (outcome (localiser_error PE) (ustr * ustr)).
  Local Notation prog := (@prog PE).
  Local Notation entry := (entry_allowed P E).
  Local Notation cache := (cache_allowed P E).
  Local Notation ok := (text_allowed P (PE := PE)).

  (** A program that keeps the cache as it should be; its result is a text of such characters if [S]. *)
  Inductive good (S : Prop) : prog -> Prop :=
  | gd_ret r : (S -> result_allowed P r) -> good S (PRet r)
  | gd_tag k : (forall t, good S (k t)) -> good S (PTag k)
  | gd_fallback k : (forall b, good S (k b)) -> good S (PFallback k)
  | gd_caching k : (forall b, good S (k b)) -> good S (PCaching k)
  | gd_set_tag t k : good S k -> good S (PSetTag t k)
  | gd_hold k : (forall t, good S (k t)) -> good S (PHoldTag k)
  | gd_script s k : good S k -> good S (PSetScript s k)
  | gd_set_fallback b k : good S k -> good S (PSetFallback b k)
  | gd_set_caching b k : good S k -> good S (PSetCaching b k)
  | gd_lookup t key k : (forall o b, (forall e, o = Some e -> entry e) -> good S (k o b)) -> good S (PLookup t key k)
  | gd_look_format t key vals k : (S -> values_allowed P vals) -> (forall x, (S -> forall r, x = inl r -> ok r) -> good S (k x)) -> good S (PLookupFormat t key vals k)
  | gd_add b key s t k : allowed P s -> good S k -> good S (PAdd b key s t k)
  | gd_put b t key fm k : entry (CFormatter fm) -> good S k -> good S (PPut b t key fm k)
  | gd_use t key vals k : (S -> values_allowed P vals) -> (forall r, (S -> ok r) -> good S (k r)) -> good S (PUse t key vals k).

  Lemma fail_ok (S : Prop) (r : text) : (forall x, r <> Ok x) -> S -> ok r.
  Proof. intros H _. now apply fail_allowed. Qed.
  Lemma string_ok (S : Prop) s t : allowed P s -> S -> ok (Ok (s, t)).
  Proof. intros H _ x t' [= <- _]. exact H. Qed.
  Lemma format_good (S : Prop) c i vals t fb ca (k : text -> prog) : (S -> values_allowed P vals) -> (forall r, (S -> ok r) -> good S (k r)) ->
    good S (sync_format E c i vals t fb ca k).
  Proof.
    intros Hv Hk. unfold sync_format. apply gd_look_format; [exact Hv|]. intros [r|b] Hx; [apply Hk; intros HS; exact (Hx HS r eq_refl)|].
    destruct (find_string E c i t fb) as [[s t']| | |] eqn:Ef; try (apply Hk; now apply fail_ok).
    pose proof (found_allowed P E HA _ _ _ _ _ _ Ef) as Hs.
    assert (Hr : good S (if ca then PAdd b (combined c i) s t' (k (Ok (s, t'))) else k (Ok (s, t')))).
    { destruct ca; [apply gd_add; [exact Hs|]|]; apply Hk; now apply string_ok. }
    destruct s as [|x w]; [exact Hr|]. destruct (build t' (x :: w)) as [fm|e| |] eqn:Eb; try (apply Hk; now apply fail_ok).
    - assert (He : entry (CFormatter fm)) by (exists t', (x :: w), fm; repeat (split; [assumption|]); apply af_fresh). destruct ca.
      + apply gd_put; [exact He|]. apply gd_use; [exact Hv|exact Hk].
      + apply Hk. intros HS. exact (proj2 (run_allowed P E HA fm vals He) (Hv HS)).
    - destruct e; try (apply Hk; now apply fail_ok). exact Hr.
  Qed.
  Lemma literal_good (S : Prop) c i t fb ca (k : text -> prog) : (forall r, (S -> ok r) -> good S (k r)) -> good S (sync_literal E c i t fb ca k).
  Proof.
    intros Hk. unfold sync_literal. apply gd_lookup. intros [[s1 t1|fm]|] b Ho.
    - apply Hk. apply string_ok. exact (Ho _ eq_refl).
    - apply Hk. now apply fail_ok.
    - destruct (find_string E c i t fb) as [[s t']| | |] eqn:Ef; try (apply Hk; now apply fail_ok).
      pose proof (found_allowed P E HA _ _ _ _ _ _ Ef) as Hs. destruct ca; [apply gd_add; [exact Hs|]|]; apply Hk; now apply string_ok.
  Qed.
  Lemma data_good (S : Prop) t fb ca : forall d (k : text -> prog), (S -> value_allowed P (VData d)) -> (forall r, (S -> ok r) -> good S (k r)) -> good S (sync_data E d t fb ca k).
  Proof.
    fix IH 1. intros [c i [vs|]] k Hd Hk; cbn [sync_data].
    - assert (Hvs : S -> forall ph v, In (ph, v) vs -> value_allowed P v) by (intros HS ph v Hi; exact (inner_allowed P c i vs ph v (Hd HS) Hi)). clear Hd.
      assert (Hn : S -> values_allowed P []) by (intros _ ph v [=]). revert Hn. generalize (@nil (ustr * pvalue)) as new.
      induction vs as [|[ph v] vs IHvs]; intros new Hn.
      + apply format_good; [exact Hn|exact Hk].
      + assert (Hr : S -> forall ph0 v0, In (ph0, v0) vs -> value_allowed P v0) by (intros HS ph0 v0 Hi; apply (Hvs HS ph0 v0); now right).
        specialize (IHvs Hr). assert (Hv : S -> value_allowed P v) by (intros HS; apply (Hvs HS ph v); now left).
        assert (Hi : forall v', (S -> value_allowed P v') -> S -> values_allowed P (minsert ph v' new)) by (intros v' H HS; exact (insert_allowed P new ph v' (Hn HS) (H HS))).
        destruct v; try (apply IHvs; apply Hi; exact Hv). apply IH; [exact Hv|]. intros [[s t']| | |] Hs; try (apply Hk; now apply fail_ok).
        apply IHvs. apply Hi. intros HS. apply localised_allowed. exact (Hs HS s t' eq_refl).
    - apply literal_good. exact Hk.
  Qed.
  Lemma finish_good (S : Prop) r : (S -> ok r) -> good S (finish r).
  Proof. intros H. apply gd_ret. intros HS x t [= ->]. exact (H HS x t eq_refl). Qed.
  Lemma call_good c : good (call_allowed P c) (sync_call E c).
  Proof.
    pose proof finish_good as Hf. destruct c; cbn [sync_call call_allowed]; repeat (first [apply gd_tag; intros ? | apply gd_fallback; intros ? | apply gd_caching; intros ?]).
    - apply format_good; auto.
    - apply format_good; auto.
    - apply literal_good; auto.
    - apply literal_good; auto.
    - apply data_good; auto.
    - apply data_good; auto.
    - assert (H0 : good True (PRet None)) by (apply gd_ret; intros _ x t [=]).
      assert (H1 : forall ca : option bool, good True (match ca with Some b => PSetCaching b (PRet None) | None => PRet None end))
        by (intros [b|]; [apply gd_set_caching|]; exact H0).
      assert (H2 : forall (f : option bool) (p : prog), good True p -> good True (match f with Some b => PSetFallback b p | None => p end))
        by (intros [b|] p Hp; [apply gd_set_fallback|]; exact Hp).
      destruct tag as [t|]; [|apply H2; apply H1]. apply gd_set_tag. apply gd_hold. intros t'. apply gd_script. apply H2. apply H1.
  Qed.

  (** ** Steps *)
  Lemma panic_good S : good S (PRet (Some Panic)).
  Proof. apply gd_ret. intros _ x t [=]. Qed.
  Lemma use_good (S : Prop) g t key fm vals : cache (sy_ls g) -> entry (CFormatter fm) -> (S -> values_allowed P vals) ->
    cache (sy_ls (fst (use_formatter E g t key fm vals))) /\ (S -> ok (snd (use_formatter E g t key fm vals))).
  Proof.
    intros Hc He Hv. unfold use_formatter. destruct (is_bad g t key); [split; [exact Hc|now apply fail_ok]|].
    destruct (run_allowed P E HA fm vals He) as (H1 & H2). destruct (run_formatter E fm vals) as [fm' r]. cbn [fst snd sy_ls] in *. split; [|auto].
    exact (put_allowed P E _ _ _ _ _ Hc (put_formatter_put (sy_ls g) t key fm') H1).
  Qed.
  Lemma insertion_good (S : Prop) g b t key o (k : prog) : cache (sy_ls g) -> (forall st, o = Some st -> cache st) -> good S k ->
    cache (sy_ls (fst (insertion g b t key o k))) /\ good S (snd (insertion g b t key o k)).
  Proof. intros Hc Ho Hk. unfold insertion. destruct o as [st|]; cbn [fst snd sy_ls]; [auto|]. split; [exact Hc|apply panic_good]. Qed.
  Lemma add_good st b key s t st' : cache st -> allowed P s -> add_string_to_cache st b key s t = Some st' -> cache st'.
  Proof.
    intros Hc Hs H. apply (put_allowed P E st t key (CLocalised s t)); [exact Hc| |exact Hs]. unfold add_string_to_cache in H. destruct b; cbn [negb] in H.
    - destruct (mget t (ls_cache st)) as [m|] eqn:Em; [|discriminate H]. injection H as <-. now apply put_old.
    - injection H as <-. apply put_new.
  Qed.
  Lemma insert_good st b t key fm st' : cache st -> entry (CFormatter fm) -> insert_formatter st b t key fm = Some st' -> cache st'.
  Proof.
    intros Hc He H. apply (put_allowed P E st t key (CFormatter fm)); [exact Hc| |exact He]. unfold insert_formatter in H. destruct b; cbn [negb] in H.
    - destruct (mget t (ls_cache st)) as [m|] eqn:Em; [|discriminate H]. injection H as <-. now apply put_old.
    - injection H as <-. apply put_new.
  Qed.
  Lemma prog_good (S : Prop) p g g' p' : good S p -> cache (sy_ls g) -> prog_step E p g = Some (g', p') -> cache (sy_ls g') /\ good S p'.
  Proof.
    intros Hp Hc Hs. assert (Hset : forall fb ca t s, cache (settings (sy_ls g) fb ca t s)) by (intros fb ca t s; exact Hc).
    destruct Hp as [r Hr|k Hk|k Hk|k Hk|t k Hk|k Hk|s k Hk|b k Hk|b k Hk|t key k Hk|t key vals k Hv Hk|b key s t k Hs0 Hk|b t key fm k He Hk|t key vals k Hv Hk]; cbn [prog_step] in Hs.
    - discriminate Hs.
    - injection Hs as <- <-. auto.
    - injection Hs as <- <-. auto.
    - injection Hs as <- <-. auto.
    - destruct (sy_readers g); [|discriminate Hs]. injection Hs as <- <-. split; [apply Hset|exact Hk].
    - injection Hs as <- <-. auto.
    - injection Hs as <- <-. split; [apply Hset|exact Hk].
    - injection Hs as <- <-. split; [apply Hset|exact Hk].
    - injection Hs as <- <-. split; [apply Hset|exact Hk].
    - destruct (sy_poisoned g); injection Hs as <- <-; [split; [exact Hc|apply panic_good]|]. split; [exact Hc|]. apply Hk. intros e He. exact (Hc _ _ _ He).
    - destruct (sy_poisoned g); [injection Hs as <- <-; split; [exact Hc|apply panic_good]|]. destruct (cached (sy_ls g) t key) as [[s1 t1|fm]|] eqn:Ec.
      + injection Hs as <- <-. split; [exact Hc|]. apply Hk. intros _ r [= <-]. intros x t' [= <- _]. exact (Hc _ _ _ Ec).
      + destruct (use_good S g t key fm vals Hc (Hc _ _ _ Ec) Hv) as (G1 & G2). destruct (use_formatter E g t key fm vals) as [g1 r1]. injection Hs as <- <-. cbn [fst snd] in *.
        split; [exact G1|]. apply Hk. intros HS r [= <-]. exact (G2 HS).
      + injection Hs as <- <-. split; [exact Hc|]. apply Hk. intros _ r [=].
    - destruct (sy_poisoned g); [injection Hs as <- <-; split; [exact Hc|apply panic_good]|].
      pose proof (insertion_good S g (negb b) t key (add_string_to_cache (sy_ls g) b key s t) k Hc (fun st' H => add_good _ _ _ _ _ _ Hc Hs0 H) Hk) as G.
      destruct (insertion g _ _ _ _ _). injection Hs as <- <-. exact G.
    - destruct (sy_poisoned g); [injection Hs as <- <-; split; [exact Hc|apply panic_good]|].
      pose proof (insertion_good S g (negb b) t key (insert_formatter (sy_ls g) b t key fm) k Hc (fun st' H => insert_good _ _ _ _ _ _ Hc He H) Hk) as G.
      destruct (insertion g _ _ _ _ _). injection Hs as <- <-. exact G.
    - destruct (sy_poisoned g); [injection Hs as <- <-; split; [exact Hc|apply panic_good]|]. destruct (cached (sy_ls g) t key) as [[s1 t1|fm]|] eqn:Ec.
      + injection Hs as <- <-. split; [exact Hc|]. apply Hk. now apply fail_ok.
      + destruct (use_good S g t key fm vals Hc (Hc _ _ _ Ec) Hv) as (G1 & G2). destruct (use_formatter E g t key fm vals) as [g1 r1]. injection Hs as <- <-. cbn [fst snd] in *. auto.
      + injection Hs as <- <-. split; [exact Hc|apply panic_good].
  Qed.

  (** ** Threads *)
  Definition done_allowed (x : lcall * option text) : Prop := call_allowed P (fst x) -> result_allowed P (snd x).
  Definition thread_good (a : @sthread PE) : Prop :=
    Forall done_allowed (th_done a) /\ forall c p, th_now a = Some (c, p) -> good (call_allowed P c) p.
  Definition sys_good (x : @sys PE) : Prop := cache (sy_ls (sys_state x)) /\ Forall thread_good (sys_threads x).
  Lemma thread_step_good g a g' a' : cache (sy_ls g) -> thread_good a -> thread_step E g a = Some (g', a') -> cache (sy_ls g') /\ thread_good a'.
  Proof.
    intros Hc (Hd & Hn) H. unfold thread_step in H. destruct a as [done now todo]. cbn [th_done th_now th_todo] in *. destruct now as [[c p]|].
    - specialize (Hn c p eq_refl). assert (Hgo : match prog_step E p g with None => None | Some (g1, p1) => Some (g1, mk_sthread done (Some (c, p1)) todo) end = Some (g', a') ->
        cache (sy_ls g') /\ thread_good a').
      { destruct (prog_step E p g) as [[g1 p1]|] eqn:Ep; [|discriminate]. intros [= <- <-]. destruct (prog_good _ p g g1 p1 Hn Hc Ep) as (G1 & G2).
        split; [exact G1|]. split; [exact Hd|]. intros c0 p0 [= <- <-]. exact G2. }
      destruct Hn as [r Hr|?|?|?|?|?|?|?|?|?|?|?|?|?]; try exact (Hgo H). clear Hgo. injection H as <- <-. split; [exact Hc|]. split; [|discriminate].
      apply Forall_app. split; [exact Hd|]. constructor; [exact Hr|constructor].
    - destruct todo as [|c todo]; [discriminate H|]. injection H as <- <-. split; [exact Hc|]. split; [exact Hd|]. intros c0 p0 [= <- <-]. apply call_good.
  Qed.
  Lemma sys_step_good x i x' : sys_good x -> sys_step E x i = Some x' -> sys_good x'.
  Proof.
    intros (Hc & Ht) H. unfold sys_step in H. destruct (nth_error (sys_threads x) i) as [a|] eqn:Ea; [|discriminate H].
    destruct (thread_step E (sys_state x) a) as [[g a']|] eqn:Es; [|discriminate H]. injection H as <-.
    assert (Ha : thread_good a) by (rewrite Forall_forall in Ht; apply Ht; exact (nth_error_In _ _ Ea)).
    destruct (thread_step_good _ _ _ _ Hc Ha Es) as (G1 & G2). split; [exact G1|]. cbn [sys_threads]. apply Forall_forall. intros b Hb. apply In_nth_error in Hb as (j & Hj).
    assert (Li : i < List.length (sys_threads x)) by (apply nth_error_Some; congruence). destruct (Nat.eq_dec i j) as [<-|N].
    - rewrite lset_nth_eq in Hj by exact Li. injection Hj as <-. exact G2.
    - rewrite lset_nth_ne in Hj by exact N. rewrite Forall_forall in Ht. apply Ht. exact (nth_error_In _ _ Hj).
  Qed.
  Theorem threads_allowed fallback caching tag h calls sch a c r :
    In a (sys_threads (sys_run E (sys_start (lrun E (localiser_new E fallback caching tag) h) calls) sch)) -> In (c, r) (th_done a) -> call_allowed P c -> result_allowed P r.
  Proof.
    assert (Hs : sys_good (sys_start (PE := PE) (lrun E (localiser_new E fallback caching tag) h) calls)).
    { split; [apply (history_allowed P E HA); apply new_allowed|]. cbn [sys_threads sys_start]. apply Forall_forall. intros b Hb. apply in_map_iff in Hb as (l & <- & _). split; [constructor|discriminate]. }
    revert Hs. generalize (sys_start (PE := PE) (lrun E (localiser_new E fallback caching tag) h) calls) as x. induction sch as [|i sch IH]; intros x Hx Ha Hi Hc; cbn [sys_run] in Ha.
    - destruct Hx as (_ & Hx). rewrite Forall_forall in Hx. destruct (Hx a Ha) as (Hd & _). rewrite Forall_forall in Hd. exact (Hd (c, r) Hi Hc).
    - refine (IH _ _ Ha Hi Hc). destruct (sys_step E x i) as [x'|] eqn:Es; [exact (sys_step_good _ _ _ Hx Es)|exact Hx].
  Qed.
End Threads.
