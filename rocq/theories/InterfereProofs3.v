(** Threads do not see the values that other threads give (C115). *)
From Verif Require Import Base BaseFacts LexerModel TreeModel TreeSpec ValueModel CommandModel FormatterModel FormatterSpec FormatterProofs4 FormatterProofs5
  RegistryModel LocaliserModel LocaliserSpec LocaliserProofs SyncModel SystemSpec InterfereSpec InterfereProofs.

Section Threads.
  Context {PE : Type}.
  Variable E : lenv PE.
  Hypothesis Hhash : provider_hash_ok E.
  Hypothesis Hreg : commands_calm (le_reg E).
  Local Notation build t s := (formatter_try_new (le_icu E) localiser_grammar (le_fmt E) (le_reg E) t (le_locale E t) s).
  Local Notation text := (outcome (localiser_error PE) (ustr * ustr)).
  Local Notation prog := (@prog PE).

  (** Results: the same if [S], else at least both panics or neither. *)
  Definition agree (S : Prop) (r r' : text) : Prop := (S -> r = r') /\ (r = Panic <-> r' = Panic).
  Definition agree_opt (S : Prop) (r r' : option text) : Prop := (S -> r = r') /\ (r = Some Panic <-> r' = Some Panic).
  Definition agree_look (S : Prop) (x x' : text + bool) : Prop :=
    match x, x' with inl r, inl r' => agree S r r' | inr b, inr b' => b = b' | _, _ => False end.

  Inductive twin (S : Prop) : prog -> prog -> Prop :=
  | tw_ret r r' : agree_opt S r r' -> twin S (PRet r) (PRet r')
  | tw_tag k k' : (forall t, twin S (k t) (k' t)) -> twin S (PTag k) (PTag k')
  | tw_fallback k k' : (forall b, twin S (k b) (k' b)) -> twin S (PFallback k) (PFallback k')
  | tw_caching k k' : (forall b, twin S (k b) (k' b)) -> twin S (PCaching k) (PCaching k')
  | tw_set_tag t k k' : twin S k k' -> twin S (PSetTag t k) (PSetTag t k')
  | tw_hold k k' : (forall t, twin S (k t) (k' t)) -> twin S (PHoldTag k) (PHoldTag k')
  | tw_script s k k' : twin S k k' -> twin S (PSetScript s k) (PSetScript s k')
  | tw_set_fallback b k k' : twin S k k' -> twin S (PSetFallback b k) (PSetFallback b k')
  | tw_set_caching b k k' : twin S k k' -> twin S (PSetCaching b k) (PSetCaching b k')
  | tw_lookup t key k k' : (forall o o' b, opts (twin_entries E) o o' -> twin S (k o b) (k' o' b)) -> twin S (PLookup t key k) (PLookup t key k')
  | tw_look_format t key vals vals' k k' : (S -> vals = vals') -> (forall x x', agree_look S x x' -> twin S (k x) (k' x')) ->
      twin S (PLookupFormat t key vals k) (PLookupFormat t key vals' k')
  | tw_add b key s t k k' : twin S k k' -> twin S (PAdd b key s t k) (PAdd b key s t k')
  | tw_put b t key fm k k' : twin_entries E (CFormatter fm) (CFormatter fm) -> twin S k k' -> twin S (PPut b t key fm k) (PPut b t key fm k')
  | tw_use t key vals vals' k k' : (S -> vals = vals') -> (forall r r', agree S r r' -> twin S (k r) (k' r')) ->
      twin S (PUse t key vals k) (PUse t key vals' k').

  Lemma agree_refl S r : agree S r r.
  Proof. split; tauto. Qed.
  Lemma agree_opt_refl S r : agree_opt S r r.
  Proof. split; tauto. Qed.
  Lemma build_twin c i t fb s t' fm : find_string E c i t fb = Ok (s, t') -> build t' s = Ok fm -> twin_entries E (CFormatter fm) (CFormatter fm).
  Proof.
    intros Ef Eb. destruct (built_content _ _ _ _ _ _ _ _ Eb) as (a & Hc). exists t', s, a, fm. split; [exact Hc|]. split; [|repeat split; auto; apply af_fresh].
    apply find_string_iff in Ef as [Ef|d _ _ _ Ef]; exact (Hhash _ _ _ _ _ _ Ef Hc).
  Qed.
  Lemma twin_calm fm fm' vals : twin_entries E (CFormatter fm) (CFormatter fm') -> snd (run_formatter E fm vals) <> Panic /\ snd (run_formatter E fm' vals) <> Panic.
  Proof.
    intros (t & s & a & fm0 & _ & _ & Hb & H1 & H2). rewrite !run_formatter_result.
    pose proof (safe_format_no_panic _ _ _ _ _ _ _ _ _ vals (le_fuel E) Hreg Hb H1) as G1.
    pose proof (safe_format_no_panic _ _ _ _ _ _ _ _ _ vals (le_fuel E) Hreg Hb H2) as G2.
    split; [destruct (snd (format _ _ _ fm vals))|destruct (snd (format _ _ _ fm' vals))]; cbn; congruence.
  Qed.
  Lemma twin_agree (S : Prop) fm fm' vals vals' : twin_entries E (CFormatter fm) (CFormatter fm') -> (S -> vals = vals') ->
    agree S (snd (run_formatter E fm vals)) (snd (run_formatter E fm' vals')).
  Proof.
    intros H Hv. split.
    - intros K. exact (proj2 (twin_run E fm fm' vals vals' H) (Hv K)).
    - split; intros K; exfalso; [exact (proj1 (twin_calm fm fm' vals H) K)|exact (proj2 (twin_calm fm fm' vals' H) K)].
  Qed.

  (** The programs of calls. *)
  Lemma format_twin (S : Prop) c i vals vals' t fb ca (k k' : text -> prog) : (S -> vals = vals') -> (forall r r', agree S r r' -> twin S (k r) (k' r')) ->
    twin S (sync_format E c i vals t fb ca k) (sync_format E c i vals' t fb ca k').
  Proof.
    intros Hv Hk. unfold sync_format. apply tw_look_format; [exact Hv|]. intros [r|b] [r'|b'] H; cbn in H; try contradiction; [now apply Hk|subst b'].
    assert (Hs : forall r, twin S (k r) (k' r)) by (intros r; apply Hk; apply agree_refl).
    destruct (find_string E c i t fb) as [[s t']| | |] eqn:Ef; auto.
    assert (Hr : twin S (if ca then PAdd b (combined c i) s t' (k (Ok (s, t'))) else k (Ok (s, t'))) (if ca then PAdd b (combined c i) s t' (k' (Ok (s, t'))) else k' (Ok (s, t')))).
    { destruct ca; [apply tw_add; apply Hs|apply Hs]. }
    destruct s as [|x w]; [exact Hr|]. destruct (build t' (x :: w)) as [fm|e| |] eqn:Eb; auto.
    - pose proof (build_twin _ _ _ _ _ _ _ Ef Eb) as Ht. destruct ca.
      + apply tw_put; [exact Ht|]. apply tw_use; [exact Hv|exact Hk].
      + apply Hk. now apply twin_agree.
    - destruct e; auto.
  Qed.
  Lemma literal_twin (S : Prop) c i t fb ca (k k' : text -> prog) : (forall r r', agree S r r' -> twin S (k r) (k' r')) ->
    twin S (sync_literal E c i t fb ca k) (sync_literal E c i t fb ca k').
  Proof.
    intros Hk. assert (Hs : forall r, twin S (k r) (k' r)) by (intros r; apply Hk; apply agree_refl).
    unfold sync_literal. apply tw_lookup. intros [[s1 t1|fm]|] [[s2 t2|fm']|] b H; cbn in H; try contradiction.
    - destruct H as (-> & ->). apply Hs.
    - apply Hs.
    - destruct (find_string E c i t fb) as [[s t']| | |]; auto. destruct ca; [apply tw_add; apply Hs|apply Hs].
  Qed.
  Lemma data_twin (S : Prop) t fb ca : S -> forall d (k k' : text -> prog), (forall r r', agree S r r' -> twin S (k r) (k' r')) ->
    twin S (sync_data E d t fb ca k) (sync_data E d t fb ca k').
  Proof.
    intros HS. fix IH 1. intros [c i [vs|]] k k' Hk; cbn [sync_data].
    - generalize (@nil (ustr * pvalue)) at 1 2. induction vs as [|[ph v] vs IHvs]; intros new.
      + apply format_twin; auto.
      + destruct v; try apply IHvs. apply IH. intros r r' (Hr & _). rewrite <- (Hr HS). destruct r as [[s t']| | |]; [apply IHvs|apply Hk; apply agree_refl ..].
    - now apply literal_twin.
  Qed.
  Definition gathered (vs : list (ustr * pvalue)) (new : amap pvalue) : amap pvalue := fold_left (fun m x => minsert (fst x) (snd x) m) vs new.
  Lemma flat_sync c i t fb ca (k : text -> prog) vs : (forall ph v, In (ph, v) vs -> forall d, v <> VData d) ->
    sync_data E (LData c i (Some vs)) t fb ca k = sync_format E c i (gathered vs []) t fb ca k.
  Proof.
    cbn [sync_data]. generalize (@nil (ustr * pvalue)) as new. induction vs as [|[ph v] vs IH]; intros new Hv; [reflexivity|].
    pose proof (Hv ph v (or_introl eq_refl)) as Hp. cbn [gathered fold_left fst snd].
    specialize (IH (minsert ph v new) (fun ph' v' Hi => Hv ph' v' (or_intror Hi))). destruct v; try exact IH. now destruct (Hp d).
  Qed.
  Lemma data_other (S : Prop) t fb ca d d' (k k' : text -> prog) : (S -> d = d') -> same_shape d d' -> flat d -> flat d' ->
    (forall r r', agree S r r' -> twin S (k r) (k' r')) -> twin S (sync_data E d t fb ca k) (sync_data E d' t fb ca k').
  Proof.
    intros HS Hs Hd Hd' Hk. destruct Hs as [c i|c i vs vs' _].
    - now apply literal_twin.
    - rewrite (flat_sync c i t fb ca k vs Hd), (flat_sync c i t fb ca k' vs' Hd'). apply format_twin; [|exact Hk]. intros K. injection (HS K) as ->. reflexivity.
  Qed.
  Lemma finish_twin S r r' : agree S r r' -> twin S (finish r) (finish r').
  Proof.
    intros (H1 & H2). apply tw_ret. split; [intros K; now rewrite (H1 K)|]. split; intros [= K]; f_equal; now apply H2.
  Qed.
  Lemma same_twin (S : Prop) c : S -> twin S (sync_call E c) (sync_call E c).
  Proof.
    intros HS. pose proof (finish_twin S) as Hf. destruct c; cbn [sync_call]; repeat (first [apply tw_tag; intros ? | apply tw_fallback; intros ? | apply tw_caching; intros ?]).
    - apply format_twin; auto.
    - apply format_twin; auto.
    - apply literal_twin; auto.
    - apply literal_twin; auto.
    - apply data_twin; auto.
    - apply data_twin; auto.
    - assert (H0 : twin S (PRet None) (PRet None)) by (apply tw_ret; apply agree_opt_refl).
      assert (H1 : forall ca : option bool, let p := match ca with Some b => PSetCaching b (PRet None) | None => PRet None end in twin S p p)
        by (intros [b|]; [apply tw_set_caching|]; exact H0).
      assert (H2 : forall (f : option bool) (p : prog), twin S p p -> let q := match f with Some b => PSetFallback b p | None => p end in twin S q q)
        by (intros [b|] p Hp; [apply tw_set_fallback|]; exact Hp).
      destruct tag as [t|]; [|apply H2; apply H1]. apply tw_set_tag. apply tw_hold. intros t'. apply tw_script. apply H2. apply H1.
  Qed.
  Lemma call_twin c c' : pair_like c c' -> twin (c = c') (sync_call E c) (sync_call E c').
  Proof.
    intros [->|(Ho & Hf & Hf')]; [now apply same_twin|].
    destruct Ho as [c|c i vals vals' t f ca|c i vals vals'|d d' t f ca Hs|d d' Hs]; cbn [call_flat] in *.
    - now apply same_twin.
    - cbn [sync_call]. apply tw_fallback. intros fb. apply tw_caching. intros cb. apply format_twin; [congruence|apply finish_twin].
    - cbn [sync_call]. apply tw_tag. intros t. apply tw_fallback. intros fb. apply tw_caching. intros cb. apply format_twin; [congruence|apply finish_twin].
    - cbn [sync_call]. apply tw_fallback. intros fb. apply tw_caching. intros cb. apply data_other; auto; [congruence|apply finish_twin].
    - cbn [sync_call]. apply tw_tag. intros t. apply tw_fallback. intros fb. apply tw_caching. intros cb. apply data_other; auto; [congruence|apply finish_twin].
  Qed.

  (** ** Steps *)
  Definition states (g g' : systate) : Prop :=
    alike E (sy_ls g) (sy_ls g') /\ sy_readers g = sy_readers g' /\ sy_poisoned g = sy_poisoned g' /\ sy_bad g = sy_bad g'.
  Definition stepped (S : Prop) (o o' : option (systate * prog)) : Prop :=
    match o, o' with Some (g, p), Some (g', p') => states g g' /\ twin S p p' | None, None => True | _, _ => False end.
  Lemma panic_twin S : twin S (PRet (Some Panic)) (PRet (Some Panic)).
  Proof. apply tw_ret. apply agree_opt_refl. Qed.
  Lemma use_twin (S : Prop) g g' t key fm fm' vals vals' : states g g' -> twin_entries E (CFormatter fm) (CFormatter fm') -> (S -> vals = vals') ->
    states (fst (use_formatter E g t key fm vals)) (fst (use_formatter E g' t key fm' vals')) /\
    agree S (snd (use_formatter E g t key fm vals)) (snd (use_formatter E g' t key fm' vals')).
  Proof.
    intros Hg He Hv. pose proof Hg as (H1 & H2 & H3 & H4). unfold use_formatter, is_bad. rewrite <- H4.
    destruct (existsb _ (sy_bad g)); [split; [exact Hg|apply agree_refl]|].
    pose proof (twin_run E fm fm' vals vals' He) as (G1 & _). pose proof (twin_agree S fm fm' vals vals' He Hv) as G2.
    pose proof (proj1 (twin_calm fm fm' vals He)) as P1. pose proof (proj2 (twin_calm fm fm' vals' He)) as P2.
    destruct (run_formatter E fm vals) as [f1 r1], (run_formatter E fm' vals') as [f2 r2]. cbn [fst snd] in *. split; [|exact G2].
    unfold states. cbn [sy_ls sy_readers sy_poisoned sy_bad]. split; [now apply alike_put_formatter|]. repeat (split; [assumption|]).
    destruct r1, r2; cbn; congruence.
  Qed.
  Lemma insertion_twin (S : Prop) g g' b t key o o' (k k' : prog) : states g g' -> opts (alike E) o o' -> twin S k k' ->
    states (fst (insertion g b t key o k)) (fst (insertion g' b t key o' k')) /\ twin S (snd (insertion g b t key o k)) (snd (insertion g' b t key o' k')).
  Proof.
    intros (H1 & H2 & H3 & H4) Ho Hk. unfold insertion, states, replaced. rewrite <- H4. destruct o as [st|], o' as [st'|]; cbn in Ho; try contradiction; cbn [fst snd sy_ls sy_readers sy_poisoned sy_bad].
    - auto 6.
    - split; [auto 6|]. apply panic_twin.
  Qed.
  Lemma add_twin st st' b key s t : alike E st st' -> opts (alike E) (add_string_to_cache st b key s t) (add_string_to_cache st' b key s t).
  Proof.
    intros Ha. unfold add_string_to_cache. destruct b; cbn [negb].
    - pose proof Ha as (_ & _ & _ & _ & Hm). pose proof (maps_get _ t _ _ Hm) as H.
      destruct (mget t (ls_cache st)), (mget t (ls_cache st')); cbn in H; try contradiction; [|exact Logic.I]. cbn [opts].
      apply alike_put; [exact Ha|]. apply maps_insert; [now split|exact H].
    - cbn [opts]. apply alike_put; [exact Ha|]. apply maps_one. now split.
  Qed.
  Lemma insert_twin st st' b t key fm : alike E st st' -> twin_entries E (CFormatter fm) (CFormatter fm) ->
    opts (alike E) (insert_formatter st b t key fm) (insert_formatter st' b t key fm).
  Proof.
    intros Ha He. unfold insert_formatter. destruct b; cbn [negb].
    - pose proof Ha as (_ & _ & _ & _ & Hm). pose proof (maps_get _ t _ _ Hm) as H.
      destruct (mget t (ls_cache st)), (mget t (ls_cache st')); cbn in H; try contradiction; [|exact Logic.I]. cbn [opts].
      apply alike_put; [exact Ha|]. apply maps_insert; [exact He|exact H].
    - cbn [opts]. apply alike_put; [exact Ha|]. now apply maps_one.
  Qed.
  Lemma settings_twin g g' fb ca t s : states g g' -> alike E (settings (sy_ls g) fb ca t s) (settings (sy_ls g') fb ca t s).
  Proof. intros ((H1 & H2 & H3 & H4 & Hm) & _). unfold alike, settings. cbn. auto 6. Qed.

  Lemma step_twin (S : Prop) p p' g g' : twin S p p' -> states g g' -> stepped S (prog_step E p g) (prog_step E p' g').
  Proof.
    intros Ht Hg. pose proof Hg as ((A1 & A2 & A3 & A4 & Am) & H2 & H3 & H4). pose proof (proj1 Hg) as Ha.
    destruct Ht as [r r' Hr|k k' Hk|k k' Hk|k k' Hk|t k k' Hk|k k' Hk|s k k' Hk|b k k' Hk|b k k' Hk|t key k k' Hk|t key vals vals' k k' Hv Hk|b key s t k k' Hk|b t key fm k k' He Hk|t key vals vals' k k' Hv Hk]; cbn [prog_step].
    - exact Logic.I.
    - rewrite <- A3. split; [exact Hg|apply Hk].
    - rewrite <- A1. split; [exact Hg|apply Hk].
    - rewrite <- A2. split; [exact Hg|apply Hk].
    - rewrite <- H2. destruct (sy_readers g) as [|n] eqn:En; [|exact Logic.I]. split; [|exact Hk]. rewrite <- A1, <- A2, <- A4. unfold states, with_ls. cbn. 
      split; [now apply settings_twin|]. rewrite <- H2, <- H3, <- H4, En. auto.
    - rewrite <- A3. split; [|apply Hk]. unfold states. cbn. rewrite H2. auto.
    - split; [|exact Hk]. rewrite <- A1, <- A2, <- A3. unfold states. cbn. rewrite H2. split; [now apply settings_twin|auto].
    - split; [|exact Hk]. rewrite <- A2, <- A3, <- A4. unfold states, with_ls. cbn. split; [now apply settings_twin|auto].
    - split; [|exact Hk]. rewrite <- A1, <- A3, <- A4. unfold states, with_ls. cbn. split; [now apply settings_twin|auto].
    - rewrite <- H3. destruct (sy_poisoned g); [split; [exact Hg|apply panic_twin]|]. rewrite <- (alike_has E _ _ t Ha). split; [exact Hg|]. apply Hk. now apply alike_cached.
    - rewrite <- H3. destruct (sy_poisoned g); [split; [exact Hg|apply panic_twin]|]. pose proof (alike_cached E _ _ t key Ha) as Hc.
      destruct (cached (sy_ls g) t key) as [[s1 t1|fm]|], (cached (sy_ls g') t key) as [[s2 t2|fm']|]; cbn [opts twin_entries] in Hc; try contradiction.
      + destruct Hc as (-> & ->). split; [exact Hg|]. apply Hk. cbn. apply agree_refl.
      + destruct (use_twin S g g' t key fm fm' vals vals' Hg Hc Hv) as (G1 & G2). destruct (use_formatter E g t key fm vals), (use_formatter E g' t key fm' vals').
        cbn [fst snd] in *. split; [exact G1|]. apply Hk. exact G2.
      + rewrite <- (alike_has E _ _ t Ha). split; [exact Hg|]. apply Hk. reflexivity.
    - rewrite <- H3. destruct (sy_poisoned g); [split; [exact Hg|apply panic_twin]|].
      pose proof (insertion_twin S g g' (negb b) t key _ _ k k' Hg (add_twin _ _ b key s t Ha) Hk) as G.
      destruct (insertion g _ _ _ _ _), (insertion g' _ _ _ _ _). exact G.
    - rewrite <- H3. destruct (sy_poisoned g); [split; [exact Hg|apply panic_twin]|].
      pose proof (insertion_twin S g g' (negb b) t key _ _ k k' Hg (insert_twin _ _ b t key fm Ha He) Hk) as G.
      destruct (insertion g _ _ _ _ _), (insertion g' _ _ _ _ _). exact G.
    - rewrite <- H3. destruct (sy_poisoned g); [split; [exact Hg|apply panic_twin]|]. pose proof (alike_cached E _ _ t key Ha) as Hc.
      destruct (cached (sy_ls g) t key) as [[s1 t1|fm]|], (cached (sy_ls g') t key) as [[s2 t2|fm']|]; cbn [opts twin_entries] in Hc; try contradiction.
      + split; [exact Hg|]. apply Hk. apply agree_refl.
      + destruct (use_twin S g g' t key fm fm' vals vals' Hg Hc Hv) as (G1 & G2). destruct (use_formatter E g t key fm vals), (use_formatter E g' t key fm' vals').
        cbn [fst snd] in *. split; [exact G1|]. apply Hk. exact G2.
      + split; [exact Hg|apply panic_twin].
  Qed.

  (** ** Threads *)
  Section Q.
    Variable Q : nat -> lcall -> lcall -> Prop.
    Hypothesis HQ : forall i c c', Q i c c' -> pair_like c c'.
    Definition both_done (q : lcall -> lcall -> Prop) (x y : lcall * option text) : Prop := q (fst x) (fst y) /\ (fst x = fst y -> snd x = snd y).
    Definition now_like (q : lcall -> lcall -> Prop) (x y : lcall * prog) : Prop := q (fst x) (fst y) /\ twin (fst x = fst y) (snd x) (snd y).
    Definition thread_like (q : lcall -> lcall -> Prop) (a b : @sthread PE) : Prop :=
      Forall2 (both_done q) (th_done a) (th_done b) /\
      match th_now a, th_now b with Some x, Some y => now_like q x y | None, None => True | _, _ => False end /\
      Forall2 q (th_todo a) (th_todo b).
    Definition sys_like (x y : @sys PE) : Prop := states (sys_state x) (sys_state y) /\ List.length (sys_threads x) = List.length (sys_threads y) /\
      forall i a b, nth_error (sys_threads x) i = Some a -> nth_error (sys_threads y) i = Some b -> thread_like (Q i) a b.

    Lemma thread_twin i g g' a b : states g g' -> thread_like (Q i) a b ->
      match thread_step E g a, thread_step E g' b with
      | Some (h, a'), Some (h', b') => states h h' /\ thread_like (Q i) a' b'
      | None, None => True
      | _, _ => False
      end.
    Proof.
      intros Hg (Hd & Hn & Ht). unfold thread_step. destruct a as [da na ta], b as [db nb tb]. cbn [th_done th_now th_todo] in *.
      destruct na as [[c p]|], nb as [[c' p']|]; try contradiction.
      - destruct Hn as (Hq & Hp). cbn [fst snd] in Hq, Hp. pose proof (step_twin _ p p' g g' Hp Hg) as G.
        assert (Hgo : match match prog_step E p g with None => None | Some (g1, p1) => Some (g1, mk_sthread da (Some (c, p1)) ta) end,
          match prog_step E p' g' with None => None | Some (g1, p1) => Some (g1, mk_sthread db (Some (c', p1)) tb) end with
          | Some (h, a'), Some (h', b') => states h h' /\ thread_like (Q i) a' b' | None, None => True | _, _ => False end).
        { destruct (prog_step E p g) as [[g1 p1]|], (prog_step E p' g') as [[g2 p2]|]; cbn in G; try contradiction; [|exact Logic.I].
          destruct G as (G1 & G2). split; [exact G1|]. repeat split; auto. }
        clear G. destruct Hp as [r r' (R1 & R2)|?|?|?|?|?|?|?|?|?|?|?|?|?]; try exact Hgo. clear Hgo.
        split; [exact Hg|]. split; [|split; [exact Logic.I|]]; cbn [th_done th_todo].
        + apply Forall2_app; [exact Hd|]. constructor; [|constructor]. split; assumption.
        + destruct r as [[x|e| |]|], r' as [[x'|e'| |]|]; try exact Ht; try constructor;
            try (pose proof (proj1 R2 eq_refl) as K; discriminate K); try (pose proof (proj2 R2 eq_refl) as K; discriminate K).
      - destruct Ht as [|c c' ta tb Hc Ht]; [exact Logic.I|]. split; [exact Hg|]. split; [exact Hd|]. split; [|exact Ht]. cbn. split; [exact Hc|].
        cbn. apply call_twin. exact (HQ i _ _ Hc).
    Qed.
    Lemma sys_twin x y i : sys_like x y ->
      sys_like (match sys_step E x i with Some x' => x' | None => x end) (match sys_step E y i with Some y' => y' | None => y end).
    Proof.
      intros H. pose proof H as (Hg & Hl & Ht). unfold sys_step.
      destruct (nth_error (sys_threads x) i) as [a|] eqn:Ea, (nth_error (sys_threads y) i) as [b|] eqn:Eb.
      - specialize (Ht i a b Ea Eb) as Hab. pose proof (thread_twin i _ _ a b Hg Hab) as G.
        destruct (thread_step E (sys_state x) a) as [[g1 a1]|], (thread_step E (sys_state y) b) as [[g2 b1]|]; cbn in G; try contradiction; [|exact H].
        destruct G as (G1 & G2). split; [exact G1|]. cbn [sys_threads]. split; [now rewrite !lset_length|].
        assert (Li : i < List.length (sys_threads x)) by (apply nth_error_Some; congruence).
        intros j a' b' Ha Hb. destruct (Nat.eq_dec i j) as [<-|N].
        + rewrite lset_nth_eq in Ha by exact Li. rewrite lset_nth_eq in Hb by (rewrite <- Hl; exact Li). congruence.
        + rewrite lset_nth_ne in Ha, Hb by exact N. exact (Ht j a' b' Ha Hb).
      - apply nth_error_None in Eb. assert (i < List.length (sys_threads x)) by (apply nth_error_Some; congruence). lia.
      - apply nth_error_None in Ea. assert (i < List.length (sys_threads y)) by (apply nth_error_Some; congruence). lia.
      - exact H.
    Qed.
    Lemma run_twin sch : forall x y, sys_like x y -> sys_like (sys_run E x sch) (sys_run E y sch).
    Proof. induction sch as [|i sch IH]; intros x y H; [exact H|]. cbn [sys_run]. apply IH. now apply sys_twin. Qed.
  End Q.

  Theorem threads_blind fallback caching tag h h' calls calls' sch : let st := localiser_new E fallback caching tag in
    differ_in_values E st st h h' -> Forall2 (Forall2 pair_like) calls calls' ->
    let x := sys_run E (sys_start (lrun E st h) calls) sch in let y := sys_run E (sys_start (lrun E st h') calls') sch in
    List.length (sys_threads x) = List.length (sys_threads y) /\
    forall i a b, nth_error (sys_threads x) i = Some a -> nth_error (sys_threads y) i = Some b ->
      Forall2 (fun u v => fst u = fst v -> snd u = snd v) (th_done a) (th_done b) /\ (nth_error calls i = nth_error calls' i -> th_done a = th_done b).
  Proof.
    intros st Hd Hc x y. set (Q := fun i c c' => pair_like c c' /\ (nth_error calls i = nth_error calls' i -> c = c')).
    assert (HQ : forall i c c', Q i c c' -> pair_like c c') by (intros i c c' (H & _); exact H).
    assert (Hs : sys_like Q (sys_start (lrun E st h) calls) (sys_start (lrun E st h') calls')).
    { assert (Hl : List.length calls = List.length calls') by (clear -Hc; induction Hc; cbn; auto).
      split; [|split].
      - repeat split; cbn; auto; destruct (alike_run E Hhash st st h h' Hd) as (A1 & A2 & A3 & A4 & Am); auto; repeat (split; [reflexivity|]); constructor.
      - cbn. rewrite !map_length. exact Hl.
      - intros i a b Ha Hb. cbn in Ha, Hb. rewrite nth_error_map in Ha, Hb.
        destruct (nth_error calls i) as [l|] eqn:El; [|discriminate Ha]. destruct (nth_error calls' i) as [l'|] eqn:El'; [|discriminate Hb].
        injection Ha as <-. injection Hb as <-. split; [constructor|]. split; [exact Logic.I|]. cbn [th_todo].
        assert (Hll : Forall2 pair_like l l').
        { clear -Hc El El'. revert i El El'. induction Hc as [|u v us0 vs0 H _ IH]; intros [|i] E1 E2; cbn in E1, E2; try discriminate E1; [congruence|exact (IH i E1 E2)]. }
        assert (Hcond : (nth_error calls i = nth_error calls' i) -> l = l') by (intros K; congruence).
        unfold Q. clear -Hll Hcond. revert Hcond. generalize (nth_error calls i = nth_error calls' i) as X. intros X Hcond.
        induction Hll as [|u v us0 vs0 H _ IH]; constructor.
        + split; [exact H|]. intros K. specialize (Hcond K). congruence.
        + apply IH. intros K. specialize (Hcond K). congruence. }
    pose proof (run_twin Q HQ sch _ _ Hs) as (_ & Hl & Ht). split; [exact Hl|]. intros i a b Ha Hb. destruct (Ht i a b Ha Hb) as (Hdone & _). split.
    - clear -Hdone. induction Hdone as [|u v us0 vs0 (_ & H) _ IH]; constructor; auto.
    - intros K. clear -Hdone K. induction Hdone as [|u v us0 vs0 ((_ & H1) & H2) _ IH]; [reflexivity|]. f_equal; [|exact IH].
      destruct u, v. cbn in *. specialize (H1 K). specialize (H2 H1). congruence.
  Qed.
End Threads.
