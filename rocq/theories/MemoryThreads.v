(** C91 for threads that use one localiser: every entry of the cache comes from a request, under every schedule. *)
From Verif Require Import Base BaseFacts LexerModel TreeModel ValueModel CommandModel FormatterModel FormatterSpec
  RegistryModel LocaliserModel LocaliserSpec LocaliserProofs SyncModel SyncSpec MemorySpec MemoryProofs.

Section Threads.
  Context {PE : Type}.
  Variable E : lenv PE.
  Variables (rs : list request) (T : list ustr) (F : list bool).
  Local Notation build t s := (formatter_try_new (le_icu E) localiser_grammar (le_fmt E) (le_reg E) t (le_locale E t) s).
  Local Notation text := (outcome (localiser_error PE) (ustr * ustr)).
  Local Notation prog := (@prog PE).
  Local Notation cache := (cache_ok E rs).
  Local Notation entry := (entry_from E rs).

  (** A program that puts into the cache only what comes from a request, and sets only the settings listed. *)
  Inductive tame : prog -> Prop :=
  | tm_ret r : tame (PRet r)
  | tm_tag k : (forall t, In t T -> tame (k t)) -> tame (PTag k)
  | tm_fallback k : (forall b, In b F -> tame (k b)) -> tame (PFallback k)
  | tm_caching k : (forall b, tame (k b)) -> tame (PCaching k)
  | tm_set_tag t k : In t T -> tame k -> tame (PSetTag t k)
  | tm_hold k : (forall t, tame (k t)) -> tame (PHoldTag k)
  | tm_script s k : tame k -> tame (PSetScript s k)
  | tm_set_fallback b k : In b F -> tame k -> tame (PSetFallback b k)
  | tm_set_caching b k : tame k -> tame (PSetCaching b k)
  | tm_lookup t key k : (forall o b, tame (k o b)) -> tame (PLookup t key k)
  | tm_look_format t key vals k : (forall x, tame (k x)) -> tame (PLookupFormat t key vals k)
  | tm_add b key s t k : entry t key (CLocalised s t) -> tame k -> tame (PAdd b key s t k)
  | tm_put b t key fm k : entry t key (CFormatter fm) -> tame k -> tame (PPut b t key fm k)
  | tm_use t key vals k : (forall r, tame (k r)) -> tame (PUse t key vals k).

  Lemma format_tame c i vals t fb ca (k : text -> prog) : In (mk_request c i t fb false) rs -> (forall r, tame (k r)) -> tame (sync_format E c i vals t fb ca k).
  Proof.
    intros Hq Hk. unfold sync_format. apply tm_look_format. intros [r|b]; [apply Hk|].
    destruct (find_string E c i t fb) as [[s t']| | |] eqn:Ef; try apply Hk.
    assert (Hr : (s = [] \/ build t' s = Err FNoGrammar) -> tame (if ca then PAdd b (combined c i) s t' (k (Ok (s, t'))) else k (Ok (s, t')))).
    { intros Hs. destruct ca; [|apply Hk]. apply tm_add; [|apply Hk]. split; [reflexivity|]. exists (mk_request c i t fb false). auto. }
    destruct s as [|x w]; [apply Hr; now left|]. destruct (build t' (x :: w)) as [fm|e| |] eqn:Eb; try apply Hk.
    - destruct ca; [|apply Hk]. apply tm_put; [|now apply tm_use]. exists (mk_request c i t fb false), (x :: w), t', fm.
      repeat (split; [solve [auto | discriminate]|]). apply af_fresh.
    - destruct e; try apply Hk. apply Hr. now right.
  Qed.
  Lemma literal_tame c i t fb ca (k : text -> prog) : In (mk_request c i t fb true) rs -> (forall r, tame (k r)) -> tame (sync_literal E c i t fb ca k).
  Proof.
    intros Hq Hk. unfold sync_literal. apply tm_lookup. intros [[s1 t1|fm]|] b; try apply Hk.
    destruct (find_string E c i t fb) as [[s t']| | |] eqn:Ef; try apply Hk. destruct ca; [|apply Hk]. apply tm_add; [|apply Hk].
    split; [reflexivity|]. exists (mk_request c i t fb true). auto.
  Qed.
  Lemma data_tame t fb ca : forall d (k : text -> prog), (forall q, In q (data_requests t fb d) -> In q rs) -> (forall r, tame (k r)) -> tame (sync_data E d t fb ca k).
  Proof.
    fix IH 1. intros [c i [vs|]] k Hd Hk; cbn [sync_data data_requests] in *.
    - assert (Hq : In (mk_request c i t fb false) rs) by (apply Hd; apply in_or_app; right; now left).
      assert (Hvs : forall q, In q ((fix go (vs : list (ustr * pvalue)) : list request :=
           match vs with [] => [] | (_, v) :: r => (match v with VData d' => data_requests t fb d' | _ => [] end) ++ go r end) vs) -> In q rs)
        by (intros q Hi; apply Hd; apply in_or_app; now left). clear Hd.
      generalize (@nil (ustr * pvalue)) as new. induction vs as [|[ph v] vs IHvs]; intros new; [now apply format_tame|].
      assert (Hr := IHvs (fun q Hi => Hvs q (in_or_app _ _ _ (or_intror Hi)))).
      assert (Hv := fun q Hi => Hvs q (in_or_app _ _ _ (or_introl Hi))).
      destruct v; try apply Hr. apply IH; [exact Hv|]. intros [[s t']| | |]; try apply Hk. apply Hr.
    - apply literal_tame; [|exact Hk]. apply Hd. now left.
  Qed.
  Definition fits (c : lcall) : Prop := (forall t fb, In t T -> In fb F -> forall q, In q (call_requests (seen t fb) c) -> In q rs) /\
    (forall t, set_tag c = Some t -> In t T) /\ (forall b, set_fallback c = Some b -> In b F).
  Lemma call_tame c : T <> [] -> fits c -> tame (sync_call E c).
  Proof.
    intros HT (Hq & Ht & Hf). assert (H0 : exists t, In t T) by (destruct T as [|t T0]; [contradiction|]; exists t; now left). destruct H0 as (t0 & H0).
    assert (Hfin : forall r : text, tame (finish r)) by (intros r; apply tm_ret).
    destruct c; cbn [sync_call call_requests seen ls_fallback ls_tag] in *.
    - apply tm_fallback. intros fb Hfb. apply tm_caching. intros cb. apply format_tame; [|exact Hfin]. apply (Hq t0 fb H0 Hfb). now left.
    - apply tm_tag. intros t' Ht'. apply tm_fallback. intros fb Hfb. apply tm_caching. intros cb. apply format_tame; [|exact Hfin]. apply (Hq t' fb Ht' Hfb). now left.
    - apply tm_fallback. intros fb Hfb. apply tm_caching. intros cb. apply literal_tame; [|exact Hfin]. apply (Hq t0 fb H0 Hfb). now left.
    - apply tm_tag. intros t' Ht'. apply tm_fallback. intros fb Hfb. apply tm_caching. intros cb. apply literal_tame; [|exact Hfin]. apply (Hq t' fb Ht' Hfb). now left.
    - apply tm_fallback. intros fb Hfb. apply tm_caching. intros cb. apply data_tame; [|exact Hfin]. exact (Hq t0 fb H0 Hfb).
    - apply tm_tag. intros t' Ht'. apply tm_fallback. intros fb Hfb. apply tm_caching. intros cb. apply data_tame; [|exact Hfin]. exact (Hq t' fb Ht' Hfb).
    - assert (H1 : forall ca : option bool, tame (match ca with Some b => PSetCaching b (PRet None) | None => PRet None end))
        by (intros [b|]; [apply tm_set_caching|]; apply tm_ret).
      assert (H2 : forall p : prog, tame p -> tame (match fallback with Some b => PSetFallback b p | None => p end)).
      { intros p Hp. destruct fallback as [b|]; [|exact Hp]. apply tm_set_fallback; [now apply Hf|exact Hp]. }
      destruct tag as [t|]; [|apply H2; apply H1]. apply tm_set_tag; [now apply Ht|]. apply tm_hold. intros t'. apply tm_script. apply H2. apply H1.
  Qed.

  (** ** Steps *)
  Definition fine (st : lstate) : Prop := cache st /\ In (ls_tag st) T /\ In (ls_fallback st) F.
  Lemma fine_put st t key e st' : fine st -> put st t key e st' -> entry t key e -> fine st'.
  Proof. intros (Hc & Ht & Hf) Hp He. split; [exact (put_ok E rs _ _ _ _ _ Hc Hp He)|]. destruct Hp as (H1 & H2 & H3 & H4 & _). split; congruence. Qed.
  Lemma use_fine g t key fm vals : fine (sy_ls g) -> entry t key (CFormatter fm) -> fine (sy_ls (fst (use_formatter E g t key fm vals))).
  Proof.
    intros Hg He. unfold use_formatter. destruct (is_bad g t key); [exact Hg|]. assert (H : entry t key (CFormatter (fst (run_formatter E fm vals)))).
    { destruct He as (q & s & t' & fm0 & H1 & H2 & H3 & H4 & H5 & H6 & H7 & H8). exists q, s, t', fm0. repeat (split; [assumption|]). now apply run_formatter_after. }
    destruct (run_formatter E fm vals) as [fm' r]. cbn [fst snd sy_ls] in *. exact (fine_put _ _ _ _ _ Hg (put_formatter_put (sy_ls g) t key fm') H).
  Qed.
  Lemma insertion_fine g b t key o (k : prog) : fine (sy_ls g) -> (forall st, o = Some st -> fine st) -> tame k ->
    fine (sy_ls (fst (insertion g b t key o k))) /\ tame (snd (insertion g b t key o k)).
  Proof. intros Hc Ho Hk. unfold insertion. destruct o as [st|]; cbn [fst snd sy_ls]; [auto|]. split; [exact Hc|apply tm_ret]. Qed.
  Lemma add_fine st b key s t st' : fine st -> entry t key (CLocalised s t) -> add_string_to_cache st b key s t = Some st' -> fine st'.
  Proof.
    intros Hc Hs H. apply (fine_put st t key (CLocalised s t)); [exact Hc| |exact Hs]. unfold add_string_to_cache in H. destruct b; cbn [negb] in H.
    - destruct (mget t (ls_cache st)) as [m|] eqn:Em; [|discriminate H]. injection H as <-. now apply put_old.
    - injection H as <-. apply put_new.
  Qed.
  Lemma insert_fine st b t key fm st' : fine st -> entry t key (CFormatter fm) -> insert_formatter st b t key fm = Some st' -> fine st'.
  Proof.
    intros Hc He H. apply (fine_put st t key (CFormatter fm)); [exact Hc| |exact He]. unfold insert_formatter in H. destruct b; cbn [negb] in H.
    - destruct (mget t (ls_cache st)) as [m|] eqn:Em; [|discriminate H]. injection H as <-. now apply put_old.
    - injection H as <-. apply put_new.
  Qed.
  Lemma prog_fine p g g' p' : tame p -> fine (sy_ls g) -> prog_step E p g = Some (g', p') -> fine (sy_ls g') /\ tame p'.
  Proof.
    intros Hp Hg Hs. assert (Hset : forall fb ca t s, In t T -> In fb F -> fine (settings (sy_ls g) fb ca t s)) by (intros fb ca t s H1 H2; destruct Hg as (Hc & _); split; [exact Hc|split; assumption]).
    pose proof (tm_ret (Some Panic)) as Hpan. destruct Hg as (Hc & Ht & Hf). assert (Hg : fine (sy_ls g)) by (split; [exact Hc|split; assumption]).
    destruct Hp as [r|k Hk|k Hk|k Hk|t k H0 Hk|k Hk|s k Hk|b k H0 Hk|b k Hk|t key k Hk|t key vals k Hk|b key s t k Hs0 Hk|b t key fm k He Hk|t key vals k Hk]; cbn [prog_step] in Hs.
    - discriminate Hs.
    - injection Hs as <- <-. auto.
    - injection Hs as <- <-. auto.
    - injection Hs as <- <-. auto.
    - destruct (sy_readers g); [|discriminate Hs]. injection Hs as <- <-. split; [now apply Hset|exact Hk].
    - injection Hs as <- <-. auto.
    - injection Hs as <- <-. split; [now apply Hset|exact Hk].
    - injection Hs as <- <-. split; [now apply Hset|exact Hk].
    - injection Hs as <- <-. split; [now apply Hset|exact Hk].
    - destruct (sy_poisoned g); injection Hs as <- <-; [split; [exact Hg|exact Hpan]|]. split; [exact Hg|apply Hk].
    - destruct (sy_poisoned g); [injection Hs as <- <-; split; [exact Hg|exact Hpan]|]. destruct (cached (sy_ls g) t key) as [[s1 t1|fm]|] eqn:Ec.
      + injection Hs as <- <-. split; [exact Hg|apply Hk].
      + pose proof (use_fine g t key fm vals Hg (Hc _ _ _ Ec)) as G1. destruct (use_formatter E g t key fm vals) as [g1 r1]. injection Hs as <- <-. split; [exact G1|apply Hk].
      + injection Hs as <- <-. split; [exact Hg|apply Hk].
    - destruct (sy_poisoned g); [injection Hs as <- <-; split; [exact Hg|exact Hpan]|].
      pose proof (insertion_fine g (negb b) t key (add_string_to_cache (sy_ls g) b key s t) k Hg (fun st' H => add_fine _ _ _ _ _ _ Hg Hs0 H) Hk) as G.
      destruct (insertion g _ _ _ _ _). injection Hs as <- <-. exact G.
    - destruct (sy_poisoned g); [injection Hs as <- <-; split; [exact Hg|exact Hpan]|].
      pose proof (insertion_fine g (negb b) t key (insert_formatter (sy_ls g) b t key fm) k Hg (fun st' H => insert_fine _ _ _ _ _ _ Hg He H) Hk) as G.
      destruct (insertion g _ _ _ _ _). injection Hs as <- <-. exact G.
    - destruct (sy_poisoned g); [injection Hs as <- <-; split; [exact Hg|exact Hpan]|]. destruct (cached (sy_ls g) t key) as [[s1 t1|fm]|] eqn:Ec.
      + injection Hs as <- <-. split; [exact Hg|apply Hk].
      + pose proof (use_fine g t key fm vals Hg (Hc _ _ _ Ec)) as G1. destruct (use_formatter E g t key fm vals) as [g1 r1]. injection Hs as <- <-. split; [exact G1|apply Hk].
      + injection Hs as <- <-. split; [exact Hg|exact Hpan].
  Qed.

  (** ** Threads *)
  Definition thread_tame (a : @sthread PE) : Prop := (forall c p, th_now a = Some (c, p) -> tame p) /\ Forall fits (th_todo a).
  Definition sys_tame (x : @sys PE) : Prop := fine (sy_ls (sys_state x)) /\ Forall thread_tame (sys_threads x).
  Lemma thread_step_tame g a g' a' : fine (sy_ls g) -> thread_tame a -> thread_step E g a = Some (g', a') -> fine (sy_ls g') /\ thread_tame a'.
  Proof.
    intros Hc (Hn & Hd) H. unfold thread_step in H. destruct a as [done now todo]. cbn [th_done th_now th_todo] in *. destruct now as [[c p]|].
    - specialize (Hn c p eq_refl). assert (Hgo : match prog_step E p g with None => None | Some (g1, p1) => Some (g1, mk_sthread done (Some (c, p1)) todo) end = Some (g', a') ->
        fine (sy_ls g') /\ thread_tame a').
      { destruct (prog_step E p g) as [[g1 p1]|] eqn:Ep; [|discriminate]. intros [= <- <-]. destruct (prog_fine p g g1 p1 Hn Hc Ep) as (G1 & G2).
        split; [exact G1|]. split; [|exact Hd]. intros c0 p0 [= <- <-]. exact G2. }
      destruct Hn as [r|?|?|?|?|?|?|?|?|?|?|?|?|?]; try exact (Hgo H). clear Hgo. injection H as <- <-. split; [exact Hc|]. split; [discriminate|].
      cbn [th_todo]. destruct r as [[| | |]|]; solve [exact Hd | constructor].
    - destruct todo as [|c todo]; [discriminate H|]. injection H as <- <-. split; [exact Hc|]. inversion Hd as [|? ? H1 H2]; subst. split; [|exact H2]. intros c0 p0 [= <- <-].
      apply call_tame; [|exact H1]. destruct Hc as (_ & Ht & _). intros E0. rewrite E0 in Ht. exact Ht.
  Qed.
  Lemma sys_step_tame x i x' : sys_tame x -> sys_step E x i = Some x' -> sys_tame x'.
  Proof.
    intros (Hc & Ht) H. unfold sys_step in H. destruct (nth_error (sys_threads x) i) as [a|] eqn:Ea; [|discriminate H].
    destruct (thread_step E (sys_state x) a) as [[g a']|] eqn:Es; [|discriminate H]. injection H as <-.
    assert (Ha : thread_tame a) by (rewrite Forall_forall in Ht; apply Ht; exact (nth_error_In _ _ Ea)).
    destruct (thread_step_tame _ _ _ _ Hc Ha Es) as (G1 & G2). split; [exact G1|]. cbn [sys_threads]. apply Forall_forall. intros b Hb. apply In_nth_error in Hb as (j & Hj).
    assert (Li : i < List.length (sys_threads x)) by (apply nth_error_Some; congruence). destruct (Nat.eq_dec i j) as [<-|N].
    - rewrite lset_nth_eq in Hj by exact Li. injection Hj as <-. exact G2.
    - rewrite lset_nth_ne in Hj by exact N. rewrite Forall_forall in Ht. apply Ht. exact (nth_error_In _ _ Hj).
  Qed.
  Lemma sys_run_tame sch : forall x, sys_tame x -> sys_tame (sys_run E x sch).
  Proof.
    induction sch as [|i sch IH]; intros x Hx; cbn [sys_run]; [exact Hx|]. apply IH. destruct (sys_step E x i) as [x'|] eqn:Es; [exact (sys_step_tame _ _ _ Hx Es)|exact Hx].
  Qed.
End Threads.

Section Bound.
  Context {PE : Type}.
  Variable E : lenv PE.
  Lemma size_of_cache rs st l : cache_ok E rs st -> in_use st l -> List.length l <= List.length rs.
  Proof.
    intros Hc (Hn & Hl). rewrite <- (map_length (place E) rs). apply NoDup_incl_length; [exact Hn|]. intros (t, key) Hp. specialize (Hl _ Hp). cbn in Hl.
    destruct (cached _ t key) as [e|] eqn:Ee; [|contradiction]. specialize (Hc _ _ _ Ee). apply in_map_iff.
    destruct e as [s t'|fm]; cbn [entry_from] in Hc.
    - destruct Hc as (-> & q & Hq & -> & Hf & Hk). exists q. split; [|exact Hq]. unfold place. rewrite Hf.
      destruct (rq_literal q); [reflexivity|]. destruct Hk as [Hk|[->|Hk]]; [discriminate|reflexivity|].
      destruct s; [reflexivity|]. now rewrite Hk.
    - destruct Hc as (q & s & t' & fm0 & Hq & -> & <- & Hl' & Hf & Hne & Hb & _). exists q. split; [|exact Hq]. unfold place.
      rewrite Hf, Hl'. destruct s; [contradiction|]. now rewrite Hb.
  Qed.
  Lemma threads_from_requests fb ca tag h calls sch rs : let st := lrun E (localiser_new E fb ca tag) h in
    (forall q, In q (history_requests E (localiser_new E fb ca tag) h) \/ In q (sync_requests st calls) -> In q rs) ->
    cache_ok E rs (sy_ls (sys_state (sys_run E (SyncModel.sys_start st calls) sch))).
  Proof.
    intros st Hrs. set (T := tags_seen st calls). set (F := fallbacks_seen st calls).
    assert (H : sys_tame E rs T F (SyncModel.sys_start st calls)).
    { split.
      - cbn [sys_state SyncModel.sys_start sy_ls]. split; [|split; now left]. exact (run_new E rs fb ca tag h (fun q Hq => Hrs q (or_introl Hq))).
      - cbn [sys_threads SyncModel.sys_start]. apply Forall_forall. intros a Ha. apply in_map_iff in Ha as (l & <- & Hl). split; [discriminate|]. cbn [th_todo].
        apply Forall_forall. intros c Hc. assert (Hin : In c (List.concat calls)) by (apply in_concat; eauto). split; [|split].
        + intros t b Ht Hb q Hq. apply Hrs. right. unfold sync_requests. apply in_flat_map. exists t. split; [exact Ht|]. apply in_flat_map. exists b. split; [exact Hb|].
          apply in_flat_map. exists c. auto.
        + intros t Ht. right. apply in_flat_map. exists c. split; [exact Hin|]. rewrite Ht. now left.
        + intros b Hb. right. apply in_flat_map. exists c. split; [exact Hin|]. rewrite Hb. now left. }
    apply (sys_run_tame E rs T F sch) in H as ((H & _) & _). exact H.
  Qed.
  Theorem threads_size fb ca tag h calls sch rs l : let st := lrun E (localiser_new E fb ca tag) h in
    (forall q, In q (history_requests E (localiser_new E fb ca tag) h) \/ In q (sync_requests st calls) -> In q rs) ->
    in_use (sy_ls (sys_state (sys_run E (SyncModel.sys_start st calls) sch))) l -> List.length l <= List.length rs.
  Proof. intros st Hrs. apply size_of_cache. now apply threads_from_requests. Qed.
End Bound.
