(** Further proofs about threads that use one localiser: without caching, the settings, the end of every schedule, one thread alone. *)
From Verif Require Import Base BaseFacts LexerModel LexerSpec TreeModel TreeSpec DocSpec ValueModel CommandModel IsoModel FormatterModel
  FormatterSpec RegistryModel LocaliserModel LocaliserSpec LocaliserProofs SyncModel SyncSpec SyncProofs.
Local Opaque us.

Section Sync.
  Context {PE : Type}.
  Variable E : lenv PE.
  Local Notation text := (outcome (localiser_error PE) (ustr * ustr)).
  Local Notation prog := (prog (PE := PE)).
  Local Notation sthread := (sthread (PE := PE)).
  Local Notation sys := (sys (PE := PE)).
  Local Notation build t s := (formatter_try_new (le_icu E) localiser_grammar (le_fmt E) (le_reg E) t (le_locale E t) s).

  (** ** Without caching *)
  Section NoCaching.
    Variable T : list ustr.
    Variable F : list bool.
    Definition idle (g : systate) : Prop :=
      ls_cache (sy_ls g) = [] /\ ls_caching (sy_ls g) = false /\ sy_poisoned g = false /\ In (ls_tag (sy_ls g)) T /\ In (ls_fallback (sy_ls g)) F.
    Definition anything (g g' : systate) : Prop := True.
    Local Notation safe := (safe E idle anything).

    Lemma idle_format (Q : option text -> Prop) g c i vals t fb k : (forall g, safe Q g (k (pure_format E c i vals t fb))) ->
      safe Q g (sync_format E c i vals t fb false k).
    Proof.
      intros Hk. split; [discriminate|]. intros g1 g2 p' _ Hi Hs. pose proof Hi as (H1 & H2 & H3 & _). cbn [sync_format prog_step] in Hs.
      rewrite H3, (cached_empty (sy_ls g1) _ _ H1) in Hs. injection Hs as <- <-. split; [exact Hi|]. split; [exact Logic.I|].
      unfold pure_format, pure_text in Hk. destruct (find_string E c i t fb) as [[[|x w] t']|e| |]; cbn [bind] in Hk; [exact (Hk _)| |exact (Hk _)|exact (Hk _)|exact (Hk _)].
      cbv beta iota. destruct (build t' (x :: w)) as [fm|e| |]; [exact (Hk _)| |exact (Hk _)|exact (Hk _)]. destruct e; exact (Hk _).
    Qed.
    Lemma idle_literal (Q : option text -> Prop) g c i t fb k : (forall g, safe Q g (k (find_string E c i t fb))) ->
      safe Q g (sync_literal E c i t fb false k).
    Proof.
      intros Hk. split; [discriminate|]. intros g1 g2 p' _ Hi Hs. pose proof Hi as (H1 & H2 & H3 & _). cbn [sync_literal prog_step] in Hs.
      rewrite H3, (cached_empty (sy_ls g1) _ _ H1) in Hs. injection Hs as <- <-. split; [exact Hi|]. split; [exact Logic.I|].
      destruct (find_string E c i t fb) as [[s t']|e| |]; exact (Hk _).
    Qed.
    Lemma idle_data (Q : option text -> Prop) t fb : forall d k g, (forall g, safe Q g (k (pure_data E t fb d))) ->
      safe Q g (sync_data E d t fb false k).
    Proof.
      fix IH 1. intros [c i [vs|]] k g Hk; cbn [sync_data]; [|now apply idle_literal]. cbn [pure_data] in Hk. revert Hk g.
      generalize (@nil (ustr * pvalue)). induction vs as [|[ph v] vs IHvs]; intros new Hk g; [now apply idle_format|].
      destruct v.
      1-6, 8-11: (now apply IHvs).
      apply IH. intros g1. destruct (pure_data E t fb d) as [[s t']|e| |]; [|exact (Hk _)|exact (Hk _)|exact (Hk _)]. now apply IHvs.
    Qed.
    Lemma idle_tag (Q : option text -> Prop) g k : (forall t g, In t T -> safe Q g (k t)) -> safe Q g (PTag k).
    Proof. intros Hk. split; [discriminate|]. intros g1 g2 p' _ Hi [= <- <-]. split; [exact Hi|]. split; [exact Logic.I|]. apply Hk. apply Hi. Qed.
    Lemma idle_fallback (Q : option text -> Prop) g k : (forall b g, In b F -> safe Q g (k b)) -> safe Q g (PFallback k).
    Proof. intros Hk. split; [discriminate|]. intros g1 g2 p' _ Hi [= <- <-]. split; [exact Hi|]. split; [exact Logic.I|]. apply Hk. apply Hi. Qed.
    Lemma idle_caching (Q : option text -> Prop) g k : (forall g, safe Q g (k false)) -> safe Q g (PCaching k).
    Proof. intros Hk. split; [discriminate|]. intros g1 g2 p' _ Hi [= <- <-]. split; [exact Hi|]. split; [exact Logic.I|]. destruct Hi as (_ & -> & _). apply Hk. Qed.

    Definition same_result (c : lcall) (r : option text) : Prop := exists t fb, In t T /\ In fb F /\ r = pure_call E (seen t fb) c.
    Hypothesis T_some : T <> [].
    Hypothesis F_some : F <> [].
    Lemma idle_call c g : ~ asks_caching c -> (forall t, set_tag c = Some t -> In t T) -> (forall b, set_fallback c = Some b -> In b F) ->
      safe (same_result c) g (sync_call E c).
    Proof.
      intros Hn HT HF.
      assert (Hfin : forall t fb r, In t T -> In fb F -> Some r = pure_call E (seen t fb) c -> forall g, safe (same_result c) g (finish r)).
      { intros t fb r Ht Hb Hr g0. apply safe_ret. exists t, fb. auto. }
      assert (Hu : forall ca : option bool, ca <> Some true -> unwrap_or ca false = false) by (intros [[]|] H; [congruence|reflexivity|reflexivity]).
      assert (Ht0 : exists t, In t T) by (destruct T as [|t]; [congruence|exists t; now left]). destruct Ht0 as (t0 & Ht0).
      destruct c; cbn [sync_call]; cbn [asks_caching] in Hn.
      - apply idle_fallback. intros fb g1 Hfb. apply idle_caching. intros g2. rewrite (Hu _ Hn).
        apply idle_format. intros g3. exact (Hfin t0 fb _ Ht0 Hfb eq_refl g3).
      - apply idle_tag. intros t g0 Ht. apply idle_fallback. intros fb g1 Hfb. apply idle_caching. intros g2.
        apply idle_format. intros g3. exact (Hfin t fb _ Ht Hfb eq_refl g3).
      - apply idle_fallback. intros fb g1 Hfb. apply idle_caching. intros g2. rewrite (Hu _ Hn).
        apply idle_literal. intros g3. exact (Hfin t0 fb _ Ht0 Hfb eq_refl g3).
      - apply idle_tag. intros t g0 Ht. apply idle_fallback. intros fb g1 Hfb. apply idle_caching. intros g2.
        apply idle_literal. intros g3. exact (Hfin t fb _ Ht Hfb eq_refl g3).
      - apply idle_fallback. intros fb g1 Hfb. apply idle_caching. intros g2. rewrite (Hu _ Hn).
        apply idle_data. intros g3. exact (Hfin t0 fb _ Ht0 Hfb eq_refl g3).
      - apply idle_tag. intros t g0 Ht. apply idle_fallback. intros fb g1 Hfb. apply idle_caching. intros g2.
        apply idle_data. intros g3. exact (Hfin t fb _ Ht Hfb eq_refl g3).
      - assert (Hf0 : exists b, In b F) by (destruct F as [|b]; [congruence|exists b; now left]). destruct Hf0 as (f0 & Hf0).
        assert (Hend : forall g, safe (same_result (CallDefaults tag fallback caching)) g (PRet None)).
        { intros g0. apply safe_ret. exists t0, f0. auto. }
        assert (Hlast : forall g, safe (same_result (CallDefaults tag fallback caching)) g (match caching with Some b => PSetCaching b (PRet None) | None => PRet None end)).
        { intros g0. destruct caching as [b|]; [|apply Hend]. split; [discriminate|]. intros g1 g2 p' _ (Hi1 & Hi2 & Hi3) [= <- <-].
          split; [|split; [exact Logic.I|apply Hend]]. split; [exact Hi1|]. split; [destruct b; [congruence|reflexivity]|exact Hi3]. }
        assert (Hrest : forall g, safe (same_result (CallDefaults tag fallback caching)) g
          (match fallback with Some b => PSetFallback b (match caching with Some b => PSetCaching b (PRet None) | None => PRet None end)
           | None => match caching with Some b => PSetCaching b (PRet None) | None => PRet None end end)).
        { intros g0. destruct fallback as [b|]; [|apply Hlast]. split; [discriminate|]. intros g1 g2 p' _ (Hi1 & Hi2 & Hi3 & Hi4 & Hi5) [= <- <-].
          split; [|split; [exact Logic.I|apply Hlast]]. repeat (split; [assumption|]). apply HF. reflexivity. }
        destruct tag as [t|]; [|apply Hrest]. split; [discriminate|]. intros g1 g2 p' _ (Hi1 & Hi2 & Hi3 & Hi4 & Hi5) Hs. cbn [prog_step] in Hs.
        destruct (sy_readers g1); [|discriminate]. injection Hs as <- <-. split; [|split; [exact Logic.I|]].
        { repeat (split; [assumption|]). split; [apply HT; reflexivity|exact Hi5]. }
        split; [discriminate|]. intros g3 g4 p1 _ Hi6 [= <- <-]. split; [exact Hi6|]. split; [exact Logic.I|].
        split; [discriminate|]. intros g6 g7 p2 _ Hi8 [= <- <-]. split; [exact Hi8|]. split; [exact Logic.I|]. apply Hrest.
    Qed.
  End NoCaching.

  Theorem sync_no_caching fb tag calls sch c r : (forall l x, In l calls -> In x l -> ~ asks_caching x) ->
    let st := localiser_new E fb false tag in
    returned (sys_run E (sys_start st calls) sch) c r -> result_alone E st calls c r.
  Proof.
    intros Hn st Hret. assert (K : same_result (tags_seen st calls) (fallbacks_seen st calls) c r).
    { revert Hret. apply (run_results E (idle (tags_seen st calls) (fallbacks_seen st calls)) anything (fun _ => Logic.I) (fun _ _ _ _ _ => Logic.I) _ (List.concat calls)).
      - intros c0 g Hc0. apply in_concat in Hc0 as (l & Hl & Hc0). apply idle_call.
        + discriminate.
        + discriminate.
        + exact (Hn l c0 Hl Hc0).
        + intros t Ht. exact (in_tags st calls t c0 l Hl Hc0 Ht).
        + intros b Hb. exact (in_fallbacks st calls b c0 l Hl Hc0 Hb).
      - repeat split; now left.
      - intros c0 l Hl Hc0. apply in_concat. eauto. }
    destruct K as (t & f & Ht & Hf & K). exists t, f. rewrite uncached_pure. auto.
  Qed.
End Sync.
