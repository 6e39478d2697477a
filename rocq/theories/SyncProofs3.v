(** Further proofs about threads that use one localiser: poisoning, the settings, the end of every schedule. *)
From Verif Require Import Base BaseFacts LexerModel LexerSpec TreeModel TreeSpec DocSpec ValueModel CommandModel IsoModel FormatterModel
  FormatterSpec RegistryModel RegistryProofs LocaliserModel LocaliserSpec LocaliserProofs SyncModel SyncSpec SyncProofs.
Local Opaque us.

Section Sync.
  Context {PE : Type}.
  Variable E : lenv PE.
  Local Notation text := (outcome (localiser_error PE) (ustr * ustr)).
  Local Notation prog := (prog (PE := PE)).
  Local Notation sthread := (sthread (PE := PE)).
  Local Notation sys := (sys (PE := PE)).
  Local Notation build t s := (formatter_try_new (le_icu E) localiser_grammar (le_fmt E) (le_reg E) t (le_locale E t) s).

  (** ** A poisoned cache *)
  Section Poison.
    Definition poison (g : systate) : Prop := sy_poisoned g = true.
    Definition whatever (g g' : systate) : Prop := True.
    Local Notation safe := (safe E poison whatever).
    Definition panics (r : option text) : Prop := r = Some Panic.
    Lemma poison_format g c i vals t fb ca k : safe panics g (sync_format E c i vals t fb ca k).
    Proof.
      split; [discriminate|]. intros g1 g2 p' _ Hi Hs. cbn [sync_format prog_step] in Hs. rewrite Hi in Hs. injection Hs as <- <-.
      split; [exact Hi|]. split; [exact Logic.I|]. now apply safe_ret.
    Qed.
    Lemma poison_literal g c i t fb ca k : safe panics g (sync_literal E c i t fb ca k).
    Proof.
      split; [discriminate|]. intros g1 g2 p' _ Hi Hs. cbn [sync_literal prog_step] in Hs. rewrite Hi in Hs. injection Hs as <- <-.
      split; [exact Hi|]. split; [exact Logic.I|]. now apply safe_ret.
    Qed.
    Lemma poison_data t fb ca : forall d k g, safe panics g (sync_data E d t fb ca k).
    Proof.
      fix IH 1. intros [c i [vs|]] k g; cbn [sync_data]; [|apply poison_literal].
      generalize (@nil (ustr * pvalue)). induction vs as [|[ph v] vs IHvs]; intros new; [apply poison_format|]. destruct v.
      1-6, 8-11: apply IHvs.
      apply IH.
    Qed.
    Lemma poison_tag (Q : option text -> Prop) g k : (forall t g, safe Q g (k t)) -> safe Q g (PTag k).
    Proof. intros Hk. split; [discriminate|]. intros g1 g2 p' _ Hi [= <- <-]. split; [exact Hi|]. split; [exact Logic.I|]. apply Hk. Qed.
    Lemma poison_settings (Q : option text -> Prop) g k : (forall b b' g, safe Q g (k b b')) -> safe Q g (PFallback (fun b => PCaching (k b))).
    Proof.
      intros Hk. split; [discriminate|]. intros g1 g2 p' _ Hi [= <- <-]. split; [exact Hi|]. split; [exact Logic.I|].
      split; [discriminate|]. intros g3 g4 p1 _ Hi3 [= <- <-]. split; [exact Hi3|]. split; [exact Logic.I|]. apply Hk.
    Qed.
    Definition fails (c : lcall) (r : option text) : Prop := match c with CallDefaults _ _ _ => True | _ => r = Some Panic end.
    Lemma poison_call c g : safe (fails c) g (sync_call E c).
    Proof.
      destruct c; cbn [sync_call fails].
      { apply poison_settings. intros. apply poison_format. }
      { apply poison_tag. intros. apply poison_settings. intros. apply poison_format. }
      { apply poison_settings. intros. apply poison_literal. }
      { apply poison_tag. intros. apply poison_settings. intros. apply poison_literal. }
      { apply poison_settings. intros. apply poison_data. }
      { apply poison_tag. intros. apply poison_settings. intros. apply poison_data. }
      assert (Hend : forall g, safe (fun _ => True) g (PRet None)) by (intros g0; now apply safe_ret).
      assert (Hlast : forall g, safe (fun _ => True) g (match caching with Some b => PSetCaching b (PRet None) | None => PRet None end)).
      { intros g0. destruct caching as [b|]; [|apply Hend]. split; [intros; exact Logic.I|]. intros g1 g2 p' _ Hi [= <- <-]. split; [exact Hi|]. split; [exact Logic.I|apply Hend]. }
      assert (Hrest : forall g, safe (fun _ => True) g
          (match fallback with Some b => PSetFallback b (match caching with Some b => PSetCaching b (PRet None) | None => PRet None end)
           | None => match caching with Some b => PSetCaching b (PRet None) | None => PRet None end end)).
      { intros g0. destruct fallback as [b|]; [|apply Hlast]. split; [intros; exact Logic.I|]. intros g1 g2 p' _ Hi [= <- <-]. split; [exact Hi|]. split; [exact Logic.I|apply Hlast]. }
      destruct tag as [t|]; [|apply Hrest]. split; [intros; exact Logic.I|]. intros g1 g2 p' _ Hi Hs. cbn [prog_step] in Hs.
      destruct (sy_readers g1); [|discriminate]. injection Hs as <- <-. split; [exact Hi|]. split; [exact Logic.I|].
      split; [intros; exact Logic.I|]. intros g3 g4 p1 _ Hi6 [= <- <-]. split; [exact Hi6|]. split; [exact Logic.I|].
      split; [intros; exact Logic.I|]. intros g6 g7 p2 _ Hi8 [= <- <-]. split; [exact Hi8|]. split; [exact Logic.I|]. apply Hrest.
    Qed.
    Theorem poisoned_results st n bad calls sch c r :
      returned (sys_run E (mk_sys (mk_systate st n true bad) (sys_threads (sys_start (PE := PE) st calls))) sch) c r -> fails c r.
    Proof.
      intros (th & Hin & Hd).
      pose proof (sys_run_ok E poison whatever (fun _ => Logic.I) (fun _ _ _ _ _ => Logic.I) fails (List.concat calls) (fun c g _ => poison_call c g) sch) as H.
      specialize (H (mk_sys (mk_systate st n true bad) (sys_threads (sys_start (PE := PE) st calls)))). destruct H as (_ & H).
      - split; [reflexivity|]. cbn. intros th' Ht. apply in_map_iff in Ht as (l & <- & Hl). split; [intros ? ? []|]. split; [discriminate|].
        cbn. intros c' Hc'. apply in_concat. eauto.
      - destruct (H th Hin) as (K & _). exact (K c r Hd).
    Qed.
  End Poison.

  (** ** The shape of programs: [s] says whether the language is set; at most [n] steps. *)
  Inductive shape (s : bool) : nat -> prog -> Prop :=
  | sh_ret n r : shape s n (PRet r)
  | sh_tag n k : (forall t, shape s n (k t)) -> shape s (S n) (PTag k)
  | sh_fallback n k : (forall b, shape s n (k b)) -> shape s (S n) (PFallback k)
  | sh_caching n k : (forall b, shape s n (k b)) -> shape s (S n) (PCaching k)
  | sh_set n t k f : s = true -> (forall t', k t' = PSetScript (le_script E t') (f t')) -> (forall t', shape s n (f t')) ->
      shape s (S (S (S n))) (PSetTag t (PHoldTag k))
  | sh_set_fallback n b k : shape s n k -> shape s (S n) (PSetFallback b k)
  | sh_set_caching n b k : shape s n k -> shape s (S n) (PSetCaching b k)
  | sh_lookup n t key k : (forall o b, shape s n (k o b)) -> shape s (S n) (PLookup t key k)
  | sh_lookup_format n t key vals k : (forall x, shape s n (k x)) -> shape s (S n) (PLookupFormat t key vals k)
  | sh_add n b key w t k : shape s n k -> shape s (S n) (PAdd b key w t k)
  | sh_put n b t key fm k : shape s n k -> shape s (S n) (PPut b t key fm k)
  | sh_use n t key vals k : (forall r, shape s n (k r)) -> shape s (S n) (PUse t key vals k).
  Lemma shape_more s n p : shape s n p -> forall m, n <= m -> shape s m p.
  Proof.
    induction 1; intros m Hm; try (destruct m as [|m]; [lia|]); try (constructor; intros; auto; match goal with H : _ |- _ => apply H; lia end).
    - destruct m as [|[|m]]; [lia|lia|]. apply sh_set with f; [assumption|assumption|]. intros t'. match goal with H : forall _ m, _ -> _ |- _ => apply H; lia end.
  Qed.

  Lemma shape_format s n c i vals t fb ca k : (forall r, shape s n (k r)) -> shape s (3 + n) (sync_format E c i vals t fb ca k).
  Proof.
    intros Hk. assert (H2 : forall r, shape s (2 + n) (k r)) by (intros r; apply (shape_more s n); [apply Hk|lia]). cbn [sync_format].
    apply sh_lookup_format. intros [r|b]; [apply H2|].
    assert (Hr : forall w t', shape s (2 + n) (if ca then PAdd b (combined c i) w t' (k (Ok (w, t'))) else k (Ok (w, t')))).
    { intros w t'. destruct ca; [|apply H2]. apply sh_add. apply (shape_more s n); [apply Hk|lia]. }
    destruct (find_string E c i t fb) as [[[|x w] t']|e| |]; try apply H2; [apply Hr|].
    destruct (build t' (x :: w)) as [fm|e| |]; try apply H2; [|destruct e; try apply H2; apply Hr].
    destruct ca; [|apply H2]. apply sh_put. apply sh_use. apply Hk.
  Qed.
  Lemma shape_literal s n c i t fb ca k : (forall r, shape s n (k r)) -> shape s (3 + n) (sync_literal E c i t fb ca k).
  Proof.
    intros Hk. assert (H2 : forall r, shape s (2 + n) (k r)) by (intros r; apply (shape_more s n); [apply Hk|lia]). cbn [sync_literal].
    apply sh_lookup. intros [[w t'|fm]|] b; try apply H2. destruct (find_string E c i t fb) as [[w t']|e| |]; try apply H2.
    destruct ca; [|apply H2]. apply sh_add. apply (shape_more s n); [apply Hk|lia].
  Qed.
  Lemma shape_data s t fb ca t0 fb0 : forall d n k, (forall r, shape s n (k r)) -> shape s (3 * List.length (data_requests t0 fb0 d) + n) (sync_data E d t fb ca k).
  Proof.
    fix IH 1. intros [c i [vs|]] n k Hk; cbn [sync_data data_requests]; [|now apply shape_literal].
    fold (go_requests t0 fb0). generalize (@nil (ustr * pvalue)). induction vs as [|[ph v] vs IHvs]; intros new.
    - now apply shape_format.
    - destruct v; cbn [go_requests].
      1-6, 8-11: apply IHvs.
      fold (go_requests t0 fb0).
      replace (3 * List.length ((data_requests t0 fb0 d ++ go_requests t0 fb0 vs) ++ [mk_request c i t0 fb0 false]) + n)
        with (3 * List.length (data_requests t0 fb0 d) + (3 * List.length (go_requests t0 fb0 vs ++ [mk_request c i t0 fb0 false]) + n))
        by (rewrite !app_length; lia).
      apply IH. intros [[w t']|e| |]; [apply IHvs|apply (shape_more s n); [apply Hk|lia] ..].
  Qed.
  Definition sets_tag (c : lcall) : bool := match set_tag c with Some _ => true | None => false end.
  Lemma shape_call c : shape (sets_tag c) (sections c) (sync_call E c).
  Proof.
    assert (Hf : forall s n r, shape s n (finish (PE := PE) r)) by (intros; apply sh_ret).
    destruct c; unfold sections; cbn [sync_call sets_tag set_tag call_requests seen ls_tag ls_fallback List.length].
    - apply (shape_more _ 5); [|lia]. apply sh_fallback. intros fb. apply sh_caching. intros cb. now apply shape_format.
    - apply (shape_more _ 6); [|lia]. apply sh_tag. intros t. apply sh_fallback. intros fb. apply sh_caching. intros cb. now apply shape_format.
    - apply (shape_more _ 5); [|lia]. apply sh_fallback. intros fb. apply sh_caching. intros cb. now apply shape_literal.
    - apply (shape_more _ 6); [|lia]. apply sh_tag. intros t. apply sh_fallback. intros fb. apply sh_caching. intros cb. now apply shape_literal.
    - eapply shape_more; [apply sh_fallback; intros fb; apply sh_caching; intros cb; eapply (shape_data _ _ _ _ tag (unwrap_or fallback false)); apply (Hf _ 0)|lia].
    - eapply shape_more; [apply sh_tag; intros t; apply sh_fallback; intros fb; apply sh_caching; intros cb; eapply (shape_data _ _ _ _ [] false); apply (Hf _ 0)|lia].
    - assert (Hl : forall s, shape s 1 (match caching with Some b => PSetCaching b (PRet None) | None => PRet None end)).
      { intros s. destruct caching; [apply sh_set_caching|]; apply sh_ret. }
      assert (Hr : forall s, shape s 2 (match fallback with Some b => PSetFallback b (match caching with Some b => PSetCaching b (PRet None) | None => PRet None end)
         | None => match caching with Some b => PSetCaching b (PRet None) | None => PRet None end end)).
      { intros s. destruct fallback; [apply sh_set_fallback; apply Hl|]. apply (shape_more _ 1); [apply Hl|lia]. }
      destruct tag as [t|]; [|apply (shape_more _ 2); [apply Hr|lia]]. eapply (sh_set _ 2 t).
      + reflexivity.
      + intros t'. exact (eq_refl (PSetScript (le_script E t') ((fun _ => _) t'))).
      + intros t'. apply Hr.
  Qed.

  (** ** Threads *)
  Inductive doing (tag : ustr) (s : bool) : nat -> prog -> Prop :=
  | do_out n p : shape s n p -> doing tag s n p
  | do_hold n k f : s = true -> (forall t', k t' = PSetScript (le_script E t') (f t')) -> (forall t', shape s n (f t')) -> doing tag s (S (S n)) (PHoldTag k)
  | do_script n p : s = true -> shape s n p -> doing tag s (S n) (PSetScript (le_script E tag) p).
  Definition is_script (p : prog) : bool := match p with PSetScript _ _ => true | _ => false end.
  Definition is_hold (p : prog) : bool := match p with PHoldTag _ => true | _ => false end.
  Definition left (cs : list lcall) : nat := fold_right (fun c n => 2 + sections c + n) 0 cs.
  Definition thread_left (tag : ustr) (th : sthread) (n : nat) : Prop :=
    match th_now th with
    | None => n = left (th_todo th)
    | Some (c, p) => exists m, doing tag (sets_tag c) m p /\ n = 1 + m + left (th_todo th)
    end.
  Definition in_script (th : sthread) : bool := match th_now th with Some (_, p) => is_script p | None => false end.
  Definition in_hold (th : sthread) : bool := match th_now th with Some (_, p) => is_hold p | None => false end.
  Definition b2n (b : bool) : nat := if b then 1 else 0.
  Fixpoint scripts (l : list sthread) : nat := match l with [] => 0 | th :: r => b2n (in_script th) + scripts r end.
  Lemma scripts_lset l i th th' : nth_error l i = Some th -> scripts (lset l i th') + b2n (in_script th) = scripts l + b2n (in_script th').
  Proof.
    revert i. induction l as [|a l IH]; intros [|i] H; cbn in *; try discriminate.
    - injection H as ->. lia.
    - specialize (IH i H). lia.
  Qed.
  Lemma scripts_some l : scripts l <> 0 -> exists i th, nth_error l i = Some th /\ in_script th = true.
  Proof.
    induction l as [|a l IH]; cbn; [congruence|]. intros H. destruct (in_script a) eqn:Ea.
    - exists 0, a. auto.
    - destruct (IH H) as (i & th & Hi). exists (S i), th. exact Hi.
  Qed.
  Lemma scripts_none l th : scripts l = 0 -> In th l -> in_script th = false.
  Proof. induction l as [|a l IH]; cbn; [intros _ []|]. intros H [->|Hi]; [destruct (in_script th); [cbn in H; lia|reflexivity]|apply IH; [lia|exact Hi]]. Qed.

  (** One step of a program. *)
  Lemma use_same g t key fm vals g' r : use_formatter E g t key fm vals = (g', r) ->
    ls_tag (sy_ls g') = ls_tag (sy_ls g) /\ ls_script (sy_ls g') = ls_script (sy_ls g) /\ sy_readers g' = sy_readers g.
  Proof.
    unfold use_formatter. destruct (is_bad g t key); [intros [= <- <-]; auto|]. destruct (run_formatter E fm vals) as [fm' r']. intros [= <- <-]. cbn.
    destruct (put_formatter_put (sy_ls g) t key fm') as (_ & _ & -> & -> & _). auto.
  Qed.
  Lemma insertion_same g w t key o k g' p' : insertion (PE := PE) g w t key o k = (g', p') ->
    (forall st, o = Some st -> ls_tag st = ls_tag (sy_ls g) /\ ls_script st = ls_script (sy_ls g)) ->
    ls_tag (sy_ls g') = ls_tag (sy_ls g) /\ ls_script (sy_ls g') = ls_script (sy_ls g) /\ sy_readers g' = sy_readers g /\ (p' = k \/ p' = PRet (Some Panic)).
  Proof. unfold insertion. destruct o as [st|]; intros [= <- <-] H; cbn; [destruct (H st eq_refl)|]; auto. Qed.
  Definition plain_step (p p' : prog) (g g' : systate) : Prop :=
    is_script p = false /\ is_hold p = false /\ is_script p' = false /\ is_hold p' = false /\ ls_tag (sy_ls g') = ls_tag (sy_ls g) /\
    ls_script (sy_ls g') = ls_script (sy_ls g) /\ sy_readers g' = sy_readers g.
  Lemma shape_out s n p : shape s n p -> is_script p = false /\ is_hold p = false.
  Proof. destruct 1; auto. Qed.
  Lemma step_doing tag s n p g g' p' : ls_tag (sy_ls g) = tag -> doing tag s n p -> prog_step E p g = Some (g', p') ->
    exists m, m < n /\ doing (ls_tag (sy_ls g')) s m p' /\
    (plain_step p p' g g' \/
     (is_script p = false /\ sy_readers g = 0 /\ sy_readers g' = 0 /\ is_hold p' = true /\ is_script p' = false) \/
     (is_hold p = true /\ is_script p = false /\ is_script p' = true /\ sy_readers g' = S (sy_readers g) /\ ls_tag (sy_ls g') = tag) \/
     (is_script p = true /\ sy_readers g' = pred (sy_readers g) /\ ls_tag (sy_ls g') = tag /\ ls_script (sy_ls g') = le_script E tag /\ is_script p' = false)).
  Proof.
    intros Ht Hd Hs.
    assert (Hplain : forall m, is_script p = false -> is_hold p = false -> m < n -> shape s m p' -> ls_tag (sy_ls g') = ls_tag (sy_ls g) ->
      ls_script (sy_ls g') = ls_script (sy_ls g) -> sy_readers g' = sy_readers g ->
      exists m, m < n /\ doing (ls_tag (sy_ls g')) s m p' /\
    (plain_step p p' g g' \/
     (is_script p = false /\ sy_readers g = 0 /\ sy_readers g' = 0 /\ is_hold p' = true /\ is_script p' = false) \/
     (is_hold p = true /\ is_script p = false /\ is_script p' = true /\ sy_readers g' = S (sy_readers g) /\ ls_tag (sy_ls g') = tag) \/
     (is_script p = true /\ sy_readers g' = pred (sy_readers g) /\ ls_tag (sy_ls g') = tag /\ ls_script (sy_ls g') = le_script E tag /\ is_script p' = false))).
    { intros m H1 H2 H3 H4 H5 H6 H7. exists m. split; [exact H3|]. split; [now apply do_out|]. left. destruct (shape_out _ _ _ H4). repeat split; auto. }
    destruct Hd as [n p Hsh|n k f -> Hk Hf|n p -> Hsh].
    - destruct Hsh as [n r|n k Hk|n k Hk|n k Hk|n t k f Hse Hk Hf|n b k Hk|n b k Hk|n t key k Hk|n t key vals k Hk|n b key w t k Hk|n b t key fm k Hk|n t key vals k Hk];
        cbn [prog_step] in Hs.
      + discriminate.
      + injection Hs as <- <-. apply (Hplain n); auto.
      + injection Hs as <- <-. apply (Hplain n); auto.
      + injection Hs as <- <-. apply (Hplain n); auto.
      + destruct (sy_readers g) eqn:Er; [|discriminate]. injection Hs as <- <-. exists (S (S n)). split; [lia|].
        split; [now apply do_hold with f|]. right. left. cbn. auto.
      + injection Hs as <- <-. apply (Hplain n); auto.
      + injection Hs as <- <-. apply (Hplain n); auto.
      + destruct (sy_poisoned g); injection Hs as <- <-; apply (Hplain n); auto. apply sh_ret.
      + destruct (sy_poisoned g); [injection Hs as <- <-; apply (Hplain n); auto; apply sh_ret|].
        destruct (cached (sy_ls g) t key) as [[w t'|fm]|]; [injection Hs as <- <-; apply (Hplain n); auto| |injection Hs as <- <-; apply (Hplain n); auto].
        destruct (use_formatter E g t key fm vals) as [g1 r] eqn:Eu. injection Hs as <- <-. destruct (use_same _ _ _ _ _ _ _ Eu) as (K1 & K2 & K3). apply (Hplain n); auto.
      + destruct (sy_poisoned g); [injection Hs as <- <-; apply (Hplain n); auto; apply sh_ret|]. injection Hs as Hs.
        destruct (insertion_same _ _ _ _ _ _ _ _ Hs) as (K1 & K2 & K3 & K4).
        { intros st. unfold add_string_to_cache. destruct b; cbn; [destruct (mget t _); [|discriminate]|]; intros [= <-]; auto. }
        apply (Hplain n); auto. destruct K4 as [->| ->]; [exact Hk|apply sh_ret].
      + destruct (sy_poisoned g); [injection Hs as <- <-; apply (Hplain n); auto; apply sh_ret|]. injection Hs as Hs.
        destruct (insertion_same _ _ _ _ _ _ _ _ Hs) as (K1 & K2 & K3 & K4).
        { intros st. unfold insert_formatter. destruct b; cbn; [destruct (mget t _); [|discriminate]|]; intros [= <-]; auto. }
        apply (Hplain n); auto. destruct K4 as [->| ->]; [exact Hk|apply sh_ret].
      + destruct (sy_poisoned g); [injection Hs as <- <-; apply (Hplain n); auto; apply sh_ret|].
        destruct (cached (sy_ls g) t key) as [[w t'|fm]|]; [injection Hs as <- <-; apply (Hplain n); auto| |injection Hs as <- <-; apply (Hplain n); auto; apply sh_ret].
        destruct (use_formatter E g t key fm vals) as [g1 r] eqn:Eu. injection Hs as <- <-. destruct (use_same _ _ _ _ _ _ _ Eu) as (K1 & K2 & K3). apply (Hplain n); auto.
    - injection Hs as <- <-. exists (S n). split; [lia|]. rewrite Hk. cbn. rewrite Ht. split; [apply do_script; auto|]. right. right. left. auto 10.
    - injection Hs as <- <-. exists n. split; [lia|]. split; [now apply do_out|]. right. right. right. cbn. destruct (shape_out _ _ _ Hsh). auto 10.
  Qed.

  (** ** The invariant *)
  Definition consistent (x : sys) : Prop :=
    ls_script (sy_ls (sys_state x)) = le_script E (ls_tag (sy_ls (sys_state x))) \/
    exists i th, nth_error (sys_threads x) i = Some th /\ (in_script th = true \/ in_hold th = true).
  Definition all_left (x : sys) (ns : list nat) : Prop :=
    Forall2 (thread_left (ls_tag (sy_ls (sys_state x)))) (sys_threads x) ns /\ sy_readers (sys_state x) = scripts (sys_threads x).
  Definition total (ns : list nat) : nat := fold_right Nat.add 0 ns.
  Lemma total_lset ns i n m : nth_error ns i = Some n -> total (lset ns i m) + n = total ns + m.
  Proof.
    revert i. induction ns as [|a ns IH]; intros [|i] H; cbn in *; try discriminate.
    - injection H as ->. lia.
    - specialize (IH i H). unfold total in IH. lia.
  Qed.
  Lemma Forall2_pick {A B} (P : A -> B -> Prop) l l' i x : Forall2 P l l' -> nth_error l i = Some x -> exists y, nth_error l' i = Some y /\ P x y.
  Proof. intros H. revert i. induction H as [|a b l l' Hab H IH]; intros [|i] Hi; try discriminate; cbn in *; [injection Hi as ->; eauto|now apply IH]. Qed.
  Lemma Forall2_put {A B} (P P' : A -> B -> Prop) l l' i x y : Forall2 P l l' -> P' x y -> (forall a b j, nth_error l j = Some a -> j <> i -> P a b -> P' a b) ->
    Forall2 P' (lset l i x) (lset l' i y).
  Proof.
    intros H Hx. revert i. induction H as [|a b l l' Hab H IH]; intros [|i] Hn; cbn; constructor; auto.
    - clear IH. assert (Hn' : forall a b j, nth_error l j = Some a -> P a b -> P' a b) by (intros a0 b0 j Hj; apply (Hn a0 b0 (S j)); [exact Hj|discriminate]).
      clear Hn Hab. induction H as [|a0 b0 l l' Hab H IH]; constructor; [exact (Hn' a0 b0 0 eq_refl Hab)|]. apply IH. intros a1 b1 j Hj. exact (Hn' a1 b1 (S j) Hj).
    - exact (Hn a b 0 eq_refl ltac:(discriminate) Hab).
    - apply IH. intros a0 b0 j Hj Hne. apply (Hn a0 b0 (S j)); [exact Hj|congruence].
  Qed.
  Lemma doing_other tag tag' s n p : doing tag s n p -> tag' = tag \/ is_script p = false -> doing tag' s n p.
  Proof.
    intros Hd [->|H]; [exact Hd|]. destruct Hd as [n p Hs|n k f -> Hk Hf|n p -> Hs]; [now apply do_out|now apply do_hold with f|discriminate].
  Qed.
  Lemma thread_other tag tag' th n : thread_left tag th n -> tag' = tag \/ in_script th = false -> thread_left tag' th n.
  Proof.
    unfold thread_left, in_script. destruct (th_now th) as [[c p]|]; [|auto]. intros (m & Hd & Hn) Ho. exists m. split; [|exact Hn].
    apply (doing_other tag); assumption.
  Qed.

  Lemma thread_step_left g th n g' th' : thread_left (ls_tag (sy_ls g)) th n -> thread_step E g th = Some (g', th') ->
    (exists m, m < n /\ thread_left (ls_tag (sy_ls g')) th' m) /\
    ((in_script th = false /\ in_hold th = false /\ in_script th' = false /\ ls_tag (sy_ls g') = ls_tag (sy_ls g) /\ ls_script (sy_ls g') = ls_script (sy_ls g) /\ sy_readers g' = sy_readers g) \/
     (in_script th = false /\ sy_readers g = 0 /\ sy_readers g' = 0 /\ in_hold th' = true /\ in_script th' = false) \/
     (in_hold th = true /\ in_script th = false /\ in_script th' = true /\ sy_readers g' = S (sy_readers g) /\ ls_tag (sy_ls g') = ls_tag (sy_ls g)) \/
     (in_script th = true /\ sy_readers g' = pred (sy_readers g) /\ ls_tag (sy_ls g') = ls_tag (sy_ls g) /\ ls_script (sy_ls g') = le_script E (ls_tag (sy_ls g)) /\ in_script th' = false)).
  Proof.
    unfold thread_left, thread_step, in_script, in_hold. destruct (th_now th) as [[c p]|] eqn:En.
    - intros (m & Hd & ->) Hs.
      assert (Hstep : match prog_step E p g with Some (g1, p1) => Some (g1, mk_sthread (th_done th) (Some (c, p1)) (th_todo th)) | None => None end = Some (g', th') ->
        (exists m0, m0 < 1 + m + left (th_todo th) /\ match th_now th' with Some (c0, p0) => exists m1, doing (ls_tag (sy_ls g')) (sets_tag c0) m1 p0 /\ m0 = 1 + m1 + left (th_todo th') | None => m0 = left (th_todo th') end) /\
        ((is_script p = false /\ is_hold p = false /\ match th_now th' with Some (_, p0) => is_script p0 | None => false end = false /\ ls_tag (sy_ls g') = ls_tag (sy_ls g) /\ ls_script (sy_ls g') = ls_script (sy_ls g) /\ sy_readers g' = sy_readers g) \/
         (is_script p = false /\ sy_readers g = 0 /\ sy_readers g' = 0 /\ match th_now th' with Some (_, p0) => is_hold p0 | None => false end = true /\ match th_now th' with Some (_, p0) => is_script p0 | None => false end = false) \/
         (is_hold p = true /\ is_script p = false /\ match th_now th' with Some (_, p0) => is_script p0 | None => false end = true /\ sy_readers g' = S (sy_readers g) /\ ls_tag (sy_ls g') = ls_tag (sy_ls g)) \/
         (is_script p = true /\ sy_readers g' = pred (sy_readers g) /\ ls_tag (sy_ls g') = ls_tag (sy_ls g) /\ ls_script (sy_ls g') = le_script E (ls_tag (sy_ls g)) /\ match th_now th' with Some (_, p0) => is_script p0 | None => false end = false))).
      { intros Hq. destruct (prog_step E p g) as [[g1 p1]|] eqn:Ep; [|discriminate]. injection Hq as <- <-.
        destruct (step_doing _ _ _ _ _ _ _ eq_refl Hd Ep) as (m' & Hm & Hd' & Hc). cbn [th_now th_todo]. split.
        - exists (1 + m' + left (th_todo th)). split; [lia|]. exists m'. auto.
        - destruct Hc as [(K1 & K2 & K3 & K4 & K5 & K6 & K7)|[K|[K|K]]]; [left; auto 10|right; left; exact K|right; right; left; exact K|right; right; right; exact K]. }
      destruct p as [r|k|k|k|t k|k|sc k|b k|b k|t key k|t key vals k|b key w t k|b t key fm k|t key vals k]; try exact (Hstep Hs).
      clear Hstep. injection Hs as <- <-. cbn [th_now th_todo]. split; [|left; auto 10]. eexists. split; [|reflexivity]. destruct r as [[]|]; cbn; lia.
    - intros -> Hs. destruct (th_todo th) as [|c r]; [discriminate|]. injection Hs as <- <-. cbn [th_now th_todo].
      destruct (shape_out _ _ _ (shape_call c)) as (H1 & H2). split; [|left; auto 10].
      exists (1 + sections c + left r). split; [change (left (c :: r)) with (2 + sections c + left r); lia|]. exists (sections c). split; [|reflexivity]. apply do_out. apply shape_call.
  Qed.

  Theorem sys_step_left x ns i x' : all_left x ns -> sys_step E x i = Some x' -> exists ns', all_left x' ns' /\ total ns' < total ns.
  Proof.
    intros (Hl & Hr) Hs. unfold sys_step in Hs. destruct (nth_error (sys_threads x) i) as [th|] eqn:En; [|discriminate].
    destruct (thread_step E (sys_state x) th) as [[g th']|] eqn:Et; [|discriminate]. injection Hs as <-.
    destruct (Forall2_pick _ _ _ _ _ Hl En) as (n & Hn & Hth). destruct (thread_step_left _ _ _ _ _ Hth Et) as ((m & Hm & Hth') & Hc).
    exists (lset ns i m). pose proof (total_lset ns i n m Hn) as Htot. split; [|lia]. pose proof (scripts_lset _ _ _ th' En) as Hsc. split; cbn.
    - apply (Forall2_put _ _ _ _ _ _ _ Hl Hth'). intros a b j Ha _ Hab. apply (thread_other (ls_tag (sy_ls (sys_state x)))); [exact Hab|].
      destruct Hc as [(_ & _ & _ & Hc & _)|[(_ & Hc & _)|[(_ & _ & _ & _ & Hc)|(_ & _ & Hc & _)]]]; auto.
      right. apply (scripts_none (sys_threads x)); [lia|]. exact (nth_error_In _ _ Ha).
    - destruct Hc as [(C1 & C2 & C3 & _ & _ & C4)|[(C1 & C2 & C3 & _ & C4)|[(_ & C1 & C2 & C3 & _)|(C1 & C2 & _ & _ & C3)]]];
        repeat match goal with H : in_script _ = _ |- _ => rewrite H in Hsc end; cbn in Hsc; lia.
  Qed.
  Theorem sys_step_consistent x ns i x' : all_left x ns -> consistent x -> sys_step E x i = Some x' -> consistent x'.
  Proof.
    intros (Hl & Hr) Hx Hs. unfold sys_step in Hs. destruct (nth_error (sys_threads x) i) as [th|] eqn:En; [|discriminate].
    destruct (thread_step E (sys_state x) th) as [[g th']|] eqn:Et; [|discriminate]. injection Hs as <-.
    destruct (Forall2_pick _ _ _ _ _ Hl En) as (n & Hn & Hth). destruct (thread_step_left _ _ _ _ _ Hth Et) as (_ & Hc). unfold consistent. cbn.
    assert (Hi : i < List.length (sys_threads x)) by (apply nth_error_Some; congruence).
    destruct Hc as [(C1 & C2 & C3 & C4 & C5 & C6)|[(_ & _ & _ & C1 & _)|[(_ & _ & C1 & _)|(_ & _ & C1 & C2 & _)]]].
    - destruct Hx as [Hx|(j & th1 & Hj & H1)]; [left; congruence|]. right. exists j, th1. split; [|exact H1]. rewrite lset_nth_ne; [exact Hj|].
      intros ->. rewrite Hj in En. injection En as ->. destruct H1; congruence.
    - right. exists i, th'. split; [now apply lset_nth_eq|auto].
    - right. exists i, th'. split; [now apply lset_nth_eq|auto].
    - left. congruence.
  Qed.

  Lemma start_left st calls : all_left (sys_start st calls) (map left calls).
  Proof. split; cbn; [|now induction calls]. induction calls as [|l calls IH]; constructor; [reflexivity|exact IH]. Qed.
  Lemma run_left sch : forall x ns, all_left x ns -> exists ns', all_left (sys_run E x sch) ns' /\ total ns' + steps_made E x sch <= total ns.
  Proof.
    induction sch as [|i sch IH]; intros x ns Hx; cbn; [exists ns; split; [exact Hx|lia]|].
    destruct (sys_step E x i) as [x'|] eqn:Es; [|now apply IH]. destruct (sys_step_left _ _ _ _ Hx Es) as (ns1 & H1 & H2).
    destruct (IH x' ns1 H1) as (ns2 & H3 & H4). exists ns2. split; [exact H3|lia].
  Qed.
  Lemma run_consistent sch : forall x ns, all_left x ns -> consistent x -> consistent (sys_run E x sch).
  Proof.
    induction sch as [|i sch IH]; intros x ns Hx Hc; cbn; [exact Hc|]. destruct (sys_step E x i) as [x'|] eqn:Es; [|exact (IH x ns Hx Hc)].
    destruct (sys_step_left _ _ _ _ Hx Es) as (ns1 & H1 & _). exact (IH x' ns1 H1 (sys_step_consistent _ _ _ _ Hx Hc Es)).
  Qed.

  (** ** No deadlock *)
  Lemma step_or_wait p g : (exists r, p = PRet r) \/ prog_step E p g <> None \/ exists t k, p = PSetTag t k /\ sy_readers g <> 0.
  Proof.
    destruct p as [r|k|k|k|t k|k|sc k|b k|b k|t key k|t key vals k|b key w t k|b t key fm k|t key vals k]; eauto; right; cbn [prog_step]; try (left; discriminate).
    - destruct (sy_readers g); [left; discriminate|right; eauto].
    - left. destruct (sy_poisoned g); discriminate.
    - left. destruct (sy_poisoned g); [discriminate|]. destruct (cached _ _ _) as [[]|]; try discriminate. now destruct (use_formatter _ _ _ _ _ _).
    - left. destruct (sy_poisoned g); discriminate.
    - left. destruct (sy_poisoned g); discriminate.
    - left. destruct (sy_poisoned g); [discriminate|]. destruct (cached _ _ _) as [[]|]; try discriminate. now destruct (use_formatter _ _ _ _ _ _).
  Qed.
  Lemma thread_step_some g th : (th_now th <> None \/ th_todo th <> []) -> thread_step E g th <> None \/
    (exists c t k, th_now th = Some (c, PSetTag t k) /\ sy_readers g <> 0).
  Proof.
    unfold thread_step. destruct (th_now th) as [[c p]|].
    - intros _. destruct (step_or_wait p g) as [(r & ->)|[Hp|(t & k & -> & Hr)]]; [left; discriminate| |right; eauto 6].
      left. destruct p; try discriminate; try (destruct (prog_step E _ g) as [[g1 p1]|]; [discriminate|congruence]).
    - intros [H|H]; [congruence|]. left. destruct (th_todo th); [congruence|discriminate].
  Qed.
  Theorem progress x ns : all_left x ns -> finished x \/ exists i x', sys_step E x i = Some x'.
  Proof.
    intros (Hl & Hr).
    assert (Hgo : forall i th, nth_error (sys_threads x) i = Some th -> thread_step E (sys_state x) th <> None -> exists x', sys_step E x i = Some x').
    { intros i th Hi Hs. unfold sys_step. rewrite Hi. destruct (thread_step E (sys_state x) th) as [[g th']|]; [eauto|congruence]. }
    assert (Hdec : finished x \/ exists i th, nth_error (sys_threads x) i = Some th /\ (th_now th <> None \/ th_todo th <> [])).
    { unfold finished. clear Hl Hr Hgo. induction (sys_threads x) as [|a l IH]; [left; intros th []|].
      destruct (th_now a) as [q|] eqn:Ea; [right; exists 0, a; split; [reflexivity|left; congruence]|].
      destruct (th_todo a) as [|q r] eqn:Et; [|right; exists 0, a; split; [reflexivity|right; congruence]].
      destruct IH as [IH|(i & th & Hi & H)]; [|right; exists (S i), th; auto]. left. intros th [<-|Hin]; [auto|exact (IH th Hin)]. }
    destruct Hdec as [H|(i & th & Hi & H)]; [left; exact H|]. right. destruct (thread_step_some (sys_state x) th H) as [Hs|(c & t & k & Hn & Hrd)].
    - exists i. exact (Hgo i th Hi Hs).
    - rewrite Hr in Hrd. destruct (scripts_some _ Hrd) as (j & th1 & Hj & Hs1). exists j. apply (Hgo j th1 Hj). unfold in_script in Hs1.
      unfold thread_step. destruct (th_now th1) as [[c1 p1]|]; [|discriminate]. destruct p1; try discriminate.
  Qed.
  Lemma run_app a b : forall x, sys_run E x (a ++ b) = sys_run E (sys_run E x a) b.
  Proof. induction a as [|i a IH]; intros x; cbn; [reflexivity|apply IH]. Qed.
  Theorem all_finish n : forall x ns, all_left x ns -> total ns <= n -> exists more, List.length more <= n /\ finished (sys_run E x more).
  Proof.
    induction n as [|n IH]; intros x ns Hx Hn; destruct (progress x ns Hx) as [Hf|(i & x' & Hs)].
    - exists []. split; [cbn; lia|exact Hf].
    - destruct (sys_step_left _ _ _ _ Hx Hs) as (ns1 & _ & H2). lia.
    - exists []. split; [cbn; lia|exact Hf].
    - destruct (sys_step_left _ _ _ _ Hx Hs) as (ns1 & H1 & H2). destruct (IH x' ns1 H1 ltac:(lia)) as (more & H3 & H4).
      exists (i :: more). split; [cbn; lia|]. cbn. now rewrite Hs.
  Qed.
End Sync.
