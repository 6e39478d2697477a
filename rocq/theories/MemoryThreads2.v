(** C91 for threads that use one registry or one sqlite3 provider. *)
From Verif Require Import Base BaseFacts RegistryModel RegistrySpec RegistryProofs RegThreadsModel RegThreadsSpec RegThreadsProofs
  ProviderModel ProviderSpec ProviderProofs ProviderSyncModel ProviderSyncProofs MemorySpec MemoryProofs2.

(** ** The registry *)
Section Registry.
  Variable L : locid.
  Hypothesis HL : locid_ok L.
  Variable h : list ustr.
  Definition string_of (p : pc) : ustr :=
    match p with PTags s | PDeprecated s | PCanon s | PAgain s _ | PHold s _ | PCreate s _ | PInsert s _ | PDone s _ => s end.
  Definition source (log : list (nat * said)) (s : ustr) : Prop := In s h \/ exists i, In (i, SAsk s) log.
  Definition sourced (w : world) : Prop :=
    (forall s, In s (mkeys (lr_deprecated (w_reg w))) -> source (w_log w) s) /\ (forall i p k, w_threads w i = TTag p k -> source (w_log w) (string_of p)).
  Lemma source_more log l s : source log s -> source (l ++ log) s.
  Proof. intros [H|(i & H)]; [now left|]. right. exists i. apply in_or_app. now right. Qed.
  Lemma pc_source r free p r' hold p' : pc_step L r free p = Some (r', hold, p') -> string_of p' = string_of p /\
    forall s, In s (mkeys (lr_deprecated r')) -> In s (mkeys (lr_deprecated r)) \/ s = string_of p.
  Proof.
    intros H. destruct p as [q|q|q|q new|q x|q new|q x|q o]; cbn [pc_step string_of] in *.
    - destruct free; [|discriminate H]. injection H as <- _ <-. split; [now destruct (mget q (lr_tags r))|auto].
    - injection H as <- _ <-. split; [now destruct (mget q (lr_deprecated r))|auto].
    - injection H as <- _ <-. split; [now destruct (canon L q)|auto].
    - destruct free; [|discriminate H]. destruct (mget new (lr_tags r)); injection H as <- _ <-; auto.
    - injection H as <- _ <-. split; [reflexivity|]. cbn [set_deprecated lr_deprecated]. intros s Hs. apply minsert_keys_In in Hs as [->|Hs]; auto.
    - cbn [fresh] in H. injection H as <- _ <-. split; [reflexivity|]. destruct (ueqb q new); cbn [set_deprecated lr_deprecated]; [auto|].
      intros s Hs. apply minsert_keys_In in Hs as [->|Hs]; auto.
    - destruct free; [|discriminate H]. injection H as <- _ <-. split; [reflexivity|auto].
    - discriminate H.
  Qed.
  Lemma sourced_next w i r hold t l : sourced w -> (forall s, In s (mkeys (lr_deprecated r)) -> In s (mkeys (lr_deprecated (w_reg w))) \/ source (map (fun a => (i, a)) l ++ w_log w) s) ->
    (forall p k, t = TTag p k -> source (map (fun a => (i, a)) l ++ w_log w) (string_of p)) ->
    sourced (mk_world r hold (fun j => if Nat.eqb j i then t else w_threads w j) (map (fun a => (i, a)) l ++ w_log w)).
  Proof.
    intros (H1 & H2) Hr Ht. split; cbn [w_reg w_threads w_log].
    - intros s Hs. destruct (Hr s Hs) as [G|G]; [apply source_more; auto|exact G].
    - intros j p k. destruct (Nat.eqb j i); [apply Ht|]. intros G. apply source_more. exact (H2 j p k G).
  Qed.
  Lemma sourced_step w i w' : sourced w -> world_step L w i = Some w' -> sourced w'.
  Proof.
    intros Hw H. unfold world_step in H. set (free := match w_lock w with None => true | Some _ => false end) in H.
    assert (Htag : forall p k (extra : list said) x, source (map (fun a => (i, a)) extra ++ w_log w) (string_of p) -> tag_step L (w_reg w) free p k = Some x ->
      forall hold, sourced (mk_world (fst (fst x)) hold (fun j => if Nat.eqb j i then fst (snd x) else w_threads w j) (map (fun a => (i, a)) (snd (snd x) ++ extra) ++ w_log w))).
    { intros p k extra x Hs Ht hold. unfold tag_step in Ht. destruct (pc_step L (w_reg w) free p) as [[[r' hd] p']|] eqn:Ep; [|discriminate Ht]. injection Ht as <-. cbn [fst snd].
      destruct (pc_source _ _ _ _ _ _ Ep) as (G1 & G2). rewrite map_app, <- app_assoc. assert (Hs' : source (map (fun a => (i, a)) (snd (in_tag p' k)) ++ map (fun a => (i, a)) extra ++ w_log w) (string_of p)) by (now apply source_more).
      rewrite app_assoc, <- map_app in *. apply sourced_next; [exact Hw| |].
      - intros s Hd. destruct (G2 s Hd) as [G|G]; [auto|right; now rewrite G].
      - intros p0 k0 E0. assert (p0 = p') by (destruct p'; cbn [in_tag fst] in E0; try discriminate E0; injection E0 as <- _; reflexivity). subst p0. now rewrite G1. }
    assert (Hsame : forall hold t l, (forall p k, t <> TTag p k) -> forall r, lr_deprecated r = lr_deprecated (w_reg w) ->
      sourced (mk_world r hold (fun j => if Nat.eqb j i then t else w_threads w j) (map (fun a => (i, a)) l ++ w_log w))).
    { intros hold t l Ht r Hr. apply sourced_next; [exact Hw|intros s Hs; left; now rewrite Hr in Hs|]. intros p k E0. destruct (Ht p k E0). }
    unfold thread_step in H. destruct (w_threads w i) as [[|s k|t k|k|k|k]|p k|t k|t x k|l k] eqn:Et.
    all: try discriminate H.
    all: try (injection H as <-; first [refine (Hsame _ _ [] _ _ _)|refine (Hsame _ _ [_] _ _ _)]; [discriminate|reflexivity]).
    - destruct (tag_step L (w_reg w) free (PTags s) k) as [[[r' hd] [t' l']]|] eqn:Es; [|discriminate H]. injection H as <-.
      refine (Htag (PTags s) k [SAsk s] (r', hd, (t', l')) _ Es _). right. exists i. now left.
    - destruct (mget (r_tag t) (lr_icu (w_reg w))); injection H as <-; (first [refine (Hsame _ _ [] _ _ _)|refine (Hsame _ _ [_] _ _ _)|refine (Hsame _ _ [_; _] _ _ _)]); solve [discriminate|reflexivity].
    - destruct free; [|discriminate H]. injection H as <-. (first [refine (Hsame _ _ [] _ _ _)|refine (Hsame _ _ [_] _ _ _)|refine (Hsame _ _ [_; _] _ _ _)]); solve [discriminate|reflexivity].
    - destruct free; [|discriminate H]. injection H as <-. (first [refine (Hsame _ _ [] _ _ _)|refine (Hsame _ _ [_] _ _ _)|refine (Hsame _ _ [_; _] _ _ _)]); solve [discriminate|reflexivity].
    - destruct (tag_step L (w_reg w) free p k) as [[[r' hd] [t' l']]|] eqn:Es; [|discriminate H]. injection H as <-.
      pose proof (Htag p k [] (r', hd, (t', l')) (proj2 Hw i p k Et) Es) as G. cbn [fst snd] in G. rewrite app_nil_r in G. apply G.
    - destruct (parse_locale L (r_tag t)); [cbn [fresh] in H|]; injection H as <-; (first [refine (Hsame _ _ [] _ _ _)|refine (Hsame _ _ [_] _ _ _)|refine (Hsame _ _ [_; _] _ _ _)]); solve [discriminate|reflexivity].
  Qed.
  Lemma sourced_run sch : forall w, sourced w -> sourced (world_run L w sch).
  Proof.
    induction sch as [|i sch IH]; intros w Hw; cbn [world_run]; [exact Hw|]. apply IH. destruct (world_step L w i) as [w'|] eqn:Es; [exact (sourced_step _ _ _ Hw Es)|exact Hw].
  Qed.
  Theorem registry_size rs r ps sch D : reachable L h rs r -> let w := world_run L (world_start r ps) sch in
    incl h D -> (forall i s, In (i, SAsk s) (w_log w) -> In s D) ->
    List.length (list_tags (w_reg w)) <= List.length D /\ List.length (list_deprecated (w_reg w)) <= List.length D.
  Proof.
    intros Hr w Hh HD. pose proof (run_world L HL h sch _ (start_world L HL h rs r ps Hr)) as W. fold w in W. destruct (wo_nodup _ _ _ W) as (N1 & N2).
    unfold list_tags, list_deprecated. rewrite !map_length. split.
    - rewrite <- (map_length fst (lr_tags (w_reg w))), <- (map_length (fun s => match canon L s with Some y => y | None => [] end) D).
      apply NoDup_incl_length; [exact N1|]. intros k Hk. apply mget_keys in Hk as (x & Ek).
      assert (Ht : there (w_reg w) k) by (unfold there; congruence). apply (proj1 (wo_only _ _ _ W)) in Ht. apply in_map_iff.
      destruct Ht as [(s & Hs & Hc)|(i & s & Hs & Hc)]; exists s; rewrite Hc; (split; [reflexivity|]); [now apply Hh|exact (HD i s Hs)].
    - assert (Hs : sourced (world_start r ps)).
      { split; cbn [world_start w_reg w_threads w_log]; [|discriminate]. intros s Hs. left. pose proof (reachable_inv L HL h rs r Hr) as [H1 H2 H3 _ H5 H6 H7].
        apply mget_keys in Hs as (x & Ek). destruct (H2 _ _ Ek) as (_ & _ & Hin & _). exact Hin. }
      apply (sourced_run sch) in Hs. fold w in Hs. rewrite <- (map_length fst (lr_deprecated (w_reg w))). apply NoDup_incl_length; [exact N2|].
      intros s Hi. destruct (proj1 Hs s Hi) as [G|(i & G)]; [now apply Hh|exact (HD i s G)].
  Qed.
  (** The locales. *)
  Lemma tag_icu r s r' o : tag L r s = (r', o) -> lr_icu r' = lr_icu r.
  Proof.
    unfold tag. destruct (mget s (lr_tags r)); [now intros [= <- _]|]. destruct (mget s (lr_deprecated r)); [now intros [= <- _]|].
    destruct (canon L s) as [y|]; [|now intros [= <- _]]. destruct (mget y (lr_tags r)); [intros [= <- _]; reflexivity|]. cbn [fresh]. intros [= <- _]. now destruct (ueqb s y).
  Qed.
  Lemma icu_start rs r : reachable L h rs r -> NoDup (mkeys (lr_icu r)) /\ incl (mkeys (lr_icu r)) (map r_tag rs).
  Proof.
    induction 1 as [|h0 rs r s r' o _ (I1 & I2) Ht|h0 rs r t r' o _ (I1 & I2) Hin Ht].
    - split; [constructor|intros k []].
    - rewrite (tag_icu _ _ _ _ Ht). split; [exact I1|]. intros k Hk. apply I2 in Hk. destruct o; [right|..]; exact Hk.
    - unfold icu_language in Ht. destruct (mget (r_tag t) (lr_icu r)); [injection Ht as <- _; auto|]. destruct (parse_locale L (r_tag t)) as [l|]; [|injection Ht as <- _; auto].
      cbn [fresh] in Ht. injection Ht as <- _. cbn [lr_icu]. split; [now apply minsert_NoDup|]. intros k Hk. apply minsert_keys_In in Hk as [->|Hk]; [|auto]. now apply in_map.
  Qed.
  Definition located (T : list ustr) (w : world) : Prop :=
    NoDup (mkeys (lr_icu (w_reg w))) /\ forall k, In k (mkeys (lr_icu (w_reg w))) -> In k T \/ exists i t o, In (i, SIcu t o) (w_log w) /\ r_tag t = k.
  Lemma pc_icu r free p r' hold p' : pc_step L r free p = Some (r', hold, p') -> lr_icu r' = lr_icu r.
  Proof.
    intros H. destruct p as [q|q|q|q new|q x|q new|q x|q o]; cbn [pc_step] in *; try discriminate H.
    all: try (destruct free; [|discriminate H]).
    all: try (destruct (mget new (lr_tags r))).
    all: cbn [fresh] in H; injection H as <- _ _; try reflexivity.
    all: now destruct (ueqb q new).
  Qed.
  Lemma thread_icu r free t r' hold t' l : thread_step L r free t = Some (r', hold, (t', l)) ->
    lr_icu r' = lr_icu r \/ exists u x, lr_icu r' = minsert (r_tag u) x (lr_icu r) /\ l = [SIcu u (Ok x)].
  Proof.
    assert (Ht : forall p k x, tag_step L r free p k = Some x -> lr_icu (fst (fst x)) = lr_icu r).
    { intros p k x H. unfold tag_step in H. destruct (pc_step L r free p) as [[[r1 hd] p1]|] eqn:Ep; [|discriminate H]. injection H as <-. exact (pc_icu _ _ _ _ _ _ Ep). }
    intros H. unfold thread_step in H. destruct t as [[|s k|u k|k|k|k]|p k|u k|u x k|l0 k].
    all: try discriminate H.
    - destruct (tag_step L r free (PTags s) k) as [[[r1 hd] [t1 l1]]|] eqn:Es; [|discriminate H]. injection H as <- _ _ _. left. exact (Ht _ _ _ Es).
    - left. destruct (mget (r_tag u) (lr_icu r)); injection H as <- _ _ _; reflexivity.
    - left. destruct free; [|discriminate H]. injection H as <- _ _ _; reflexivity.
    - left. injection H as <- _ _ _; reflexivity.
    - left. destruct free; [|discriminate H]. injection H as <- _ _ _; reflexivity.
    - left. exact (Ht _ _ _ H).
    - left. destruct (parse_locale L (r_tag u)); [cbn [fresh] in H|]; injection H as <- _ _ _; reflexivity.
    - right. exists u, x. injection H as <- _ _ <-. auto.
    - left. injection H as <- _ _ _; reflexivity.
  Qed.
  Lemma located_run T sch : forall w, located T w -> located T (world_run L w sch).
  Proof.
    induction sch as [|i sch IH]; intros w Hw; cbn [world_run]; [exact Hw|]. apply IH. destruct (world_step L w i) as [w'|] eqn:Es; [|exact Hw].
    unfold world_step in Es. destruct (thread_step L _ _ _) as [[[r' hold] [t' l]]|] eqn:Et in Es; [|discriminate Es]. injection Es as <-.
    destruct Hw as (H1 & H2). unfold located. cbn [w_reg w_log]. assert (Hm : forall k, In k (mkeys (lr_icu (w_reg w))) -> In k T \/ exists j u o, In (j, SIcu u o) (map (fun a => (i, a)) l ++ w_log w) /\ r_tag u = k).
    { intros k Hk. destruct (H2 k Hk) as [G|(j & u & o & G & Gk)]; [now left|]. right. exists j, u, o. split; [apply in_or_app; now right|exact Gk]. }
    destruct (thread_icu _ _ _ _ _ _ _ Et) as [->|(u & x & -> & ->)]; [split; [exact H1|exact Hm]|]. split; [now apply minsert_NoDup|].
    intros k Hk. apply minsert_keys_In in Hk as [->|Hk]; [|exact (Hm k Hk)]. right. exists i, u, (Ok x). split; [now left|reflexivity].
  Qed.
  Theorem locales_size rs r ps sch D : reachable L h rs r -> let w := world_run L (world_start r ps) sch in
    incl (map r_tag rs) D -> (forall i t o, In (i, SIcu t o) (w_log w) -> In (r_tag t) D) -> List.length (lr_icu (w_reg w)) <= List.length D.
  Proof.
    intros Hr w Hh HD. destruct (icu_start rs r Hr) as (N & Hi).
    assert (Hl : located (map r_tag rs) (world_start r ps)) by (split; [exact N|intros k Hk; left; exact (Hi k Hk)]).
    apply (located_run _ sch) in Hl. fold w in Hl. rewrite <- (map_length fst). apply NoDup_incl_length; [exact (proj1 Hl)|].
    intros k Hk. destruct (proj2 Hl k Hk) as [G|(i & t & o & G & <-)]; [exact (Hh k G)|exact (HD i t o G)].
  Qed.
End Registry.

(** ** The provider *)
Section Provider.
  Variable E : penv.
  Variable p : sprovider.
  Definition no_twice (g : pconf) : Prop := NoDup (mkeys (sh_queries (pf_shared g))).
  Lemma event_twice g e : no_twice g -> no_twice (pevent_step E p g e).
  Proof.
    intros H. destruct e as [c|i ok]; cbn [pevent_step]; [exact H|]. destruct (nth_error (pf_calls g) i) as [[c m]|]; [|exact H].
    destruct (prog_step (pf_shared g) ok m) as [[s m']|] eqn:Es; [|exact H]. unfold no_twice in *. cbn [pf_shared].
    destruct m; cbn [prog_step] in Es; try discriminate Es; try (injection Es as <- _; exact H).
    destruct (sh_poisoned (pf_shared g)); [injection Es as <- _; exact H|]. destruct (make_query version q); injection Es as <- _; cbn [sh_queries]; try exact H. now apply minsert_NoDup.
  Qed.
  Lemma queries_threads evs : provider_ok p -> List.length (sh_queries (pf_shared (pevents E p evs))) <= 18.
  Proof.
    intros Hp. pose proof (events_ok E p Hp evs) as (Hs & _). rewrite <- (map_length fst). change 18 with (List.length all_keys). apply NoDup_incl_length.
    - unfold pevents. assert (G : forall evs g, no_twice g -> no_twice (fold_left (pevent_step E p) evs g)).
      { clear. intros evs. induction evs as [|e evs IH]; intros g Hg; cbn [fold_left]; [exact Hg|]. apply IH. now apply event_twice. }
      apply G. constructor.
    - intros k Hk. apply mget_keys in Hk as (q & Hq). destruct (so_queries _ _ _ _ _ _ Hs _ _ Hq) as (kd & Hpl & -> & _). destruct kd as [a b c|q0 a]; [apply pattern_key|].
      apply plain_key. intros x y ->. exact Hpl.
  Qed.
End Provider.
