(** C107: how many references a tag can get. *)
From Verif Require Import Base BaseFacts RegistryModel RegistrySpec RegistryProofs RegThreadsModel RegThreadsSpec RegThreadsProofs RegParseThreads.

Section Few.
  Variable L : locid.
  Variable y : ustr.
  (** [K] has all references of the tag [y]. *)
  Definition in_k (K : list tref) (x : tref) : Prop := r_tag x = y -> In x K.
  Definition reg_k (K : list tref) (r : lregistry) : Prop :=
    (forall k x, mget k (lr_tags r) = Some x -> in_k K x) /\ (forall k x, mget k (lr_deprecated r) = Some x -> in_k K x).
  Definition pc_k (K : list tref) (p : pc) : Prop :=
    match p with PHold _ x | PInsert _ x | PDone _ (Ok x) => in_k K x | _ => True end.
  Definition creates (p : pc) : Prop := match p with PCreate _ z => z = y | _ => False end.
  Definition inserts (p : pc) : Prop := match p with PInsert _ x => r_tag x = y | _ => False end.
  Definition has (r : lregistry) : Prop := mget y (lr_tags r) <> None.

  Lemma in_more K K' x : in_k K x -> in_k (K' ++ K) x.
  Proof. intros H E. apply in_or_app. right. exact (H E). Qed.
  Lemma reg_more K K' r : reg_k K r -> reg_k (K' ++ K) r.
  Proof. intros (H1 & H2). split; intros k x H; apply in_more; eauto. Qed.
  Lemma pc_more K K' p : pc_k K p -> pc_k (K' ++ K) p.
  Proof. destruct p as [| | | | | | |s [x| | |]]; cbn [pc_k]; auto using in_more. Qed.
  Lemma minsert_k K k0 x0 (m : amap tref) : in_k K x0 -> (forall k x, mget k m = Some x -> in_k K x) -> forall k x, mget k (minsert k0 x0 m) = Some x -> in_k K x.
  Proof.
    intros H0 H k x E. rewrite mget_minsert in E. destruct (ueqb k k0); [injection E as <-; exact H0|exact (H k x E)].
  Qed.
  Lemma pc_few K r free p r' hold p' : pc_step L r free p = Some (r', hold, p') -> reg_k K r -> pc_k K p ->
    exists new, reg_k (new ++ K) r' /\ pc_k (new ++ K) p' /\ (has r -> has r') /\ (has r -> ~ creates p') /\ (inserts p -> has r') /\
      ((new = [] /\ ~ inserts p') \/ (creates p /\ inserts p' /\ exists x, new = [x])).
  Proof.
    intros H (G1 & G2) Gp. destruct p as [q|q|q|q z|q x|q z|q x|q o]; cbn [pc_step] in H.
    - destruct free; [|discriminate H]. injection H as <- _ <-. exists []. destruct (mget q (lr_tags r)) as [x|] eqn:E; cbn [pc_k creates inserts app]; repeat split; auto; eauto; contradiction.
    - injection H as <- _ <-. exists []. destruct (mget q (lr_deprecated r)) as [x|] eqn:E; cbn [pc_k creates inserts app]; repeat split; auto; eauto; contradiction.
    - injection H as <- _ <-. exists []. destruct (canon L q) as [z|] eqn:E; cbn [pc_k creates inserts app]; repeat split; auto; contradiction.
    - destruct free; [|discriminate H]. exists []. destruct (mget z (lr_tags r)) as [x|] eqn:E; injection H as <- _ <-; cbn [pc_k creates inserts app].
      + repeat split; auto; eauto; contradiction.
      + repeat split; auto; try contradiction. intros Hh ->. exact (Hh E).
    - injection H as <- _ <-. exists []. cbn [pc_k creates inserts app set_deprecated lr_tags lr_deprecated has] in *. repeat split; auto; try contradiction. exact (minsert_k K q x _ Gp G2).
    - cbn [fresh] in H. injection H as <- _ <-. cbn [creates inserts r_tag]. set (x := mk_tref (lr_next r) z).
      assert (Hr : forall K', in_k K' x -> reg_k K' r -> reg_k K' (if ueqb q z then mk_lregistry (lr_tags r) (lr_deprecated r) (lr_icu r) (S (lr_next r))
        else set_deprecated (mk_lregistry (lr_tags r) (lr_deprecated r) (lr_icu r) (S (lr_next r))) (minsert q x (lr_deprecated r)))).
      { intros K' Hx (R1 & R2). destruct (ueqb q z); split; cbn [set_deprecated lr_tags lr_deprecated]; auto. exact (minsert_k K' q x _ Hx R2). }
      assert (Hh : has r -> has (if ueqb q z then mk_lregistry (lr_tags r) (lr_deprecated r) (lr_icu r) (S (lr_next r))
        else set_deprecated (mk_lregistry (lr_tags r) (lr_deprecated r) (lr_icu r) (S (lr_next r))) (minsert q x (lr_deprecated r)))) by (destruct (ueqb q z); auto).
      destruct (ueqb_spec z y) as [Ez|Hne].
      + exists [x]. assert (Hx : in_k ([x] ++ K) x) by (intros _; now left). repeat split; [apply Hr; [exact Hx|apply reg_more; split; assumption]..|exact Hx|exact Hh|auto|intros []|]. right. eauto.
      + exists []. assert (Hx : in_k K x) by (intros E; now destruct Hne). repeat split; [apply Hr; [exact Hx|split; assumption]..|exact Hx|exact Hh|auto|intros []|]. left. auto.
    - destruct free; [|discriminate H]. injection H as <- _ <-. exists []. cbn [pc_k creates inserts app set_tags] in *. unfold has. cbn [lr_tags lr_deprecated]. split; [split; [exact (minsert_k K _ x _ Gp G1)|exact G2]|].
      assert (Hm : r_tag x = y \/ mget y (lr_tags r) <> None -> mget y (minsert (r_tag x) x (lr_tags r)) <> None) by (intros Hm; rewrite mget_minsert; destruct (ueqb_spec y (r_tag x)); [discriminate|destruct Hm; congruence]).
      repeat split; auto; contradiction.
    - discriminate H.
  Qed.

  Definition thread_k (K : list tref) (t : tstate) : Prop := match t with TTag p _ => pc_k K p | _ => True end.
  Definition creating (t : tstate) : Prop := match t with TTag p _ => creates p | _ => False end.
  Definition inserting (t : tstate) : Prop := match t with TTag p _ => inserts p | _ => False end.
  Definition log_k (K : list tref) (l : list said) : Prop := forall s x, In (STag s (Ok x)) l -> in_k K x.
  Lemma tag_few K r free p c r' hold t' l : tag_step L r free p c = Some (r', hold, (t', l)) -> reg_k K r -> pc_k K p ->
    exists new, reg_k (new ++ K) r' /\ thread_k (new ++ K) t' /\ log_k (new ++ K) l /\ (has r -> has r') /\ (has r -> ~ creating t') /\ (inserts p -> has r') /\
      ((new = [] /\ ~ inserting t') \/ (creates p /\ inserting t' /\ exists x, new = [x])).
  Proof.
    intros H Gr Gp. unfold tag_step in H. destruct (pc_step L r free p) as [[[r1 h1] p1]|] eqn:Ep; [|discriminate H]. injection H as <- _ E.
    destruct (pc_few K _ _ _ _ _ _ Ep Gr Gp) as (new & A1 & A2 & A3 & A4 & A5 & A6). exists new. split; [exact A1|].
    destruct p1 as [q|q|q|q z|q x|q z|q x|q o]; cbn [in_tag] in E; injection E as <- <-; cbn [thread_k creating inserting].
    1-7: split; [exact A2|]; split; [intros s x0 []|]; auto.
    split; [exact Logic.I|]. split; [|cbn [creates inserts] in *; auto]. intros s x [E|[]]. injection E as _ ->. exact A2.
  Qed.
  Local Ltac same := solve [reflexivity | intros ? ? G; discriminate G | intros ? ? [] | intros ? ? [G|[]]; discriminate G | intros []].
  Lemma thread_few K r free t r' hold t' l : thread_step L r free t = Some (r', hold, (t', l)) -> reg_k K r -> thread_k K t ->
    exists new, reg_k (new ++ K) r' /\ thread_k (new ++ K) t' /\ log_k (new ++ K) l /\ (has r -> has r') /\ (has r -> ~ creating t') /\ (inserting t -> has r') /\
      ((new = [] /\ ~ inserting t') \/ (creating t /\ inserting t' /\ exists x, new = [x])).
  Proof.
    intros H Gr Gt.
    assert (Hsame : lr_tags r' = lr_tags r -> lr_deprecated r' = lr_deprecated r -> (forall p c, t' <> TTag p c) -> (forall s x, ~ In (STag s (Ok x)) l) -> ~ inserting t ->
      exists new, reg_k (new ++ K) r' /\ thread_k (new ++ K) t' /\ log_k (new ++ K) l /\ (has r -> has r') /\ (has r -> ~ creating t') /\ (inserting t -> has r') /\
      ((new = [] /\ ~ inserting t') \/ (creating t /\ inserting t' /\ exists x, new = [x]))).
    { intros E1 E2 Ht Hl Hi. exists []. unfold reg_k, has in *. rewrite E1, E2. cbn [app]. split; [exact Gr|].
      assert (G : thread_k K t' /\ ~ creating t' /\ ~ inserting t') by (destruct t' as [p|p c|u c|u z c|l0 c]; cbn; try tauto; now destruct (Ht p c)). destruct G as (T1 & T2 & T3).
      split; [exact T1|]. split; [intros s x Hx; now destruct (Hl s x)|]. repeat split; auto; contradiction. }
    destruct t as [[|s c|u c|c|c|c]|p c|u c|u z c|l0 c]; cbn [thread_step] in H; try discriminate H.
    - destruct (tag_step L r free (PTags s) c) as [[[r1 h1] [t1 l1]]|] eqn:Es; [|discriminate H]. injection H as <- _ <- <-.
      destruct (tag_few K _ _ _ _ _ _ _ _ Es Gr Logic.I) as (new & A1 & A2 & A3 & A4 & A5 & _ & A6). exists new. split; [exact A1|]. split; [exact A2|].
      split; [intros s0 x Hx; apply in_app_or in Hx as [Hx|[Hx|[]]]; [exact (A3 s0 x Hx)|discriminate Hx]|]. split; [exact A4|]. split; [exact A5|]. split; [intros []|exact A6].
    - destruct (mget (r_tag u) (lr_icu r)); injection H as <- _ <- <-; apply Hsame; same.
    - destruct free; [|discriminate H]. injection H as <- _ <- <-. apply Hsame; same.
    - injection H as <- _ <- <-. apply Hsame; same.
    - destruct free; [|discriminate H]. injection H as <- _ <- <-. apply Hsame; same.
    - exact (tag_few K _ _ _ _ _ _ _ _ H Gr Gt).
    - destruct (parse_locale L (r_tag u)); [cbn [fresh] in H|]; injection H as <- _ <- <-; apply Hsame; same.
    - injection H as <- _ <- <-. apply Hsame; same.
    - injection H as <- _ <- <-. apply Hsame; same.
  Qed.

  (** [C]: which thread created which reference; [X]: the reference that there was before. *)
  Record few (n : nat) (X : list tref) (C : list (nat * tref)) (w : world) : Prop := {
    f_reg : reg_k (map snd C ++ X) (w_reg w);
    f_threads : forall i, thread_k (map snd C ++ X) (w_threads w i);
    f_log : forall i s x, In (i, STag s (Ok x)) (w_log w) -> in_k (map snd C ++ X) x;
    f_once : NoDup (map fst C);
    f_who : forall i, In i (map fst C) -> i < n;
    f_idle : forall i, n <= i -> w_threads w i = TRest REnd;
    f_old : X <> [] -> C = [];
    f_barred : forall i, X <> [] \/ In i (map fst C) -> (has (w_reg w) \/ inserting (w_threads w i)) /\ ~ creating (w_threads w i)
  }.
  Lemma few_step n X C w i w' : few n X C w -> world_step L w i = Some w' -> exists C', few n X C' w'.
  Proof.
    intros [H1 H2 H3 H4 H5 H6 H7 H8] H. apply world_inv in H as (r & hold & t & l & E & <- & El & Et).
    destruct (thread_few _ _ _ _ _ _ _ _ E H1 (H2 i)) as (new & A1 & A2 & A3 & A4 & A5 & A6 & A7).
    assert (Hin : i < n) by (destruct (Nat.lt_ge_cases i n) as [G|G]; [exact G|]; rewrite (H6 i G) in E; discriminate E).
    assert (Hidle : forall j, n <= j -> w_threads w' j = TRest REnd) by (intros j Hj; rewrite Et; destruct (Nat.eqb_spec j i); [lia|exact (H6 j Hj)]).
    assert (Hth : forall j, thread_k (new ++ map snd C ++ X) (w_threads w' j)).
    { intros j. rewrite Et. destruct (Nat.eqb_spec j i); [exact A2|]. pose proof (H2 j) as G. destruct (w_threads w j); try exact Logic.I. exact (pc_more _ new _ G). }
    assert (Hlog : forall j s x, In (j, STag s (Ok x)) (w_log w') -> in_k (new ++ map snd C ++ X) x).
    { intros j s x Hj. rewrite El in Hj. apply in_app_or in Hj as [Hj|Hj]; [|apply in_more; exact (H3 j s x Hj)]. apply in_map_iff in Hj as (a & Ea & Ha). injection Ea as _ ->. exact (A3 s x Ha). }
    assert (Hbar : forall j, X <> [] \/ In j (map fst C) -> (has (w_reg w') \/ inserting (w_threads w' j)) /\ ~ creating (w_threads w' j)).
    { intros j Hj. destruct (H8 j Hj) as (B1 & B2). rewrite Et. destruct (Nat.eqb_spec j i) as [->|Hne].
      - assert (Hh : has (w_reg w')) by (destruct B1 as [B1|B1]; auto). split; [now left|]. destruct B1 as [B1|B1]; [exact (A5 B1)|].
        destruct A7 as [(_ & A7)|(A7 & _)]; [|contradiction]. intros Hc. clear - E B1 Hc. destruct (w_threads w i) as [p|p c|u c|u z c|l0 c]; try contradiction.
        destruct p as [q|q|q|q z|q x|q z|q x|q o]; try contradiction. cbn [thread_step] in E. unfold tag_step in E. cbn [pc_step] in E. destruct (w_lock w); [discriminate E|]. cbn [in_tag] in E. injection E as _ _ <- _. exact Hc.
      - split; [|exact B2]. destruct B1 as [B1|B1]; auto. }
    destruct A7 as [(-> & A7)|(A7 & A8 & x & ->)]; [exists C; now constructor|].
    assert (Hno : ~ (X <> [] \/ In i (map fst C))) by (intros Hb; exact (proj2 (H8 i Hb) A7)). exists ((i, x) :: C). constructor; cbn [map fst snd].
    - exact A1.
    - exact Hth.
    - exact Hlog.
    - constructor; [tauto|exact H4].
    - intros j [<-|Hj]; auto.
    - exact Hidle.
    - intros Hx. tauto.
    - intros j [Hj|[<-|Hj]]; [tauto| |apply Hbar; now right]. rewrite Et, Nat.eqb_refl. split; [now right|].
      clear - A8. destruct t as [p|p c|u c|u z c|l0 c]; try contradiction. destruct p; try contradiction. intros [].
  Qed.
  Lemma few_run n X sch : forall C w, few n X C w -> exists C', few n X C' (world_run L w sch).
  Proof.
    induction sch as [|i sch IH]; intros C w Hw; cbn [world_run]; [now exists C|]. destruct (world_step L w i) as [w'|] eqn:E; [|exact (IH C w Hw)].
    destruct (few_step n X C w i w' Hw E) as (C' & H'). exact (IH C' w' H').
  Qed.
End Few.

Theorem few_references L : locid_ok L -> forall h rs r ps n sch y l, reachable L h rs r -> (forall i, n <= i -> ps i = REnd) -> NoDup l ->
  (forall x, In x l -> r_tag x = y /\ exists i s, In (i, STag s (Ok x)) (w_log (world_run L (world_start r ps) sch))) -> List.length l <= Nat.max 1 n.
Proof.
  intros HL h rs r ps n sch y l Hr Hn Hnd Hl. pose proof (reachable_inv L HL h rs r Hr) as [I1 I2 _ _ _ _ _].
  set (X := match mget y (lr_tags r) with Some x => [x] | None => [] end).
  assert (F : few y n X [] (world_start r ps)).
  { assert (Hk : forall x, mget (r_tag x) (lr_tags r) = Some x -> in_k y X x) by (intros x Ex Ey; subst X; rewrite <- Ey, Ex; now left).
    constructor; cbn [world_start w_reg w_threads w_log map app].
    - split; intros k x Ek; apply Hk; [destruct (I1 k x Ek) as (-> & _); exact Ek|exact (proj1 (proj2 (I2 k x Ek)))].
    - intros i. exact Logic.I.
    - intros i s x [].
    - constructor.
    - intros i [].
    - intros i Hi. now rewrite Hn.
    - auto.
    - intros i [Hx|[]]. split; [left|intros []]. unfold has. subst X. destruct (mget y (lr_tags r)); [discriminate|now destruct Hx]. }
  destruct (few_run L y n X sch [] _ F) as (C & [_ _ H3 H4 H5 _ H7 _]).
  assert (Hi : incl l (map snd C ++ X)) by (intros x Hx; destruct (Hl x Hx) as (Ey & i & s & Hs); exact (H3 i s x Hs Ey)).
  pose proof (NoDup_incl_length Hnd Hi) as Hle. rewrite app_length, map_length in Hle.
  assert (HC : List.length C <= n).
  { rewrite <- (map_length fst), <- (seq_length n 0). apply NoDup_incl_length; [exact H4|]. intros i Hc. apply in_seq. pose proof (H5 i Hc). lia. }
  subst X. destruct (mget y (lr_tags r)) as [x|]; cbn [List.length] in Hle; [|lia]. rewrite (H7 ltac:(discriminate)) in Hle. cbn [List.length] in Hle. lia.
Qed.
