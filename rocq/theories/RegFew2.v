(** C107: how many locales a tag can get. *)
From Verif Require Import Base BaseFacts RegistryModel RegThreadsModel RegThreadsSpec MemoryThreads2 RegParseThreads.

Section Few.
  Variable L : locid.
  Variable k : ustr.
  Definition ireg_k (K : list tref) (r : lregistry) : Prop := forall x, mget k (lr_icu r) = Some x -> In x K.
  Definition ithread_k (K : list tref) (t : tstate) : Prop := match t with TIcuInsert u x _ => r_tag u = k -> In x K | _ => True end.
  Definition ilog_k (K : list tref) (l : list said) : Prop := forall t x, In (SIcu t (Ok x)) l -> r_tag t = k -> In x K.
  Definition icreating (t : tstate) : Prop := match t with TIcu u _ => r_tag u = k | _ => False end.
  Definition iinserting (t : tstate) : Prop := match t with TIcuInsert u _ _ => r_tag u = k | _ => False end.
  Lemma ithread_more K K' t : ithread_k K t -> ithread_k (K' ++ K) t.
  Proof. destruct t; cbn [ithread_k]; auto. intros H E. apply in_or_app. right. exact (H E). Qed.
  Lemma ithread_few K r free t r' hold t' l : thread_step L r free t = Some (r', hold, (t', l)) -> ireg_k K r -> ithread_k K t ->
    exists new, ireg_k (new ++ K) r' /\ ithread_k (new ++ K) t' /\ ilog_k (new ++ K) l /\ (kept k r -> ~ icreating t') /\ (iinserting t -> kept k r' /\ ~ icreating t') /\
      ((new = [] /\ ~ iinserting t') \/ (icreating t /\ iinserting t' /\ exists x, new = [x])).
  Proof.
    intros H Gr Gt.
    assert (Hsame : lr_icu r' = lr_icu r -> (forall u c, t' <> TIcu u c) -> (forall u x c, t' <> TIcuInsert u x c) -> (forall u x, ~ In (SIcu u (Ok x)) l) -> ~ iinserting t ->
      exists new, ireg_k (new ++ K) r' /\ ithread_k (new ++ K) t' /\ ilog_k (new ++ K) l /\ (kept k r -> ~ icreating t') /\ (iinserting t -> kept k r' /\ ~ icreating t') /\
      ((new = [] /\ ~ iinserting t') \/ (icreating t /\ iinserting t' /\ exists x, new = [x]))).
    { intros E1 Ht1 Ht2 Hl Hi. exists []. unfold ireg_k. rewrite E1. cbn [app]. split; [exact Gr|].
      assert (G : ithread_k K t' /\ ~ icreating t' /\ ~ iinserting t') by (destruct t' as [p|p c|u c|u z c|l0 c]; cbn; try tauto; [now destruct (Ht1 u c)|now destruct (Ht2 u z c)]). destruct G as (T1 & T2 & T3).
      split; [exact T1|]. split; [intros u x Hx; now destruct (Hl u x)|]. repeat split; auto; contradiction. }
    assert (Htag : forall p c x, tag_step L r free p c = Some x -> lr_icu (fst (fst x)) = lr_icu r /\ (forall u c, fst (snd x) <> TIcu u c) /\ (forall u z c, fst (snd x) <> TIcuInsert u z c) /\ (forall u z, ~ In (SIcu u (Ok z)) (snd (snd x)))).
    { intros p c x Hx. unfold tag_step in Hx. destruct (pc_step L r free p) as [[[r1 h1] p1]|] eqn:Ep; [|discriminate Hx]. injection Hx as <-. cbn [fst snd]. split; [exact (pc_icu L _ _ _ _ _ _ Ep)|].
      destruct p1; cbn [in_tag fst snd]; repeat split; try (intros; discriminate); intros u z; cbn; intuition discriminate. }
    destruct t as [[|s c|u c|c|c|c]|p c|u c|u z c|l0 c].
    - discriminate H.
    - cbn [thread_step] in H. destruct (tag_step L r free (PTags s) c) as [[[r1 h1] [t1 l1]]|] eqn:Es; [|discriminate H]. injection H as <- _ <- <-.
      destruct (Htag _ _ _ Es) as (A1 & A2 & A3 & A4). cbn [fst snd] in *. apply Hsame; auto. intros u x Hx. apply in_app_or in Hx as [Hx|[Hx|[]]]; [exact (A4 u x Hx)|discriminate Hx].
    - cbn [thread_step] in H. exists []. cbn [app]. destruct (mget (r_tag u) (lr_icu r)) as [x|] eqn:E; injection H as <- _ <- <-; cbn [ithread_k icreating iinserting].
      + repeat split; auto; try contradiction. intros t0 x0 [G|[]] Et. injection G as <- <-. apply Gr. now rewrite <- Et.
      + repeat split; auto; try contradiction; [intros t0 x0 []|]. intros Hk Eu. unfold kept in Hk. rewrite <- Eu in Hk. exact (Hk E).
    - cbn [thread_step] in H. destruct free; [|discriminate H]. injection H as <- _ <- <-. apply Hsame; [reflexivity|discriminate|discriminate| |intros []]. intros t0 x0 [G|[]]. discriminate G.
    - cbn [thread_step] in H. injection H as <- _ <- <-. apply Hsame; [reflexivity|discriminate|discriminate| |intros []]. intros t0 x0 [G|[]]. discriminate G.
    - cbn [thread_step] in H. destruct free; [|discriminate H]. injection H as <- _ <- <-. apply Hsame; [reflexivity|discriminate|discriminate| |intros []]. intros t0 x0 [].
    - cbn [thread_step] in H. destruct (Htag _ _ _ H) as (A1 & A2 & A3 & A4). cbn [fst snd] in *. apply Hsame; auto.
    - cbn [thread_step] in H. destruct (parse_locale L (r_tag u)) as [v|]; [cbn [fresh] in H|].
      + injection H as <- _ <- <-. cbn [ithread_k icreating iinserting]. destruct (ueqb_spec (r_tag u) k) as [Eu|Hne].
        * eexists [_]. split; [intros x Hx; right; exact (Gr x Hx)|]. split; [intros _; now left|]. split; [intros t0 x0 []|]. split; [auto|]. split; [intros []|]. right. eauto.
        * exists []. split; [exact Gr|]. split; [contradiction|]. split; [intros t0 x0 []|]. split; [auto|]. split; [intros []|]. now left.
      + injection H as <- _ <- <-. apply Hsame; [reflexivity|discriminate|discriminate| |intros []]. intros t0 x0 [G|[]]. discriminate G.
    - cbn [thread_step] in H. injection H as <- _ <- <-. exists []. cbn [app ithread_k icreating iinserting] in *. unfold ireg_k, kept. cbn [lr_icu].
      split; [|split; [exact Logic.I|split; [|split; [auto|split; [|now left]]]]].
      + intros x Hx. rewrite mget_minsert in Hx. destruct (ueqb_spec k (r_tag u)) as [->|]; [injection Hx as <-; now apply Gt|exact (Gr x Hx)].
      + intros t0 x0 [G|[]] Et. injection G as <- <-. exact (Gt Et).
      + intros <-. rewrite mget_minsert_eq. split; [discriminate|auto].
    - cbn [thread_step] in H. injection H as <- _ <- <-. apply Hsame; [reflexivity|discriminate|discriminate| |intros []]. intros t0 x0 [G|[]]. discriminate G.
  Qed.

  (** [C]: which thread made which locale; [X]: the one that there was before. *)
  Record ifew (n : nat) (X : list tref) (C : list (nat * tref)) (w : world) : Prop := {
    if_reg : ireg_k (map snd C ++ X) (w_reg w);
    if_threads : forall i, ithread_k (map snd C ++ X) (w_threads w i);
    if_log : forall i t x, In (i, SIcu t (Ok x)) (w_log w) -> r_tag t = k -> In x (map snd C ++ X);
    if_once : NoDup (map fst C);
    if_who : forall i, In i (map fst C) -> i < n;
    if_idle : forall i, n <= i -> w_threads w i = TRest REnd;
    if_old : X <> [] -> C = [];
    if_barred : forall i, X <> [] \/ In i (map fst C) -> (kept k (w_reg w) \/ iinserting (w_threads w i)) /\ ~ icreating (w_threads w i)
  }.
  Lemma ifew_step n X C w i w' : ifew n X C w -> world_step L w i = Some w' -> exists C', ifew n X C' w'.
  Proof.
    intros [H1 H2 H3 H4 H5 H6 H7 H8] H. apply world_inv in H as (r & hold & t & l & E & <- & El & Et).
    destruct (ithread_few _ _ _ _ _ _ _ _ E H1 (H2 i)) as (new & A1 & A2 & A3 & A5 & A6 & A7). pose proof (kept_thread L k _ _ _ _ _ _ _ E) as A4.
    assert (Hin : i < n) by (destruct (Nat.lt_ge_cases i n) as [G|G]; [exact G|]; rewrite (H6 i G) in E; discriminate E).
    assert (Hidle : forall j, n <= j -> w_threads w' j = TRest REnd) by (intros j Hj; rewrite Et; destruct (Nat.eqb_spec j i); [lia|exact (H6 j Hj)]).
    assert (Hth : forall j, ithread_k (new ++ map snd C ++ X) (w_threads w' j)) by (intros j; rewrite Et; destruct (Nat.eqb_spec j i); [exact A2|exact (ithread_more _ new _ (H2 j))]).
    assert (Hlog : forall j u x, In (j, SIcu u (Ok x)) (w_log w') -> r_tag u = k -> In x (new ++ map snd C ++ X)).
    { intros j u x Hj Eu. rewrite El in Hj. apply in_app_or in Hj as [Hj|Hj]; [|apply in_or_app; right; exact (H3 j u x Hj Eu)]. apply in_map_iff in Hj as (a & Ea & Ha). injection Ea as _ ->. exact (A3 u x Ha Eu). }
    assert (Hbar : forall j, X <> [] \/ In j (map fst C) -> (kept k (w_reg w') \/ iinserting (w_threads w' j)) /\ ~ icreating (w_threads w' j)).
    { intros j Hj. destruct (H8 j Hj) as (B1 & B2). rewrite Et. destruct (Nat.eqb_spec j i) as [->|Hne]; [|split; [destruct B1; auto|exact B2]].
      destruct B1 as [B1|B1]; [split; [left; exact (A4 B1)|exact (A5 B1)]|]. destruct (A6 B1) as (G1 & G2). split; [now left|exact G2]. }
    destruct A7 as [(-> & A7)|(A7 & A8 & x & ->)]; [exists C; now constructor|].
    assert (Hno : ~ (X <> [] \/ In i (map fst C))) by (intros Hb; exact (proj2 (H8 i Hb) A7)). exists ((i, x) :: C). constructor; cbn [map fst snd].
    - exact A1.
    - exact Hth.
    - exact Hlog.
    - constructor; [tauto|exact H4].
    - intros j [<-|Hj]; auto.
    - exact Hidle.
    - intros Hx. tauto.
    - intros j [Hj|[<-|Hj]]; [tauto| |apply Hbar; now right]. rewrite Et, Nat.eqb_refl. split; [now right|].
      clear - A8. destruct t as [p|p c|u c|u z c|l0 c]; try contradiction. intros [].
  Qed.
  Lemma ifew_run n X sch : forall C w, ifew n X C w -> exists C', ifew n X C' (world_run L w sch).
  Proof.
    induction sch as [|i sch IH]; intros C w Hw; cbn [world_run]; [now exists C|]. destruct (world_step L w i) as [w'|] eqn:E; [|exact (IH C w Hw)].
    destruct (ifew_step n X C w i w' Hw E) as (C' & H'). exact (IH C' w' H').
  Qed.
End Few.

Theorem few_locales L r ps n sch k l : (forall i, n <= i -> ps i = REnd) -> NoDup l ->
  (forall x, In x l -> exists i t, In (i, SIcu t (Ok x)) (w_log (world_run L (world_start r ps) sch)) /\ r_tag t = k) -> List.length l <= Nat.max 1 n.
Proof.
  intros Hn Hnd Hl. set (X := match mget k (lr_icu r) with Some x => [x] | None => [] end).
  assert (F : ifew k n X [] (world_start r ps)).
  { constructor; cbn [world_start w_reg w_threads w_log map app].
    - intros x Ex. subst X. rewrite Ex. now left.
    - intros i. exact Logic.I.
    - intros i s x [].
    - constructor.
    - intros i [].
    - intros i Hi. now rewrite Hn.
    - auto.
    - intros i [Hx|[]]. split; [left|intros []]. unfold kept. subst X. destruct (mget k (lr_icu r)); [discriminate|now destruct Hx]. }
  destruct (ifew_run L k n X sch [] _ F) as (C & [_ _ H3 H4 H5 _ H7 _]).
  assert (Hi : incl l (map snd C ++ X)) by (intros x Hx; destruct (Hl x Hx) as (i & t & Hs & Et); exact (H3 i t x Hs Et)).
  pose proof (NoDup_incl_length Hnd Hi) as Hle. rewrite app_length, map_length in Hle.
  assert (HC : List.length C <= n).
  { rewrite <- (map_length fst), <- (seq_length n 0). apply NoDup_incl_length; [exact H4|]. intros i Hc. apply in_seq. pose proof (H5 i Hc). lia. }
  subst X. destruct (mget k (lr_icu r)) as [x|]; cbn [List.length] in Hle; [|lia]. rewrite (H7 ltac:(discriminate)) in Hle. cbn [List.length] in Hle. lia.
Qed.
