(** Proofs for C104: when the answers no longer change. *)
From Verif Require Import Base BaseFacts RegistryModel RegistrySpec RegistryProofs RegThreadsModel RegThreadsSpec RegThreadsProofs RegThreadsProofs2.

Section Threads.
  Variable L : locid.
  Hypothesis HL : locid_ok L.

  (** ** A string that was answered is in one of the maps *)
  Definition has (r : lregistry) (s : ustr) : Prop := mget s (lr_tags r) <> None \/ mget s (lr_deprecated r) <> None.
  Definition insert_ok (r : lregistry) (t : tstate) : Prop :=
    match t with TTag (PInsert s x) _ => s = r_tag x \/ mget s (lr_deprecated r) <> None | _ => True end.
  Definition log_has (w : world) : Prop := (forall i s x, In (i, STag s (Ok x)) (w_log w) -> has (w_reg w) s) /\ forall i, insert_ok (w_reg w) (w_threads w i).
  Lemma minsert_has {V} k (v : V) m s : mget s m <> None -> mget s (minsert k v m) <> None.
  Proof. rewrite mget_minsert. now destruct (ueqb s k). Qed.
  (** What a step does to the maps: the keys stay. *)
  Definition keys_stay (r r' : lregistry) : Prop := (forall s, mget s (lr_tags r) <> None -> mget s (lr_tags r') <> None) /\ (forall s, mget s (lr_deprecated r) <> None -> mget s (lr_deprecated r') <> None).
  Lemma keys_same r : keys_stay r r.
  Proof. split; auto. Qed.
  Lemma pc_has r fr p r' hold p' : pc_step L r fr p = Some (r', hold, p') -> (match p with PInsert s x => s = r_tag x \/ mget s (lr_deprecated r) <> None | _ => True end) ->
    keys_stay r r' /\ (match p' with PInsert s x => s = r_tag x \/ mget s (lr_deprecated r') <> None | _ => True end) /\ (forall s x, p' = PDone s (Ok x) -> has r' s).
  Proof.
    intros H Hp. destruct p as [q|q|q|q new|q x|q new|q x|q o]; cbn [pc_step fresh] in H; cbn iota in Hp.
    - destruct fr; [|discriminate H]. destruct (mget q (lr_tags r)) eqn:E; injection H as <- <- <-; (split; [apply keys_same|]); (split; [exact Logic.I|]); [|discriminate].
      intros s x G. injection G as <- <-. left. congruence.
    - destruct (mget q (lr_deprecated r)) eqn:E; injection H as <- <- <-; (split; [apply keys_same|]); (split; [exact Logic.I|]); [|discriminate].
      intros s x G. injection G as <- <-. right. congruence.
    - destruct (canon L q); injection H as <- <- <-; (split; [apply keys_same|]); (split; [exact Logic.I|]); discriminate.
    - destruct fr; [|discriminate H]. destruct (mget new (lr_tags r)); injection H as <- <- <-; (split; [apply keys_same|]); (split; [exact Logic.I|]); discriminate.
    - injection H as <- <- <-. split; [split; [auto|intros s; apply minsert_has]|]. split; [exact Logic.I|]. intros s y G. injection G as <- <-. right. cbn. rewrite mget_minsert_eq. discriminate.
    - destruct (ueqb_spec q new) as [Eq|Hne]; injection H as <- <- <-.
      + split; [split; auto|]. split; [now left|discriminate].
      + split; [split; [auto|intros s; apply minsert_has]|]. split; [right; cbn; rewrite mget_minsert_eq; discriminate|discriminate].
    - destruct fr; [|discriminate H]. injection H as <- <- <-. split; [split; [intros s; apply minsert_has|auto]|]. split; [exact Logic.I|]. intros s y G. injection G as <- <-.
      destruct Hp as [E|G]; [left|right; exact G]. cbn. rewrite E, mget_minsert_eq. discriminate.
    - discriminate H.
  Qed.
  Lemma has_step w i w' : log_has w -> world_step L w i = Some w' -> log_has w'.
  Proof.
    intros (H1 & H2) H. apply step_inv in H as (r & hold & t & l & E & ->).
    assert (G : keys_stay (w_reg w) r /\ insert_ok r t /\ forall s x, In (STag s (Ok x)) l -> has r s).
    { pose proof (H2 i) as Hi. destruct (w_threads w i) as [[|s k|t0 k|k|k|k]|p k|t0 k|t0 x k|l0 k]; cbn [thread_step] in E.
      - discriminate E.
      - unfold tag_step in E. destruct (pc_step L (w_reg w) (free w) (PTags s)) as [((r1 & hold1) & p1)|] eqn:Ep; [|discriminate E].
        destruct (pc_has _ _ _ _ _ _ Ep Logic.I) as (G1 & G2 & G3). destruct (in_tag p1 k) as (t1 & l1) eqn:Et. injection E as <- <- <- <-. split; [exact G1|].
        split; [destruct p1; cbn [in_tag] in Et; injection Et as <- _; try exact Logic.I; exact G2|].
        intros s1 x Hs. apply in_app_or in Hs as [Hs|[Hs|[]]]; [|discriminate Hs]. destruct p1; cbn [in_tag] in Et; injection Et as <- <-; try contradiction. destruct Hs as [Hs|[]]. injection Hs as -> ->. now apply (G3 _ x).
      - destruct (mget (r_tag t0) (lr_icu (w_reg w))); injection E as <- <- <- <-; (split; [apply keys_same|]); (split; [exact Logic.I|]); [intros s x [G|[]]; discriminate G|contradiction].
      - destruct (free w); [|discriminate E]. injection E as <- <- <- <-. split; [apply keys_same|]. split; [exact Logic.I|]. intros s x [G|[]]. discriminate G.
      - injection E as <- <- <- <-. split; [apply keys_same|]. split; [exact Logic.I|]. intros s x [G|[]]. discriminate G.
      - destruct (free w); [|discriminate E]. injection E as <- <- <- <-. split; [apply keys_same|]. split; [exact Logic.I|]. contradiction.
      - unfold tag_step in E. destruct (pc_step L (w_reg w) (free w) p) as [((r1 & hold1) & p1)|] eqn:Ep; [|discriminate E]. injection E as <- <- E.
        destruct (pc_has _ _ _ _ _ _ Ep Hi) as (G1 & G2 & G3). split; [exact G1|].
        split; [destruct p1; cbn [in_tag] in E; injection E as <- _; try exact Logic.I; exact G2|].
        intros s1 x Hs. destruct p1; cbn [in_tag] in E; injection E as <- <-; try contradiction. destruct Hs as [Hs|[]]. injection Hs as -> ->. now apply (G3 _ x).
      - destruct (parse_locale L (r_tag t0)); cbn [fresh] in E; injection E as <- <- <- <-; (split; [split; auto|]); (split; [exact Logic.I|]); [contradiction|intros s x [G|[]]; discriminate G].
      - injection E as <- <- <- <-. split; [split; auto|]. split; [exact Logic.I|]. intros s y [G|[]]. discriminate G.
      - injection E as <- <- <- <-. split; [apply keys_same|]. split; [exact Logic.I|]. intros s x [G|[]]. discriminate G. }
    destruct G as ((K1 & K2) & G2 & G3). split; cbn [next w_log w_threads w_reg].
    - intros j s x Hs. apply in_app_or in Hs as [Hs|Hs]; [apply in_map_iff in Hs as (a & Ea & Hs); injection Ea as <- ->; now apply (G3 _ x)|].
      destruct (H1 _ _ _ Hs) as [G|G]; [left; now apply K1|right; now apply K2].
    - intros j. destruct (Nat.eqb j i); [exact G2|]. specialize (H2 j). destruct (w_threads w j) as [|[]| | |]; try exact Logic.I. destruct H2 as [G|G]; [now left|right; now apply K2].
  Qed.

  (** ** From now on *)
  Section Now.
    Variables (s : ustr) (x : tref).
    (** [b]: the string is in canonical form. *)
    Variable b : bool.
    Hypothesis Hb : if b then canon L s = Some s else canon L s <> Some s.
    Definition reg_now (r : lregistry) : Prop := if b then mget s (lr_tags r) = Some x else mget s (lr_tags r) = None /\ mget s (lr_deprecated r) = Some x.
    Definition pc_now (p : pc) : Prop :=
      match p with
      | PTags _ => True
      | PDeprecated q => if b then q <> s else True
      | PCanon q => q <> s
      | PAgain q new => q <> s /\ if b then True else new <> s
      | PHold q _ => q <> s
      | PCreate q new => q <> s /\ new <> s
      | PInsert q y => q <> s /\ r_tag y <> s
      | PDone q o => q = s -> o = Ok x
      end.
    Lemma pc_now_step r fr p r' hold p' : reg_now r -> pc_now p -> pc_step L r fr p = Some (r', hold, p') -> reg_now r' /\ pc_now p'.
    Proof.
      unfold reg_now. intros Hr Hp H. destruct p as [q|q|q|q new|q y|q new|q y|q o]; cbn [pc_step fresh] in H; cbn [pc_now] in Hp.
      - destruct fr; [|discriminate H]. destruct (mget q (lr_tags r)) as [z|] eqn:E; injection H as <- <- <-; (split; [exact Hr|]); cbn [pc_now].
        + intros ->. destruct b; [congruence|destruct Hr; congruence].
        + destruct b; [congruence|exact Logic.I].
      - destruct (mget q (lr_deprecated r)) as [z|] eqn:E; injection H as <- <- <-; (split; [exact Hr|]); cbn [pc_now].
        + intros ->. destruct b; [congruence|destruct Hr; congruence].
        + destruct b; [exact Hp|destruct Hr; congruence].
      - destruct (canon L q) as [new|] eqn:E; injection H as <- <- <-; (split; [exact Hr|]); cbn [pc_now]; [|congruence].
        split; [exact Hp|]. destruct b; [exact Logic.I|]. intros ->. apply Hb. exact (proj1 (HL _ _ E)).
      - destruct fr; [|discriminate H]. destruct (mget new (lr_tags r)) as [z|] eqn:E; injection H as <- <- <-; (split; [exact Hr|]); cbn [pc_now]; [exact (proj1 Hp)|].
        split; [exact (proj1 Hp)|]. destruct b; [congruence|exact (proj2 Hp)].
      - injection H as <- <- <-. cbn [set_deprecated lr_tags lr_deprecated pc_now]. split; [|congruence]. destruct b; [exact Hr|]. split; [exact (proj1 Hr)|]. rewrite mget_minsert_ne; [exact (proj2 Hr)|congruence].
      - injection H as <- <- <-. cbn [pc_now r_tag]. split; [|exact Hp]. destruct (ueqb q new); [exact Hr|]. cbn [set_deprecated lr_tags lr_deprecated].
        destruct b; [exact Hr|]. split; [exact (proj1 Hr)|]. rewrite mget_minsert_ne; [exact (proj2 Hr)|]. destruct Hp; congruence.
      - destruct fr; [|discriminate H]. injection H as <- <- <-. cbn [set_tags lr_tags lr_deprecated pc_now]. destruct Hp as (Hq & Hy). split; [|congruence].
        destruct b; [|split; [|exact (proj2 Hr)]]; rewrite mget_minsert_ne; [exact Hr|congruence|exact (proj1 Hr)|congruence].
      - discriminate H.
    Qed.
    Definition now (l0 : list (nat * said)) (w : world) : Prop :=
      reg_now (w_reg w) /\ (forall i, match w_threads w i with TTag p _ => pc_now p | _ => True end) /\ exists l, w_log w = l ++ l0 /\ forall i o, In (i, STag s o) l -> o = Ok x.
    Lemma now_step l0 w i w' : now l0 w -> world_step L w i = Some w' -> now l0 w'.
    Proof.
      intros (H1 & H2 & ll & H3 & H4) H. apply step_inv in H as (r & hold & t & l & E & ->).
      assert (G : reg_now r /\ match t with TTag p _ => pc_now p | _ => True end /\ forall o, In (STag s o) l -> o = Ok x).
      { pose proof (H2 i) as Hi. destruct (w_threads w i) as [[|q k|t0 k|k|k|k]|p k|t0 k|t0 y k|l1 k]; cbn [thread_step] in E.
        - discriminate E.
        - unfold tag_step in E. destruct (pc_step L (w_reg w) (free w) (PTags q)) as [((r1 & hold1) & p1)|] eqn:Ep; [|discriminate E].
          destruct (pc_now_step _ _ (PTags q) _ _ _ H1 Logic.I Ep) as (G1 & G2). destruct (in_tag p1 k) as (t1 & l1) eqn:Et. injection E as <- <- <- <-. split; [exact G1|].
          split; [destruct p1; cbn [in_tag] in Et; injection Et as <- _; try exact Logic.I; exact G2|].
          intros o Hs. apply in_app_or in Hs as [Hs|[Hs|[]]]; [|discriminate Hs]. destruct p1; cbn [in_tag] in Et; injection Et as <- <-; try contradiction. destruct Hs as [Hs|[]]. injection Hs as -> ->. now apply G2.
        - destruct (mget (r_tag t0) (lr_icu (w_reg w))); injection E as <- <- <- <-; (split; [exact H1|]); (split; [exact Logic.I|]); [intros o [G|[]]; discriminate G|contradiction].
        - destruct (free w); [|discriminate E]. injection E as <- <- <- <-. split; [exact H1|]. split; [exact Logic.I|]. intros o [G|[]]. discriminate G.
        - injection E as <- <- <- <-. split; [exact H1|]. split; [exact Logic.I|]. intros o [G|[]]. discriminate G.
        - destruct (free w); [|discriminate E]. injection E as <- <- <- <-. split; [exact H1|]. split; [exact Logic.I|]. contradiction.
        - unfold tag_step in E. destruct (pc_step L (w_reg w) (free w) p) as [((r1 & hold1) & p1)|] eqn:Ep; [|discriminate E]. injection E as <- <- E.
          destruct (pc_now_step _ _ _ _ _ _ H1 Hi Ep) as (G1 & G2). split; [exact G1|].
          split; [destruct p1; cbn [in_tag] in E; injection E as <- _; try exact Logic.I; exact G2|].
          intros o Hs. destruct p1; cbn [in_tag] in E; injection E as <- <-; try contradiction. destruct Hs as [Hs|[]]. injection Hs as -> ->. now apply G2.
        - destruct (parse_locale L (r_tag t0)); cbn [fresh] in E; injection E as <- <- <- <-; (split; [exact H1|]); (split; [exact Logic.I|]); [contradiction|intros o [G|[]]; discriminate G].
        - injection E as <- <- <- <-. split; [exact H1|]. split; [exact Logic.I|]. intros o [G|[]]. discriminate G.
        - injection E as <- <- <- <-. split; [exact H1|]. split; [exact Logic.I|]. intros o [G|[]]. discriminate G. }
      destruct G as (G1 & G2 & G3). split; [exact G1|]. split; cbn [next w_log w_threads].
      - intros j. destruct (Nat.eqb j i); [exact G2|exact (H2 j)].
      - exists (map (fun a => (i, a)) l ++ ll). split; [rewrite H3; apply app_assoc|]. intros j o Hj. apply in_app_or in Hj as [Hj|Hj]; [|exact (H4 _ _ Hj)].
        apply in_map_iff in Hj as (a & Ea & Hj). injection Ea as <- ->. now apply G3.
    Qed.
  End Now.
  Lemma now_start w s : (forall k x, mget k (lr_tags (w_reg w)) = Some x -> canon L k = Some k) -> (forall i, outside (w_threads w i)) -> (canon L s = Some s -> mget s (lr_tags (w_reg w)) <> None) -> has (w_reg w) s ->
    exists x b, (if b : bool then canon L s = Some s else canon L s <> Some s) /\ now s x b (w_log w) w /\ tag L (w_reg w) s = (w_reg w, Ok x).
  Proof.
    intros Hc Ho Hs Hh. assert (Ht : forall x b i, match w_threads w i with TTag p _ => pc_now s x b p | _ => True end).
    { intros x b i. specialize (Ho i). destruct (w_threads w i); try exact Logic.I. contradiction. }
    unfold tag. destruct (mget s (lr_tags (w_reg w))) as [x|] eqn:E.
    - exists x, true. split; [exact (Hc _ _ E)|]. split; [|reflexivity]. split; [exact E|]. split; [apply Ht|]. exists []. split; [reflexivity|contradiction].
    - destruct Hh as [Hh|Hh]; [congruence|]. destruct (mget s (lr_deprecated (w_reg w))) as [x|] eqn:Ed; [|congruence].
      exists x, false. split; [intros G; now destruct (Hs G)|]. split; [|reflexivity]. split; [now split|]. split; [apply Ht|]. exists []. split; [reflexivity|contradiction].
  Qed.
  Lemma now_for_ever w s : (forall k x, mget k (lr_tags (w_reg w)) = Some x -> canon L k = Some k) -> (forall i, outside (w_threads w i)) -> (canon L s = Some s -> mget s (lr_tags (w_reg w)) <> None) -> has (w_reg w) s ->
    exists x, tag L (w_reg w) s = (w_reg w, Ok x) /\ forall sch, exists l, w_log (world_run L w sch) = l ++ w_log w /\ forall i o, In (i, STag s o) l -> o = Ok x.
  Proof.
    intros Hc Ho Hs Hh. destruct (now_start w s Hc Ho Hs Hh) as (x & b & Hb & Hn & Ht). exists x. split; [exact Ht|]. intros sch.
    destruct (run_ind L (now s x b (w_log w)) (now_step s x b Hb (w_log w)) sch w Hn) as (_ & _ & l & G1 & G2). now exists l.
  Qed.
  Lemma settles h rs r ps sch s x0 i0 : reachable L h rs r -> let w := world_run L (world_start r ps) sch in
    (forall i, outside (w_threads w i)) -> In (i0, STag s (Ok x0)) (w_log w) ->
    exists x, tag L (w_reg w) s = (w_reg w, Ok x) /\ forall sch', exists l, w_log (world_run L w sch') = l ++ w_log w /\ forall i o, In (i, STag s o) l -> o = Ok x.
  Proof.
    intros H w Ho Hi. pose proof (run_world L HL h sch _ (start_world L HL h rs r ps H)) as W. fold w in W.
    assert (Hh : log_has w) by (apply (run_ind L log_has has_step); split; cbn; [contradiction|intros; exact Logic.I]).
    apply now_for_ever; [intros k x Hk; exact (proj2 (proj1 (wo_reg L h w W) k x Hk))|exact Ho| |exact (proj1 Hh _ _ _ Hi)].
    intros Hc. pose proof (wo_log L h w W _ _ Hi) as Ha. cbn in Ha. rewrite Hc in Ha. destruct Ha as (x & E & Et). injection E as <-. rewrite <- Et in Hi. pose proof (wo_own L h w W _ _ Hi) as G. unfold there in G. now rewrite Et in G.
  Qed.
  Lemma known h rs r s ps : reachable L h rs r -> In s h -> canon L s <> None -> exists x, tag L r s = (r, Ok x) /\ forall sch i o, In (i, STag s o) (w_log (world_run L (world_start r ps) sch)) -> o = Ok x.
  Proof.
    intros H Hi Hc. apply (reachable_inv L HL) in H. destruct (canon L s) as [y|] eqn:E; [|congruence]. destruct (i_all _ _ _ _ H s y Hi E) as (G1 & G2).
    destruct (now_for_ever (world_start r ps) s) as (x & K1 & K2).
    - intros k x Hk. now destruct (i_tags _ _ _ _ H k x Hk) as (_ & K & _).
    - intros i. exact Logic.I.
    - rewrite E. intros K. injection K as ->. exact G1.
    - destruct (ueqb_spec s y) as [->|Hne]; [now left|right; now apply G2].
    - exists x. split; [exact K1|]. intros sch i o Ho. destruct (K2 sch) as (l & El & K). rewrite El in Ho. cbn in Ho. rewrite app_nil_r in Ho. exact (K _ _ Ho).
  Qed.

  (** ** Locales *)
  Section Icu.
    Variables (k : ustr) (x : tref).
    Definition icu_now (t : tstate) : Prop := match t with TIcu t _ => r_tag t <> k | TIcuInsert t _ _ => r_tag t <> k | _ => True end.
    Definition nowi (l0 : list (nat * said)) (w : world) : Prop :=
      mget k (lr_icu (w_reg w)) = Some x /\ (forall i, icu_now (w_threads w i)) /\ exists l, w_log w = l ++ l0 /\ forall i t o, In (i, SIcu t o) l -> r_tag t = k -> o = Ok x.
    Lemma in_tag_icu p c : icu_now (fst (in_tag p c)) /\ forall t o, ~ In (SIcu t o) (snd (in_tag p c)).
    Proof. destruct p; cbn [in_tag fst snd icu_now]; (split; [exact Logic.I|]); intros t1 o1 G; try contradiction. destruct G as [G|[]]. discriminate G. Qed.
    Lemma pc_icu r fr p r' hold p' : pc_step L r fr p = Some (r', hold, p') -> lr_icu r' = lr_icu r.
    Proof.
      intros H. destruct p as [q|q|q|q new|q y|q new|q y|q o]; cbn [pc_step fresh] in H.
      - destruct fr; [|discriminate H]. now injection H as <- <- <-.
      - now injection H as <- <- <-.
      - now injection H as <- <- <-.
      - destruct fr; [|discriminate H]. destruct (mget new (lr_tags r)); now injection H as <- <- <-.
      - now injection H as <- <- <-.
      - destruct (ueqb q new); now injection H as <- <- <-.
      - destruct fr; [|discriminate H]. now injection H as <- <- <-.
      - discriminate H.
    Qed.
    Lemma nowi_step l0 w i w' : nowi l0 w -> world_step L w i = Some w' -> nowi l0 w'.
    Proof.
      intros (H1 & H2 & ll & H3 & H4) H. apply step_inv in H as (r & hold & t & l & E & ->).
      assert (G : mget k (lr_icu r) = Some x /\ icu_now t /\ forall t o, In (SIcu t o) l -> r_tag t = k -> o = Ok x).
      { pose proof (H2 i) as Hi. destruct (w_threads w i) as [[|q c|t0 c|c|c|c]|p c|t0 c|t0 y c|l1 c]; cbn [thread_step] in E; cbn [icu_now] in Hi.
        - discriminate E.
        - unfold tag_step in E. destruct (pc_step L (w_reg w) (free w) (PTags q)) as [((r1 & hold1) & p1)|] eqn:Ep; [|discriminate E]. apply pc_icu in Ep.
          destruct (in_tag_icu p1 c) as (G1 & G2). destruct (in_tag p1 c) as (t1 & l1). injection E as <- <- <- <-. cbn [fst snd] in *. split; [now rewrite Ep|]. split; [exact G1|].
          intros t o G. apply in_app_or in G as [G|[G|[]]]; [now destruct (G2 _ _ G)|discriminate G].
        - destruct (mget (r_tag t0) (lr_icu (w_reg w))) as [z|] eqn:Em; injection E as <- <- <- <-; (split; [exact H1|]).
          + split; [exact Logic.I|]. intros t o [G|[]] Et. injection G as -> <-. congruence.
          + split; [|contradiction]. cbn [icu_now]. congruence.
        - destruct (free w); [|discriminate E]. injection E as <- <- <- <-. split; [exact H1|]. split; [exact Logic.I|]. intros t o [G|[]]. discriminate G.
        - injection E as <- <- <- <-. split; [exact H1|]. split; [exact Logic.I|]. intros t o [G|[]]. discriminate G.
        - destruct (free w); [|discriminate E]. injection E as <- <- <- <-. split; [exact H1|]. split; [exact Logic.I|]. contradiction.
        - unfold tag_step in E. destruct (pc_step L (w_reg w) (free w) p) as [((r1 & hold1) & p1)|] eqn:Ep; [|discriminate E]. injection E as <- <- E. apply pc_icu in Ep.
          destruct (in_tag_icu p1 c) as (G1 & G2). rewrite E in G1, G2. cbn [fst snd] in *. split; [now rewrite Ep|]. split; [exact G1|].
          intros t1 o G. now destruct (G2 _ _ G).
        - destruct (parse_locale L (r_tag t0)); cbn [fresh] in E; injection E as <- <- <- <-; (split; [exact H1|]); [split; [exact Hi|contradiction]|].
          split; [exact Logic.I|]. intros t o [G|[]] Et. injection G as -> <-. now destruct Hi.
        - injection E as <- <- <- <-. cbn [lr_icu]. split; [rewrite mget_minsert_ne; [exact H1|congruence]|]. split; [exact Logic.I|]. intros t o [G|[]] Et. injection G as -> <-. now destruct Hi.
        - injection E as <- <- <- <-. split; [exact H1|]. split; [exact Logic.I|]. intros t o [G|[]]. discriminate G. }
      destruct G as (G1 & G2 & G3). split; [exact G1|]. split; cbn [next w_log w_threads].
      - intros j. destruct (Nat.eqb j i); [exact G2|exact (H2 j)].
      - exists (map (fun a => (i, a)) l ++ ll). split; [rewrite H3; apply app_assoc|]. intros j t1 o Hj. apply in_app_or in Hj as [Hj|Hj]; [|exact (H4 _ _ _ Hj)].
        apply in_map_iff in Hj as (a & Ea & Hj). injection Ea as <- ->. exact (G3 _ _ Hj).
    Qed.
  End Icu.
  Definition icu_has (w : world) : Prop := forall i t x, In (i, SIcu t (Ok x)) (w_log w) -> mget (r_tag t) (lr_icu (w_reg w)) <> None.
  Lemma icu_has_step w i w' : icu_has w -> world_step L w i = Some w' -> icu_has w'.
  Proof.
    intros Hh H. apply step_inv in H as (r & hold & t & l & E & ->).
    assert (G : (forall k, mget k (lr_icu (w_reg w)) <> None -> mget k (lr_icu r) <> None) /\ forall t x, In (SIcu t (Ok x)) l -> mget (r_tag t) (lr_icu r) <> None).
    { destruct (w_threads w i) as [[|q c|t0 c|c|c|c]|p c|t0 c|t0 y c|l1 c]; cbn [thread_step] in E.
      - discriminate E.
      - unfold tag_step in E. destruct (pc_step L (w_reg w) (free w) (PTags q)) as [((r1 & hold1) & p1)|] eqn:Ep; [|discriminate E]. apply pc_icu in Ep.
        destruct (in_tag_icu [] p1 c) as (_ & G2). destruct (in_tag p1 c) as (t1 & l1). injection E as <- <- <- <-. cbn [fst snd] in *. rewrite Ep. split; [auto|].
        intros t x G. apply in_app_or in G as [G|[G|[]]]; [now destruct (G2 _ _ G)|discriminate G].
      - destruct (mget (r_tag t0) (lr_icu (w_reg w))) as [z|] eqn:Em; injection E as <- <- <- <-; (split; [auto|]); [|contradiction]. intros t x [G|[]]. injection G as -> <-. congruence.
      - destruct (free w); [|discriminate E]. injection E as <- <- <- <-. split; [auto|]. intros t x [G|[]]. discriminate G.
      - injection E as <- <- <- <-. split; [auto|]. intros t x [G|[]]. discriminate G.
      - destruct (free w); [|discriminate E]. injection E as <- <- <- <-. split; [auto|]. contradiction.
      - unfold tag_step in E. destruct (pc_step L (w_reg w) (free w) p) as [((r1 & hold1) & p1)|] eqn:Ep; [|discriminate E]. injection E as <- <- E. apply pc_icu in Ep.
        destruct (in_tag_icu [] p1 c) as (_ & G2). rewrite E in G2. cbn [snd] in *. rewrite Ep. split; [auto|]. intros t1 x G. now destruct (G2 _ _ G).
      - destruct (parse_locale L (r_tag t0)); cbn [fresh] in E; injection E as <- <- <- <-; (split; [auto|]); [contradiction|]. intros t x [G|[]]. discriminate G.
      - injection E as <- <- <- <-. cbn [lr_icu]. split; [intros k0; apply minsert_has|]. intros t x [G|[]]. injection G as -> <-. rewrite mget_minsert_eq. discriminate.
      - injection E as <- <- <- <-. split; [auto|]. intros t x [G|[]]. discriminate G. }
    destruct G as (G1 & G2). intros j t1 x Hj. cbn [next w_log w_reg] in *. apply in_app_or in Hj as [Hj|Hj]; [|exact (G1 _ (Hh _ _ _ Hj))].
    apply in_map_iff in Hj as (a & Ea & Hj). injection Ea as <- ->. exact (G2 _ _ Hj).
  Qed.
  Lemma settles_icu r ps sch t x0 i0 : let w := world_run L (world_start r ps) sch in
    (forall i, match w_threads w i with TIcu _ _ | TIcuInsert _ _ _ => False | _ => True end) -> In (i0, SIcu t (Ok x0)) (w_log w) ->
    exists x, forall sch', exists l, w_log (world_run L w sch') = l ++ w_log w /\ forall i t' o, In (i, SIcu t' o) l -> r_tag t' = r_tag t -> o = Ok x.
  Proof.
    intros w Ho Hi. assert (Hh : icu_has w) by (apply (run_ind L icu_has icu_has_step); intros ? ? ? []).
    pose proof (Hh _ _ _ Hi) as G. destruct (mget (r_tag t) (lr_icu (w_reg w))) as [x|] eqn:E; [|congruence]. exists x. intros sch'.
    destruct (run_ind L (nowi (r_tag t) x (w_log w)) (nowi_step (r_tag t) x (w_log w)) sch' w) as (_ & _ & l & G1 & G2); [|now exists l].
    split; [exact E|]. split; [|exists []; split; [reflexivity|contradiction]]. intros i. specialize (Ho i). destruct (w_threads w i); try exact Logic.I; contradiction.
  Qed.
End Threads.
