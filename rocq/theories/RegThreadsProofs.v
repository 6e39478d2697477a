(** Proofs for C104: what holds at every moment. *)
From Verif Require Import Base BaseFacts RegistryModel RegistrySpec RegistryProofs RegThreadsModel RegThreadsSpec.

Section Threads.
  Variable L : locid.
  Hypothesis HL : locid_ok L.
  Variable h : list ustr.

  (** A thread is about to add the tag [y]. *)
  Definition coming (ts : nat -> tstate) (y : ustr) : Prop := exists i s x k, ts i = TTag (PInsert s x) k /\ r_tag x = y.
  Definition thread_ok (r : lregistry) (log : list (nat * said)) (t : tstate) : Prop :=
    match t with
    | TRest _ => True
    | TTag p _ => (exists s, pc_ok L s p /\ exists i, In (i, SAsk s) log) /\ match p with PHold _ x => mget (r_tag x) (lr_tags r) <> None | PDone _ _ => False | _ => True end
    | TIcu _ _ => True
    | TIcuInsert t x _ => parse_locale L (r_tag t) = Some (r_tag x)
    | TAll l _ => Forall (canonical L) l
    end.
  Definition there (r : lregistry) (y : ustr) : Prop := mget y (lr_tags r) <> None.
  Record world_ok (w : world) : Prop := mk_world_ok {
    wo_reg : reg_ok L (w_reg w);
    wo_nodup : NoDup (mkeys (lr_tags (w_reg w))) /\ NoDup (mkeys (lr_deprecated (w_reg w)));
    wo_icu : forall k x, mget k (lr_icu (w_reg w)) = Some x -> parse_locale L k = Some (r_tag x);
    wo_threads : forall i, thread_ok (w_reg w) (w_log w) (w_threads w i);
    wo_lock : match w_lock w with None => forall i, releases (w_threads w i) = false | Some j => forall i, releases (w_threads w i) = true <-> i = j end;
    wo_log : forall i a, In (i, a) (w_log w) -> right_answer L a;
    wo_only : (forall y, there (w_reg w) y -> asked L h (w_log w) y) /\ (forall s x, mget s (lr_deprecated (w_reg w)) = Some x -> asked L h (w_log w) (r_tag x));
    wo_given : forall y, given L h (w_log w) y -> there (w_reg w) y \/ coming (w_threads w) y;
    wo_own : forall i x, In (i, STag (r_tag x) (Ok x)) (w_log w) -> there (w_reg w) (r_tag x);
    wo_dep : forall s x, mget s (lr_deprecated (w_reg w)) = Some x -> there (w_reg w) (r_tag x) \/ coming (w_threads w) (r_tag x);
    wo_self : forall x, mget (r_tag x) (lr_deprecated (w_reg w)) = Some x -> there (w_reg w) (r_tag x)
  }.

  Lemma asked_more log l y : asked L h log y -> asked L h (l ++ log) y.
  Proof. intros [H|(i & s & H & Hc)]; [now left|]. right. exists i, s. split; [apply in_or_app; now right|exact Hc]. Qed.
  Lemma thread_ok_more r r' log l t : (forall y, there r y -> there r' y) -> thread_ok r log t -> thread_ok r' (l ++ log) t.
  Proof.
    intros Hm. destruct t as [p|p k|t k|t x k|l0 k]; cbn [thread_ok]; auto. intros ((s & Hp & i & Hi) & Hq).
    split; [exists s; split; [exact Hp|]; exists i; apply in_or_app; now right|]. destruct p; auto. now apply Hm.
  Qed.

  Lemma world_next w i r hold t l :
    world_ok w ->
    reg_ok L r -> NoDup (mkeys (lr_tags r)) /\ NoDup (mkeys (lr_deprecated r)) -> (forall k x, mget k (lr_icu r) = Some x -> parse_locale L k = Some (r_tag x)) ->
    (forall y, there (w_reg w) y -> there r y) ->
    thread_ok r (map (fun a => (i, a)) l ++ w_log w) t ->
    (hold = true <-> releases t = true) -> (hold = true -> w_lock w = None) ->
    (forall a, In a l -> right_answer L a) ->
    (forall y, there r y -> asked L h (map (fun a => (i, a)) l ++ w_log w) y) ->
    (forall s x, mget s (lr_deprecated r) = Some x -> asked L h (map (fun a => (i, a)) l ++ w_log w) (r_tag x)) ->
    (forall s x k, w_threads w i = TTag (PInsert s x) k -> there r (r_tag x)) ->
    (forall s x, In (STag s (Ok x)) l -> (there r (r_tag x) \/ (exists s', mget s' (lr_deprecated (w_reg w)) = Some x)) /\ (s = r_tag x -> there r (r_tag x))) ->
    (forall s x, mget s (lr_deprecated r) = Some x -> mget s (lr_deprecated (w_reg w)) = Some x \/ there r (r_tag x) \/ exists s k, t = TTag (PInsert s x) k) ->
    (forall x, mget (r_tag x) (lr_deprecated r) = Some x -> there r (r_tag x)) ->
    world_ok (mk_world r (if hold then Some i else if releases (w_threads w i) then None else w_lock w)
                (fun j => if Nat.eqb j i then t else w_threads w j) (map (fun a => (i, a)) l ++ w_log w)).
  Proof.
    intros W Hreg Hnd Hicu Hm Ht Hh Hl Hr Ho1 Ho2 Hins Hnew Hdep Hself.
    assert (Hc : forall y, coming (w_threads w) y -> there r y \/ coming (fun j => if Nat.eqb j i then t else w_threads w j) y).
    { intros y (j & s & x & k & Hj & Hy). destruct (Nat.eqb_spec j i) as [->|Hne].
      - left. rewrite <- Hy. exact (Hins _ _ _ Hj).
      - right. exists j, s, x, k. destruct (Nat.eqb_spec j i) as [E|_]; [now destruct Hne|]. now split. }
    assert (Hm' : forall y, there (w_reg w) y \/ coming (w_threads w) y -> there r y \/ coming (fun j => if Nat.eqb j i then t else w_threads w j) y).
    { intros y [H|H]; [left; now apply Hm|now apply Hc]. }
    split; cbn [w_reg w_lock w_threads w_log].
    - exact Hreg.
    - exact Hnd.
    - exact Hicu.
    - intros j. destruct (Nat.eqb_spec j i) as [->|Hne]; [exact Ht|]. exact (thread_ok_more _ _ _ _ _ Hm (wo_threads w W j)).
    - pose proof (wo_lock w W) as Hk. destruct hold.
      + rewrite (Hl eq_refl) in Hk. intros j. destruct (Nat.eqb_spec j i) as [->|Hne].
        * split; [reflexivity|]. intros _. now apply Hh.
        * rewrite Hk. split; [intros E; discriminate E|intros E; now destruct Hne].
      + assert (Hrt : releases t = false) by (destruct (releases t); [now destruct (proj2 Hh eq_refl)|reflexivity]).
        destruct (releases (w_threads w i)) eqn:Er.
        * intros j. destruct (Nat.eqb_spec j i) as [->|Hne]; [exact Hrt|]. destruct (w_lock w) as [k|]; [|apply Hk].
          apply Hk in Er as <-. destruct (releases (w_threads w j)) eqn:Ej; [|reflexivity]. apply Hk in Ej. now destruct Hne.
        * destruct (w_lock w) as [k|].
          -- intros j. destruct (Nat.eqb_spec j i) as [->|Hne]; [|apply Hk]. rewrite Hrt. rewrite <- Hk, Er. reflexivity.
          -- intros j. destruct (Nat.eqb_spec j i) as [->|Hne]; [exact Hrt|apply Hk].
    - intros j a H. apply in_app_or in H as [H|H]; [|exact (wo_log w W j a H)]. apply in_map_iff in H as (a' & E & H). injection E as <- <-. now apply Hr.
    - split; [exact Ho1|exact Ho2].
    - intros y [H|(j & s & x & H & Hy)]; [apply Hm'; apply (wo_given w W); now left|]. apply in_app_or in H as [H|H].
      + apply in_map_iff in H as (a' & E & H). injection E as <- ->. destruct (Hnew _ _ H) as ([G|(s' & G)] & _); [left; now rewrite <- Hy|].
        rewrite <- Hy. apply Hm'. exact (wo_dep w W _ _ G).
      + apply Hm'. apply (wo_given w W). right. now exists j, s, x.
    - intros j x H. apply in_app_or in H as [H|H].
      + apply in_map_iff in H as (a' & E & H). injection E as <- ->. now destruct (Hnew _ _ H) as (_ & G); apply G.
      + apply Hm. exact (wo_own w W j x H).
    - intros s x H. destruct (Hdep _ _ H) as [G|[G|(s' & k & ->)]]; [apply Hm'; exact (wo_dep w W _ _ G)|now left|].
      right. exists i, s', x, k. rewrite Nat.eqb_refl. now split.
    - exact Hself.
  Qed.

  Lemma there_minsert r y x z : there r z -> mget z (minsert y x (lr_tags r)) <> None.
  Proof. unfold there. rewrite mget_minsert. now destruct (ueqb z y). Qed.

  (** What a step of [tag] does to the registry. *)
  Lemma pc_effect r free p r' hold p' s0 : reg_ok L r -> pc_ok L s0 p -> pc_step L r free p = Some (r', hold, p') ->
    (NoDup (mkeys (lr_tags r)) /\ NoDup (mkeys (lr_deprecated r)) -> NoDup (mkeys (lr_tags r')) /\ NoDup (mkeys (lr_deprecated r'))) /\ lr_icu r' = lr_icu r /\ (forall y, there r y -> there r' y) /\
    (forall y, there r' y -> there r y \/ canon L s0 = Some y) /\
    (forall s x, mget s (lr_deprecated r') = Some x -> mget s (lr_deprecated r) = Some x \/
       (p = PHold s x /\ canon L s0 = Some (r_tag x)) \/ (p' = PInsert s x /\ s <> r_tag x /\ canon L s0 = Some (r_tag x))) /\
    (forall s x, p = PInsert s x -> there r' (r_tag x)) /\
    (forall s x, p' = PHold s x -> there r' (r_tag x)) /\
    (forall s x, p' = PDone s (Ok x) -> there r' (r_tag x) \/ mget s (lr_deprecated r) = Some x \/ p = PHold s x) /\
    (forall s o, p' = PDone s o -> s = s0).
  Proof.
    intros (R1 & R2) Hp H. destruct p as [q|q|q|q new|q x|q new|q x|q o]; cbn [pc_step] in H; cbn [pc_ok] in Hp.
    - subst q. destruct free; [|discriminate H]. destruct (mget s0 (lr_tags r)) as [x|] eqn:E; injection H as <- <- <-;
        (split; [auto|split; [reflexivity|split; [auto|split; [auto|split; [auto|split; [discriminate|split; [discriminate|split; [|intros s o G; inversion G; reflexivity]]]]]]]]).
      + intros s y G. injection G as <- <-. left. unfold there. rewrite (proj1 (R1 _ _ E)). congruence.
      + discriminate.
    - subst q. destruct (mget s0 (lr_deprecated r)) as [x|] eqn:E; injection H as <- <- <-;
        (split; [auto|split; [reflexivity|split; [auto|split; [auto|split; [auto|split; [discriminate|split; [discriminate|split; [|intros s o G; inversion G; reflexivity]]]]]]]]).
      + intros s y G. injection G as <- <-. right. now left.
      + discriminate.
    - subst q. destruct (canon L s0) as [new|] eqn:E; injection H as <- <- <-;
        (split; [auto|split; [reflexivity|split; [auto|split; [auto|split; [auto|split; [discriminate|split; [discriminate|split; [discriminate|intros s o G; inversion G; reflexivity]]]]]]]]).
    - destruct Hp as (-> & Hc). destruct free; [|discriminate H]. destruct (mget new (lr_tags r)) as [x|] eqn:E; injection H as <- <- <-;
        (split; [auto|split; [reflexivity|split; [auto|split; [auto|split; [auto|split; [discriminate|split; [|split; [discriminate|intros s o G; inversion G; reflexivity]]]]]]]]).
      + intros s y G. injection G as <- <-. unfold there. rewrite (proj1 (R1 _ _ E)). congruence.
      + discriminate.
    - destruct Hp as (-> & Hc). injection H as <- <- <-.
      split; [intros (N1 & N2); split; [exact N1|now apply minsert_NoDup]|split; [reflexivity|split; [auto|split; [auto|split; [|split; [discriminate|split; [discriminate|split; [|intros s o G; inversion G; reflexivity]]]]]]]].
      + cbn [set_deprecated lr_deprecated]. intros s y G. rewrite mget_minsert in G. destruct (ueqb_spec s s0) as [->|Hne]; [|now left].
        injection G as <-. right. left. now split.
      + intros s y G. injection G as <- <-. right. now right.
    - destruct Hp as (-> & Hc). cbn [fresh] in H. injection H as <- <- <-.
      split; [intros (N1 & N2); destruct (ueqb s0 new); split; [exact N1|exact N2|exact N1|now apply minsert_NoDup]|split; [destruct (ueqb s0 new); reflexivity|split; [destruct (ueqb s0 new); auto|split; [destruct (ueqb s0 new); auto|split; [|split; [discriminate|split; [discriminate|split; [discriminate|intros s o G; inversion G; reflexivity]]]]]]]].
      intros s y G. destruct (ueqb_spec s0 new) as [->|Hne]; cbn [set_deprecated lr_deprecated] in G; [now left|].
      rewrite mget_minsert in G. destruct (ueqb_spec s s0) as [->|Hn]; [|now left]. injection G as <-. right. right. cbn [r_tag]. split; [reflexivity|]. now split.
    - destruct Hp as (-> & Hc). destruct free; [|discriminate H]. injection H as <- <- <-. cbn [set_tags lr_tags lr_icu lr_deprecated].
      split; [intros (N1 & N2); split; [now apply minsert_NoDup|exact N2]|split; [reflexivity|split; [intros y G; now apply there_minsert|split; [|split; [auto|split; [|split; [discriminate|split; [|intros s o G; inversion G; reflexivity]]]]]]]].
      + intros y G. unfold there in G. cbn [set_tags lr_tags] in G. rewrite mget_minsert in G. destruct (ueqb_spec y (r_tag x)) as [Ey|Hne]; [right; rewrite Ey; exact Hc|now left].
      + intros s y G. injection G as <- <-. unfold there. cbn [set_tags lr_tags]. rewrite mget_minsert_eq. discriminate.
      + intros s y G. injection G as <- <-. left. unfold there. cbn [set_tags lr_tags]. rewrite mget_minsert_eq. discriminate.
    - discriminate H.
  Qed.

  Lemma In_mget {V} k (v : V) m : NoDup (mkeys m) -> In (k, v) m -> mget k m = Some v.
  Proof.
    induction m as [|(k' & v') m IH]; intros Hn Hi; [contradiction|]. cbn in *. inversion Hn as [|? ? Hni Hn']; subst. destruct Hi as [E|Hi].
    - injection E as -> ->. now rewrite ueqb_refl.
    - destruct (ueqb_spec k k') as [->|]; [|now apply IH]. exfalso. apply Hni. apply in_map_iff. now exists (k', v).
  Qed.
  Lemma tags_names m : (forall k x, mget k m = Some x -> r_tag x = k) -> NoDup (mkeys m) -> map r_tag (map (snd (A := ustr)) m) = mkeys m.
  Proof.
    intros H Hn. rewrite map_map. unfold mkeys. apply map_ext_in. intros (k & x) Hi. cbn. apply H. now apply In_mget.
  Qed.
  Lemma tags_right r : reg_ok L r -> NoDup (mkeys (lr_tags r)) -> NoDup (map r_tag (list_tags r)) /\ Forall (canonical L) (list_tags r).
  Proof.
    intros (R1 & _) Hn. unfold list_tags. split.
    - rewrite tags_names; [exact Hn|intros k x Hk; exact (proj1 (R1 k x Hk))|exact Hn].
    - apply Forall_forall. intros x Hx. apply in_map_iff in Hx as ((k & y) & E & Hi). cbn in E. subst y. apply In_mget in Hi; [|exact Hn].
      destruct (R1 _ _ Hi) as (E & Hc). unfold canonical. now rewrite E.
  Qed.
  Lemma dep_right r : reg_ok L r -> NoDup (mkeys (lr_deprecated r)) -> Forall (canonical L) (list_deprecated r).
  Proof.
    intros (_ & R2) Hn. unfold list_deprecated. apply Forall_forall. intros x Hx. apply in_map_iff in Hx as ((k & y) & E & Hi). cbn in E. subst y.
    apply In_mget in Hi; [|exact Hn]. exact (proj1 (HL _ _ (R2 _ _ Hi))).
  Qed.

  Definition free (w : world) : bool := match w_lock w with None => true | Some _ => false end.
  Lemma free_lock w : free w = true -> w_lock w = None.
  Proof. unfold free. now destruct (w_lock w). Qed.
  Definition next (w : world) (i : nat) (r : lregistry) (hold : bool) (t : tstate) (l : list said) : world :=
    mk_world r (if hold then Some i else if releases (w_threads w i) then None else w_lock w)
      (fun j => if Nat.eqb j i then t else w_threads w j) (map (fun a => (i, a)) l ++ w_log w).

  Lemma tag_world w i p k r' hold p' s0 extra : world_ok w -> pc_ok L s0 p -> (forall a, In a extra -> exists s, a = SAsk s) ->
    (exists j, In (j, SAsk s0) (map (fun a => (i, a)) extra ++ w_log w)) ->
    (forall s x, p = PHold s x -> there (w_reg w) (r_tag x)) -> (forall s x k, w_threads w i = TTag (PInsert s x) k -> p = PInsert s x) ->
    pc_step L (w_reg w) (free w) p = Some (r', hold, p') ->
    world_ok (next w i r' hold (fst (in_tag p' k)) (snd (in_tag p' k) ++ extra)).
  Proof.
    intros W Hp He Ha Hhold Hins H. pose proof (wo_reg w W) as Hr.
    destruct (pc_step_ok L HL _ _ _ _ _ _ _ Hr Hp H) as (Hr' & Hp' & Hh & Hf).
    destruct (pc_effect _ _ _ _ _ _ _ Hr Hp H) as (E1 & E2 & E3 & E4 & E5 & E6 & E7 & E8 & E9).
    assert (Has : asked L h (map (fun a => (i, a)) (snd (in_tag p' k) ++ extra) ++ w_log w) = asked L h (map (fun a => (i, a)) (snd (in_tag p' k)) ++ (map (fun a => (i, a)) extra ++ w_log w))).
    { rewrite map_app, app_assoc. reflexivity. }
    assert (Hask : forall y, canon L s0 = Some y -> asked L h (map (fun a => (i, a)) extra ++ w_log w) y).
    { intros y Hy. right. destruct Ha as (j & Ha). exists j, s0. now split. }
    apply world_next; [exact W|exact Hr'|exact (E1 (wo_nodup w W))|rewrite E2; exact (wo_icu w W)|exact E3| | | | | | | | | |].
    - destruct p' as [q|q|q|q new|q x|q new|q x|q o]; cbn [in_tag fst snd thread_ok]; try exact Logic.I; try (cbn [app]; split; [exists s0; now split|exact Logic.I]).
      cbn [app]. split; [exists s0; now split|]. exact (E7 _ _ eq_refl).
    - rewrite Hh. destruct p'; cbn [in_tag fst releases]; split; try (intros (? & ? & E); discriminate E); try discriminate; try reflexivity. intros _. eauto.
    - intros Ht. apply free_lock. exact (Hf Ht).
    - intros a G. apply in_app_or in G as [G|G]; [|destruct (He _ G) as (s & ->); exact Logic.I].
      destruct p' as [q|q|q|q new|q x|q new|q x|q o]; cbn [in_tag snd] in G; try contradiction. destruct G as [<-|[]]. cbn [right_answer pc_ok] in *.
      destruct o as [x|[]| |]; try contradiction; destruct Hp' as (-> & Hc); rewrite Hc; [now exists x|reflexivity].
    - intros y Hy. rewrite Has. apply asked_more. destruct (E4 y Hy) as [G|G]; [apply asked_more; exact (proj1 (wo_only w W) y G)|now apply Hask].
    - intros s x Hs. rewrite Has. apply asked_more. destruct (E5 s x Hs) as [G|[(_ & G)|(_ & _ & G)]]; [apply asked_more; exact (proj2 (wo_only w W) s x G)|now apply Hask..].
    - intros s x k0 G. exact (E6 s x (Hins _ _ _ G)).
    - intros s x G. apply in_app_or in G as [G|G]; [|destruct (He _ G) as (s' & G'); discriminate G'].
      assert (Hd : p' = PDone s (Ok x)) by (destruct p' as [q|q|q|q new|q y|q new|q y|q o]; cbn [in_tag snd] in G; try contradiction; destruct G as [G|[]]; now injection G as -> ->).
      destruct (E8 s x Hd) as [G1|[G1|G1]].
      + split; [now left|auto].
      + split; [right; now exists s|]. intros ->. apply E3. exact (wo_self w W x G1).
      + assert (Ht : there r' (r_tag x)) by (apply E3; exact (Hhold _ _ G1)). split; [now left|auto].
    - intros s x G. destruct (E5 s x G) as [G1|[(G1 & _)|(G1 & _)]]; [now left| |].
      + right. left. apply E3. exact (Hhold _ _ G1).
      + right. right. exists s, k. now rewrite G1.
    - intros x G. destruct (E5 _ x G) as [G1|[(G1 & _)|(_ & G1 & _)]]; [|apply E3; exact (Hhold _ _ G1)|now destruct G1]. apply E3. exact (wo_self w W x G1).
  Qed.

  (** Steps that leave tags and deprecated tags alone. *)
  Lemma rest_world w i r' t l : world_ok w -> lr_tags r' = lr_tags (w_reg w) -> lr_deprecated r' = lr_deprecated (w_reg w) ->
    (forall k x, mget k (lr_icu r') = Some x -> parse_locale L k = Some (r_tag x)) -> outside (w_threads w i) -> outside t -> thread_ok r' (map (fun a => (i, a)) l ++ w_log w) t ->
    (forall a, In a l -> right_answer L a) -> (forall s o, ~ In (STag s o) l) -> world_ok (next w i r' false t l).
  Proof.
    intros W Et Ed Hi Ho Ho' Ht Ha Hn. assert (Hth : forall y, there r' y <-> there (w_reg w) y) by (intros y; unfold there; now rewrite Et).
    apply world_next; auto.
    - destruct (wo_reg w W) as (R1 & R2). split; [now rewrite Et|now rewrite Ed].
    - rewrite Et, Ed. exact (wo_nodup w W).
    - intros y. apply Hth.
    - destruct t as [p|p k|t k|t x k|l0 k]; [..]; cbn [releases]; try (split; discriminate). contradiction.
    - discriminate.
    - intros y Hy. apply asked_more. apply (proj1 (wo_only w W)). now apply Hth.
    - intros s x Hs. apply asked_more. apply (proj2 (wo_only w W) s). now rewrite <- Ed.
    - intros s x k G. rewrite G in Ho. contradiction.
    - intros s x G. now destruct (Hn _ _ G).
    - intros s x G. left. now rewrite <- Ed.
    - intros x G. apply Hth. apply (wo_self w W). now rewrite <- Ed.
  Qed.

  Lemma step_world w i w' : world_ok w -> world_step L w i = Some w' -> world_ok w'.
  Proof.
    intros W H. unfold world_step in H. fold (free w) in H. destruct (thread_step L (w_reg w) (free w) (w_threads w i)) as [((r & hold) & (t & l))|] eqn:E; [|discriminate H].
    injection H as <-. fold (next w i r hold t l). pose proof (wo_threads w W i) as Ht. pose proof (wo_reg w W) as Hr. pose proof (wo_nodup w W) as (N1 & N2).
    destruct (w_threads w i) as [[|s k|t0 k|k|k|k]|p k|t0 k|t0 x k|l0 k] eqn:Ei; cbn [thread_step] in E.
    - discriminate E.
    - unfold tag_step in E. destruct (pc_step L (w_reg w) (free w) (PTags s)) as [((r1 & hold1) & p1)|] eqn:Ep; [|discriminate E].
      destruct (in_tag p1 k) as (t1 & l1) eqn:Et. injection E as <- <- <- <-.
      replace t1 with (fst (in_tag p1 k)) by now rewrite Et. replace l1 with (snd (in_tag p1 k)) by now rewrite Et.
      apply (tag_world w i (PTags s) k r1 hold1 p1 s [SAsk s] W); [reflexivity| | | | |exact Ep].
      + intros a [<-|[]]. now exists s.
      + exists i. now left.
      + discriminate.
      + rewrite Ei. discriminate.
    - destruct (mget (r_tag t0) (lr_icu (w_reg w))) as [x|] eqn:Em; injection E as <- <- <- <-.
      + apply rest_world; [exact W|reflexivity|reflexivity|exact (wo_icu w W)|now rewrite Ei|exact Logic.I|exact Logic.I| |intros s o [G|[]]; discriminate G].
        intros a [<-|[]]. cbn. rewrite (wo_icu w W _ _ Em). now exists x.
      + apply rest_world; [exact W|reflexivity|reflexivity|exact (wo_icu w W)|now rewrite Ei|exact Logic.I|exact Logic.I|contradiction|intros s o []].
    - destruct (free w); [|discriminate E]. injection E as <- <- <- <-.
      apply rest_world; [exact W|reflexivity|reflexivity|exact (wo_icu w W)|now rewrite Ei|exact Logic.I|exact Logic.I| |intros s o [G|[]]; discriminate G].
      intros a [<-|[]]. cbn. now apply tags_right.
    - injection E as <- <- <- <-.
      apply rest_world; [exact W|reflexivity|reflexivity|exact (wo_icu w W)|now rewrite Ei|exact Logic.I|exact Logic.I| |intros s o [G|[]]; discriminate G].
      intros a [<-|[]]. cbn. now apply dep_right.
    - destruct (free w); [|discriminate E]. injection E as <- <- <- <-.
      apply rest_world; [exact W|reflexivity|reflexivity|exact (wo_icu w W)|now rewrite Ei|exact Logic.I| |contradiction|intros s o []].
      cbn [thread_ok]. now apply tags_right.
    - unfold tag_step in E. destruct (pc_step L (w_reg w) (free w) p) as [((r1 & hold1) & p1)|] eqn:Ep; [|discriminate E].
      injection E as <- <- E. cbn [thread_ok] in Ht. destruct Ht as ((s & Hp & j & Hj) & Hq).
      pose proof (tag_world w i p k r1 hold1 p1 s [] W Hp) as G. rewrite app_nil_r, E in G. apply G; [contradiction|now exists j| | |exact Ep].
      + intros s1 x ->. exact Hq.
      + intros s1 x k1 G1. rewrite Ei in G1. now injection G1.
    - destruct (parse_locale L (r_tag t0)) as [y|] eqn:Em.
      + cbn [fresh] in E. injection E as <- <- <- <-.
        apply rest_world; [exact W|reflexivity|reflexivity|exact (wo_icu w W)|now rewrite Ei|exact Logic.I|exact Em|contradiction|intros s o []].
      + injection E as <- <- <- <-.
        apply rest_world; [exact W|reflexivity|reflexivity|exact (wo_icu w W)|now rewrite Ei|exact Logic.I|exact Logic.I| |intros s o [G|[]]; discriminate G].
        intros a [<-|[]]. cbn. now rewrite Em.
    - injection E as <- <- <- <-. cbn [thread_ok] in Ht.
      apply rest_world; [exact W|reflexivity|reflexivity| |now rewrite Ei|exact Logic.I|exact Logic.I| |intros s o [G|[]]; discriminate G].
      + cbn [lr_icu]. intros k0 y Hy. rewrite mget_minsert in Hy. destruct (ueqb_spec k0 (r_tag t0)) as [Ek|Hne]; [|exact (wo_icu w W _ _ Hy)]. injection Hy as <-. now rewrite Ek.
      + intros a [<-|[]]. cbn. rewrite Ht. now exists x.
    - injection E as <- <- <- <-. cbn [thread_ok] in Ht.
      apply rest_world; [exact W|reflexivity|reflexivity|exact (wo_icu w W)|now rewrite Ei|exact Logic.I|exact Logic.I| |intros s o [G|[]]; discriminate G].
      intros a [<-|[]]. cbn. apply Forall_app. split; [exact Ht|now apply dep_right].
  Qed.
  Lemma run_world sch : forall w, world_ok w -> world_ok (world_run L w sch).
  Proof. induction sch as [|i sch IH]; intros w W; [exact W|]. cbn. apply IH. destruct (world_step L w i) eqn:E; [exact (step_world w i _ W E)|exact W]. Qed.
  Lemma start_world rs r ps : reachable L h rs r -> world_ok (world_start r ps).
  Proof.
    intros H. apply (reachable_inv L HL) in H. split; cbn [world_start w_reg w_lock w_threads w_log].
    - exact (inv_reg_ok L _ _ _ H).
    - exact (i_nd _ _ _ _ H).
    - exact (i_icu _ _ _ _ H).
    - intros i. exact Logic.I.
    - intros i. reflexivity.
    - contradiction.
    - split.
      + intros y Hy. unfold there in Hy. destruct (mget y (lr_tags r)) as [x|] eqn:E; [|congruence]. left. now destruct (i_tags _ _ _ _ H y x E) as (_ & _ & G & _).
      + intros s x Hs. destruct (i_dep _ _ _ _ H s x Hs) as (_ & G & _). left. now destruct (i_tags _ _ _ _ H _ x G) as (_ & _ & K & _).
    - intros y [(s & Hi & Hc)|(i & s & x & G & _)]; [|contradiction]. left. exact (proj1 (i_all _ _ _ _ H s y Hi Hc)).
    - contradiction.
    - intros s x Hs. destruct (i_dep _ _ _ _ H s x Hs) as (_ & G & _). left. unfold there. congruence.
    - intros x Hs. destruct (i_dep _ _ _ _ H _ x Hs) as (_ & G & _). unfold there. congruence.
  Qed.
End Threads.
