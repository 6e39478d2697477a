(** C108: locales that threads ask for. *)
From Verif Require Import Base BaseFacts RegistryModel RegThreadsModel RegThreadsSpec RegParseModel RegParseProofs MemoryThreads2.

Section Locales.
  Variable L : locid.
  Variable k : ustr.
  Definition kept (r : lregistry) : Prop := mget k (lr_icu r) <> None.
  Definition past (r : lregistry) (t : tstate) : Prop :=
    match t with
    | TIcuInsert u _ _ => kept r \/ r_tag u = k
    | TIcu u _ => kept r /\ r_tag u <> k
    | _ => kept r
    end.
  Lemma kept_thread r free t r' hold t' l : thread_step L r free t = Some (r', hold, (t', l)) -> kept r -> kept r'.
  Proof.
    intros H G. unfold kept in *. destruct (thread_icu L _ _ _ _ _ _ _ H) as [->|(u & x & -> & _)]; [exact G|].
    destruct (ueqb_spec (r_tag u) k) as [<-|Hne]; [rewrite mget_minsert_eq; discriminate|]. rewrite mget_minsert_ne; [exact G|congruence].
  Qed.
  Lemma past_stay r r' t : (kept r -> kept r') -> past r t -> past r' t.
  Proof. destruct t; cbn [past]; tauto. Qed.
  Lemma rest_past r free p x : kept r -> thread_step L r free (TRest p) = Some x -> past (fst (fst x)) (fst (snd x)).
  Proof.
    intros G H. destruct x as [[r' hold] [t l]]. cbn [fst snd]. pose proof (kept_thread _ _ _ _ _ _ _ H G) as G'. cbn [thread_step] in H. destruct p as [|s c|u c|c|c|c]; try discriminate H.
    - unfold tag_step in H. cbn [pc_step] in H. destruct free; [|discriminate H]. destruct (mget s (lr_tags r)); cbn [in_tag] in H; injection H as <- _ <- _; exact G.
    - destruct (mget (r_tag u) (lr_icu r)) eqn:E; injection H as <- _ <- _; cbn [past]; [exact G|]. split; [exact G|]. intros Eu. rewrite Eu in E. exact (G E).
    - destruct free; [|discriminate H]. injection H as <- _ <- _. exact G.
    - injection H as <- _ <- _. exact G.
    - destruct free; [|discriminate H]. injection H as <- _ <- _. exact G.
  Qed.
  Lemma past_own r free t x : past r t -> thread_step L r free t = Some x -> past (fst (fst x)) (fst (snd x)) /\ locates_now t k = false.
  Proof.
    intros P H. destruct t as [p|p c|u c|u y c|l0 c].
    - split; [exact (rest_past r free p x P H)|reflexivity].
    - split; [|reflexivity]. cbn [past] in P. destruct x as [[r' hold] [t l]]. pose proof (kept_thread _ _ _ _ _ _ _ H P) as G. cbn [fst snd]. cbn [thread_step] in H. unfold tag_step in H.
      destruct (pc_step L r free p) as [[[r1 h1] p1]|]; [|discriminate H]. injection H as <- _ E. destruct p1; cbn [in_tag] in E; injection E as <- _; exact G.
    - cbn [past] in P. destruct P as (P & Hne). split; [|cbn [locates_now]; destruct (ueqb_spec (r_tag u) k); [congruence|reflexivity]].
      destruct x as [[r' hold] [t l]]. pose proof (kept_thread _ _ _ _ _ _ _ H P) as G. cbn [fst snd]. cbn [thread_step] in H.
      destruct (parse_locale L (r_tag u)); [cbn [fresh] in H|]; injection H as <- _ <- _; [left|]; exact G.
    - split; [|reflexivity]. cbn [thread_step] in H. injection H as <-. cbn [fst snd past]. unfold kept. cbn [lr_icu].
      destruct (ueqb_spec (r_tag u) k) as [<-|Hne]; [rewrite mget_minsert_eq; discriminate|]. rewrite mget_minsert_ne; [|congruence]. destruct P as [P|P]; [exact P|congruence].
    - split; [|reflexivity]. cbn [thread_step] in H. injection H as <-. exact P.
  Qed.
  Lemma world_inv w j w' : world_step L w j = Some w' -> exists r hold t l, thread_step L (w_reg w) (match w_lock w with None => true | Some _ => false end) (w_threads w j) = Some (r, hold, (t, l)) /\
    w_reg w' = r /\ w_log w' = map (fun a => (j, a)) l ++ w_log w /\ forall i, w_threads w' i = if Nat.eqb i j then t else w_threads w i.
  Proof.
    unfold world_step. destruct (thread_step L _ _ _) as [[[r hold] [t l]]|]; [|discriminate]. intros [= <-]. exists r, hold, t, l. auto.
  Qed.
  Lemma past_turns i sch : forall w, past (w_reg w) (w_threads w i) -> locale_turns L w sch i k = 0.
  Proof.
    induction sch as [|j sch IH]; intros w P; [reflexivity|]. cbn [locale_turns]. destruct (world_step L w j) as [w'|] eqn:E; [|now apply IH].
    apply world_inv in E as (r & hold & t & l & E & Er & _ & Et). destruct (Nat.eqb_spec j i) as [->|Hne].
    - destruct (past_own _ _ _ _ P E) as (P' & ->). cbn [andb Nat.add]. apply IH. now rewrite Er, Et, Nat.eqb_refl.
    - cbn [andb Nat.add]. apply IH. rewrite Er, Et. destruct (Nat.eqb_spec i j) as [->|_]; [now destruct Hne|]. exact (past_stay _ _ _ (kept_thread _ _ _ _ _ _ _ E) P).
  Qed.
  Hypothesis Hk : parse_locale L k <> None.
  Lemma locates_then w i w' : world_step L w i = Some w' -> locates_now (w_threads w i) k = true -> past (w_reg w') (w_threads w' i).
  Proof using Hk.
    intros H Hn. apply world_inv in H as (r & hold & t & l & E & Er & _ & Et). rewrite Et, Nat.eqb_refl, Er. destruct (w_threads w i) as [p|p c|u c|u y c|l0 c]; try discriminate Hn.
    cbn [locates_now] in Hn. destruct (ueqb_spec (r_tag u) k) as [Eu|]; [|discriminate Hn]. cbn [thread_step] in E. rewrite Eu in E. destruct (parse_locale L k); [|congruence].
    cbn [fresh] in E. injection E as <- _ <- _. now right.
  Qed.
  Lemma locale_once i sch : forall w, locale_turns L w sch i k <= 1.
  Proof using Hk.
    induction sch as [|j sch IH]; intros w; [cbn; lia|]. cbn [locale_turns]. destruct (world_step L w j) as [w'|] eqn:E; [|apply IH].
    destruct (Nat.eqb_spec j i) as [->|Hne]; [|apply IH]. cbn [andb]. destruct (locates_now (w_threads w i) k) eqn:En; [|apply IH].
    rewrite (past_turns i sch w' (locates_then w i w' E En)). lia.
  Qed.
End Locales.

(** Once a locale was answered to any thread, a thread that is not in a call will not make it. *)
Lemma answered_kept L r ps sch : forall i t x, let w := world_run L (world_start r ps) sch in In (i, SIcu t (Ok x)) (w_log w) -> kept (r_tag t) (w_reg w).
Proof.
  cbn zeta. assert (G : forall sch w, (forall i t x, In (i, SIcu t (Ok x)) (w_log w) -> kept (r_tag t) (w_reg w)) -> forall i t x, In (i, SIcu t (Ok x)) (w_log (world_run L w sch)) -> kept (r_tag t) (w_reg (world_run L w sch))).
  { clear. intros sch. induction sch as [|j sch IH]; intros w Hw; cbn [world_run]; [exact Hw|]. apply IH. destruct (world_step L w j) as [w'|] eqn:E; [|exact Hw].
    apply world_inv in E as (r & hold & t & l & E & Er & El & _). intros i u x Hi. rewrite El in Hi. rewrite Er. apply in_app_or in Hi as [Hi|Hi]; [|exact (kept_thread L (r_tag u) _ _ _ _ _ _ _ E (Hw i u x Hi))].
    apply in_map_iff in Hi as (a & Ea & Ha). injection Ea as _ ->.
    assert (Htag : forall p c rr hh tt ll, tag_step L (w_reg w) (match w_lock w with None => true | Some _ => false end) p c = Some (rr, hh, (tt, ll)) -> ~ In (SIcu u (Ok x)) ll).
    { intros p c rr hh tt ll H. unfold tag_step in H. destruct (pc_step L _ _ p) as [[[r1 h1] p1]|]; [|discriminate H]. injection H as _ _ E0. destruct p1; cbn [in_tag] in E0; injection E0 as _ <-.
      all: cbn; intuition discriminate. }
    destruct (w_threads w j) as [[|s c|v c|c|c|c]|p c|v c|v y c|l0 c]; cbn [thread_step] in E; try discriminate E.
    - destruct (tag_step L _ _ (PTags s) c) as [[[r1 h1] [t1 l1]]|] eqn:Es; [|discriminate E]. injection E as _ _ _ <-. apply in_app_or in Ha as [Ha|[Ha|[]]]; [|discriminate Ha]. destruct (Htag _ _ _ _ _ _ Es Ha).
    - destruct (mget (r_tag v) (lr_icu (w_reg w))) eqn:Em; injection E as <- _ _ <-; [|destruct Ha]. destruct Ha as [Ha|[]]. injection Ha as -> ->. unfold kept. now rewrite Em.
    - destruct (w_lock w); [discriminate E|]. injection E as _ _ _ <-. destruct Ha as [Ha|[]]. discriminate Ha.
    - injection E as _ _ _ <-. destruct Ha as [Ha|[]]. discriminate Ha.
    - destruct (w_lock w); [discriminate E|]. injection E as _ _ _ <-. destruct Ha.
    - destruct (Htag _ _ _ _ _ _ E Ha).
    - destruct (parse_locale L (r_tag v)); [cbn [fresh] in E|]; injection E as _ _ _ <-; [destruct Ha|]. destruct Ha as [Ha|[]]. discriminate Ha.
    - injection E as <- _ _ <-. destruct Ha as [Ha|[]]. injection Ha as -> ->. unfold kept. cbn [lr_icu]. rewrite mget_minsert_eq. discriminate.
    - injection E as _ _ _ <-. destruct Ha as [Ha|[]]. discriminate Ha. }
  apply G. intros i t x [].
Qed.
Lemma locale_known L t x0 i0 i p r ps sch sch' : let w := world_run L (world_start r ps) sch in
  In (i0, SIcu t (Ok x0)) (w_log w) -> w_threads w i = TRest p -> locale_turns L w sch' i (r_tag t) = 0.
Proof. intros w Hi Hp. apply past_turns. rewrite Hp. exact (answered_kept L r ps sch i0 t x0 Hi). Qed.
