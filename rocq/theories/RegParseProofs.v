(** Proofs for C108. *)
From Verif Require Import Base BaseFacts RegistryModel RegistrySpec RegistryProofs RegThreadsModel RegThreadsSpec RegThreadsProofs RegThreadsProofs2 RegThreadsProofs4 RegParseModel.

Definition times (s : ustr) (l : list ustr) : nat := count_occ (list_eq_dec N.eq_dec) l s.
Lemma times_app s l l' : times s (l ++ l') = times s l + times s l'.
Proof. apply count_occ_app. Qed.
Lemma times_one s q : times s [q] = if ueqb s q then 1 else 0.
Proof. unfold times. cbn [count_occ]. destruct (list_eq_dec N.eq_dec q s) as [E|E]; destruct (ueqb_spec s q) as [G|G]; congruence. Qed.

Section Parse.
  Variable L : locid.

  (** ** One user *)
  Lemma parses_has r s : tag_parses r s = false <-> has r s.
  Proof.
    unfold tag_parses, has. destruct (mget s (lr_tags r)); [split; [left; discriminate|reflexivity]|]. destruct (mget s (lr_deprecated r)); [split; [right; discriminate|reflexivity]|].
    split; [discriminate|]. intros [H|H]; congruence.
  Qed.
  Lemma parses_when : locid_ok L -> forall h rs r s, reachable L h rs r -> (tag_parses r s = true <-> canon L s = None \/ (~ In s h /\ ~ requested L h s)).
  Proof.
    intros HL h rs r s H. apply (reachable_inv L HL) in H. pose proof (parses_has r s) as Hp. split.
    - intros E. destruct (canon L s) as [y|] eqn:Ec; [right|now left]. split.
      + intros Hi. destruct (i_all _ _ _ _ H s y Hi Ec) as (G1 & G2). assert (G : has r s); [|apply Hp in G; congruence].
        destruct (ueqb_spec s y) as [->|Hne]; [now left|right; now apply G2].
      + intros (s' & Hi & Hc). destruct (i_all _ _ _ _ H s' s Hi Hc) as (G1 & _). assert (G : has r s) by now left. apply Hp in G. congruence.
    - intros Hn. destruct (tag_parses r s) eqn:E; [reflexivity|]. exfalso. apply proj1 in Hp. specialize (Hp eq_refl). clear E. rename Hp into E. unfold has in E.
      destruct (mget s (lr_tags r)) as [x|] eqn:Et; [destruct (i_tags _ _ _ _ H s x Et) as (_ & G1 & G2 & _)|destruct (mget s (lr_deprecated r)) as [x|] eqn:Ed; [destruct (i_dep _ _ _ _ H s x Ed) as (G1 & _ & G2 & _)|destruct E; congruence]];
        (destruct Hn as [G|(G & G')]; [congruence|]); [now apply G'|now apply G].
  Qed.

  Lemma tag_has r s : canon L s <> None -> has (fst (tag L r s)) s.
  Proof.
    intros Hc. unfold tag. destruct (mget s (lr_tags r)) as [x|] eqn:E1; [left; cbn; congruence|]. destruct (mget s (lr_deprecated r)) as [x|] eqn:E2; [right; cbn; congruence|].
    destruct (canon L s) as [new|]; [|congruence]. destruct (mget new (lr_tags r)) as [x|].
    - right. cbn. rewrite mget_minsert_eq. discriminate.
    - cbn [fresh fst]. destruct (ueqb_spec s new) as [->|Hne].
      + left. cbn. rewrite mget_minsert_eq. discriminate.
      + right. cbn. rewrite mget_minsert_eq. discriminate.
  Qed.
  Lemma tag_keys r s : keys_stay r (fst (tag L r s)).
  Proof.
    unfold tag. destruct (mget s (lr_tags r)); [apply keys_same|]. destruct (mget s (lr_deprecated r)); [apply keys_same|]. destruct (canon L s) as [new|]; [|apply keys_same].
    destruct (mget new (lr_tags r)); [split; [auto|intros q; apply minsert_has]|]. cbn [fresh fst]. destruct (ueqb s new); split; cbn; intros q; try apply minsert_has; auto.
  Qed.
  Lemma rstep_keys r c : keys_stay r (rstep L r c).
  Proof.
    destruct c as [s|t]; [apply tag_keys|]. cbn [rstep]. unfold icu_language. destruct (mget (r_tag t) (lr_icu r)); [apply keys_same|]. destruct (parse_locale L (r_tag t)); [|apply keys_same]. split; auto.
  Qed.
  Lemma has_stay r r' s : keys_stay r r' -> has r s -> has r' s.
  Proof. intros (K1 & K2) [H|H]; [left; now apply K1|right; now apply K2]. Qed.
  Lemma parsed_has s cs : forall r, has r s -> times s (parsed L r cs) = 0.
  Proof.
    induction cs as [|c cs IH]; intros r H; [reflexivity|]. cbn [parsed]. rewrite times_app, (IH _ (has_stay _ _ _ (rstep_keys r c) H)), Nat.add_0_r.
    destruct c as [q|t]; [|reflexivity]. destruct (tag_parses r q) eqn:E; [|reflexivity]. rewrite times_one. destruct (ueqb_spec s q) as [->|]; [|reflexivity]. apply parses_has in H. congruence.
  Qed.
  Lemma parsed_once s cs : canon L s <> None -> forall r, times s (parsed L r cs) <= 1.
  Proof.
    intros Hc. induction cs as [|c cs IH]; intros r; [cbn; lia|]. cbn [parsed]. rewrite times_app. destruct c as [q|t]; [|apply IH].
    destruct (tag_parses r q); [|apply IH]. rewrite times_one. destruct (ueqb_spec s q) as [Eq|]; [|apply IH]. rewrite parsed_has; [lia|]. cbn [rstep]. rewrite <- Eq. now apply tag_has.
  Qed.
  Definition asks (s : ustr) (cs : list rcall) : nat := times s (flat_map (fun c => match c with CTag s => [s] | CIcu _ => [] end) cs).
  Definition known_ok (r : lregistry) : Prop := forall s, has r s -> canon L s <> None.
  Lemma known_step r c : locid_ok L -> known_ok r -> known_ok (rstep L r c).
  Proof.
    intros HL H s Hs. destruct c as [q|t]; cbn [rstep] in Hs.
    - unfold tag in Hs. destruct (mget q (lr_tags r)); [exact (H s Hs)|]. destruct (mget q (lr_deprecated r)); [exact (H s Hs)|]. destruct (canon L q) as [new|] eqn:Ec; [|exact (H s Hs)].
      assert (Hq : forall (z : tref) m, (mget s m <> None -> has r s) -> mget s (minsert q z m) <> None -> canon L s <> None).
      { intros z m Hm G. rewrite mget_minsert in G. destruct (ueqb_spec s q) as [->|]; [congruence|]. exact (H s (Hm G)). }
      destruct (mget new (lr_tags r)) as [x|].
      + destruct Hs as [Hs|Hs]; [exact (H s (or_introl Hs))|]. exact (Hq _ _ (fun G => or_intror G) Hs).
      + cbn [fresh fst] in Hs. destruct Hs as [Hs|Hs].
        * assert (G : mget s (minsert new (mk_tref (lr_next r) new) (lr_tags r)) <> None) by (destruct (ueqb q new); exact Hs). rewrite mget_minsert in G.
          destruct (ueqb_spec s new) as [->|]; [rewrite (proj1 (HL _ _ Ec)); discriminate|exact (H s (or_introl G))].
        * destruct (ueqb q new); [exact (H s (or_intror Hs))|]. exact (Hq _ _ (fun G => or_intror G) Hs).
    - unfold icu_language in Hs. destruct (mget (r_tag t) (lr_icu r)); [exact (H s Hs)|]. destruct (parse_locale L (r_tag t)); exact (H s Hs).
  Qed.
  Lemma parsed_bad_ok s cs : locid_ok L -> canon L s = None -> forall r, known_ok r -> times s (parsed L r cs) = asks s cs.
  Proof.
    intros HL Hc. induction cs as [|c cs IH]; intros r H; [reflexivity|]. cbn [parsed]. unfold asks. cbn [flat_map]. rewrite !times_app.
    f_equal; [|apply IH; now apply known_step]. destruct c as [q|t]; [|reflexivity]. destruct (tag_parses r q) eqn:E; [reflexivity|]. rewrite times_one.
    destruct (ueqb_spec s q) as [->|]; [|reflexivity]. apply parses_has in E. now destruct (H q E).
  Qed.
  Lemma parsed_bad s cs h rs r : locid_ok L -> canon L s = None -> reachable L h rs r -> times s (parsed L r cs) = asks s cs.
  Proof.
    intros HL Hc H. apply parsed_bad_ok; [exact HL|exact Hc|]. apply (reachable_inv L HL) in H. intros q [G|G].
    - destruct (mget q (lr_tags r)) as [x|] eqn:E; [|congruence]. destruct (i_tags _ _ _ _ H q x E) as (_ & K & _). congruence.
    - destruct (mget q (lr_deprecated r)) as [x|] eqn:E; [|congruence]. destruct (i_dep _ _ _ _ H q x E) as (K & _). congruence.
  Qed.
  (** Locales *)
  Lemma icu_stay r c k : mget k (lr_icu r) <> None -> mget k (lr_icu (rstep L r c)) <> None.
  Proof.
    intros H. destruct c as [s|t]; cbn [rstep].
    - unfold tag. destruct (mget s (lr_tags r)); [exact H|]. destruct (mget s (lr_deprecated r)); [exact H|]. destruct (canon L s) as [new|]; [|exact H].
      destruct (mget new (lr_tags r)); [exact H|]. cbn [fresh fst]. destruct (ueqb s new); exact H.
    - unfold icu_language. destruct (mget (r_tag t) (lr_icu r)) eqn:E; [exact H|]. destruct (parse_locale L (r_tag t)); [|exact H]. cbn. now apply minsert_has.
  Qed.
  Lemma parsed_icu_has k cs : forall r, mget k (lr_icu r) <> None -> times k (parsed_icu L r cs) = 0.
  Proof.
    induction cs as [|c cs IH]; intros r H; [reflexivity|]. cbn [parsed_icu]. rewrite times_app, (IH _ (icu_stay r c k H)), Nat.add_0_r. destruct c as [q|t]; [reflexivity|].
    unfold icu_parses. destruct (mget (r_tag t) (lr_icu r)) eqn:E; [reflexivity|]. rewrite times_one. destruct (ueqb_spec k (r_tag t)) as [->|]; [congruence|reflexivity].
  Qed.
  Lemma parsed_icu_once k cs : parse_locale L k <> None -> forall r, times k (parsed_icu L r cs) <= 1.
  Proof.
    intros Hc. induction cs as [|c cs IH]; intros r; [cbn; lia|]. cbn [parsed_icu]. rewrite times_app. destruct c as [q|t]; [apply IH|].
    destruct (icu_parses r t) eqn:Ep; [|apply IH]. rewrite times_one. destruct (ueqb_spec k (r_tag t)) as [Eq|]; [|apply IH]. rewrite parsed_icu_has; [lia|].
    cbn [rstep]. unfold icu_language. unfold icu_parses in Ep. destruct (mget (r_tag t) (lr_icu r)); [discriminate Ep|]. rewrite <- Eq. destruct (parse_locale L k); [|congruence]. cbn. rewrite mget_minsert_eq. discriminate.
  Qed.

  (** ** Threads *)
  Lemma step_keys w i w' : world_step L w i = Some w' -> keys_stay (w_reg w) (w_reg w').
  Proof.
    intros H. apply step_inv in H as (r & hold & t & l & E & ->). cbn [next w_reg].
    assert (Hp : forall p r1 hold1 p1, pc_step L (w_reg w) (free w) p = Some (r1, hold1, p1) -> keys_stay (w_reg w) r1).
    { intros p r1 hold1 p1 G. destruct p as [q|q|q|q new|q y|q new|q y|q o]; cbn [pc_step fresh] in G.
      - destruct (free w); [|discriminate G]. injection G as <- <- <-. apply keys_same.
      - injection G as <- <- <-. apply keys_same.
      - injection G as <- <- <-. apply keys_same.
      - destruct (free w); [|discriminate G]. destruct (mget new (lr_tags (w_reg w))); injection G as <- <- <-; apply keys_same.
      - injection G as <- <- <-. split; [auto|intros z; apply minsert_has].
      - destruct (ueqb q new); injection G as <- <- <-; split; auto. intros z. apply minsert_has.
      - destruct (free w); [|discriminate G]. injection G as <- <- <-. split; [intros z; apply minsert_has|auto].
      - discriminate G. }
    destruct (w_threads w i) as [[|q c|t0 c|c|c|c]|p c|t0 c|t0 y c|l1 c]; cbn [thread_step] in E.
    - discriminate E.
    - unfold tag_step in E. destruct (pc_step L (w_reg w) (free w) (PTags q)) as [((r1 & hold1) & p1)|] eqn:Ep; [|discriminate E]. destruct (in_tag p1 c). injection E as <- <- <- <-. exact (Hp _ _ _ _ Ep).
    - destruct (mget (r_tag t0) (lr_icu (w_reg w))); injection E as <- <- <- <-; apply keys_same.
    - destruct (free w); [|discriminate E]. injection E as <- <- <- <-. apply keys_same.
    - injection E as <- <- <- <-. apply keys_same.
    - destruct (free w); [|discriminate E]. injection E as <- <- <- <-. apply keys_same.
    - unfold tag_step in E. destruct (pc_step L (w_reg w) (free w) p) as [((r1 & hold1) & p1)|] eqn:Ep; [|discriminate E]. injection E as <- <- E. exact (Hp _ _ _ _ Ep).
    - destruct (parse_locale L (r_tag t0)); cbn [fresh] in E; injection E as <- <- <- <-; split; auto.
    - injection E as <- <- <- <-. split; auto.
    - injection E as <- <- <- <-. apply keys_same.
  Qed.
  (** Thread state [t] comes from parsing [s], or the string is known; it will not parse [s] again. *)
  Definition beyond (s : ustr) (r : lregistry) (t : tstate) : Prop :=
    match t with
    | TTag (PAgain q _) _ | TTag (PHold q _) _ | TTag (PCreate q _) _ => q = s \/ has r s
    | TTag (PInsert q x) _ => has r s \/ (q = s /\ r_tag x = s)
    | TTag (PDeprecated q) _ => has r s /\ (q = s -> mget s (lr_deprecated r) <> None)
    | TTag (PCanon q) _ => q <> s /\ has r s
    | _ => has r s
    end.
  Lemma beyond_stay s r r' t : keys_stay r r' -> beyond s r t -> beyond s r' t.
  Proof.
    intros K. pose proof (has_stay r r' s K) as Hs. destruct K as (K1 & K2).
    destruct t as [p|p k|t k|t x k|l k]; cbn [beyond]; auto. destruct p; cbn [beyond]; auto; try (intros [H|H]; auto; fail); try (intros (H1 & H2); split; auto; fail).
  Qed.
  Lemma beyond_own s w i w' : beyond s (w_reg w) (w_threads w i) -> world_step L w i = Some w' -> beyond s (w_reg w') (w_threads w' i) /\ parses_now (w_threads w i) s = false.
  Proof.
    intros B H. pose proof (step_keys w i w' H) as K. apply step_inv in H as (r & hold & t & l & E & ->). cbn [next w_reg w_threads] in *. rewrite Nat.eqb_refl. pose proof (has_stay _ _ s K) as Hs.
    destruct (w_threads w i) as [[|q c|t0 c|c|c|c]|p c|t0 c|t0 y c|l1 c]; cbn [thread_step] in E; cbn [parses_now].
    - discriminate E.
    - split; [|reflexivity]. cbn [beyond] in B. unfold tag_step in E. cbn [pc_step] in E. destruct (free w); [|discriminate E].
      destruct (mget q (lr_tags (w_reg w))) eqn:Em; cbn [in_tag] in E; injection E as <- <- <- <-; cbn [beyond]; [exact B|]. split; [exact B|]. intros ->. destruct B as [B|B]; congruence.
    - split; [|reflexivity]. destruct (mget (r_tag t0) (lr_icu (w_reg w))); injection E as <- <- <- <-; exact B.
    - split; [|reflexivity]. destruct (free w); [|discriminate E]. injection E as <- <- <- <-. exact B.
    - split; [|reflexivity]. injection E as <- <- <- <-. exact B.
    - split; [|reflexivity]. destruct (free w); [|discriminate E]. injection E as <- <- <- <-. exact B.
    - unfold tag_step in E. destruct p as [q|q|q|q new|q x|q new|q x|q o]; cbn [pc_step fresh] in E; cbn [beyond] in B.
      + split; [|reflexivity]. destruct (free w); [|discriminate E].
        destruct (mget q (lr_tags (w_reg w))) eqn:Em; cbn [in_tag] in E; injection E as <- <- <- <-; cbn [beyond]; [exact B|]. split; [exact B|]. intros ->. destruct B as [B|B]; congruence.
      + split; [|reflexivity]. destruct B as (B1 & B2). destruct (mget q (lr_deprecated (w_reg w))) eqn:Em; cbn [in_tag] in E; injection E as <- <- <- <-; cbn [beyond]; [exact B1|]. split; [|exact B1]. intros ->. now apply B2.
      + destruct B as (B1 & B2). split; [|destruct (ueqb_spec q s); [congruence|reflexivity]]. destruct (canon L q); cbn [in_tag] in E; injection E as <- <- <- <-; cbn [beyond]; auto.
      + split; [|reflexivity]. destruct (free w); [|discriminate E]. destruct (mget new (lr_tags (w_reg w))); cbn [in_tag] in E; injection E as <- <- <- <-; exact B.
      + split; [|reflexivity]. injection E as <- <- <- <-. cbn [beyond]. destruct B as [->|B]; [right; cbn; rewrite mget_minsert_eq; discriminate|now apply Hs].
      + split; [|reflexivity]. cbn [in_tag] in E. destruct (ueqb_spec q new) as [Eq|Hne]; injection E as <- <- <- <-; cbn [beyond r_tag].
        * destruct B as [B|B]; [right; split; congruence|left; now apply Hs].
        * left. destruct B as [->|B]; [right; cbn; rewrite mget_minsert_eq; discriminate|now apply Hs].
      + split; [|reflexivity]. destruct (free w); [|discriminate E]. cbn [in_tag] in E. injection E as <- <- <- <-. cbn [beyond].
        destruct B as [B|(_ & B)]; [now apply Hs|]. left. cbn. rewrite B, mget_minsert_eq. discriminate.
      + discriminate E.
    - split; [|reflexivity]. destruct (parse_locale L (r_tag t0)); cbn [fresh] in E; injection E as <- <- <- <-; exact B.
    - split; [|reflexivity]. injection E as <- <- <- <-. exact B.
    - split; [|reflexivity]. injection E as <- <- <- <-. exact B.
  Qed.
  Lemma step_thread w j i w' : world_step L w j = Some w' -> j <> i -> w_threads w' i = w_threads w i.
  Proof. intros H Hne. apply step_inv in H as (r & hold & t & l & E & ->). cbn [next w_threads]. destruct (Nat.eqb_spec i j) as [G|_]; [now destruct Hne|reflexivity]. Qed.
  Lemma beyond_turns s i sch : forall w, beyond s (w_reg w) (w_threads w i) -> parse_turns L w sch i s = 0.
  Proof.
    induction sch as [|j sch IH]; intros w B; [reflexivity|]. cbn [parse_turns]. destruct (world_step L w j) as [w'|] eqn:E; [|now apply IH].
    destruct (Nat.eqb_spec j i) as [->|Hne].
    - destruct (beyond_own s w i w' B E) as (B' & ->). cbn. now apply IH.
    - cbn [andb]. apply IH. rewrite (step_thread w j i w' E Hne). exact (beyond_stay s _ _ _ (step_keys w j w' E) B).
  Qed.
  Lemma parse_then w i w' s : canon L s <> None -> world_step L w i = Some w' -> parses_now (w_threads w i) s = true -> beyond s (w_reg w') (w_threads w' i).
  Proof.
    intros Hc H Hp. apply step_inv in H as (r & hold & t & l & E & ->). cbn [next w_reg w_threads]. rewrite Nat.eqb_refl.
    destruct (w_threads w i) as [p|p c|t0 c|t0 y c|l1 c]; try discriminate Hp. destruct p as [q|q|q|q new|q x|q new|q x|q o]; try discriminate Hp. cbn [parses_now] in Hp.
    destruct (ueqb_spec q s) as [->|]; [|discriminate Hp]. cbn [thread_step] in E. unfold tag_step in E. cbn [pc_step] in E. destruct (canon L s) as [new|]; [|congruence]. cbn [in_tag] in E. injection E as <- <- <- <-. now left.
  Qed.
  Lemma turns_once s i sch : canon L s <> None -> forall w, parse_turns L w sch i s <= 1.
  Proof.
    intros Hc. induction sch as [|j sch IH]; intros w; [cbn; lia|]. cbn [parse_turns]. destruct (world_step L w j) as [w'|] eqn:E; [|apply IH].
    destruct (Nat.eqb_spec j i) as [->|Hne]; [|apply IH]. cbn [andb]. destruct (parses_now (w_threads w i) s) eqn:Ep; [|apply IH].
    rewrite (beyond_turns s i sch w' (parse_then w i w' s Hc E Ep)). lia.
  Qed.
  (** Once a string was answered to any thread, a thread that is not in a call will not parse it. *)
  Lemma turns_known s x0 i0 i r ps sch sch' : let w := world_run L (world_start r ps) sch in In (i0, STag s (Ok x0)) (w_log w) -> outside (w_threads w i) -> parse_turns L w sch' i s = 0.
  Proof.
    intros w Hi Ho. assert (Hh : log_has w) by (apply (run_ind L log_has (has_step L)); split; cbn; [contradiction|intros; exact Logic.I]).
    apply beyond_turns. pose proof (proj1 Hh _ _ _ Hi) as G. destruct (w_threads w i); try exact G. contradiction.
  Qed.
End Parse.
