(** Proofs for C110. *)
From Verif Require Import Base BaseFacts LexerModel DocSpec ValueModel CommandModel FormatterModel RegistryModel LocaliserModel LocaliserSpec LocaliserProofs
  MemorySpec MemoryProofs CallsModel CallsSpec CallsProofs2 LocCallsModel LocCallsProofs2 ProviderModel ProviderSpec ProviderProofs QueryModel QuerySpec QueryProofs QueryProofs2 QueryProofs5
  SystemModel AskModel AskSpec AskProofs AskProofs2 FetchSpec.
Local Opaque us.

Lemma rows_app D : forall q1 h q2, language_rows D h (q1 ++ q2) = language_rows D h q1 + language_rows D (h ++ q1) q2.
Proof.
  induction q1 as [|q q1 IH]; intros h q2; cbn [app language_rows]; [now rewrite app_nil_r|]. rewrite IH, <- app_assoc. cbn [app]. lia.
Qed.

Section Fetch.
  Variables (E : penv) (D : database) (p : sprovider).
  Hypothesis Hp : provider_ok p.
  Notation P := (query_provider E D p).
  Notation N := (List.length (sp_components p)).
  Definition fit (s : qstate) : Prop := queries_ok (ps_queries (snd s)).
  Definition extra (s : qstate) : nat := match ps_details (snd s) with Some _ => 4 * N + 4 * language_rows D [] (fst s) | None => 0 end.
  Definition paid (b : bool) (s : qstate) (k : nat) : Prop := List.length (fst s) <= k + if b then extra s else 0.

  Lemma string_paid b c i t s k : fit s -> paid b s k -> let s' := fst (wp_string P c i t s) in fit s' /\ paid b s' (k + 2 * S (hyphens t)).
  Proof.
    intros Hf Hk. cbv zeta.
    assert (Hc : pe_canon E t = Some t \/ pe_canon E t <> Some t).
    { destruct (pe_canon E t) as [t'|]; [|right; discriminate]. destruct (list_eq_dec N.eq_dec t' t) as [->|n]; [now left|right; congruence]. }
    destruct Hc as [Hc|Hc]; [|rewrite (other_calls E D p c i t s Hc); cbn [fst]; split; [exact Hf|unfold paid in *; lia]].
    destruct (string_calls E D p c i t s Hc) as (o & -> & _). cbn [fst]. destruct s as (h & st).
    destruct (call_summary E D p Hp (CallString c i t) h st Hf) as (qs & st' & y & -> & Hs). cbn [fst]. split; [exact (sm_ok _ _ _ _ _ _ _ _ _ Hs)|].
    pose proof (sm_point _ _ _ _ _ _ _ _ _ Hs) as (_ & Hl). cbn [most_queries] in Hl. unfold paid, extra in *. cbn [fst snd] in *. rewrite app_length, rows_app.
    pose proof (sm_keeps _ _ _ _ _ _ _ _ _ Hs) as Hkeep. destruct b; [|lia].
    destruct (ps_details st) as [d|]; [rewrite (Hkeep d eq_refl); lia|destruct (ps_details st'); lia].
  Qed.
  Lemma default_paid c s k : fit s -> paid true s k -> let s' := fst (wp_default P c s) in fit s' /\ (forall d, snd (wp_default P c s) = Ok d -> paid true s' k).
  Proof.
    intros Hf Hk. cbv zeta. destruct (default_calls E D p c s) as (o & -> & Ho). cbn [fst snd]. destruct s as (h & st).
    destruct (call_summary E D p Hp (CallComponent c) h st Hf) as (qs & st' & y & Ec & Hs). rewrite Ec in *. cbn [fst snd] in *. split; [exact (sm_ok _ _ _ _ _ _ _ _ _ Hs)|].
    intros d Hd. apply Ho in Hd as (cd & -> & _). pose proof (sm_point _ _ _ _ _ _ _ _ _ Hs) as (_ & Hl). cbn [most_queries] in Hl.
    pose proof (sm_keeps _ _ _ _ _ _ _ _ _ Hs) as Hkeep. pose proof (sm_none _ _ _ _ _ _ _ _ _ Hs Logic.I) as Hnone.
    pose proof (sm_details _ _ _ _ _ _ _ _ _ Hs Logic.I Logic.I) as Hdet.
    unfold paid, extra in *. cbn [fst snd] in *. rewrite app_length, rows_app. destruct (ps_details st) as [x|].
    - rewrite (Hkeep x eq_refl). destruct Hnone as (-> & _); [discriminate|]. cbn. lia.
    - destruct (ps_details st'); [cbn [app] in *; lia|congruence].
  Qed.
  Lemma asks_paid b c i t fb s s' r m k : (fb = true -> b = true) -> fit s -> paid b s k -> asks P c i t fb s s' (Ok r) -> hyphens t <= m ->
    (forall d, pv_default (sqlite_provider E p) c = Ok d -> hyphens d <= m) -> reads_files E p D -> reached E p s ->
    fit s' /\ paid b s' (k + (if fb then 4 else 2) * S m).
  Proof.
    intros Hb Hf Hk H Hm Hd HD Hr. pose proof (string_paid b c i t s k Hf Hk) as (F1 & K1).
    assert (R1 : reached E p (fst (wp_string P c i t s))) by apply (proj1 (sqlite_fixed E D p Hp HD) c i t s Hr).
    inversion H as [r0 H1|x y H1 H2|H0 H1|w1 x y H0 H1 H2 H3|w1 w2 d r0 H0 H1 H2 H3|w1 w2 d x y H0 H1 H2 H3 H4|w1 w2 d H0 H1 H2 H3]; subst.
    - rewrite H1 in *. cbn [fst] in *. split; [exact F1|]. unfold paid in *. destruct fb; lia.
    - destruct x; cbn in H2; try discriminate H2; contradiction.
    - destruct x; cbn in H3; try discriminate H3; contradiction.
    - specialize (Hb eq_refl). subst b. rewrite H1 in *. cbn [fst] in *. destruct (default_paid c w1 _ F1 K1) as (F2 & K2). assert (Hm2 : hyphens d <= m).
      { apply Hd. destruct (proj2 (sqlite_fixed E D p Hp HD) c w1 R1) as (_ & <-). now rewrite H2. }
      rewrite H2 in *. cbn [fst snd] in *.
      specialize (K2 d eq_refl). destruct (string_paid true c i d w2 _ F2 K2) as (F3 & K3). rewrite H3 in *. cbn [fst] in *. split; [exact F3|]. unfold paid in *. lia.
    - destruct x; cbn in H4; try discriminate H4; contradiction.
  Qed.
End Fetch.

Section Script.
  Variables (E : penv) (D : database) (p : sprovider) (ic : icu) (fe : fmtenv) (reg : cregistry) (locale : ustr -> ustr) (script : ustr -> option ustr) (fuel : nat).
  Hypothesis Hp : provider_ok p.
  Hypothesis HD : reads_files E p D.
  Hypothesis Hic : icu_ok ic.
  Notation L := (system E p ic fe reg locale script fuel).
  Notation P := (query_provider E D p).
  Notation wreg := (without_effects (W := qstate) reg).
  Variables (m : nat) (fb : bool).
  Definition place_of (q : request) : ustr * ustr := (rq_tag q, combined (rq_component q) (rq_identifier q)).
  Definition modest (q : request) : Prop := (rq_fallback q = true -> fb = true) /\ hyphens (rq_tag q) <= m /\
    (forall d, pv_default (sqlite_provider E p) (rq_component q) = Ok d -> hyphens d <= m).
  Definition fine_so_far (w : qstate) (st : lstate) (l : list (ustr * ustr)) : Prop :=
    fit w /\ reached E p w /\ NoDup l /\ (forall x, In x l -> cached st (fst x) (snd x) <> None) /\ paid D p fb w ((if fb then 4 else 2) * S m * List.length l).

  Lemma one_requests st x q : asks_one st x = Some q -> call_requests st x = [q].
  Proof. destruct x; cbn; intros H; try discriminate H; now injection H as <-. Qed.
  Lemma one_fetch st x q w l y : asks_one st x = Some q -> caches st x = true -> snd (lstep L st x) = Some (Ok y) -> settled L [q] -> modest q ->
    fine_so_far w st l -> exists l' w', xlstep L wreg P st x w = (w', lstep L st x) /\ fine_so_far w' (fst (lstep L st x)) l' /\ incl l' (place_of q :: l).
  Proof.
    intros Hx Hc Hy Hs (M1 & M2 & M3) (F & R & Hn & Hl & Hk). pose proof (one_requests st x q Hx) as Hq. rewrite <- Hq in Hs.
    destruct (MemoryProofs.step_kept L st x Hic Hs) as (Hkept & Hcov). rewrite Hq in Hcov.
    destruct (step_fixed L P (reached E p) (sqlite_fixed E D p Hp HD) st x w R) as (w' & Ew & R'). change (le_reg L) with reg in Ew.
    assert (Hdec : remembered st q \/ ~ remembered st q).
    { unfold remembered. destruct (cached st (rq_tag q) _); [left; discriminate|right; intros H; now apply H]. }
    destruct Hdec as [Hr|Hr].
    - exists l, w'. split; [exact Ew|]. pose proof (one_silent E D p L st x q w Hx Hr) as Hw. change (le_reg L) with reg in Hw. rewrite Ew in Hw. cbn [fst] in Hw. subst w'.
      split; [|intros z Hz; now right]. split; [exact F|]. split; [exact R|]. split; [exact Hn|]. split; [|exact Hk]. intros z Hz. apply Hkept, Hl, Hz.
    - exists (place_of q :: l), w'. split; [exact Ew|]. split; [|intros z Hz; exact Hz].
      destruct (one_asks L wreg P st x q w Hx Hr) as (w1 & r & Ha & Er). rewrite Ew in Er.
      assert (Hr' : exists z, r = Ok z /\ w1 = w').
      { destruct r as [z|e| |].
        - exists z. split; [reflexivity|]. pose proof (step_without (W := qstate) (given L z) st x w1) as H. change (le_reg (given L z)) with reg in H. rewrite H in Er. now injection Er.
        - injection Er as _ Er. rewrite Er in Hy. discriminate Hy.
        - injection Er as _ Er. rewrite Er in Hy. discriminate Hy.
        - injection Er as _ Er. rewrite Er in Hy. discriminate Hy. }
      destruct Hr' as (z & -> & ->).
      destruct (asks_paid E D p Hp fb _ _ _ _ _ _ _ m _ M1 F Hk Ha M2 M3 HD R) as (F' & K').
      split; [exact F'|]. split; [exact R'|]. split.
      { constructor; [|exact Hn]. intros Hi. apply Hr. exact (Hl _ Hi). }
      split.
      { intros z' [<-|Hz]; [cbn [place_of fst snd]; exact (Hcov y Hc Hy q (or_introl eq_refl))|apply Hkept, Hl, Hz]. }
      unfold paid in *. cbn [List.length]. destruct (rq_fallback q) eqn:Ef; [rewrite (M1 eq_refl) in *; lia|destruct fb; lia].
  Qed.
  Lemma turn_fetch rs w st w' st' o : in_turn L wreg P true rs (w, st) (w', st') o -> forall y l, o = Ok y -> settled L rs -> (forall q, In q rs -> modest q) ->
    fine_so_far w st l -> exists l', fine_so_far w' st' l' /\ incl l' (map place_of rs ++ l).
  Proof.
    intros H. remember (w, st) as a eqn:Ea. remember (w', st') as b eqn:Eb. revert w st w' st' Ea Eb.
    assert (Hone : forall q vals w st w1 st1 y l, xlstep L wreg P st (call_for q vals true) w = (w1, (st1, Some (Ok y))) -> settled L [q] -> modest q ->
      fine_so_far w st l -> exists l', fine_so_far w1 st1 l' /\ incl l' (place_of q :: l)).
    { intros q vals w st w1 st1 y l Hq Hs Hm Hw. assert (Hx : asks_one st (call_for q vals true) = Some q) by (destruct q as [c i t f [|]]; reflexivity).
      assert (Hc : caches st (call_for q vals true) = true) by (destruct q as [c i t f [|]]; reflexivity).
      assert (R : reached E p w) by apply Hw.
      destruct (step_fixed L P (reached E p) (sqlite_fixed E D p Hp HD) st (call_for q vals true) w R) as (w2 & Ew & _). change (le_reg L) with reg in Ew. rewrite Hq in Ew.
      injection Ew as -> Ew. assert (Hy : snd (lstep L st (call_for q vals true)) = Some (Ok y)) by now rewrite <- Ew.
      destruct (one_fetch st _ q w l y Hx Hc Hy Hs Hm Hw) as (l' & w3 & E3 & H3 & H4). rewrite Hq in E3. injection E3 as <- E3. rewrite <- E3 in H3. now exists l'. }
    induction H as [q vals w st w' st' r Hq|q vals w st w1 st1 x l0 s r Hq H IH|q vals w st w1 st1 l0 r Hq Hr]; intros w0 st0 w0' st0' Ea Eb y l Eo Hs Hm Hw.
    - injection Ea as <- <-. injection Eb as <- <-. subst r. exact (Hone q vals w st w' st' y l Hq Hs (Hm q (or_introl eq_refl)) Hw).
    - injection Ea as <- <-. subst s.
      destruct (Hone q vals w st w1 st1 x l Hq) as (l1 & F1 & I1); [eapply settled_part; [exact Hs|]; intros z [<-|[]]; now left|apply Hm; now left|exact Hw|].
      destruct (IH w1 st1 w0' st0' eq_refl eq_refl y l1 Eo) as (l2 & F2 & I2); [eapply settled_part; [exact Hs|]; intros; now right|intros z Hz; apply Hm; now right|exact F1|].
      exists l2. split; [exact F2|]. intros z Hz. apply I2 in Hz. cbn [map]. apply in_app_or in Hz as [Hz|Hz]; [right; apply in_or_app; now left|].
      destruct (I1 z Hz) as [<-|Hz']; [now left|right; apply in_or_app; now right].
    - subst r. destruct (Hr y eq_refl).
  Qed.
  Lemma step_fetch st x w l : (call_requests st x = [] \/ caches st x = true /\ exists y, snd (lstep L st x) = Some (Ok y)) -> settled L (call_requests st x) ->
    (forall q, In q (call_requests st x) -> modest q) -> fine_so_far w st l ->
    exists l' w', xlstep L wreg P st x w = (w', lstep L st x) /\ fine_so_far w' (fst (lstep L st x)) l' /\ incl l' (map place_of (call_requests st x) ++ l).
  Proof.
    intros Hx Hs Hm Hw. destruct (asks_one st x) as [q|] eqn:Eq.
    - rewrite (one_requests st x q Eq) in *. destruct Hx as [Hx|(Hc & y & Hy)]; [discriminate Hx|].
      exact (one_fetch st x q w l y Eq Hc Hy Hs (Hm q (or_introl eq_refl)) Hw).
    - assert (R : reached E p w) by apply Hw.
      destruct (step_fixed L P (reached E p) (sqlite_fixed E D p Hp HD) st x w R) as (w' & Ew & _). change (le_reg L) with reg in Ew.
      destruct x as [c i vals t f ca|c i vals|c i t f ca|c i|d t f ca|d|t f ca]; try discriminate Eq.
      + destruct Hx as [Hx|(Hc & y & Hy)]; [destruct d as [c i [vs|]]; cbn in Hx; [now apply app_eq_nil in Hx as (_ & Hx)|discriminate Hx]|].
        cbn [caches] in Hc. cbn [call_requests] in *. pose proof Ew as Ew'. cbn [xlstep] in Ew'. destruct (xactual_format_data _ _ _ _ _ _ _ _ _) as (w1 & st1 & r1) eqn:E1. cbn [fst snd] in Ew'.
        pose proof (f_equal fst Ew') as Ew1. pose proof (f_equal snd Ew') as El. cbn [fst snd] in Ew1, El. subst w1. apply data_turn in E1. rewrite Hc in E1. rewrite <- El in *. cbn [fst snd] in *. injection Hy as ->.
        destruct (turn_fetch _ _ _ _ _ _ E1 y l eq_refl Hs Hm Hw) as (l' & F' & I'). exists l', w'. auto.
      + destruct Hx as [Hx|(Hc & y & Hy)]; [destruct d as [c i [vs|]]; cbn in Hx; [now apply app_eq_nil in Hx as (_ & Hx)|discriminate Hx]|].
        cbn [caches] in Hc. cbn [call_requests] in *. pose proof Ew as Ew'. cbn [xlstep] in Ew'. destruct (xactual_format_data _ _ _ _ _ _ _ _ _) as (w1 & st1 & r1) eqn:E1. cbn [fst snd] in Ew'.
        pose proof (f_equal fst Ew') as Ew1. pose proof (f_equal snd Ew') as El. cbn [fst snd] in Ew1, El. subst w1. apply data_turn in E1. rewrite Hc in E1. rewrite <- El in *. cbn [fst snd] in *. injection Hy as ->.
        destruct (turn_fetch _ _ _ _ _ _ E1 y l eq_refl Hs Hm Hw) as (l' & F' & I'). exists l', w'. auto.
      + exists l, w. cbn [xlstep lstep fst snd call_requests map app]. split; [reflexivity|]. split; [|intros z Hz; exact Hz].
        destruct Hw as (H1 & H2 & H3 & H4 & H5). split; [exact H1|]. split; [exact H2|]. split; [exact H3|]. split; [exact H4|exact H5].
  Qed.
  Lemma run_fetch h : forall st w l, goes_well L st h -> settled L (history_requests L st h) -> (forall q, In q (history_requests L st h) -> modest q) -> fine_so_far w st l ->
    exists l' st', fine_so_far (fst (xlrun L wreg P (w, st) (map (fun x => (fun s => s, x)) h))) st' l' /\ incl l' (map place_of (history_requests L st h) ++ l).
  Proof.
    induction h as [|x h IH]; intros st w l Hg Hs Hm Hw; [exists l, st; split; [exact Hw|intros z Hz; exact Hz]|].
    cbn [goes_well history_requests] in *. destruct Hg as (Hx & Hg).
    destruct (step_fetch st x w l Hx) as (l1 & w1 & E1 & F1 & I1); [eapply settled_part; [exact Hs|]; intros; apply in_or_app; now left|intros q Hq; apply Hm, in_or_app; now left|exact Hw|].
    destruct (IH (fst (lstep L st x)) w1 l1 Hg) as (l2 & st2 & F2 & I2); [eapply settled_part; [exact Hs|]; intros; apply in_or_app; now right|intros q Hq; apply Hm, in_or_app; now right|exact F1|].
    exists l2, st2. split.
    - unfold xlrun in *. cbn [map fold_left fst snd]. rewrite E1. cbn [fst snd]. exact F2.
    - intros z Hz. rewrite map_app, <- app_assoc. apply I2 in Hz. apply in_app_or in Hz as [Hz|Hz]; [apply in_or_app; right; apply in_or_app; now left|].
      apply I1 in Hz. apply in_app_or in Hz as [Hz|Hz]; [apply in_or_app; now left|apply in_or_app; right; apply in_or_app; now right].
  Qed.
  Theorem fetches h st K : goes_well L st h -> settled L (history_requests L st h) -> (forall q, In q (history_requests L st h) -> modest q /\ In (what q) K) ->
    List.length (queries_of E D p L st h) <= (if fb then 4 else 2) * S m * List.length K + (if fb then 4 * List.length (sp_components p) + 4 * language_rows D [] (queries_of E D p L st h) else 0).
  Proof.
    intros Hg Hs Hm. destruct (run_fetch h st qstate_new [] Hg Hs (fun q Hq => proj1 (Hm q Hq))) as (l & st' & (F & R & Hn & _ & Hk) & Hi).
    { split; [exact (new_ok)|]. split; [apply reached_new|]. split; [constructor|]. split; [intros z []|]. unfold paid. cbn. lia. }
    change (le_reg L) with reg. unfold queries_of. change (le_reg L) with reg. set (w := fst (xlrun _ _ _ _ _)) in *.
    assert (Hl : List.length l <= List.length K).
    { rewrite <- (map_length (fun k : ustr * ustr * ustr => (snd k, combined (fst (fst k)) (snd (fst k)))) K). apply NoDup_incl_length; [exact Hn|].
      intros z Hz. apply Hi in Hz. rewrite app_nil_r in Hz. apply in_map_iff in Hz as (q & <- & Hq). apply in_map_iff. exists (what q). split; [reflexivity|]. now apply Hm. }
    unfold paid, extra in Hk. assert (Hc : (if fb then 4 else 2) * S m * List.length l <= (if fb then 4 else 2) * S m * List.length K) by (apply Nat.mul_le_mono_l; exact Hl).
    destruct fb; [|lia]. destruct (ps_details (snd w)); lia.
  Qed.
End Script.

(** ** When a call makes queries *)
Section When.
  Variables (E : penv) (D : database) (p : sprovider) (L : lenv perror).
  Hypothesis Hp : provider_ok p.
  Notation P := (query_provider E D p).
  Notation wreg := (without_effects (W := qstate) (le_reg L)).
  Definition ran (s : qstate) : Prop := exists hist, s = q_prun E D p qstate_new hist.
  Lemma call_ran x s : ran s -> ran (fst (q_pcall E D p x s)).
  Proof. intros (hist & ->). exists (hist ++ [x]). unfold q_prun. now rewrite fold_left_app. Qed.
  Lemma string_ran c i t s : ran s -> ran (fst (wp_string P c i t s)).
  Proof.
    intros Hs. assert (Hc : pe_canon E t = Some t \/ pe_canon E t <> Some t).
    { destruct (pe_canon E t) as [t'|]; [|right; discriminate]. destruct (list_eq_dec N.eq_dec t' t) as [->|n]; [now left|right; congruence]. }
    destruct Hc as [Hc|Hc]; [|now rewrite (other_calls E D p c i t s Hc)]. destruct (string_calls E D p c i t s Hc) as (o & -> & _). now apply call_ran.
  Qed.
  Lemma default_ran c s : ran s -> ran (fst (wp_default P c s)).
  Proof. intros Hs. destruct (default_calls E D p c s) as (o & -> & _). now apply call_ran. Qed.
  Lemma asks_ran c i t fb s s' r : ran s -> asks P c i t fb s s' r -> ran s'.
  Proof.
    intros Hs H. pose proof (string_ran c i t s Hs) as H1.
    destruct H as [r0 A1|x y A1 A2|A0 A1|w1 x y A0 A1 A2 A3|w1 w2 d r0 A0 A1 A2 A3|w1 w2 d x y A0 A1 A2 A3 A4|w1 w2 d A0 A1 A2 A3]; rewrite A1 in H1; cbn [fst] in H1; try exact H1;
      pose proof (default_ran c w1 H1) as H2; rewrite A2 in H2; cbn [fst] in H2; try exact H2; pose proof (string_ran c i d w2 H2) as H3; rewrite A3 in H3; exact H3.
  Qed.
  Lemma one_ran st x q s : asks_one st x = Some q -> ran s -> ran (fst (xlstep L wreg P st x s)).
  Proof.
    intros Hx Hs. assert (Hdec : remembered st q \/ ~ remembered st q).
    { unfold remembered. destruct (cached st (rq_tag q) _); [left; discriminate|right; intros H; now apply H]. }
    destruct Hdec as [Hr|Hr]; [now rewrite (one_silent E D p L st x q s Hx Hr)|].
    destruct (one_asks L wreg P st x q s Hx Hr) as (w1 & r & Ha & ->). pose proof (asks_ran _ _ _ _ _ _ _ Hs Ha) as H1.
    destruct r as [z|e| |]; try exact H1. pose proof (step_without (W := qstate) (given L z) st x w1) as H. change (le_reg (given L z)) with (le_reg L) in H. now rewrite H.
  Qed.
  Lemma turn_ran ca rs a b o : in_turn L wreg P ca rs a b o -> ran (fst a) -> ran (fst b).
  Proof.
    assert (Hone : forall q vals w st z, xlstep L wreg P st (call_for q vals ca) w = z -> ran w -> ran (fst z)).
    { intros q vals w st z <-. apply one_ran with q. destruct q as [c i t f [|]]; reflexivity. }
    intros H. induction H as [q vals w st w' st' r Hq|q vals w st w1 st1 x l0 s r Hq H IH|q vals w st w1 st1 l0 r Hq Hr]; cbn [fst] in *; intros Hw.
    - exact (Hone _ _ _ _ _ Hq Hw).
    - apply IH. exact (Hone _ _ _ _ _ Hq Hw).
    - exact (Hone _ _ _ _ _ Hq Hw).
  Qed.
  Lemma step_ran st x s : ran s -> ran (fst (xlstep L wreg P st x s)).
  Proof.
    intros Hs. destruct (asks_one st x) as [q|] eqn:Eq; [now apply one_ran with q|].
    destruct x as [c i vals t f ca|c i vals|c i t f ca|c i|d t f ca|d|t f ca]; try discriminate Eq; cbn [xlstep fst].
    - destruct (xactual_format_data _ _ _ _ _ _ _ _ _) as (w1 & st1 & r1) eqn:E1. apply data_turn, turn_ran in E1; [exact E1|exact Hs].
    - destruct (xactual_format_data _ _ _ _ _ _ _ _ _) as (w1 & st1 & r1) eqn:E1. apply data_turn, turn_ran in E1; [exact E1|exact Hs].
    - exact Hs.
  Qed.
  Lemma run_ran h : forall a, ran (fst a) -> ran (fst (xlrun L wreg P a (map (fun x => (fun s => s, x)) h))).
  Proof. induction h as [|x h IH]; intros a Ha; [exact Ha|]. unfold xlrun in *. cbn [map fold_left fst snd]. apply IH. now apply step_ran. Qed.

  Lemma answered_some h plan qs r : until_answered D h plan qs r -> plan <> [] -> qs <> [].
  Proof. intros H. destruct H; intros Hn; [congruence|discriminate|discriminate]. Qed.
  Lemma string_asks c i t s files : ran s -> mget c (sp_components p) = Some files -> fst files = true \/ snd files = true -> pe_canon E t = Some t -> t <> [] ->
    exists q qs, fst (fst (wp_string P c i t s)) = fst s ++ q :: qs.
  Proof.
    intros (hist & ->) Hc Hf Ht Hn. destruct (string_calls E D p c i t (q_prun E D p qstate_new hist) Ht) as (o & -> & _). cbn [fst].
    destruct (lookup E D p Hp hist (CallString c i t) true false c i t _ files eq_refl Hc) as (lv & qs & last & H1 & H2 & H3 & H4 & _).
    unfold new_queries in H3. rewrite H3. assert (Hq : qs <> []); [|destruct qs as [|q qs]; [congruence|now exists q, qs]].
    apply (answered_some _ _ _ _ H4).
    assert (Hl : In t lv) by (apply H1; split; [exact Hn|now left]). destruct lv as [|a lv]; [destruct Hl|].
    unfold lookup_plan. destruct Hf as [-> | ->]; [discriminate|]. destruct (fst files); discriminate.
  Qed.
  Lemma string_adds c i t s : ran s -> exists qs, fst (fst (wp_string P c i t s)) = fst s ++ qs.
  Proof.
    intros (hist & ->). set (s := q_prun E D p qstate_new hist). assert (Hc : pe_canon E t = Some t \/ pe_canon E t <> Some t).
    { destruct (pe_canon E t) as [t'|]; [|right; discriminate]. destruct (list_eq_dec N.eq_dec t' t) as [->|n]; [now left|right; congruence]. }
    destruct Hc as [Hc|Hc]; [|rewrite (other_calls E D p c i t s Hc); exists []; now rewrite app_nil_r]. destruct (string_calls E D p c i t s Hc) as (o & -> & _).
    destruct (bound E D p Hp hist (CallString c i t)) as (qs & H & _). exists qs. exact H.
  Qed.
  Lemma default_adds c s : ran s -> exists qs, fst (fst (wp_default P c s)) = fst s ++ qs.
  Proof.
    intros (hist & ->). destruct (default_calls E D p c (q_prun E D p qstate_new hist)) as (o & -> & _).
    destruct (bound E D p Hp hist (CallComponent c)) as (qs & H & _). exists qs. exact H.
  Qed.
  Lemma asks_some c i t fb s s' r files : ran s -> mget c (sp_components p) = Some files -> fst files = true \/ snd files = true -> pe_canon E t = Some t -> t <> [] ->
    asks P c i t fb s s' r -> exists q qs, fst s' = fst s ++ q :: qs.
  Proof.
    intros Hs Hc Hf Ht Hn H. destruct (string_asks c i t s files Hs Hc Hf Ht Hn) as (q & qs & Hq). pose proof (string_ran c i t s Hs) as R1.
    destruct H as [r0 A1|x y A1 A2|A0 A1|w1 x y A0 A1 A2 A3|w1 w2 d r0 A0 A1 A2 A3|w1 w2 d x y A0 A1 A2 A3 A4|w1 w2 d A0 A1 A2 A3]; rewrite A1 in Hq, R1; cbn [fst] in Hq, R1;
      try (exists q, qs; exact Hq); destruct (default_adds c w1 R1) as (q2 & Hq2); pose proof (default_ran c w1 R1) as R2; rewrite A2 in Hq2, R2; cbn [fst] in Hq2, R2;
      try (exists q, (qs ++ q2); rewrite Hq2, Hq, <- app_assoc; reflexivity);
      destruct (string_adds c i d w2 R2) as (q3 & Hq3); rewrite A3 in Hq3; cbn [fst] in Hq3; exists q, (qs ++ q2 ++ q3); rewrite Hq3, Hq2, Hq, <- !app_assoc; reflexivity.
  Qed.
  Lemma call_some st x q s files : ran s -> asks_one st x = Some q -> mget (rq_component q) (sp_components p) = Some files -> fst files = true \/ snd files = true ->
    pe_canon E (rq_tag q) = Some (rq_tag q) -> rq_tag q <> [] -> ~ remembered st q -> exists u us, fst (fst (xlstep L wreg P st x s)) = fst s ++ u :: us.
  Proof.
    intros Hs Hx Hc Hf Ht Hn Hr. destruct (one_asks L wreg P st x q s Hx Hr) as (w1 & r & Ha & ->).
    destruct (asks_some _ _ _ _ _ _ _ files Hs Hc Hf Ht Hn Ha) as (u & us & Hu). exists u, us. rewrite <- Hu.
    destruct r as [z|e| |]; try reflexivity. pose proof (step_without (W := qstate) (given L z) st x w1) as H. change (le_reg (given L z)) with (le_reg L) in H. now rewrite H.
  Qed.
  Lemma run_last st h x : let a := xlrun L wreg P (qstate_new, st) (map (fun x => (fun s => s, x)) h) in
    queries_of E D p L st (h ++ [x]) = fst (fst (xlstep L wreg P (snd a) x (fst a))) /\ ran (fst a).
  Proof.
    cbv zeta. split; [|apply run_ran; now exists []]. unfold queries_of. rewrite map_app. unfold xlrun. rewrite fold_left_app. reflexivity.
  Qed.
  Theorem fetch_when st h x q files : let a := xlrun L wreg P (qstate_new, st) (map (fun x => (fun s => s, x)) h) in asks_one (snd a) x = Some q ->
    mget (rq_component q) (sp_components p) = Some files -> fst files = true \/ snd files = true -> pe_canon E (rq_tag q) = Some (rq_tag q) -> rq_tag q <> [] ->
    (remembered (snd a) q <-> queries_of E D p L st (h ++ [x]) = queries_of E D p L st h).
  Proof.
    intros a Hx Hc Hf Ht Hn. destruct (run_last st h x) as (-> & Hr). fold a in Hr |- *. split.
    - intros H. now rewrite (one_silent E D p L (snd a) x q (fst a) Hx H).
    - intros H. unfold remembered. intros Hm. destruct (call_some (snd a) x q (fst a) files Hr Hx Hc Hf Ht Hn (fun F => F Hm)) as (u & us & Hu).
      rewrite Hu in H. change (queries_of E D p L st h) with (fst (fst a)) in H. rewrite <- (app_nil_r (fst (fst a))) in H at 2. apply app_inv_head in H. discriminate H.
  Qed.
End When.
