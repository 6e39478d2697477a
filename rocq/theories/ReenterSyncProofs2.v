(** Proofs for C101: the localiser with locks against the localiser with cells. *)
From Verif Require Import Base BaseFacts LexerModel LexerSpec TreeModel TreeSpec DocSpec ValueModel CommandModel IsoModel FormatterModel FormatterSpec FormatterProofs4 RegistryModel LocaliserModel
  LocaliserSpec LocaliserProofs CallsModel CallsSpec CallsProofs CallsProofs2 LocCallsModel LocCallsSpec ReenterModel ReenterSpec ReenterProofs ReenterProofs2 ReenterSyncModel ReenterSyncSpec
  ReenterSyncProofs.
Local Opaque us.

(** ** What calls keep *)
Section Keep.
  Context {PE W : Type}.
  Variables (E : lenv PE) (cmds : commands PE W).
  Notation answer := (option (lout (PE := PE) (ustr * ustr))).
  Notation sasker := (lcall -> sst W -> sst W * answer).

  Lemma get_srunning (ask : sasker) name : mget name (srunning ask cmds) = option_map (fun p ps s => sinterp ask (p ps) s) (mget name cmds).
  Proof. unfold srunning. induction cmds as [|[k p] l IH]; [reflexivity|]. cbn. now destruct (ueqb name k). Qed.

  Section Any.
    Variables (P : sst W -> Prop) (Q : lcall -> Prop) (ask : sasker).
    Hypothesis Hw : forall s w, P s -> P (with_other s w).
    Hypothesis Hask : forall c s, Q c -> P s -> P (fst (ask c s)).
    Lemma sinterp_keeps p s : asks_only Q p -> P s -> P (fst (sinterp ask p s)).
    Proof.
      intros Hp. revert s. induction Hp as [r|c k Hc _ IH|k _ IH|w k _ IH]; intros s Hs; cbn [sinterp]; auto.
      pose proof (Hask c s Hc Hs) as H. destruct (ask c s) as (s' & [[x|e| |]|]); cbn in *; try exact H; destruct (ss_waits s'); auto.
    Qed.
    Lemma scommand_keeps name : command_asks_only Q cmds name -> keeps P (srunning ask cmds) name.
    Proof.
      intros Hn f ps s Hf Hs. rewrite get_srunning in Hf. destruct (mget name cmds) as [p|] eqn:Ep; [|discriminate]. injection Hf as <-.
      apply sinterp_keeps; [exact (Hn p ps Ep)|exact Hs].
    Qed.
    Lemma srun_keeps fm vals s : (forall name, uses fm name -> command_asks_only Q cmds name) -> P s -> P (fst (wrun_formatter E (sreg cmds ask) fm vals s)).
    Proof.
      intros H Hs. unfold wrun_formatter, sreg. pose proof (format_keeps P (srunning ask cmds) (le_fuel E) (le_fmt E) fm vals s (fun name Hu => scommand_keeps name (H name Hu)) Hs) as G.
      destruct (wformat (le_fuel E) (le_fmt E) (srunning ask cmds) fm vals s) as (s' & fm' & r). exact G.
    Qed.
    Lemma snew_keeps t l str s : (forall name, command_asks_only Q cmds name) -> P s ->
      P (fst (wformatter_try_new (le_icu E) localiser_grammar (le_fmt E) (sreg cmds ask) t l str s)).
    Proof. intros H Hs. apply build_keeps; [|exact Hs]. intros name. apply scommand_keeps, H. Qed.
  End Any.

  Lemma srun_patterns ask fm vals (s s' : sst W) fm' (r : lout (PE := PE) (ustr * ustr)) : wrun_formatter E (sreg cmds ask) fm vals s = (s', (fm', r)) -> fm_patterns fm' = fm_patterns fm.
  Proof.
    unfold wrun_formatter, wformat. destruct (wformat_pattern _ _ _ _ _ _ _ _) as ((ns & w1) & x). now intros [= _ <- _].
  Qed.
  Lemma sdata_keeps (P : sst W -> Prop) (ask : sasker) t fb ca : (forall s c i, P s -> P (fst (sactual_literal E s c i t fb ca))) ->
    (forall s c i vals, P s -> P (fst (sactual_format E cmds ask s c i vals t fb ca))) -> forall d s, P s -> P (fst (sactual_format_data E cmds ask d t fb ca s)).
  Proof.
    intros Hl Hf. fix IH 1. intros [c i [vs|]] s Hs; [|exact (Hl s c i Hs)]. cbn [sactual_format_data]. revert s Hs. generalize (@nil (ustr * pvalue)).
    induction vs as [|[ph v] vs IHvs]; intros new s Hs; [now apply Hf|]. destruct v; try (now apply IHvs).
    pose proof (IH d s Hs) as H. destruct (sactual_format_data E cmds ask d t fb ca s) as (s1 & [(str & t')|e| |]); cbn in H |- *; auto.
  Qed.
  Lemma scall_keeps (P : sst W -> Prop) (ask : sasker) s c : P s ->
    (forall t fb ca s c i, P s -> P (fst (sactual_literal E s c i t fb ca))) ->
    (forall t fb ca s c i vals, P s -> P (fst (sactual_format E cmds ask s c i vals t fb ca))) ->
    (forall s t f ca, P s -> P (with_loc s (loc_defaults E (ss_loc s) t f ca))) -> P (fst (scall E cmds ask c s)).
  Proof.
    intros Hs Hl Hf Hd. destruct c; cbn [scall fst]; auto; apply sdata_keeps; auto.
  Qed.

  (** ** Poisoned locks are counted *)
  Section Spoilt.
    Variables (k : nat) (ask : sasker).
    Definition spoilt_more (s : sst W) : Prop := k < ss_spoilt s.
    Hypothesis Hask : forall c s, spoilt_more s -> spoilt_more (fst (ask c s)).
    Let Hask' c s : True -> spoilt_more s -> spoilt_more (fst (ask c s)).
    Proof. intros _. apply Hask. Qed.
    Let any name : command_asks_only (fun _ => True) cmds name.
    Proof. intros f ps _. apply asks_any. Qed.
    Lemma command_spoilt name : keeps spoilt_more (sreg cmds ask) name.
    Proof. exact (scommand_keeps spoilt_more (fun _ => True) ask (fun s w H => H) Hask' name (any name)). Qed.
    Lemma return_spoilt s b ca key str t : spoilt_more s -> spoilt_more (fst (sreturn_string (PE := PE) s b ca key str t)).
    Proof.
      intros H. unfold sreturn_string. destruct ca; [|exact H]. destruct (Nat.ltb 0 (ss_readers s)); [exact H|]. destruct (ss_poisoned s); [exact H|].
      destruct (add_string_to_cache _ _ _ _ _); [exact H|]. cbn. unfold spoilt_more in *. cbn. lia.
    Qed.
    Lemma cached_spoilt s tag key fm vals : spoilt_more s -> spoilt_more (fst (sformat_cached E cmds ask s tag key fm vals)).
    Proof.
      intros H. unfold sformat_cached. destruct (existsb _ _); [exact H|]. destruct (existsb _ _); [exact H|].
      pose proof (srun_keeps spoilt_more (fun _ => True) ask (fun s w H => H) Hask' fm vals (lock s (tag, key)) (fun name _ => any name) H) as H1.
      destruct (wrun_formatter E (sreg cmds ask) fm vals (lock s (tag, key))) as (s1 & fm' & r). cbn [fst] in H1. destruct (ss_waits s1); [exact H1|].
      destruct r; try exact H1. unfold spoilt_more in *. cbn in *. lia.
    Qed.
    Lemma literal_spoilt s c i t fb ca : spoilt_more s -> spoilt_more (fst (sactual_literal E s c i t fb ca)).
    Proof.
      intros H. unfold sactual_literal. destruct (ss_poisoned s); [exact H|]. destruct (cached _ _ _) as [[str t'|fm]|]; [exact H..|].
      destruct (find_string E c i t fb) as [(str & t')|e| |]; try exact H. now apply return_spoilt.
    Qed.
    Lemma format_spoilt s c i vals t fb ca : spoilt_more s -> spoilt_more (fst (sactual_format E cmds ask s c i vals t fb ca)).
    Proof.
      intros H. unfold sactual_format. destruct (ss_poisoned s); [exact H|]. destruct (cached _ _ _) as [[str t'|fm]|]; [exact H|now apply cached_spoilt|].
      destruct (find_string E c i t fb) as [(str & t')|e| |]; try exact H. destruct str as [|x str]; [now apply return_spoilt|].
      pose proof (snew_keeps spoilt_more (fun _ => True) ask (fun s w H => H) Hask' t' (le_locale E t') (x :: str) s any H) as H1.
      destruct (wformatter_try_new _ _ _ _ _ _ _ s) as (s1 & [fm|e| |]); cbn [fst] in H1; [|destruct e; try exact H1; now apply return_spoilt|exact H1..].
      destruct ca.
      - destruct (Nat.ltb 0 (ss_readers s1)); [exact H1|]. destruct (ss_poisoned s1); [exact H1|]. destruct (radd_formatter _ _ _ _ _) as [st|].
        + now apply cached_spoilt.
        + unfold spoilt_more in *. cbn. lia.
      - pose proof (srun_keeps spoilt_more (fun _ => True) ask (fun s w H => H) Hask' fm vals s1 (fun name _ => any name) H1) as H2.
        now destruct (wrun_formatter E (sreg cmds ask) fm vals s1) as (s2 & fm' & r).
    Qed.
    Lemma call_spoilt c s : spoilt_more s -> spoilt_more (fst (scall E cmds ask c s)).
    Proof.
      intros H. apply scall_keeps; [exact H|intros; now apply literal_spoilt|intros; now apply format_spoilt|]. intros s1 t f ca H1. exact H1.
    Qed.
  End Spoilt.
  Theorem step_spoilt k n : forall c s, spoilt_more k s -> spoilt_more k (fst (sstep E cmds n c s)).
  Proof. induction n as [|n IH]; intros c s H; [exact H|]. cbn [sstep]. now apply call_spoilt. Qed.
End Keep.

(** ** Locks and cells *)
Section Same.
  Context {PE W : Type}.
  Variables (E : lenv PE) (cmds : commands PE W) (k : nat).
  Notation answer := (option (lout (PE := PE) (ustr * ustr))).
  Definition alike (s : sst W) (r : rst W) : Prop := unharmed s /\ ss_spoilt s = k /\ r = in_cells s.
  Definition stopped (s : sst W) : Prop := ss_waits s = true.
  Definition failed_once (r : rst W) : Prop := 0 < rs_failed r.
  Notation more := (spoilt_more k).
  Definition agree {A} (x : sst W * lout (PE := PE) A) (y : rst W * lout (PE := PE) A) : Prop := until alike more stopped failed_once x y.
  Definition agree_call (x : sst W * answer) (y : rst W * answer) : Prop :=
    more (fst x) \/ (stopped (fst x) /\ snd x = Some Panic /\ failed_once (fst y)) \/ (alike (fst x) (fst y) /\ snd x = snd y).
  Lemma agree_ret {A} s r (x : lout (PE := PE) A) : alike s r -> agree (s, x) (r, x).
  Proof. intros H. right. right. now split. Qed.
  Lemma failed_le s s' : failed_once s -> balanced s s' -> failed_once s'.
  Proof. intros H (_ & _ & H'). unfold failed_once in *. lia. Qed.

  Section Ask.
    Variables (sask : lcall -> sst W -> sst W * answer) (rask : lcall -> rst W -> rst W * answer).
    Hypothesis Hmore : forall c s, more s -> more (fst (sask c s)).
    Hypothesis Hbal : forall c r, balanced r (fst (rask c r)).
    Hypothesis Hask : forall c s r, alike s r -> agree_call (sask c s) (rask c r).

    Let keepsL name : keeps more (sreg cmds sask) name := command_spoilt cmds k sask Hmore name.
    Let keepsF name : keeps failed_once (reg cmds rask) name.
    Proof.
      apply (command_keeps cmds failed_once (fun _ => True) rask); [auto| |intros f ps _; apply asks_any]. intros c r _ H. exact (failed_le _ _ H (Hbal c r)).
    Qed.
    Lemma interp_failed p r : failed_once r -> failed_once (fst (interp rask p r)).
    Proof.
      apply (interp_keeps failed_once (fun _ => True) rask); [auto| |apply asks_any]. intros c s _ H. exact (failed_le _ _ H (Hbal c s)).
    Qed.
    Lemma interp_more p s : more s -> more (fst (sinterp sask p s)).
    Proof. apply (sinterp_keeps more (fun _ => True) sask); [auto| |apply asks_any]. intros c s1 _. apply Hmore. Qed.
    Lemma interp_agree p : forall s r, alike s r -> until alike more stopped failed_once (sinterp sask p s) (interp rask p r).
    Proof.
      induction p as [x|c kk IH|kk IH|w kk IH]; intros s r Hr; cbn [sinterp interp].
      - right. right. now split.
      - pose proof (Hask c s r Hr) as H. destruct (sask c s) as (s' & a), (rask c r) as (r' & b).
        assert (HL : more s' -> more (fst (match (s', a) with (s', Some NoFuel) => (s', NoFuel) | (s', a) => if ss_waits s' then (s', Panic) else sinterp sask (kk a) s' end))).
        { intros Hm. destruct a as [[x|e| |]|]; try exact Hm; (destruct (ss_waits s'); [exact Hm|now apply interp_more]). }
        assert (HF : failed_once r' -> failed_once (fst (match (r', b) with (r', Some NoFuel) => (r', NoFuel) | (r', a) => interp rask (kk a) r' end))).
        { intros Hm. destruct b as [[x|e| |]|]; try exact Hm; now apply interp_failed. }
        destruct H as [H|[(H1 & H2 & H3)|(H1 & H2)]]; cbn [fst snd] in *.
        + left. exact (HL H).
        + subst a. right. left. rewrite H1. split; [exact H1|]. split; [reflexivity|]. exact (HF H3).
        + subst b. assert (Hw : ss_waits s' = false) by apply H1. destruct a as [[x|e| |]|]; try (rewrite Hw; now apply IH). right. right. now split.
      - destruct Hr as (H1 & H2 & ->). cbn [in_cells rs_world]. apply IH. now repeat split; try apply H1.
      - destruct Hr as (H1 & H2 & ->). apply IH. now repeat split; try apply H1.
    Qed.
    Let meets name : meet alike more stopped failed_once (sreg cmds sask) (reg cmds rask) name.
    Proof.
      unfold meet, sreg, reg. rewrite get_srunning, get_running. destruct (mget name cmds) as [p|]; [|exact Logic.I]. cbn [option_map]. intros ps s r Hr. now apply interp_agree.
    Qed.
    Lemma run_agree fm vals s r : alike s r -> let x := wrun_formatter E (sreg cmds sask) fm vals s in let y := wrun_formatter E (reg cmds rask) fm vals r in
      more (fst x) \/ (stopped (fst x) /\ snd (snd x) = Panic /\ failed_once (fst y)) \/ (alike (fst x) (fst y) /\ snd x = snd y).
    Proof.
      intros Hr. unfold wrun_formatter. pose proof (format_until alike more stopped failed_once (sreg cmds sask) (reg cmds rask) keepsL keepsF meets (le_fmt E) fm vals (le_fuel E) s r Hr) as H.
      cbv zeta in H. destruct (wformat _ _ (sreg cmds sask) fm vals s) as (s' & fm1 & x), (wformat _ _ (reg cmds rask) fm vals r) as (r' & fm2 & y). cbn [fst snd] in *.
      destruct H as [H|[(H1 & H2 & H3)|(H1 & H2)]]; [now left|right; left|right; right].
      - subst x. now repeat split.
      - injection H2 as -> ->. now split.
    Qed.
    Lemma new_agree t l str s r : alike s r -> until alike more stopped failed_once
      (wformatter_try_new (le_icu E) localiser_grammar (le_fmt E) (sreg cmds sask) t l str s) (wformatter_try_new (le_icu E) localiser_grammar (le_fmt E) (reg cmds rask) t l str r).
    Proof. intros Hr. exact (build_until alike more stopped failed_once (sreg cmds sask) (reg cmds rask) keepsL keepsF meets (le_icu E) localiser_grammar (le_fmt E) t l str s r Hr). Qed.

    Lemma wait_agree {A} s r : alike s r -> agree (wait (PE := PE) (A := A) s) (fail r).
    Proof. intros _. right. left. split; [reflexivity|]. split; [reflexivity|]. apply Nat.lt_0_succ. Qed.
    Lemma return_agree s r b ca key str t : alike s r -> agree (sreturn_string s b ca key str t) (rreturn_string r b ca key str t).
    Proof.
      intros Hr. unfold sreturn_string, rreturn_string. destruct ca; [|now apply agree_ret]. pose proof Hr as ((H1 & H2 & H3) & H4 & ->). cbn [in_cells rs_readers rs_loc].
      destruct (Nat.ltb 0 (ss_readers s)); [now apply wait_agree|]. rewrite H1. destruct (add_string_to_cache (ss_loc s) b key str t) as [st|].
      - apply agree_ret. split; [|split; [exact H4|reflexivity]]. split; [exact H1|]. split; [cbn; now rewrite H2|exact H3].
      - left. unfold spoilt_more. cbn. rewrite H4. apply Nat.lt_succ_diag_r.
    Qed.
    Lemma cached_agree s r tag key fm vals : alike s r -> agree (sformat_cached E cmds sask s tag key fm vals) (rformat_cached E cmds rask r tag key fm vals).
    Proof.
      intros Hr. unfold sformat_cached, rformat_cached. pose proof Hr as ((H1 & H2 & H3) & H4 & ->). cbn [in_cells rs_locked].
      destruct (existsb (same_entry (tag, key)) (ss_locked s)); [now apply wait_agree|]. rewrite H2. cbn [existsb].
      assert (Hl : alike (lock s (tag, key)) (hold (in_cells s) (tag, key))) by (split; [now split|now split]).
      pose proof (run_agree fm vals _ _ Hl) as H. cbv zeta in H.
      pose proof (run_balanced E cmds rask Hbal fm vals (hold (in_cells s) (tag, key))) as HF. fold (reg cmds rask) in HF.
      change (mk_rst (ss_loc s) (ss_readers s) (ss_locked s) 0 (ss_world s)) with (in_cells s).
      destruct (wrun_formatter E (sreg cmds sask) fm vals (lock s (tag, key))) as (s1 & fm1 & x), (wrun_formatter E (reg cmds rask) fm vals (hold (in_cells s) (tag, key))) as (r1 & fm2 & y).
      cbn [fst snd] in *. destruct H as [H|[(G1 & G2 & G3)|(G1 & G2)]].
      - left. destruct (ss_waits s1); [exact H|]. destruct x; try exact H. unfold spoilt_more in *. cbn in *. lia.
      - right. left. unfold stopped in G1. rewrite G1. now repeat split.
      - injection G2 as <- <-. destruct G1 as ((A1 & A2 & A3) & A4 & ->). rewrite A3. destruct x as [z|e| |].
        1,2,4: (apply agree_ret; split; [now split|split; [exact A4|reflexivity]]).
        left. unfold spoilt_more. cbn. rewrite A4. apply Nat.lt_succ_diag_r.
    Qed.
    Lemma literal_agree s r c i t fb ca : alike s r -> agree (sactual_literal E s c i t fb ca) (ractual_literal E r c i t fb ca).
    Proof.
      intros Hr. unfold sactual_literal, ractual_literal. pose proof Hr as ((H1 & H2 & H3) & H4 & Hr'). rewrite H1. rewrite Hr'. cbn [in_cells rs_loc]. rewrite <- Hr'.
      destruct (cached (ss_loc s) t (combined c i)) as [[str t'|fm]|]; [now apply agree_ret..|]. destruct (find_string E c i t fb) as [(str & t')|e| |]; try (now apply agree_ret).
      rewrite Hr'. now apply return_agree.
    Qed.
    Lemma format_agree s r c i vals t fb ca : alike s r -> agree (sactual_format E cmds sask s c i vals t fb ca) (ractual_format E cmds rask r c i vals t fb ca).
    Proof.
      intros Hr. unfold sactual_format, ractual_format. pose proof Hr as ((H1 & H2 & H3) & H4 & Hr'). rewrite H1.
      replace (rs_loc r) with (ss_loc s) by now rewrite Hr'.
      destruct (cached (ss_loc s) t (combined c i)) as [[str t'|fm]|]; [now apply agree_ret|now apply cached_agree|].
      destruct (find_string E c i t fb) as [(str & t')|e| |]; try (now apply agree_ret). destruct str as [|x str]; [now apply return_agree|].
      pose proof (new_agree t' (le_locale E t') (x :: str) s r Hr) as H.
      destruct (wformatter_try_new _ _ _ (sreg cmds sask) _ _ _ s) as (s1 & o), (wformatter_try_new _ _ _ (reg cmds rask) _ _ _ r) as (r1 & o').
      destruct H as [H|[(G1 & G2 & G3)|(G1 & G2)]]; cbn [fst snd] in *.
      - left. destruct o as [fm|e| |]; cbn [fst]; try exact H.
        + destruct ca.
          * destruct (Nat.ltb 0 (ss_readers s1)); [exact H|]. destruct (ss_poisoned s1); [exact H|]. destruct (radd_formatter _ _ _ _ _) as [st|].
            -- apply cached_spoilt; [exact Hmore|exact H].
            -- unfold spoilt_more in *. cbn in *. lia.
          * pose proof (srun_keeps E cmds more (fun _ => True) sask (fun s w H => H) (fun c s _ => Hmore c s) fm vals s1 (fun name _ f ps _ => asks_any _) H) as H'.
            now destruct (wrun_formatter E (sreg cmds sask) fm vals s1) as (s2 & fm' & z).
        + destruct e; try exact H. now apply return_spoilt.
      - subst o. right. left. split; [exact G1|]. split; [reflexivity|]. destruct o' as [fm|e| |]; cbn [fst]; try exact G3.
        + destruct ca.
          * destruct (Nat.ltb 0 (rs_readers r1)); [cbn; apply Nat.lt_0_succ|]. destruct (radd_formatter _ _ _ _ _) as [st|]; [|exact G3].
            refine (failed_le (set_loc r1 st) _ G3 (cached_balanced E cmds rask Hbal _ _ _ _ _)).
          * pose proof (run_balanced E cmds rask Hbal fm vals r1) as HF. fold (reg cmds rask) in HF. destruct (wrun_formatter E (reg cmds rask) fm vals r1) as (r2 & fm' & z).
            exact (failed_le _ _ G3 HF).
        + destruct e; try exact G3. exact (failed_le _ _ G3 (return_balanced _ _ _ _ _ _)).
      - subst o'. pose proof G1 as ((A1 & A2 & A3) & A4 & Hr1). destruct o as [fm|e| |]; try (now apply agree_ret).
        + destruct ca.
          * replace (rs_readers r1) with (ss_readers s1) by now rewrite Hr1. replace (rs_loc r1) with (ss_loc s1) by now rewrite Hr1.
            destruct (Nat.ltb 0 (ss_readers s1)); [now apply wait_agree|]. rewrite A1. destruct (radd_formatter _ _ _ _ _) as [st|].
            -- apply cached_agree. split; [|split; [exact A4|now rewrite Hr1]]. split; [exact A1|]. split; [cbn; now rewrite A2|exact A3].
            -- left. unfold spoilt_more. cbn. rewrite A4. apply Nat.lt_succ_diag_r.
          * pose proof (run_agree fm vals s1 r1 G1) as H. cbv zeta in H.
            destruct (wrun_formatter E (sreg cmds sask) fm vals s1) as (s2 & fm1 & y), (wrun_formatter E (reg cmds rask) fm vals r1) as (r2 & fm2 & z). cbn [fst snd] in H.
            destruct H as [H|[(B1 & B2 & B3)|(B1 & B2)]]; [now left|right; left; now repeat split|]. injection B2 as _ <-. now apply agree_ret.
        + destruct e; try (now apply agree_ret). now apply return_agree.
    Qed.
    Lemma data_agree t fb ca : forall d s r, alike s r -> agree (sactual_format_data E cmds sask d t fb ca s) (ractual_format_data E cmds rask d t fb ca r).
    Proof.
      fix IH 1. intros [c i [vs|]] s r Hr; [|now apply literal_agree]. cbn [sactual_format_data ractual_format_data]. revert s r Hr. generalize (@nil (ustr * pvalue)).
      induction vs as [|[ph v] vs IHvs]; intros new s r Hr; [now apply format_agree|]. destruct v; try (now apply IHvs).
      pose proof (IH d s r Hr) as H.
      assert (GL : forall vs new s1, more s1 -> more (fst ((fix go (vs : list (ustr * pvalue)) (new : amap pvalue) (s : sst W) {struct vs} :=
             match vs with
             | [] => sactual_format E cmds sask s c i new t fb ca
             | (ph, v) :: r =>
                 match v with
                 | VData inner =>
                     match sactual_format_data E cmds sask inner t fb ca s with
                     | (s', Ok (str, t)) => go r (minsert ph (VLocalised str t) new) s'
                     | other => other
                     end
                 | _ => go r (minsert ph v new) s
                 end
             end) vs new s1))).
      { assert (DL : forall d s1, more s1 -> more (fst (sactual_format_data E cmds sask d t fb ca s1))).
        { intros d1 s1 H1. apply sdata_keeps; [intros; now apply literal_spoilt|intros; now apply format_spoilt|exact H1]. }
        clear - DL Hmore. induction vs as [|[ph v] vs IHvs]; intros new s1 H1; [now apply format_spoilt|]. destruct v; try (now apply IHvs).
        specialize (DL d s1 H1). destruct (sactual_format_data E cmds sask d t fb ca s1) as (s2 & [(str & t')|e| |]); cbn [fst] in DL; try exact DL. now apply IHvs. }
      assert (GF : forall vs new r1, failed_once r1 -> failed_once (fst ((fix go (vs : list (ustr * pvalue)) (new : amap pvalue) (s : rst W) {struct vs} :=
             match vs with
             | [] => ractual_format E cmds rask s c i new t fb ca
             | (ph, v) :: r =>
                 match v with
                 | VData inner =>
                     match ractual_format_data E cmds rask inner t fb ca s with
                     | (s', Ok (str, t)) => go r (minsert ph (VLocalised str t) new) s'
                     | other => other
                     end
                 | _ => go r (minsert ph v new) s
                 end
             end) vs new r1))).
      { assert (FF : forall c i new s1, failed_once s1 -> failed_once (fst (ractual_format E cmds rask s1 c i new t fb ca))).
        { intros c1 i1 new1 s1 H1. exact (failed_le _ _ H1 (format_balanced E cmds rask Hbal s1 c1 i1 new1 t fb ca)). }
        assert (DL : forall d s1, failed_once s1 -> failed_once (fst (ractual_format_data E cmds rask d t fb ca s1))).
        { intros d1 s1 H1. apply data_keeps; [intros s2 c2 i2 H2; exact (failed_le _ _ H2 (literal_balanced E s2 c2 i2 t fb ca))|intros; now apply FF|exact H1]. }
        clear - DL FF. induction vs as [|[ph v] vs IHvs]; intros new s1 H1; [now apply FF|]. destruct v; try (now apply IHvs).
        specialize (DL d s1 H1). destruct (ractual_format_data E cmds rask d t fb ca s1) as (s2 & [(str & t')|e| |]); cbn [fst] in DL; try exact DL. now apply IHvs. }
      destruct (sactual_format_data E cmds sask d t fb ca s) as (s1 & x), (ractual_format_data E cmds rask d t fb ca r) as (r1 & y).
      destruct H as [H|[(G1 & G2 & G3)|(G1 & G2)]]; cbn [fst snd] in *.
      - left. destruct x as [(str & t')|e| |]; try exact H. now apply GL.
      - subst x. right. left. split; [exact G1|]. split; [reflexivity|]. destruct y as [(str & t')|e| |]; try exact G3. now apply GF.
      - subst y. destruct x as [(str & t')|e| |]; try (now apply agree_ret). now apply IHvs.
    Qed.
    Theorem call_agree c s r : alike s r -> agree_call (scall E cmds sask c s) (rcall E cmds rask c r).
    Proof.
      intros Hr. assert (Hs : rs_loc r = ss_loc s) by (destruct Hr as (_ & _ & ->); reflexivity).
      assert (Lift : forall x y, agree x y -> agree_call (fst x, Some (snd x)) (fst y, Some (snd y))).
      { intros x y [H|[(H1 & H2 & H3)|(H1 & H2)]]; [now left|right; left|right; right]; cbn [fst snd].
        - split; [exact H1|]. split; [now f_equal|exact H3].
        - split; [exact H1|now f_equal]. }
      destruct c; cbn [scall rcall]; rewrite ?Hs.
      - now apply Lift, format_agree.
      - now apply Lift, format_agree.
      - now apply Lift, literal_agree.
      - now apply Lift, literal_agree.
      - now apply Lift, data_agree.
      - now apply Lift, data_agree.
      - right. right. split; [|reflexivity]. destruct Hr as (H1 & H2 & ->). split; [exact H1|]. now split.
    Qed.
  End Ask.
  Theorem step_agree n : forall c s r, alike s r -> agree_call (sstep E cmds n c s) (rstep E cmds n c r).
  Proof.
    induction n as [|n IH]; intros c s r Hr; [right; right; now split|]. cbn [sstep rstep].
    apply call_agree; [apply step_spoilt|apply step_balanced|exact IH|exact Hr].
  Qed.
End Same.
