(** Proofs for C94: the localiser. *)
From Verif Require Import Base BaseFacts LexerModel TreeModel ValueModel CommandModel IsoModel FormatterModel FormatterSpec RegistryModel LocaliserModel LocaliserProofs
  SettleSpec SettleProofs.

(** Results that stay the same. *)
Lemma repeated_inv {St R} (f : St -> St * R) (I : St -> Prop) r : (forall st, I st -> I (fst (f st)) /\ snd (f st) = r) ->
  forall n st, I st -> repeated f n st = repeat r n.
Proof. intros H n. induction n as [|n IH]; intros st Hst; [reflexivity|]. cbn. destruct (H st Hst) as [H1 <-]. f_equal. now apply IH. Qed.
Definition steady {St R} (f : St -> St * R) (st : St) : Prop := forall n, repeated f n st = repeat (snd (f st)) n.
Lemma steady_inv {St R} (f : St -> St * R) (I : St -> Prop) r st : (forall st, I st -> I (fst (f st)) /\ snd (f st) = r) -> I st -> steady f st.
Proof. intros H Hst n. rewrite (repeated_inv f I r H n st Hst). now destruct (H st Hst) as [_ ->]. Qed.
Lemma steady_still {St R} (f : St -> St * R) st : fst (f st) = st -> steady f st.
Proof. intros H. apply (steady_inv f (fun x => x = st) (snd (f st))); [|reflexivity]. now intros x ->. Qed.

Section Loc.
  Context {PE : Type}.
  Variable E : lenv PE.
  Notation text := (outcome (localiser_error PE) (ustr * ustr)).

  Section Returned.
    Variables (t key s t' : ustr) (ca : bool).
    (** A state in which a string that is returned as it is is not found, but can be put into the cache. *)
    Definition apart (st : lstate) : Prop := t' <> t /\ cached st t key = None /\ (mhas t (ls_cache st) = true -> mhas t' (ls_cache st) = true).
    Notation back st := (return_string (PE := PE) st (mhas t (ls_cache st)) ca key s t').
    Lemma mhas_set st (m : amap (amap cache_data)) k : mhas k (ls_cache (set_cache st m)) = mhas k m.
    Proof. reflexivity. Qed.
    Lemma return_cases st : cached st t key = None ->
      fst (back st) = st \/ (t' = t /\ cached (fst (back st)) t key = Some (CLocalised s t)) \/ (ca = true /\ apart (fst (back st))).
    Proof.
      intros Hc. unfold return_string. destruct ca; [|now left]. destruct (add_string_to_cache st (mhas t (ls_cache st)) key s t') as [st'|] eqn:Ea; [|now left]. cbn [fst]. right.
      unfold add_string_to_cache in Ea. destruct (ueqb_spec t' t) as [->|Hn].
      - left. split; [reflexivity|]. unfold cached. destruct (mhas t (ls_cache st)) eqn:Eh; cbn [negb] in Ea.
        + destruct (mget t (ls_cache st)) as [m|]; [|discriminate]. injection Ea as <-. cbn. now rewrite !mget_minsert_eq.
        + injection Ea as <-. cbn. rewrite mget_minsert_eq. cbn. now rewrite ueqb_refl.
      - right. split; [reflexivity|]. split; [exact Hn|]. destruct (mhas t (ls_cache st)) eqn:Eh; cbn [negb] in Ea.
        + destruct (mget t' (ls_cache st)) as [m|] eqn:Em; [|discriminate]. injection Ea as <-. split.
          * unfold cached in *. cbn. now rewrite mget_minsert_ne by congruence.
          * intros _. unfold mhas. cbn. now rewrite mget_minsert_eq.
        + injection Ea as <-. split.
          * unfold cached in *. cbn. now rewrite mget_minsert_ne by congruence.
          * intros _. unfold mhas. cbn. now rewrite mget_minsert_eq.
    Qed.
    Lemma apart_kept st : ca = true -> apart st -> apart (fst (back st)) /\ snd (back st) = Ok (s, t').
    Proof.
      intros Hca Ha. pose proof Ha as (Hn & Hc & Hm). split.
      - destruct (return_cases st Hc) as [->|[[H _]|[_ H]]]; [exact Ha|contradiction|exact H].
      - unfold return_string, add_string_to_cache. rewrite Hca. destruct (mhas t (ls_cache st)); cbn [negb]; [|reflexivity]. specialize (Hm eq_refl). unfold mhas in Hm.
        now destruct (mget t' (ls_cache st)).
    Qed.
  End Returned.

  Lemma literal_steady c i t fb ca st : steady (fun st => actual_literal E st c i t fb ca) (fst (actual_literal E st c i t fb ca)).
  Proof.
    set (key := combined c i). destruct (cached st t key) as [x|] eqn:Ec.
    { apply steady_still. assert (H : fst (actual_literal E st c i t fb ca) = st) by (unfold actual_literal; fold key; rewrite Ec; now destruct x). now rewrite !H. }
    destruct (find_string E c i t fb) as [[s t']|e| |] eqn:Ef.
    2-4: (apply steady_still; assert (H : fst (actual_literal E st c i t fb ca) = st) by (unfold actual_literal; fold key; rewrite Ec, Ef; reflexivity); now rewrite !H).
    assert (Hf : forall x, cached x t key = None -> actual_literal E x c i t fb ca = return_string x (mhas t (ls_cache x)) ca key s t').
    { intros x Hx. unfold actual_literal. fold key. now rewrite Hx, Ef. }
    rewrite (Hf st Ec). destruct (return_cases t key s t' ca st Ec) as [H|[[-> H]|[Hca H]]].
    - apply steady_still. rewrite H, (Hf st Ec). exact H.
    - apply (steady_inv _ (fun x => cached x t key = Some (CLocalised s t)) (Ok (s, t))); [|exact H]. intros x Hx. unfold actual_literal. fold key. rewrite Hx. now split.
    - apply (steady_inv _ (apart t key t') (Ok (s, t'))); [|exact H]. intros x Hx. rewrite (Hf x (proj1 (proj2 Hx))). now apply apart_kept.
  Qed.
  Lemma run_settled fm vals : fst (run_formatter E (fst (run_formatter E fm vals)) vals) = fst (run_formatter E fm vals).
  Proof.
    unfold run_formatter. pose proof (settled (le_fmt E) (le_reg E) fm vals (le_fuel E)) as H. destruct (format _ _ _ fm vals) as [fm' r]. cbn [fst] in *.
    destruct (format _ _ _ fm' vals) as [fm'' r']. exact H.
  Qed.
  Lemma put_cached st t key fm : cached (put_formatter st t key fm) t key = Some (CFormatter fm).
  Proof.
    unfold put_formatter, cached. destruct (mget t (ls_cache st)) as [m|]; cbn; rewrite mget_minsert_eq; [apply mget_minsert_eq|]. cbn. now rewrite ueqb_refl.
  Qed.
  Lemma format_steady c i vals t fb ca st : steady (fun st => actual_format E st c i vals t fb ca) (fst (actual_format E st c i vals t fb ca)).
  Proof.
    set (key := combined c i).
    assert (Hfm : forall fm x, fst (run_formatter E fm vals) = fm -> cached x t key = Some (CFormatter fm) -> steady (fun st => actual_format E st c i vals t fb ca) x).
    { intros fm x Hs Hx. apply (steady_inv _ (fun x => cached x t key = Some (CFormatter fm)) (snd (run_formatter E fm vals))); [|exact Hx].
      intros y Hy. unfold actual_format. fold key. rewrite Hy. destruct (run_formatter E fm vals) as [fm' r]. cbn [fst snd] in *. subst fm'. split; [apply put_cached|reflexivity]. }
    destruct (cached st t key) as [[s t'|fm]|] eqn:Ec.
    { apply steady_still. assert (H : fst (actual_format E st c i vals t fb ca) = st) by (unfold actual_format; fold key; now rewrite Ec). now rewrite !H. }
    { apply (Hfm (fst (run_formatter E fm vals))); [apply run_settled|]. unfold actual_format. fold key. rewrite Ec. destruct (run_formatter E fm vals) as [fm' r]. apply put_cached. }
    assert (Hstill : fst (actual_format E st c i vals t fb ca) = st -> steady (fun st => actual_format E st c i vals t fb ca) (fst (actual_format E st c i vals t fb ca))).
    { intros H. rewrite H. apply steady_still. exact H. }
    destruct (find_string E c i t fb) as [[s t']|e| |] eqn:Ef.
    2-4: (apply Hstill; unfold actual_format; fold key; rewrite Ec, Ef; reflexivity).
    assert (Hret : (forall x, cached x t key = None -> actual_format E x c i vals t fb ca = return_string x (mhas t (ls_cache x)) ca key s t') ->
      steady (fun st => actual_format E st c i vals t fb ca) (fst (actual_format E st c i vals t fb ca))).
    { intros Hf. rewrite (Hf st Ec). destruct (return_cases t key s t' ca st Ec) as [H|[[-> H]|[Hca H]]].
      - apply steady_still. rewrite H, (Hf st Ec). exact H.
      - apply (steady_inv _ (fun x => cached x t key = Some (CLocalised s t)) (Ok (s, t))); [|exact H]. intros x Hx. unfold actual_format. fold key. rewrite Hx. now split.
      - apply (steady_inv _ (apart t key t') (Ok (s, t'))); [|exact H]. intros x Hx. rewrite (Hf x (proj1 (proj2 Hx))). now apply apart_kept. }
    destruct s as [|ch0 s0]; [apply Hret; intros x Hx; unfold actual_format; fold key; rewrite Hx, Ef; reflexivity|].
    destruct (formatter_try_new (le_icu E) localiser_grammar (le_fmt E) (le_reg E) t' (le_locale E t') (ch0 :: s0)) as [fm|e| |] eqn:Eb.
    - destruct ca.
      + apply (Hfm (fst (run_formatter E fm vals))); [apply run_settled|]. unfold actual_format. fold key. rewrite Ec, Ef, Eb. destruct (run_formatter E fm vals) as [fm' r]. apply put_cached.
      + apply Hstill. unfold actual_format. fold key. rewrite Ec, Ef, Eb. now destruct (run_formatter E fm vals) as [fm' r].
    - assert (D : e = FNoGrammar \/ e <> FNoGrammar) by (destruct e; (now left) || (right; discriminate)). destruct D as [->|Hne].
      + apply Hret. intros x Hx. unfold actual_format. fold key. now rewrite Hx, Ef, Eb.
      + apply Hstill. unfold actual_format. fold key. rewrite Ec, Ef, Eb. destruct e; try reflexivity. contradiction.
    - apply Hstill. unfold actual_format. fold key. now rewrite Ec, Ef, Eb.
    - apply Hstill. unfold actual_format. fold key. now rewrite Ec, Ef, Eb.
  Qed.
  Lemma steady_some {R} (f : lstate -> lstate * R) (g : lstate -> lstate * option R) st :
    (forall st', same_settings st st' -> g st' = (fst (f st'), Some (snd (f st')))) -> (forall st', same_settings st' (fst (f st'))) ->
    forall st', same_settings st st' -> steady f st' -> steady g st'.
  Proof.
    intros Hg Hs st' Hst H n.
    assert (K : forall n x, same_settings st x -> repeated g n x = map Some (repeated f n x)).
    { clear n. induction n as [|n IH]; intros x Hx; [reflexivity|]. cbn [repeated map]. rewrite (Hg x Hx). cbn [fst snd]. f_equal. apply IH.
      exact (same_settings_trans _ _ _ Hx (Hs x)). }
    rewrite (K n st' Hst), (Hg st' Hst), (H n). cbn [snd]. clear. induction n as [|n IH]; [reflexivity|]. cbn. now rewrite IH.
  Qed.
  Theorem calls_steady c st : single c -> steady (fun st => lstep E st c) (fst (lstep E st c)).
  Proof.
    destruct c as [c i vals t f ca|c i vals|c i t f ca|c i|d t f ca|d|t f ca]; intros Hc; try destruct Hc; cbn [lstep fst].
    - eapply (steady_some (fun st' => actual_format E st' c i vals t (unwrap_or f (ls_fallback st)) (unwrap_or ca (ls_caching st))) _ st); [|intros; apply format_settings|apply format_settings|apply format_steady].
      intros st' (H1 & H2 & _). unfold loc_format. now rewrite H1, H2.
    - eapply (steady_some (fun st' => actual_format E st' c i vals (ls_tag st) (ls_fallback st) (ls_caching st)) _ st); [|intros; apply format_settings|apply format_settings|apply format_steady].
      intros st' (H1 & H2 & H3 & _). unfold loc_format_with_defaults. now rewrite H1, H2, H3.
    - eapply (steady_some (fun st' => actual_literal E st' c i t (unwrap_or f (ls_fallback st)) (unwrap_or ca (ls_caching st))) _ st); [|intros; apply literal_settings|apply literal_settings|apply literal_steady].
      intros st' (H1 & H2 & _). unfold loc_literal. now rewrite H1, H2.
    - eapply (steady_some (fun st' => actual_literal E st' c i (ls_tag st) (ls_fallback st) (ls_caching st)) _ st); [|intros; apply literal_settings|apply literal_settings|apply literal_steady].
      intros st' (H1 & H2 & H3 & _). unfold loc_literal_with_defaults. now rewrite H1, H2, H3.
    - apply steady_still. cbn [lstep fst]. unfold loc_defaults, unwrap_or. cbn. destruct t, f, ca; reflexivity.
  Qed.
End Loc.
