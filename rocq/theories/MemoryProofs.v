(** Proofs for C90 and C91. *)
From Verif Require Import Base BaseFacts LexerModel DocSpec ValueModel CommandModel FormatterModel FormatterSpec RegistryModel RegistrySpec RegistryProofs
  LocaliserModel LocaliserSpec LocaliserProofs ProviderModel MemorySpec.

Section Localiser.
  Context {PE : Type}.
  Implicit Types E : lenv PE.

  Definition kept (st st' : lstate) : Prop := forall t key, cached st t key <> None -> cached st' t key <> None.
  Definition covered (st : lstate) (rs : list request) : Prop :=
    forall q, In q rs -> cached st (rq_tag q) (combined (rq_component q) (rq_identifier q)) <> None.
  Lemma kept_refl st : kept st st.
  Proof. intros t key H; exact H. Qed.
  Lemma kept_trans a b c : kept a b -> kept b c -> kept a c.
  Proof. intros H1 H2 t key H. apply H2, H1, H. Qed.
  Lemma covered_kept st st' rs : kept st st' -> covered st rs -> covered st' rs.
  Proof. intros H1 H2 q Hq. apply H1, H2, Hq. Qed.

  Lemma insert_kept st t key e m : mget t (ls_cache st) = Some m ->
    kept st (set_cache st (minsert t (minsert key e m) (ls_cache st))) /\
    cached (set_cache st (minsert t (minsert key e m) (ls_cache st))) t key <> None.
  Proof.
    intros Hm. split.
    - intros t' key' H. rewrite cached_put. destruct (ueqb_spec t' t) as [->|N]; [|exact H].
      unfold cached in H. rewrite Hm in H. rewrite mget_minsert. destruct (ueqb key' key); [discriminate|exact H].
    - rewrite cached_put, ueqb_refl, mget_minsert_eq. discriminate.
  Qed.
  Lemma new_kept st t key e : mget t (ls_cache st) = None ->
    kept st (set_cache st (minsert t [(key, e)] (ls_cache st))) /\
    cached (set_cache st (minsert t [(key, e)] (ls_cache st))) t key <> None.
  Proof.
    intros Hm. split.
    - intros t' key' H. rewrite cached_put. destruct (ueqb_spec t' t) as [->|N]; [|exact H].
      exfalso. apply H. unfold cached. now rewrite Hm.
    - rewrite cached_put, ueqb_refl. cbn. rewrite ueqb_refl. discriminate.
  Qed.
  Lemma put_formatter_kept st t key fm : kept st (put_formatter st t key fm) /\ cached (put_formatter st t key fm) t key <> None.
  Proof. unfold put_formatter. destruct (mget t (ls_cache st)) as [m|] eqn:Em; [now apply insert_kept|now apply new_kept]. Qed.
  Lemma return_kept st ca key s t : let x := return_string (PE := PE) st (mhas t (ls_cache st)) ca key s t in
    kept st (fst x) /\ (ca = true -> cached (fst x) t key <> None).
  Proof.
    unfold return_string, add_string_to_cache, mhas. destruct ca; [|split; [apply kept_refl|discriminate]].
    destruct (mget t (ls_cache st)) as [m|] eqn:Em; cbn [negb fst].
    - destruct (insert_kept st t key (CLocalised s t) m Em); auto.
    - destruct (new_kept st t key (CLocalised s t) Em); auto.
  Qed.

  (** ** Nothing is lost *)
  Lemma literal_kept E st c i t fb ca : settled E [mk_request c i t fb true] ->
    let x := actual_literal E st c i t fb ca in
    kept st (fst x) /\ (forall r, ca = true -> snd x = Ok r -> cached (fst x) t (combined c i) <> None).
  Proof.
    intros Hs. unfold actual_literal. destruct (cached st t (combined c i)) as [[s t'|fm]|] eqn:Ec; cbn [fst snd].
    - split; [apply kept_refl|]. intros; congruence.
    - split; [apply kept_refl|]. intros; congruence.
    - destruct (find_string E c i t fb) as [[s t']|e| |] eqn:Ef; cbn [fst snd]; try (split; [apply kept_refl|]; intros; discriminate).
      apply find_string_iff in Ef. destruct (Hs _ s t' (or_introl eq_refl) Ef) as [H|(H & _)]; [|discriminate]. cbn in H. subst t'.
      destruct (return_kept st ca (combined c i) s t) as (H1 & H2). split; [exact H1|auto].
  Qed.
  Lemma format_kept E st c i vals t fb ca : icu_ok (le_icu E) -> settled E [mk_request c i t fb false] ->
    let x := actual_format E st c i vals t fb ca in
    kept st (fst x) /\ (forall r, ca = true -> snd x = Ok r -> cached (fst x) t (combined c i) <> None).
  Proof.
    intros Hd Hs. unfold actual_format. destruct (cached st t (combined c i)) as [[s t'|fm]|] eqn:Ec; cbn [fst snd].
    - split; [apply kept_refl|]. intros; congruence.
    - destruct (run_formatter E fm vals) as [fm' r]. cbn [fst snd].
      destruct (put_formatter_kept st t (combined c i) fm'); auto.
    - destruct (find_string E c i t fb) as [[s t']|e| |] eqn:Ef; cbn [fst snd]; try (split; [apply kept_refl|]; intros; discriminate).
      apply find_string_iff in Ef. pose proof (Hs _ s t' (or_introl eq_refl) Ef) as Ht. cbn in Ht.
      assert (Hp : no_syntax s -> let x := return_string (PE := PE) st (mhas t (ls_cache st)) ca (combined c i) s t' in
        kept st (fst x) /\ (forall r, ca = true -> snd x = Ok r -> cached (fst x) t (combined c i) <> None)).
      { intros Hn. destruct Ht as [->|(_ & Ht)]; [|contradiction]. destruct (return_kept st ca (combined c i) s t) as (H1 & H2). auto. }
      destruct s as [|x w]; [apply Hp; intros ? []|].
      destruct (formatter_try_new _ _ _ _ _ _ _) as [fm|e| |] eqn:Eb; cbn [fst snd]; try (split; [apply kept_refl|]; intros; discriminate).
      + destruct (run_formatter E fm vals) as [fm' r]. cbn [fst snd]. destruct ca; [|split; [apply kept_refl|discriminate]].
        destruct (put_formatter_kept st t (combined c i) fm'); auto.
      + destruct e; cbn [fst snd]; try (split; [apply kept_refl|]; intros; discriminate). apply Hp.
        exact (proj1 (no_grammar_iff (le_icu E) (le_fmt E) (le_reg E) t' (le_locale E t') (x :: w) Hd ltac:(discriminate)) Eb).
  Qed.
  Lemma settled_part E rs rs' : settled E rs -> (forall q, In q rs' -> In q rs) -> settled E rs'.
  Proof. intros H Hi q s t' Hq. apply H, Hi, Hq. Qed.
  Lemma data_kept E t fb ca : icu_ok (le_icu E) -> forall d st, settled E (data_requests t fb d) ->
    let x := actual_format_data E d t fb ca st in
    kept st (fst x) /\ (forall r, ca = true -> snd x = Ok r -> covered (fst x) (data_requests t fb d)).
  Proof.
    intros Hd. fix IH 1. intros [c i [vs|]] st Hs.
    - cbn [data_requests] in *. fold (go_requests t fb) in *. cbn [actual_format_data].
      revert Hs st. generalize (@nil (ustr * pvalue)) at 1 2 3. induction vs as [|[ph v] vs IHvs]; intros new Hs st.
      + destruct (format_kept E st c i new t fb ca Hd Hs) as (H1 & H2). split; [exact H1|].
        intros r Hca Hr q [<-|[]]. exact (H2 r Hca Hr).
      + destruct v; try exact (IHvs _ Hs st).
        cbn [go_requests] in *. rewrite <- app_assoc in *.
        pose proof (IH d st (settled_part _ _ _ Hs (fun q Hi => in_or_app _ _ _ (or_introl Hi)))) as (K1 & K2).
        destruct (actual_format_data E d t fb ca st) as [st1 [[s t']|e| |]]; cbn [fst snd] in *; try (split; [exact K1|]; intros; discriminate).
        destruct (IHvs (minsert ph (VLocalised s t') new) (settled_part _ _ _ Hs (fun q Hi => in_or_app _ _ _ (or_intror Hi))) st1) as (H1 & H2).
        split; [exact (kept_trans _ _ _ K1 H1)|]. intros r Hca Hr q Hq. apply in_app_or in Hq as [Hq|Hq].
        * exact (H1 _ _ (K2 _ Hca eq_refl q Hq)).
        * exact (H2 r Hca Hr q Hq).
    - cbn in *. destruct (literal_kept E st c i t fb ca Hs) as (H1 & H2). split; [exact H1|].
      intros r Hca Hr q [<-|[]]. exact (H2 r Hca Hr).
  Qed.
  Lemma step_kept E st c : icu_ok (le_icu E) -> settled E (call_requests st c) ->
    kept st (fst (lstep E st c)) /\
    (forall r, caches st c = true -> snd (lstep E st c) = Some (Ok r) -> covered (fst (lstep E st c)) (call_requests st c)).
  Proof.
    intros Hd Hs. destruct c; cbn [lstep fst snd call_requests caches] in *.
    - destruct (format_kept E st component identifier vals tag _ (unwrap_or caching (ls_caching st)) Hd Hs) as (H1 & H2). split; [exact H1|].
      intros r Hc [= Hr] q [<-|[]]. exact (H2 r Hc Hr).
    - destruct (format_kept E st component identifier vals (ls_tag st) _ (ls_caching st) Hd Hs) as (H1 & H2). split; [exact H1|].
      intros r Hc [= Hr] q [<-|[]]. exact (H2 r Hc Hr).
    - destruct (literal_kept E st component identifier tag _ (unwrap_or caching (ls_caching st)) Hs) as (H1 & H2). split; [exact H1|].
      intros r Hc [= Hr] q [<-|[]]. exact (H2 r Hc Hr).
    - destruct (literal_kept E st component identifier (ls_tag st) _ (ls_caching st) Hs) as (H1 & H2). split; [exact H1|].
      intros r Hc [= Hr] q [<-|[]]. exact (H2 r Hc Hr).
    - destruct (data_kept E tag _ (unwrap_or caching (ls_caching st)) Hd d st Hs) as (H1 & H2). split; [exact H1|].
      intros r Hc [= Hr]. exact (H2 r Hc Hr).
    - destruct (data_kept E (ls_tag st) _ (ls_caching st) Hd d st Hs) as (H1 & H2). split; [exact H1|].
      intros r Hc [= Hr]. exact (H2 r Hc Hr).
    - split; [intros t key H; exact H|discriminate].
  Qed.
  Lemma run_kept E h : icu_ok (le_icu E) -> forall st, settled E (history_requests E st h) -> kept st (lrun E st h).
  Proof.
    intros Hd. induction h as [|c h IH]; intros st Hs; [apply kept_refl|]. cbn in *.
    eapply kept_trans; [apply (step_kept E st c Hd)|apply IH]; eapply settled_part; try exact Hs; intros q Hq; apply in_or_app; auto.
  Qed.

  (** ** What is there is not asked for *)
  Lemma literal_memory E E' st c i t fb ca : cached st t (combined c i) <> None ->
    actual_literal E' st c i t fb ca = actual_literal E st c i t fb ca /\ fst (actual_literal E st c i t fb ca) = st.
  Proof. intros H. unfold actual_literal. destruct (cached st t (combined c i)) as [[s t'|fm]|]; auto. contradiction. Qed.
  Lemma format_memory E E' st c i vals t fb ca : elsewhere E E' -> cached st t (combined c i) <> None ->
    actual_format E' st c i vals t fb ca = actual_format E st c i vals t fb ca /\ kept st (fst (actual_format E st c i vals t fb ca)).
  Proof.
    intros (E1 & E2 & E3 & _) H. unfold actual_format. destruct (cached st t (combined c i)) as [[s t'|fm]|]; [split; [reflexivity|apply kept_refl]| |contradiction].
    unfold run_formatter. rewrite E1, E2, E3. destruct (format _ _ _ fm vals) as [fm' r]. split; [reflexivity|]. apply put_formatter_kept.
  Qed.
  Lemma data_memory E E' t fb ca : elsewhere E E' -> forall d st, covered st (data_requests t fb d) ->
    actual_format_data E' d t fb ca st = actual_format_data E d t fb ca st /\ kept st (fst (actual_format_data E d t fb ca st)).
  Proof.
    intros He. fix IH 1. intros [c i [vs|]] st Hs.
    - cbn [data_requests] in *. fold (go_requests t fb) in *. cbn [actual_format_data].
      revert st Hs. generalize (@nil (ustr * pvalue)) at 1 2 3. induction vs as [|[ph v] vs IHvs]; intros new st Hs.
      + apply format_memory; [exact He|]. exact (Hs _ (or_introl eq_refl)).
      + destruct v; try exact (IHvs _ st Hs).
        cbn [go_requests] in *. rewrite <- app_assoc in *.
        destruct (IH d st (fun q Hi => Hs q (in_or_app _ _ _ (or_introl Hi)))) as (-> & K).
        destruct (actual_format_data E d t fb ca st) as [st1 [[s t']|e| |]]; cbn [fst] in *; try (split; [reflexivity|exact K]).
        destruct (IHvs (minsert ph (VLocalised s t') new) st1) as (H1 & H2).
        * intros q Hi. apply K, Hs. apply in_or_app. now right.
        * split; [exact H1|exact (kept_trans _ _ _ K H2)].
    - cbn in *. destruct (literal_memory E E' st c i t fb ca (Hs _ (or_introl eq_refl))) as (H1 & H2).
      split; [exact H1|]. rewrite H2. apply kept_refl.
  Qed.
  Lemma covered_memory E st c : covered st (call_requests st c) -> from_memory E st c.
  Proof.
    intros Hc E' He. destruct c; cbn [lstep call_requests] in *;
      unfold loc_format, loc_format_with_defaults, loc_literal, loc_literal_with_defaults, loc_format_data, loc_format_data_with_defaults.
    - now rewrite (proj1 (format_memory E E' _ _ _ _ _ _ _ He (Hc _ (or_introl eq_refl)))).
    - now rewrite (proj1 (format_memory E E' _ _ _ _ _ _ _ He (Hc _ (or_introl eq_refl)))).
    - now rewrite (proj1 (literal_memory E E' _ _ _ _ _ _ (Hc _ (or_introl eq_refl)))).
    - now rewrite (proj1 (literal_memory E E' _ _ _ _ _ _ (Hc _ (or_introl eq_refl)))).
    - now rewrite (proj1 (data_memory E E' _ _ _ He _ _ Hc)).
    - now rewrite (proj1 (data_memory E E' _ _ _ He _ _ Hc)).
    - unfold loc_defaults. destruct He as (_ & _ & _ & ->). reflexivity.
  Qed.

  Lemma memory E st x r h y : icu_ok (le_icu E) -> caches st x = true -> snd (lstep E st x) = Some (Ok r) ->
    settled E (history_requests E st (x :: h)) ->
    let st' := lrun E st (x :: h) in asks_again (call_requests st' y) (call_requests st x) -> from_memory E st' y.
  Proof.
    intros Hd Hc Hr Hs st' Ha. apply covered_memory. intros q Hq. destruct (Ha q Hq) as (q' & Hq' & <- & <- & <-).
    cbn in Hs. assert (Hs1 : settled E (call_requests st x)) by (eapply settled_part; [exact Hs|]; intros; apply in_or_app; auto).
    assert (Hs2 : settled E (history_requests E (fst (lstep E st x)) h)) by (eapply settled_part; [exact Hs|]; intros; apply in_or_app; auto).
    destruct (step_kept E st x Hd Hs1) as (_ & K). apply (run_kept E h Hd _ Hs2). exact (K r Hc Hr q' Hq').
  Qed.

  (** ** Size *)
  Definition place (E : lenv PE) (q : request) : ustr * ustr :=
    let key := combined (rq_component q) (rq_identifier q) in
    match find_string E (rq_component q) (rq_identifier q) (rq_tag q) (rq_fallback q) with
    | Ok (s, t') =>
        if rq_literal q then (t', key) else
        match s with
        | [] => (t', key)
        | _ :: _ => match formatter_try_new (le_icu E) localiser_grammar (le_fmt E) (le_reg E) t' (le_locale E t') s with
                    | Err FNoGrammar => (t', key)
                    | _ => (rq_tag q, key)
                    end
        end
    | _ => (rq_tag q, key)
    end.
  Lemma size_bound E fb ca tag h rs l : (forall q, In q (history_requests E (localiser_new E fb ca tag) h) -> In q rs) ->
    in_use (lrun E (localiser_new E fb ca tag) h) l -> List.length l <= List.length rs.
  Proof.
    intros Hrs (Hn & Hl). pose proof (run_new E rs fb ca tag h Hrs) as Hc.
    rewrite <- (map_length (place E) rs). apply NoDup_incl_length; [exact Hn|]. intros (t, key) Hp. specialize (Hl _ Hp). cbn in Hl.
    destruct (cached _ t key) as [e|] eqn:Ee; [|contradiction]. specialize (Hc _ _ _ Ee). apply in_map_iff.
    destruct e as [s t'|fm]; cbn [entry_from] in Hc.
    - destruct Hc as (-> & q & Hq & -> & Hf & Hk). exists q. split; [|exact Hq]. unfold place. rewrite Hf.
      destruct (rq_literal q); [reflexivity|]. destruct Hk as [Hk|[->|Hk]]; [discriminate|reflexivity|].
      destruct s; [reflexivity|]. now rewrite Hk.
    - destruct Hc as (q & s & t' & fm0 & Hq & -> & <- & Hl' & Hf & Hne & Hb & _). exists q. split; [|exact Hq]. unfold place.
      rewrite Hf, Hl'. destruct s; [contradiction|]. now rewrite Hb.
  Qed.
End Localiser.
