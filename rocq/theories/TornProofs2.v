(** Proofs for C113: the localiser. *)
From Verif Require Import Base BaseFacts LexerModel ValueModel CommandModel FormatterModel RegistryModel LocaliserModel CallsModel LocCallsModel
  ProviderModel ProviderSpec QueryModel QuerySpec QueryProofs2 QueryProofs3 QueryProofs5 AskModel FreshSpec TornSpec TornProofs.

Section Literal.
  Variable E : penv.
  Variable D : database.
  Variable W : changing.
  Variable p : sprovider.
  Hypothesis HD : reads_changing E W D.
  Hypothesis Hp : provider_ok p.
  Hypothesis Ho : order_ok E.
  Hypothesis Hplain : plain_tags E.
  Notation P := (query_provider E D p).
  Notation run := (q_prun E D p qstate_new).

  Lemma run_snoc hist x : run (hist ++ [x]) = fst (q_pcall E D p x (run hist)).
  Proof. unfold q_prun. now rewrite fold_left_app. Qed.
  (** A method of the provider is a call of it, or nothing at all. *)
  Lemma string_call c i t hist : let y := wp_string P c i t (run hist) in
    (y = (run hist, Ok None) /\ pe_canon E t <> Some t) \/
    (pe_canon E t = Some t /\ fst y = run (hist ++ [CallString c i t]) /\
      forall o, snd y = Ok o -> snd (q_pcall E D p (CallString c i t) (run hist)) = Ok (AnString o)).
  Proof.
    cbn [query_provider wp_string]. destruct (pe_canon E t) as [t'|] eqn:Et; [|left; split; [reflexivity|discriminate]].
    destruct (ueqb_spec t t') as [<-|Hn]; [|left; split; [reflexivity|intros H; injection H as H; now apply Hn]]. right. split; [reflexivity|].
    rewrite run_snoc. cbn [q_pcall]. unfold qbind, qskip, qret. destruct (q_one_string E D p false c i t (run hist)) as (s & [o|e| |]); cbn [fst snd];
      (split; [reflexivity|]); intros o' H; congruence.
  Qed.
  Lemma default_call c hist : fst (wp_default P c (run hist)) = run (hist ++ [CallComponent c]).
  Proof.
    cbn [query_provider wp_default]. rewrite run_snoc. cbn [q_pcall]. unfold qbind, qskip, qret.
    destruct (q_component_details E D p c (run hist)) as (s & [o|e| |]); reflexivity.
  Qed.
  Lemma grows x hist : exists qs, fst (run (hist ++ [x])) = fst (run hist) ++ qs.
  Proof.
    rewrite run_snoc. destruct (run hist) as (h & st) eqn:Er.
    destruct (call_summary E D p Hp x h st) as (qs & st' & y & He & _); [change st with (snd (h, st)); rewrite <- Er; exact (run_ok E D p Hp hist _ new_ok)|].
    exists qs. now rewrite He.
  Qed.
  (** What the call of a string gives. *)
  Lemma string_found c i t hist y : snd (wp_string P c i t (run hist)) = Ok (Some y) -> exists h f row,
    during (run hist) (wp_string P c i t (run hist)) h /\ file_of p c f /\ In row (db_pattern (W h f)) /\ pr_component row = c /\ pr_identifier row = i /\ answer_of E row y.
  Proof.
    intros H. destruct (string_call c i t hist) as [(He & _)|(Hc & Hf & Hs)]; [rewrite He in H; discriminate H|].
    destruct (torn_some E D W p HD Hp (CallString c i t) true false c i t _ hist eq_refl _ Ho (Hplain t t Hc) (Hs _ H)) as (h & f & b & Hd & Hfile & _ & _ & Hy & _); [discriminate|].
    destruct (Hy y (or_introl eq_refl)) as (row & (H1 & H2 & H3 & _) & Ha). exists h, f, row. split; [|auto].
    destruct Hd as (m & rest & Hm & Hr). exists m, rest. split; [exact Hm|]. rewrite Hf, run_snoc. exact Hr.
  Qed.
  Lemma during_more {A B} (s s1 : qstate) (r : qstate * A) (r2 : qstate * B) h a b : fst s1 = fst s ++ a -> fst (fst r2) = fst (fst r) ++ b -> during s1 r h -> during s r2 h.
  Proof.
    intros H1 H2 (m & rest & -> & Hr). exists (a ++ m), (rest ++ b). rewrite H1 in *. split; [now rewrite app_assoc|]. rewrite H2, Hr. now rewrite !app_assoc.
  Qed.

  Theorem find_torn c i t fb hist y : snd (xfind_string P c i t fb (run hist)) = Ok y -> exists h f row,
    during (run hist) (xfind_string (PE := perror) P c i t fb (run hist)) h /\ file_of p c f /\ In row (db_pattern (W h f)) /\ pr_component row = c /\ pr_identifier row = i /\ answer_of E row y.
  Proof.
    intros H. unfold xfind_string in *. pose proof (string_found c i t hist) as F1. pose proof (string_call c i t hist) as C1. cbv zeta in C1.
    destruct (wp_string P c i t (run hist)) as (s1 & [[y'|]|e| |]); cbn [fst snd] in *; try discriminate H.
    - injection H as <-. destruct (F1 y' eq_refl) as (h & f & row & Hd & Hr). exists h, f, row. split; [exact Hd|exact Hr].
    - assert (Hs1 : exists hist1 a, s1 = run hist1 /\ fst s1 = fst (run hist) ++ a).
      { destruct C1 as [(He & _)|(_ & -> & _)].
        - injection He as ->. exists hist, []. split; [reflexivity|now rewrite app_nil_r].
        - destruct (grows (CallString c i t) hist) as (qs & Hq). exists (hist ++ [CallString c i t]), qs. auto. }
      destruct Hs1 as (hist1 & a & -> & Ha). destruct (negb fb); [discriminate H|].
      pose proof (default_call c hist1) as C2. destruct (wp_default P c (run hist1)) as (s2 & [dflt|e| |]); cbn [fst snd] in *; try discriminate H. subst s2.
      destruct (grows (CallComponent c) hist1) as (b & Hb). pose proof (string_found c i dflt (hist1 ++ [CallComponent c])) as F3.
      destruct (wp_string P c i dflt (run (hist1 ++ [CallComponent c]))) as (s3 & [[y'|]|e| |]); cbn [fst snd] in *; try discriminate H.
      injection H as <-. destruct (F3 y' eq_refl) as (h & f & row & Hd & Hr). exists h, f, row. split; [|exact Hr].
      apply (during_more (run hist) (run (hist1 ++ [CallComponent c])) _ _ h (a ++ b) [] ) with (3 := Hd); [|cbn; now rewrite app_nil_r]. rewrite Hb, Ha. now rewrite app_assoc.
  Qed.
  Theorem find_missing c i t fb fb' hist : pe_canon E t = Some t -> snd (xfind_string (PE := perror) P c i t fb (run hist)) = Err (LStringNotFound c i t fb') ->
    forall f b, file_of p c f -> ancestor b t -> b <> [] -> exists h, during (run hist) (xfind_string (PE := perror) P c i t fb (run hist)) h /\ ~ has (W h f) c i (starts_with b).
  Proof.
    intros Hc H f b Hf Hb Hb0.
    destruct (string_call c i t hist) as [(_ & Hn)|(_ & Hs1 & Hs)]; [congruence|].
    assert (Hnone : snd (wp_string P c i t (run hist)) = Ok None).
    { unfold xfind_string in H. destruct (wp_string P c i t (run hist)) as (s1 & [[y'|]|e| |]); cbn [snd] in *; try discriminate H. reflexivity. }
    destruct (torn_none E D W p HD Hp (CallString c i t) true false c i t _ hist eq_refl _ Ho (Hplain t t Hc) (Hs _ Hnone) eq_refl f b Hf Hb Hb0) as (h & Hd & Hno).
    exists h. split; [|exact Hno]. destruct Hd as (m & rest & Hm & Hr). rewrite <- run_snoc in Hr.
    assert (Hg : exists a, fst (fst (xfind_string (PE := perror) P c i t fb (run hist))) = fst (run (hist ++ [CallString c i t])) ++ a).
    { unfold xfind_string in *. destruct (wp_string P c i t (run hist)) as (s1 & [[y'|]|e| |]); cbn [fst snd] in *; try discriminate H. subst s1.
      destruct (negb fb); [exists []; now rewrite app_nil_r|]. set (h1 := hist ++ [CallString c i t]) in *.
      destruct (grows (CallComponent c) h1) as (a & Ha). pose proof (default_call c h1) as C2.
      destruct (wp_default P c (run h1)) as (s2 & [dflt|e| |]); cbn [fst snd] in *; try discriminate H. subst s2.
      pose proof (string_call c i dflt (h1 ++ [CallComponent c])) as C3. cbv zeta in C3. destruct (grows (CallString c i dflt) (h1 ++ [CallComponent c])) as (b3 & Hb3).
      destruct (wp_string P c i dflt (run (h1 ++ [CallComponent c]))) as (s3 & [[y'|]|e| |]); cbn [fst snd] in *; try discriminate H.
      destruct C3 as [(He & _)|(_ & -> & _)]; [injection He as ->; exists a; exact Ha|]. exists (a ++ b3). rewrite Hb3, Ha. now rewrite app_assoc. }
    destruct Hg as (a & Ha). exists m, (rest ++ a). split; [exact Hm|]. rewrite Ha, Hr. now rewrite app_assoc.
  Qed.
End Literal.
