(** Proofs for C113. *)
From Verif Require Import Base BaseFacts RegistryModel ProviderModel ProviderSpec ProviderProofs ProviderProofs2 QueryModel QuerySpec QueryProofs QueryProofs2 QueryProofs3 QueryProofs4 QueryProofs5
  FreshSpec FreshProofs FreshProofs2 TornSpec.

Lemma hyphens_app a b : hyphens (a ++ b) = hyphens a + hyphens b.
Proof. unfold hyphens. apply count_occ_app. Qed.
Lemma wildcard_ancestor a t : ancestor a t -> no_wildcard t -> no_wildcard a.
Proof. intros [->|(r & ->)] (H1 & H2); split; auto; intros H; [apply H1|apply H2]; apply in_or_app; now left. Qed.

Section Torn.
  Variable E : penv.
  Variable D : database.
  Variable W : changing.
  Variable p : sprovider.
  Hypothesis HD : reads_changing E W D.
  Hypothesis Hp : provider_ok p.

  (** The rows of one level. *)
  Lemma level_answer one exact f c i a h rows : order_ok E -> no_wildcard a -> D h (level_query one exact f c i a) = Some rows ->
    exists prs, rows = map (fun r => [CellText (pr_string r); CellText (pr_tag r)]) prs /\
      (forall r, In r prs -> hit (W h f) c i (fit exact a) r) /\
      (prs = [] -> ~ has (W h f) c i (fit exact a)) /\
      (one = false -> forall r, hit (W h f) c i (fit exact a) r -> In r prs).
  Proof.
    intros Ho Hw. rewrite HD. unfold level_query. cbn [qc_file qc_sql qc_params]. unfold select.
    destruct (pe_ok E f (SqlPattern one exact) _); [|discriminate]. cbn [negb].
    change (if exact then a else a ++ [ch "%"]) with (asked exact a). fold (level_rows (W h f) c i exact (asked exact a)).
    set (all := pe_patterns E f _ _ _). intros H. injection H as <-.
    assert (Hin : forall r, In r all <-> hit (W h f) c i (fit exact a) r).
    { intros r. rewrite <- (level_rows_hit (W h f) c i exact a r Hw). pose proof (proj1 Ho f (SqlPattern one exact) [i; asked exact a; c] (level_rows (W h f) c i exact (asked exact a))) as P.
      split; apply Permutation_in; [exact P|apply Permutation_sym; exact P]. }
    exists (if one then firstn 1 all else all). split; [reflexivity|]. split; [|split].
    - intros r Hr. apply Hin. destruct one; [|exact Hr]. destruct all; [exact Hr|]. cbn in Hr. destruct Hr as [<-|[]]. now left.
    - intros He (r & Hr). apply Hin in Hr. destruct one; [destruct all; [destruct Hr|discriminate He]|rewrite He in Hr; destruct Hr].
    - intros -> r Hr. now apply Hin.
  Qed.
  Lemma level_none one exact f c i a h : order_ok E -> no_wildcard a -> D h (level_query one exact f c i a) = Some [] -> ~ has (W h f) c i (fit exact a).
  Proof. intros Ho Hw H. destruct (level_answer one exact f c i a h [] Ho Hw H) as (prs & Hm & _ & Hn & _). apply Hn. destruct prs; [reflexivity|discriminate Hm]. Qed.

  Lemma plan_in one exact files c i levels q : In q (lookup_plan one exact files c i levels) ->
    exists f a, q = level_query one exact f c i a /\ In a levels /\ ((fst files = true /\ f = aio) \/ (snd files = true /\ f = c)).
  Proof.
    unfold lookup_plan. intros H. apply in_app_or in H as [H|H].
    - destruct (fst files) eqn:Ef; [|destruct H]. apply in_map_iff in H as (a & <- & Ha). exists aio, a. auto.
    - destruct (snd files) eqn:Ef; [|destruct H]. apply in_map_iff in H as (a & <- & Ha). exists c, a. auto.
  Qed.
  Lemma in_plan one exact files c i levels f a : In a levels -> (fst files = true /\ f = aio) \/ (snd files = true /\ f = c) ->
    In (level_query one exact f c i a) (lookup_plan one exact files c i levels).
  Proof.
    intros Ha Hf. unfold lookup_plan. apply in_or_app. destruct Hf as [(-> & ->)|(-> & ->)]; [left|right]; apply in_map_iff; eauto.
  Qed.

  (** The last answer, and the empty ones before. *)
  Lemma answered h plan qs last : until_answered D h plan qs last ->
    (last = Some [] -> forall q, In q plan -> exists m rest, qs = m ++ rest /\ D (h ++ m) q = Some []) /\
    (forall rows, last = Some rows -> rows <> [] -> exists m q rest, qs = m ++ q :: rest /\ In q plan /\ D (h ++ m) q = Some rows).
  Proof.
    induction 1 as [h|h q plan qs r Hq H (IH1 & IH2)|h q plan r Hq Hr].
    - split; [intros _ q []|]. intros rows H. injection H as <-. congruence.
    - split.
      + intros Hl q' [<-|Hi].
        * exists [], (q :: qs). split; [reflexivity|]. now rewrite app_nil_r.
        * destruct (IH1 Hl q' Hi) as (m & rest & -> & Hm). exists (q :: m), rest. split; [reflexivity|]. now rewrite <- app_assoc in Hm.
      + intros rows Hl Hn. destruct (IH2 rows Hl Hn) as (m & q' & rest & -> & Hi & Hm). exists (q :: m), q', rest.
        split; [reflexivity|]. split; [now right|]. now rewrite <- app_assoc in Hm.
    - split; [intros Hl; congruence|]. intros rows Hl Hn. exists [], q, []. split; [reflexivity|]. split; [now left|]. rewrite app_nil_r. congruence.
  Qed.
  Lemma said prs l : rows_say E (map (fun r => [CellText (pr_string r); CellText (pr_tag r)]) prs) l -> Forall2 (answer_of E) prs l.
  Proof.
    intros H. induction prs as [|r prs IH] in l, H |- *; inversion H as [|row y rows ys Hy Hys]; subst; constructor; [|now apply IH].
    destruct Hy as (raw & rest & He & Hc). injection He as H1 <- _. split; [now symmetry|exact Hc].
  Qed.
  Lemma lookup_shape x one exact c i t answer l : lookup_of x = Some (one, exact, (c, i, t), answer) ->
    (one = true /\ strings_in (answer l) = match last_string l with Some y => [y] | None => [] end) \/ (one = false /\ strings_in (answer l) = l).
  Proof. destruct x; intros H; try discriminate H; injection H as <- <- <- <- <- <-; cbn; destruct (last_string l); auto. Qed.
  Lemma last_in (l : list (ustr * ustr)) y : last_string l = Some y -> In y l.
  Proof.
    unfold last_string. induction l as [|a l IH]; [discriminate|]. cbn [map last]. destruct l as [|b l]; [intros H; injection H as <-; now left|].
    intros H. right. apply IH, H.
  Qed.
  Lemma last_some (l : list (ustr * ustr)) : last_string l = None -> l = [].
  Proof. unfold last_string. induction l as [|a l IH]; [reflexivity|]. cbn [map last]. destruct l as [|b l]; [discriminate|]. intros H. apply IH in H. discriminate H. Qed.

  Lemma strings_empty x one exact c i t answer l : lookup_of x = Some (one, exact, (c, i, t), answer) -> (strings_in (answer l) = [] <-> l = []).
  Proof.
    intros Hx. destruct (lookup_shape x one exact c i t answer l Hx) as [(_ & ->)|(_ & ->)]; [|reflexivity].
    split; [|intros ->; reflexivity]. destruct (last_string l) as [y|] eqn:El; [discriminate|]. intros _. now apply last_some.
  Qed.
  Lemma strings_among x one exact c i t answer l y : lookup_of x = Some (one, exact, (c, i, t), answer) -> In y (strings_in (answer l)) -> In y l.
  Proof.
    intros Hx. destruct (lookup_shape x one exact c i t answer l Hx) as [(_ & ->)|(_ & ->)]; [|auto].
    destruct (last_string l) as [z|] eqn:El; [|intros []]. intros [<-|[]]. now apply last_in.
  Qed.

  Section Lookup.
    Variables (x : pcall) (one exact : bool) (c i t : ustr) (answer : list (ustr * ustr) -> panswer) (hist : list pcall).
    Hypothesis Hx : lookup_of x = Some (one, exact, (c, i, t), answer).
    Notation s := (q_prun E D p qstate_new hist).
    Notation r := (q_pcall E D p x s).

    Lemma known_of_answer a : snd r = Ok a -> exists files, mget c (sp_components p) = Some files.
    Proof.
      intros Ha. destruct (mget c (sp_components p)) as [files|] eqn:Ec; [eauto|]. rewrite (lookup_unknown E D p x one exact c i t answer Hx Ec) in Ha. discriminate Ha.
    Qed.

    Theorem torn_none a : order_ok E -> no_wildcard t -> snd r = Ok a -> strings_in a = [] -> forall f b, file_of p c f -> ancestor b t -> b <> [] ->
      exists h, during s r h /\ ~ has (W h f) c i (fit exact b).
    Proof.
      intros Ho Hw Ha Hs f b (files & Hc & Hf) Hb Hb0.
      destruct (lookup E D p Hp hist x one exact c i t answer files Hx Hc) as (levels & qs & lst & Hl & _ & Hn & Hu & Hz).
      destruct lst as [rows|]; cbn [concludes] in Hz; [|congruence]. destruct Hz as [(l & Hsay & Hz)|(_ & e & Hz)]; [|congruence].
      rewrite Hz in Ha. injection Ha as <-. apply (strings_empty x one exact c i t answer l Hx) in Hs. subst l.
      assert (rows = []) as -> by (inversion Hsay; reflexivity).
      destruct (proj1 (answered _ _ _ _ Hu) eq_refl (level_query one exact f c i b)) as (m & rest & -> & Hm).
      { apply in_plan; [|exact Hf]. apply (proj1 Hl b). auto. }
      exists (fst s ++ m). split; [exists m, rest; split; [reflexivity|]; unfold new_queries in Hn; rewrite Hn; now rewrite app_assoc|].
      apply (level_none one exact f c i b); [exact Ho|exact (wildcard_ancestor b t Hb Hw)|exact Hm].
    Qed.
    Theorem torn_some a : order_ok E -> no_wildcard t -> snd r = Ok a -> strings_in a <> [] -> exists h f b,
      during s r h /\ file_of p c f /\ ancestor b t /\ b <> [] /\
      (forall y, In y (strings_in a) -> exists row, hit (W h f) c i (fit exact b) row /\ answer_of E row y) /\
      (one = false -> forall row, hit (W h f) c i (fit exact b) row -> exists y, In y (strings_in a) /\ answer_of E row y).
    Proof.
      intros Ho Hw Ha Hs. destruct (known_of_answer a Ha) as (files & Hc).
      destruct (lookup E D p Hp hist x one exact c i t answer files Hx Hc) as (levels & qs & lst & Hl & _ & Hn & Hu & Hz).
      destruct lst as [rows|]; cbn [concludes] in Hz; [|congruence]. destruct Hz as [(l & Hsay & Hz)|(_ & e & Hz)]; [|congruence].
      rewrite Hz in Ha. injection Ha as <-.
      assert (Hr : rows <> []).
      { intros ->. apply Hs. apply (strings_empty x one exact c i t answer l Hx). inversion Hsay; reflexivity. }
      destruct (proj2 (answered _ _ _ _ Hu) rows eq_refl Hr) as (m & q & rest & -> & Hi & Hm).
      destruct (plan_in one exact files c i levels q Hi) as (f & b & -> & Hb & Hf). apply (proj1 Hl b) in Hb as (Hb0 & Hb).
      destruct (level_answer one exact f c i b _ rows Ho (wildcard_ancestor b t Hb Hw) Hm) as (prs & -> & Hhit & _ & Hall). apply said in Hsay.
      exists (fst s ++ m), f, b. split; [exists m, (level_query one exact f c i b :: rest); split; [reflexivity|]; unfold new_queries in Hn; rewrite Hn; now rewrite app_assoc|].
      split; [exists files; auto|]. split; [exact Hb|]. split; [exact Hb0|]. split.
      - intros y Hy. apply (strings_among x one exact c i t answer l y Hx) in Hy.
        clear -Hsay Hy Hhit. induction Hsay as [|row z prs l Hz Hsay IH]; [destruct Hy|]. destruct Hy as [<-|Hy].
        + exists row. split; [apply Hhit; now left|exact Hz].
        + apply IH; [|exact Hy]. intros r' Hr'. apply Hhit. now right.
      - intros H1 row Hrow. apply (Hall H1) in Hrow. destruct (lookup_shape x one exact c i t answer l Hx) as [(Hf1 & _)|(_ & ->)]; [congruence|].
        clear -Hsay Hrow. induction Hsay as [|row' z prs l Hz Hsay IH]; [destruct Hrow|]. destruct Hrow as [->|Hrow]; [exists z; split; [now left|exact Hz]|].
        destruct (IH Hrow) as (y & Hy & Hay). exists y. split; [now right|exact Hay].
    Qed.

    (** One query is made at one time. *)
    Lemma single qs : new_queries s r qs -> List.length qs <= 1 -> snd r = anew E p (W (fst s)) x.
    Proof.
      intros Hn Hl.
      assert (Hc : exists qs, new_queries s r qs /\ from_content E D (W (fst s)) (fst s) qs).
      { exists qs. split; [exact Hn|]. intros m q rest ->. destruct m as [|q' m]; [|rewrite app_length in Hl; cbn in Hl; lia]. rewrite app_nil_r. apply HD. }
      pose proof (call_at E p D (W (fst s)) x s Hc) as H. apply (f_equal snd) in H. cbn [snd] in H. rewrite H.
      assert (Hq : queries_ok (ps_queries (snd s))) by exact (run_ok E D p Hp hist _ new_ok).
      destruct (snd s) as (q & o). cbn [ps_queries] in Hq.
      rewrite (blind_lookup E (files_at (W (fst s)) p) x (ex_intro _ _ Hx) q o). cbn [snd].
      exact (proj1 (call_steady E (files_at (W (fst s)) p) (at_ok p (W (fst s)) Hp) x _ (ok_at E p (W (fst s)) q Hq))).
    Qed.
    Theorem torn_short : hyphens t = 0 -> (forall files, mget c (sp_components p) = Some files -> fst files = false \/ snd files = false) ->
      snd r = anew E p (W (fst s)) x.
    Proof.
      intros Ht Hf. destruct (mget c (sp_components p)) as [files|] eqn:Hc.
      - destruct (lookup E D p Hp hist x one exact c i t answer files Hx Hc) as (levels & qs & lst & Hl & Hlen & Hn & Hu & Hz).
        apply (single qs Hn). rewrite Ht in Hlen.
        assert (Hplan : List.length qs <= List.length (lookup_plan one exact files c i levels)).
        { clear -Hu. induction Hu; cbn; lia. }
        unfold lookup_plan in Hplan. rewrite app_length in Hplan. destruct (Hf files eq_refl) as [Hx1|Hx1]; rewrite Hx1 in Hplan;
          [destruct (snd files)|destruct (fst files)]; cbn [List.length] in Hplan; rewrite ?map_length in Hplan; lia.
      - apply (single []); [|cbn; lia]. unfold new_queries. rewrite (lookup_unknown E D p x one exact c i t answer Hx Hc). cbn. now rewrite app_nil_r.
    Qed.
    Theorem torn_first f : order_ok E -> no_wildcard t -> t <> [] -> first_file p c f -> has (W (fst s) f) c i (fit exact t) -> snd r = anew E p (W (fst s)) x.
    Proof.
      intros Ho Hw Ht (files & Hc & Hf) Hhas.
      destruct (lookup E D p Hp hist x one exact c i t answer files Hx Hc) as (levels & qs & lst & Hl & _ & Hn & Hu & Hz).
      apply (single qs Hn).
      assert (Hlv : exists rest, levels = t :: rest).
      { destruct Hl as (Hl1 & Hl2). assert (Hti : In t levels) by (apply Hl1; split; [exact Ht|now left]).
        destruct levels as [|a levels]; [destruct Hti|]. exists levels. f_equal. inversion Hl2 as [|? ? _ Hfa]; subst. destruct Hti as [->|Hti]; [reflexivity|].
        rewrite Forall_forall in Hfa. specialize (Hfa t Hti). unfold longer in Hfa. destruct (proj1 (Hl1 a) (or_introl eq_refl)) as (_ & [->|(u & ->)]); [lia|].
        rewrite app_length in Hfa. cbn in Hfa. lia. }
      destruct Hlv as (rest & ->).
      assert (Hpl : exists plan, lookup_plan one exact files c i (t :: rest) = level_query one exact f c i t :: plan).
      { unfold lookup_plan. destruct (fst files); [subst f; cbn; eauto|]. destruct Hf as (-> & ->). cbn. eauto. }
      destruct Hpl as (plan & Hpl). rewrite Hpl in Hu. inversion Hu as [|? ? ? ? ? Hd|]; subst; [|cbn; lia].
      destruct (level_none one exact f c i t _ Ho Hw Hd Hhas).
    Qed.
  End Lookup.
End Torn.
