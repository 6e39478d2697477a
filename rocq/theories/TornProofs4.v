(** Proofs for C113: the languages of an identifier while the files change. *)
From Coq Require Import Permutation.
From Verif Require Import Base BaseFacts RegistryModel ProviderModel ProviderSpec ProviderProofs ProviderProofs2 ProviderProofs5 MemorySpec QueryModel QuerySpec
  QueryProofs QueryProofs2 QueryProofs3 QueryProofs4 QueryProofs5 QueryProofs6 FreshSpec TornSpec TornSpec2 TornProofs3.

Section Torn.
  Variable E : penv.
  Variable D : database.
  Variable W : changing.
  Variable p : sprovider.
  Hypothesis HD : reads_changing E W D.
  Hypothesis Hp : provider_ok p.
  Hypothesis Ho : order_ok E.

  Lemma identifier_at f d c i rows l : select E f d SqlIdentifier [i; c] = Ok rows -> lang_read E rows = Ok l ->
    forall t, In t l <-> told_in E d c i t.
  Proof.
    unfold select. destruct (pe_ok E _ _ _); cbn [negb]; [|discriminate]. intros [= <-] H t. unfold lang_read in H. apply (map_rows_tags E pr_tag) in H. split.
    - intros Ht. destruct (Forall2_In_r _ _ _ t H Ht) as (r & Hr & Hcan). apply (order_patterns_In E Ho) in Hr. apply filter_In in Hr. destruct Hr as (Hr & Hb).
      apply andb_prop in Hb. destruct Hb as (B1 & B2). apply ueqb_eq in B1, B2. exists r. auto.
    - intros (r & Hr & <- & <- & Hcan). assert (Hi : In r (filter (fun r' => ueqb (pr_identifier r') (pr_identifier r) && ueqb (pr_component r') (pr_component r)) (db_pattern d))).
      { apply filter_In. split; [exact Hr|]. now rewrite !ueqb_refl. }
      apply (order_patterns_In E Ho f SqlIdentifier [pr_identifier r; pr_component r]) in Hi. destruct (Forall2_In_l _ _ _ _ H Hi) as (y & Hy & Hcan'). congruence.
  Qed.
  Lemma identifier_read c files i all f : mget c (sp_components p) = Some files -> QueryProofs2.file_of c files all = Some f ->
    adds (q_identifier_languages E D p c i all) (fun h qs x => on_ok x (fun l => forall t, In t l <-> told_in E (W h f) c i t)).
  Proof.
    intros Hc Hf. apply (one_read E D W p HD Hp c files Hc all (KPlain SqlIdentifier all) [i; c] f (lang_read E) (fun d l => forall t, In t l <-> told_in E d c i t) Logic.I Hf).
    intros d rows a. apply identifier_at.
  Qed.
  (** The languages were all in one file at one time; or there were none, in each file at some time. *)
  Definition told (c i : ustr) (files : bool * bool) (h qs : list qcall) (l : list ustr) : Prop :=
    (exists x f, mo h qs x /\ ((fst files = true /\ f = aio) \/ (snd files = true /\ f = c)) /\ forall t, In t l <-> told_in E (W x f) c i t) /\
    (l = [] -> forall f, (fst files = true /\ f = aio) \/ (snd files = true /\ f = c) -> exists x, mo h qs x /\ forall t, ~ told_in E (W x f) c i t).
  Lemma tail_torn c files i (g : list ustr -> idetails) : mget c (sp_components p) = Some files ->
    adds (let& l := q_identifier_languages E D p c i true in let& l' := match l with [] => q_identifier_languages E D p c i false | _ => qskip l end in qskip (g l'))
      (fun h qs x => on_ok x (fun d => exists l, d = g l /\ told c i files h qs l)).
  Proof.
    intros Hc. destruct (QueryProofs2.file_of c files true) as [f|] eqn:Ef.
    2:{ eapply (ok_bind2 _ _ (fun _ _ _ => False) (fun _ _ _ _ => True)); [now apply unknown_languages with files | contradiction | contradiction]. }
    assert (Hf : (fst files = true /\ f = aio) \/ (fst files = false /\ snd files = true /\ f = c)).
    { unfold QueryProofs2.file_of in Ef. cbn [andb] in Ef. destruct (fst files); [left; split; congruence|]. right. destruct (snd files); [repeat split; congruence | discriminate]. }
    eapply (ok_bind2 _ _ _ (fun l h qs d => exists l', d = g l' /\ match l with
        | [] => snd files = true /\ exists x, mo h qs x /\ forall t, In t l' <-> told_in E (W x c) c i t
        | _ => l' = l end) _ (identifier_read c files i true f Hc Ef)).
    - intros l h0 q0 _. eapply (ok_bind2 _ _ (fun h qs l' => match l with [] => snd files = true /\ forall t, In t l' <-> told_in E (W h c) c i t | _ => l' = l end)
        (fun l' _ qs d => qs = [] /\ d = g l')).
      + destruct l as [|t l]; [|apply ok_ret; intros h a [= <-]; reflexivity]. destruct (QueryProofs2.file_of c files false) as [f'|] eqn:Ef'.
        * unfold QueryProofs2.file_of in Ef'. cbn [andb] in Ef'. destruct (snd files) eqn:Es; [|discriminate]. injection Ef' as <-.
          eapply adds_more; [apply (identifier_read c files i false c Hc); unfold QueryProofs2.file_of; cbn [andb]; now rewrite Es|]. intros h qs x H a Ha. split; [reflexivity|]. exact (H a Ha).
        * eapply adds_more; [now apply unknown_languages with files|]. intros h qs x H a Ha. destruct (H a Ha).
      + intros l' h1 q1 _. apply ok_ret. intros h a [= <-]. auto.
      + intros h q1 l' q2 d H (-> & ->). exists l'. split; [reflexivity|]. destruct l; [|exact H]. destruct H as (Hs & H). split; [exact Hs|]. exists h. split; [apply mo_here | exact H].
    - intros h q1 l q2 d Hl (l' & -> & H). exists l'. split; [reflexivity|].
      assert (Hff : (fst files = true /\ f = aio) \/ (snd files = true /\ f = c)) by tauto. destruct l as [|t l].
      + destruct H as (Hs & x & Hx & H). split.
        * exists x, c. split; [now apply mo_r|]. split; [auto | exact H].
        * intros -> f1 [(F1 & ->)|(F1 & ->)].
          -- exists h. split; [apply mo_here|]. intros t Ht. destruct Hf as [(_ & ->)|(K & _)]; [|congruence]. apply Hl in Ht. destruct Ht.
          -- exists x. split; [now apply mo_r|]. intros t Ht. apply H in Ht. destruct Ht.
      + subst l'. split; [|discriminate]. exists h, f. split; [apply mo_here|]. split; [exact Hff | exact Hl].
  Qed.
  Theorem identifier_torn hist c i d : let s := q_prun E D p qstate_new hist in let r := q_pcall E D p (CallIdentifier c i) s in snd r = Ok (AnIdentifier d) ->
    (exists h f, during s r h /\ TornSpec.file_of p c f /\ forall t, In t (id_languages d) <-> told_in E (W h f) c i t) /\
    (id_languages d = [] -> forall f, TornSpec.file_of p c f -> exists h, during s r h /\ forall t, ~ told_in E (W h f) c i t).
  Proof.
    intros s r Ha. pose proof (run_ok E D p Hp hist _ new_ok) as Hq. fold s in Hq. unfold r in *. clearbody s. destruct s as (h & st). cbn [snd fst] in *. cbn [q_pcall] in *.
    unfold q_identifier_details in *. destruct (get_details_exact E D p Hp h st Hq) as (q1 & st1 & z & H1 & H2 & _ & _).
    assert (Hr : forall m, qbind (qbind (q_get_details E D p) m) (fun d => qskip (AnIdentifier d)) (h, st) =
      match z with Ok a => qbind (m a) (fun d => qskip (AnIdentifier d)) (h ++ q1, st1) | Err e => ((h ++ q1, st1), Err e) | Panic => ((h ++ q1, st1), Panic) | NoFuel => ((h ++ q1, st1), NoFuel) end).
    { intros m. unfold qbind at 1 2. rewrite H1. destruct z; reflexivity. }
    rewrite Hr in *. destruct z as [(cds & rd)|e| |]; try discriminate Ha. destruct (mget c cds) as [cd|]; [|discriminate Ha].
    destruct (mget c (sp_components p)) as [files|] eqn:Ec.
    2:{ exfalso. unfold qbind at 1 2, q_identifier_languages, connection in Ha. rewrite Ec in Ha. discriminate Ha. }
    destruct (tail_torn c files i (fun l => mk_idetails l (cd_default cd)) Ec (h ++ q1) st1 H2) as (q2 & st2 & y & H5 & _ & _ & H6).
    match type of H5 with ?m _ = _ => assert (Hm : qbind m (fun d => qskip (AnIdentifier d)) (h ++ q1, st1) =
      (((h ++ q1) ++ q2, st2), match y with Ok d => Ok (AnIdentifier d) | Err e => Err e | Panic => Panic | NoFuel => NoFuel end)) by (unfold qbind at 1; rewrite H5; destruct y; reflexivity) end.
    rewrite Hm in *. clear Hm. destruct y as [d'|e| |]; cbn [snd] in Ha; try discriminate Ha. injection Ha as ->.
    destruct (H6 d eq_refl) as (l & -> & (x & f & Hx & Hf & Hl) & Hn). cbn [id_languages].
    assert (Hd : forall x, mo (h ++ q1) q2 x -> during (h, st) ((h ++ q1 ++ q2, st2), Ok (AnIdentifier (mk_idetails l (cd_default cd))) : pout panswer) x).
    { intros x' (m & rest & -> & ->). exists (q1 ++ m), rest. cbn [fst]. split; rewrite <- !app_assoc; reflexivity. }
    rewrite <- app_assoc. cbn [qskip qret fst]. split.
    - exists x, f. split; [exact (Hd x Hx)|]. split; [exists files; auto | exact Hl].
    - intros Hl0 f1 (files1 & Hf1 & Hf2). assert (files1 = files) as -> by congruence. destruct (Hn Hl0 f1 Hf2) as (x1 & Hx1 & Hno). exists x1. split; [exact (Hd x1 Hx1) | exact Hno].
  Qed.
End Torn.
