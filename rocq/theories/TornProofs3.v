(** Proofs for C113: details that are put together while the files change. *)
From Coq Require Import Permutation.
From Verif Require Import Base BaseFacts RegistryModel ProviderModel ProviderSpec ProviderProofs ProviderProofs2 ProviderProofs5 MemorySpec QueryModel QuerySpec
  QueryProofs QueryProofs2 QueryProofs3 QueryProofs4 QueryProofs5 QueryProofs6 FreshSpec TornSpec TornSpec2.

(** A sequence whose second part is known only after what the first gives. *)
Lemma ok_bind2 {A B} (m : QM A) (f : A -> QM B) (R : list qcall -> list qcall -> A -> Prop) (S : A -> list qcall -> list qcall -> B -> Prop)
  (T : list qcall -> list qcall -> B -> Prop) :
  adds m (fun h qs x => on_ok x (R h qs)) -> (forall a h qs, R h qs a -> adds (f a) (fun h qs x => on_ok x (S a h qs))) ->
  (forall h q1 a q2 b, R h q1 a -> S a (h ++ q1) q2 b -> T h (q1 ++ q2) b) -> adds (qbind m f) (fun h qs x => on_ok x (T h qs)).
Proof.
  intros Hm Hf HT h st Hq. destruct (Hm h st Hq) as (q1 & st1 & x & H1 & H2 & H3 & H4). unfold qbind. rewrite H1. destruct x as [a|e| |].
  - destruct (Hf a h q1 (H4 a eq_refl) (h ++ q1) st1 H2) as (q2 & st2 & y & G1 & G2 & G3 & G4). rewrite G1. exists (q1 ++ q2), st2, y. rewrite app_assoc.
    repeat split; auto; [congruence|]. intros b ->. apply (HT h q1 a); [now apply H4 | now apply G4].
  - exists q1, st1, (Err e). repeat split; auto. intros b Hb. discriminate Hb.
  - exists q1, st1, Panic. repeat split; auto. intros b Hb. discriminate Hb.
  - exists q1, st1, NoFuel. repeat split; auto. intros b Hb. discriminate Hb.
Qed.
(** A time from [h] on, while the queries [qs] are made. *)
Definition mo (h qs x : list qcall) : Prop := exists m rest, x = h ++ m /\ qs = m ++ rest.
Lemma mo_here h qs : mo h qs h.
Proof. exists [], qs. now rewrite app_nil_r. Qed.
Lemma mo_l h q1 q2 x : mo h q1 x -> mo h (q1 ++ q2) x.
Proof. intros (m & rest & -> & ->). exists m, (rest ++ q2). now rewrite app_assoc. Qed.
Lemma mo_r h q1 q2 x : mo (h ++ q1) q2 x -> mo h (q1 ++ q2) x.
Proof. intros (m & rest & -> & ->). exists (q1 ++ m), rest. now rewrite !app_assoc. Qed.
Lemma from_more W files c (w1 w2 : list qcall -> Prop) P : (forall h, w1 h -> w2 h) -> from_files W files c w1 P -> from_files W files c w2 P.
Proof. intros H (h1 & h2 & H1 & H2 & H3). exists h1, h2. auto. Qed.

Section Torn.
  Variable E : penv.
  Variable D : database.
  Variable W : changing.
  Variable p : sprovider.
  Hypothesis HD : reads_changing E W D.
  Hypothesis Hp : provider_ok p.
  Hypothesis Ho : order_ok E.

  Lemma rows_of h f q ps rows : D h (mk_qcall f q ps) = Some rows -> select E f (W h f) q ps = Ok rows.
  Proof. rewrite HD. cbn [qc_file qc_sql qc_params]. destruct (select E f (W h f) q ps); congruence. Qed.
  Lemma languages_at f d c rows l : select E f d SqlLanguages [c] = Ok rows -> lang_read E rows = Ok l -> forall t, In t l <-> speaks_in E d c t.
  Proof.
    unfold select. destruct (pe_ok E _ _ _); cbn [negb]; [|discriminate]. intros [= <-] H t. unfold lang_read in H. apply (map_rows_tags E (fun t => t)) in H.
    assert (Hraw : forall x, In x (distinct (map co_tag (filter (fun r => ueqb (co_component r) c) (db_contributor d)))) <-> exists r, In r (db_contributor d) /\ co_component r = c /\ co_tag r = x).
    { intros x. rewrite distinct_In, in_map_iff. split.
      - intros (r & <- & Hr). apply filter_In in Hr. destruct Hr as (Hr & Hc). apply ueqb_eq in Hc. eauto.
      - intros (r & Hr & Hc & <-). exists r. split; [reflexivity|]. apply filter_In. split; [exact Hr | apply ueqb_eq; exact Hc]. }
    split.
    - intros Ht. destruct (Forall2_In_r _ _ _ t H Ht) as (x & Hx & Hcan). apply (order_In E Ho), Hraw in Hx. destruct Hx as (r & Hr & Hc & <-). exists r. auto.
    - intros (r & Hr & Hc & Hcan). pose proof (proj2 (Hraw (co_tag r)) (ex_intro _ r (conj Hr (conj Hc eq_refl)))) as Hx.
      apply (order_In E Ho f SqlLanguages [c]) in Hx. destruct (Forall2_In_l _ _ _ _ H Hx) as (y & Hy & Hcan'). congruence.
  Qed.
  Lemma contributors_at f d c t rows l : select E f d SqlContributors [t; c] = Ok rows -> map_rows (fun row => get_text row 0) rows = Ok l -> forall n, In n l <-> wrote_in d c t n.
  Proof.
    unfold select. destruct (pe_ok E _ _ _); cbn [negb]; [|discriminate]. intros [= <-] H n. rewrite (map_rows_texts (fun x => x)) in H. injection H as <-. rewrite map_id.
    rewrite (order_In E Ho), distinct_In, in_map_iff. split.
    - intros (r & <- & Hr). apply filter_In in Hr. destruct Hr as (Hr & Hc). apply andb_prop in Hc. destruct Hc as (H1 & H2). apply ueqb_eq in H1, H2. exists r. auto.
    - intros (r & Hr & Hc & Ht & <-). exists r. split; [reflexivity|]. apply filter_In. split; [exact Hr|]. subst. rewrite !ueqb_refl. reflexivity.
  Qed.
  Lemma count_at f d c t rows n : select E f d SqlCount [t; c] = Ok rows ->
    (let! l := map_rows (fun row => get_int row 0) rows in Ok (last l 0%N)) = (Ok n : pout N) -> n = stored_in d c t.
  Proof.
    unfold select. destruct (pe_ok E _ _ _); cbn [negb]; [|discriminate]. intros [= <-] H. cbn [map_rows get_int nth_error bind last] in H. now injection H as <-.
  Qed.
  Lemma default_at f d c rows o : select E f d SqlDefault [c] = Ok rows ->
    (let! l := map_rows (fun row => let! raw := get_text row 0 in registry_tag E raw) rows in Ok (last (map Some l) None)) = (Ok o : pout (option ustr)) ->
    match o with Some t => default_in E d c t | None => no_default_in d c end.
  Proof.
    unfold select. destruct (pe_ok E _ _ _); cbn [negb]; [|discriminate]. intros [= <-] H.
    apply bind_Ok in H. destruct H as (l & Hl & H). injection H as <-. apply (map_rows_tags E ir_tag) in Hl.
    destruct (last (map Some l) None) as [t|] eqn:El.
    - apply last_In in El. destruct (Forall2_In_r _ _ _ t Hl El) as (r & Hr & Hcan). apply (order_defaults_In E Ho) in Hr. apply filter_In in Hr.
      destruct Hr as (Hr & Hc). apply ueqb_eq in Hc. exists r. auto.
    - apply last_None in El. subst l. inversion Hl as [Hnil|]. intros r Hr Hc.
      assert (Hi : In r (pe_defaults E f SqlDefault [c] (filter (fun r => ueqb (ir_identifier r) c) (db_component d)))).
      { apply (order_defaults_In E Ho), filter_In. split; [exact Hr | apply ueqb_eq; exact Hc]. }
      rewrite <- Hnil in Hi. destruct Hi.
  Qed.

  Section Component.
    Variables (c : ustr) (files : bool * bool).
    Hypothesis Hc : mget c (sp_components p) = Some files.

    (** One query reads one content of one file. *)
    Lemma one_read {A} all k ps f (read : list (list cell) -> pout A) (P : db -> A -> Prop) : plain k -> QueryProofs2.file_of c files all = Some f ->
      (forall d rows a, select E f d (kind_sql k) ps = Ok rows -> read rows = Ok a -> P d a) ->
      adds (qbind (qret (connection p c all)) (fun '(f, (_, v)) => qbind (quietly (get_query (kind_key k) v (kind_sql k))) (fun q =>
        qbind (q_select D f q ps) (fun rows => qret (read rows))))) (fun h qs x => on_ok x (fun a => P (W h f) a)).
    Proof.
      intros Hk Hf HP. eapply adds_more; [exact (adds_single D p Hp c files all k ps f read Hk Hc Hf)|]. intros h qs x (-> & H) a ->.
      destruct (D h _) as [rows|] eqn:Ed; [|discriminate H]. symmetry in H. exact (HP _ rows a (rows_of _ _ _ _ _ Ed) H).
    Qed.
    Definition here (b : bool) (h : list qcall) (f : ustr) : option db := if b then Some (W h f) else None.
    Lemma read_aio {A} (m : QM A) a0 (P : db -> A -> Prop) : (fst files = true -> adds m (fun h qs x => on_ok x (fun a => P (W h aio) a))) ->
      adds (if fst files then m else qskip a0) (fun h qs x => on_ok x (fun a => match here (fst files) h aio with Some d => P d a | None => a = a0 end)).
    Proof. unfold here. destruct (fst files); [intros H; now apply H|]. intros _. apply ok_ret. congruence. Qed.
    Lemma read_own {A} (m : QM A) a0 (P : db -> A -> Prop) : (snd files = true -> adds m (fun h qs x => on_ok x (fun a => P (W h c) a))) ->
      adds (if snd files then m else qskip a0) (fun h qs x => on_ok x (fun a => match here (snd files) h c with Some d => P d a | None => a = a0 end)).
    Proof. unfold here. destruct (snd files); [intros H; now apply H|]. intros _. apply ok_ret. congruence. Qed.

    Lemma contributors_read t all f : QueryProofs2.file_of c files all = Some f ->
      adds (q_contributors D p c t all) (fun h qs x => on_ok x (fun l => forall n, In n l <-> wrote_in (W h f) c t n)).
    Proof.
      intros Hf. apply (one_read all (KPlain SqlContributors all) [t; c] f _ (fun d l => forall n, In n l <-> wrote_in d c t n) Logic.I Hf).
      intros d rows a. apply contributors_at.
    Qed.
    Lemma count_read t all f : QueryProofs2.file_of c files all = Some f ->
      adds (q_count D p c t all) (fun h qs x => on_ok x (fun n => n = stored_in (W h f) c t)).
    Proof.
      intros Hf. apply (one_read all (KPlain SqlCount all) [t; c] f (fun rows => let! l := map_rows (fun row => get_int row 0) rows in Ok (last l 0%N))
        (fun d n => n = stored_in d c t) Logic.I Hf). intros d rows a. apply count_at.
    Qed.
    Lemma languages_read all f : QueryProofs2.file_of c files all = Some f ->
      adds (q_languages E D p c all) (fun h qs x => on_ok x (fun l => forall t, In t l <-> speaks_in E (W h f) c t)).
    Proof.
      intros Hf. apply (one_read all (KPlain SqlLanguages all) [c] f (lang_read E) (fun d l => forall t, In t l <-> speaks_in E d c t) Logic.I Hf).
      intros d rows a. apply languages_at.
    Qed.
    Lemma default_read all f : QueryProofs2.file_of c files all = Some f ->
      adds (q_default_language E D p c all) (fun h qs x => on_ok x (fun o => match o with Some t => default_in E (W h f) c t | None => no_default_in (W h f) c end)).
    Proof.
      intros Hf. apply (one_read all (KPlain SqlDefault all) [c] f
        (fun rows => let! l := map_rows (fun row => let! raw := get_text row 0 in registry_tag E raw) rows in Ok (last (map Some l) None))
        (fun d o => match o with Some t => default_in E d c t | None => no_default_in d c end) Logic.I Hf). intros d rows a. apply default_at.
    Qed.

    Definition counted (h qs : list qcall) (t : ustr) (data : lgdata) : Prop :=
      from_files W files c (mo h qs) (fun d1 d2 => forall n, In n (lg_contributors data) <-> said (fun d => wrote_in d c t n) d1 \/ said (fun d => wrote_in d c t n) d2) /\
      from_files W files c (mo h qs) (fun d1 d2 => lg_count data = (number d1 c t + number d2 c t)%N).
    Lemma counted_more h qs h' qs' t data : (forall x, mo h qs x -> mo h' qs' x) -> counted h qs t data -> counted h' qs' t data.
    Proof. intros H (H1 & H2). split; eapply from_more; eauto. Qed.

    (** One language: its numbers are read anew. *)
    Lemma step_torn t acc : (fst files = false -> mget t (cd_languages (fst acc)) = Some no_data) ->
      adds (q_language_step D p c files t acc) (fun h qs x => on_ok x (fun acc' => cd_default (fst acc') = cd_default (fst acc) /\
        (exists data, counted h qs t data /\ cd_languages (fst acc') = minsert t data (cd_languages (fst acc))))).
    Proof.
      destruct acc as (cd & rd). cbn [fst]. intros Hn. unfold q_language_step. destruct (mget t (cd_languages cd)) as [data|]; [|apply ok_bad; cbn; tauto].
      assert (H0 : fst files = false -> lg_contributors data = [] /\ lg_count data = 0%N) by (intros Hf; specialize (Hn Hf); injection Hn as ->; now split).
      eapply (ok_bind _ _ _ (fun c1 h qs acc' => cd_default (fst acc') = cd_default cd /\ exists c2 n h2 h3 h4, mo h qs h2 /\ mo h qs h3 /\ mo h qs h4 /\
          match here (snd files) h2 c with Some d => forall n, In n c2 <-> wrote_in d c t n | None => c2 = [] end /\
          n = (number (here (fst files) h3 aio) c t + number (here (snd files) h4 c) c t)%N /\
          cd_languages (fst acc') = minsert t (mk_lgdata n (lg_ratio data) (fold_left push_new c2 c1)) (cd_languages cd)) _
        (read_aio _ _ (fun d l => forall n, In n l <-> wrote_in d c t n) (fun Hf => contributors_read t true aio (aio_file c files Hf)))).
      2:{ intros h q1 c1 q2 acc' H1 (Hd & c2 & n & h2 & h3 & h4 & M2 & M3 & M4 & H2 & H3 & H4). split; [exact Hd|]. exists (mk_lgdata n (lg_ratio data) (fold_left push_new c2 c1)).
          split; [|exact H4]. split.
          - exists h, h2. split; [apply mo_here|]. split; [now apply mo_r|]. intros x. cbn [lg_contributors]. rewrite push_all_In. unfold here in H1, H2.
            destruct (fst files), (snd files); cbn [said]; rewrite ?H1, ?H2; try rewrite (proj1 (H0 eq_refl)); cbn [In]; try tauto.
          - exists h3, h4. split; [now apply mo_r|]. split; [now apply mo_r|]. exact H3. }
      intros c1.
      eapply (ok_bind _ _ _ (fun c2 h qs acc' => cd_default (fst acc') = cd_default cd /\ exists n h3 h4, mo h qs h3 /\ mo h qs h4 /\
          n = (number (here (fst files) h3 aio) c t + number (here (snd files) h4 c) c t)%N /\
          cd_languages (fst acc') = minsert t (mk_lgdata n (lg_ratio data) (fold_left push_new c2 c1)) (cd_languages cd)) _
        (read_own _ _ (fun d l => forall n, In n l <-> wrote_in d c t n) (fun Hf => contributors_read t false c (own_file c files Hf)))).
      2:{ intros h q1 c2 q2 acc' H1 (Hd & n & h3 & h4 & M3 & M4 & H3 & H4). split; [exact Hd|]. exists c2, n, h, h3, h4.
          split; [apply mo_here|]. split; [now apply mo_r|]. split; [now apply mo_r|]. auto. }
      intros c2.
      eapply (ok_bind _ _ _ (fun n1 h qs acc' => cd_default (fst acc') = cd_default cd /\ exists n2 h4, mo h qs h4 /\
          n2 = number (here (snd files) h4 c) c t /\
          cd_languages (fst acc') = minsert t (mk_lgdata (n1 + n2) (lg_ratio data) (fold_left push_new c2 c1)) (cd_languages cd)) _
        (read_aio _ _ (fun d n => n = stored_in d c t) (fun Hf => count_read t true aio (aio_file c files Hf)))).
      2:{ intros h q1 n1 q2 acc' H1 (Hd & n2 & h4 & M4 & H3 & H4). split; [exact Hd|]. exists (n1 + n2)%N, h, h4.
          split; [apply mo_here|]. split; [now apply mo_r|]. split; [|exact H4]. rewrite H3. f_equal. unfold here in *. unfold number at 1.
          destruct (fst files); [exact H1|]. rewrite H1. apply H0. reflexivity. }
      intros n1.
      eapply (ok_bind _ _ _ (fun n2 h qs acc' => cd_default (fst acc') = cd_default cd /\
          cd_languages (fst acc') = minsert t (mk_lgdata (n1 + n2) (lg_ratio data) (fold_left push_new c2 c1)) (cd_languages cd)) _
        (read_own _ _ (fun d n => n = stored_in d c t) (fun Hf => count_read t false c (own_file c files Hf)))).
      2:{ intros h q1 n2 q2 acc' H1 (Hd & H4). split; [exact Hd|]. exists n2, h. split; [apply mo_here|]. split; [|exact H4]. unfold here, number in *. destruct (snd files); exact H1. }
      intros n2. destruct (mget t (rd_languages rd)) as [rl|]; [|apply ok_bad; cbn; tauto]. apply ok_ret. intros h acc' [= <-]. split; reflexivity.
    Qed.
    Lemma loop_torn ls : forall acc, (fst files = false -> NoDup ls /\ forall t, In t ls -> mget t (cd_languages (fst acc)) = Some no_data) ->
      adds (q_language_loop D p c files ls acc) (fun h qs x => on_ok x (fun acc' => cd_default (fst acc') = cd_default (fst acc) /\
        forall t, (In t ls -> exists data, mget t (cd_languages (fst acc')) = Some data /\ counted h qs t data) /\
                  (~ In t ls -> mget t (cd_languages (fst acc')) = mget t (cd_languages (fst acc))))).
    Proof.
      induction ls as [|t ls IH]; intros acc Ha; cbn [q_language_loop].
      - apply ok_ret. intros h acc' [= <-]. split; [reflexivity|]. intros t. split; [intros [] | reflexivity].
      - eapply (ok_bind2 _ _ _ (fun acc1 h qs acc' => cd_default (fst acc') = cd_default (fst acc1) /\
            forall t, (In t ls -> exists data, mget t (cd_languages (fst acc')) = Some data /\ counted h qs t data) /\
                  (~ In t ls -> mget t (cd_languages (fst acc')) = mget t (cd_languages (fst acc1)))) _
          (step_torn t acc (fun Hf => proj2 (Ha Hf) t (or_introl eq_refl)))).
        + intros acc1 h0 q0 (_ & data & _ & Hm). apply IH. intros Ef. destruct (Ha Ef) as (Hd & Hn). inversion Hd as [|t' ls' Ht Hd']; subst t' ls'.
          split; [exact Hd'|]. intros t1 H1. rewrite Hm, mget_minsert. destruct (ueqb_spec t1 t) as [->|Hne]; [contradiction | apply Hn; now right].
        + intros h q1 acc1 q2 acc' (Hd1 & data & Hcn & Hm) H2. destruct H2 as (Hd2 & H3). split; [congruence|].
          intros t1. destruct (H3 t1) as (H4 & H5). destruct (in_dec (list_eq_dec N.eq_dec) t1 ls) as [Hi|Hi].
          * split; [|intros Hni; destruct Hni; now right]. intros _. destruct (H4 Hi) as (data1 & H6 & H7). exists data1. split; [exact H6|].
            eapply counted_more; [|exact H7]. intros x. apply mo_r.
          * rewrite (H5 Hi), Hm, mget_minsert. destruct (ueqb_spec t1 t) as [->|Hne].
            -- split; [|intros Hni; destruct Hni; now left]. intros _. exists data. split; [reflexivity|]. eapply counted_more; [|exact Hcn]. intros x. apply mo_l.
            -- split; [intros [K|K]; [now destruct Hne | contradiction] | reflexivity].
    Qed.

    Definition default_part (h qs : list qcall) (t : ustr) : Prop := from_files W files c (mo h qs) (fun d1 d2 => said (fun d => default_in E d c t) d1 \/
      (silent c d1 /\ said (fun d => default_in E d c t) d2)).
    Definition rest_part (ls : list ustr) (cds : amap cdetails) (h qs : list qcall) (acc' : amap cdetails * rdetails) : Prop :=
      exists cd, fst acc' = minsert c cd cds /\ (forall t, mhas t (cd_languages cd) = true <-> In t ls) /\ default_part h qs (cd_default cd) /\
      forall t data, mget t (cd_languages cd) = Some data -> counted h qs t data /\
        exists def, mget (cd_default cd) (cd_languages cd) = Some def /\ lg_ratio data = Some (lg_count data, lg_count def).
    Lemma counted_ratio h qs t data r : counted h qs t data -> counted h qs t (mk_lgdata (lg_count data) r (lg_contributors data)).
    Proof. exact (fun H => H). Qed.
    Lemma component_torn acc : adds (q_component_step E D p c files acc) (fun h qs x => on_ok x (fun acc' => exists cd, fst acc' = minsert c cd (fst acc) /\ pieced E W files c (mo h qs) cd)).
    Proof.
      unfold q_component_step. destruct acc as (cds & rd0). cbn [fst]. set (rcomponents := rd_components rd0 ++ [c]).
      eapply (ok_bind _ _ (fun _ qs _ => qs = []) (fun _ h qs acc' => exists cd, fst acc' = minsert c cd cds /\ pieced E W files c (mo h qs) cd)); [apply ok_ret; reflexivity| |
        intros h q1 a q2 b -> H; rewrite app_nil_r in H; exact H]. intros _.
      eapply (ok_bind2 _ _ _ (fun l1 h qs acc' => exists ls l2 h2, rest_part ls cds h qs acc' /\ mo h qs h2 /\ (forall t, In t ls <-> In t l1 \/ In t l2) /\
          match here (snd files) h2 c with Some d => forall t, In t l2 <-> speaks_in E d c t | None => l2 = [] end) _
        (read_aio _ _ (fun d l => forall t, In t l <-> speaks_in E d c t) (fun Hf => languages_read true aio (aio_file c files Hf)))).
      2:{ intros h q1 l1 q2 acc' H1 (ls & l2 & h2 & (cd & R1 & R2 & R3 & R4) & M2 & H2 & H3). exists cd. split; [exact R1|]. split.
          - exists h, h2. split; [apply mo_here|]. split; [now apply mo_r|]. intros t. rewrite R2, H2. unfold here in H1, H3.
            destruct (fst files), (snd files); cbn [said]; try rewrite H1; try rewrite H3; cbn [In]; tauto.
          - split; [eapply from_more; [|exact R3]; intros x; apply mo_r|]. intros t data Hd. destruct (R4 t data Hd) as ((H4 & H5) & H6).
            split; [eapply from_more; [|exact H4]; intros x; apply mo_r|]. split; [eapply from_more; [|exact H5]; intros x; apply mo_r|]. exact H6. }
      intros l1 h01 q01 Hl1. set (cm1 := if fst files then add_aio_languages l1 [] else []). set (rm1 := fold_left ensure l1 (rd_languages rd0)).
      assert (Hcm : no_data_map cm1 /\ NoDup (mkeys cm1) /\ (forall t, In t (mkeys cm1) <-> In t l1) /\ (fst files = false -> l1 = [])).
      { unfold cm1. unfold here in Hl1. destruct (fst files).
        - destruct (add_aio_languages_facts l1 []) as (F1 & F2 & F3); [intros t x Hx; discriminate Hx | constructor|]. split; [exact F1|]. split; [exact F2|]. split; [|discriminate].
          intros t. rewrite F3. cbn [mkeys map In]. tauto.
        - rewrite Hl1. split; [intros t x Hx; discriminate Hx|]. split; [constructor|]. split; [reflexivity | auto]. }
      clearbody cm1. destruct Hcm as (C1 & C2 & C3 & C4).
      eapply (ok_bind _ _ _ (fun l2 h qs acc' => rest_part (fst (add_own_languages l2 (l1, cm1))) cds h qs acc') _
        (read_own _ _ (fun d l => forall t, In t l <-> speaks_in E d c t) (fun Hf => languages_read false c (own_file c files Hf)))).
      2:{ intros h q1 l2 q2 acc' H1 (cd & R1 & R2 & R3 & R4). pose proof (add_own_languages_facts l2 l1 cm1 C1 C2 C3) as F. destruct (add_own_languages l2 (l1, cm1)) as (ls & cm2).
          destruct F as (_ & _ & _ & F & _). cbn [fst] in R2. exists ls, l2, h. split; [|split; [apply mo_here|]; split; [exact F | exact H1]].
          exists cd. split; [exact R1|]. split; [exact R2|]. split; [eapply from_more; [|exact R3]; intros x; apply mo_r|].
          intros t data Hd. destruct (R4 t data Hd) as (H4 & H5). split; [eapply counted_more; [|exact H4]; intros x; apply mo_r | exact H5]. }
      intros l2. pose proof (add_own_languages_facts l2 l1 cm1 C1 C2 C3) as F. destruct (add_own_languages l2 (l1, cm1)) as (ls & cm2). destruct F as (F1 & F2 & F3 & F4 & F5). cbn [fst].
      eapply (ok_bind _ _ _ (fun d1 h qs acc' => exists t h2, mo h qs h2 /\ match d1 with Some t1 => t = t1 | None => match here (snd files) h2 c with Some d => default_in E d c t | None => False end end /\
          exists cd, fst acc' = minsert c cd cds /\ cd_default cd = t /\ (forall t, mhas t (cd_languages cd) = true <-> In t ls) /\
          forall t data, mget t (cd_languages cd) = Some data -> counted h qs t data /\
            exists def, mget (cd_default cd) (cd_languages cd) = Some def /\ lg_ratio data = Some (lg_count data, lg_count def)) _
        (read_aio _ _ (fun d o => match o with Some t => default_in E d c t | None => no_default_in d c end) (fun Hf => default_read true aio (aio_file c files Hf)))).
      2:{ intros h q1 d1 q2 acc' H1 (t & h2 & M2 & H2 & cd & R1 & <- & R2 & R3). exists cd. split; [exact R1|]. split; [exact R2|]. split.
          - exists h, h2. split; [apply mo_here|]. split; [now apply mo_r|]. unfold here in H1, H2. destruct d1 as [t1|].
            + subst t1. left. destruct (fst files); [exact H1 | discriminate H1].
            + right. destruct (fst files), (snd files); cbn [said silent]; split; first [exact H2 | exact H1 | exact Logic.I | destruct H2].
          - intros t data Hd. destruct (R3 t data Hd) as (H4 & H5). split; [eapply counted_more; [|exact H4]; intros x; apply mo_r | exact H5]. }
      intros d1.
      eapply (ok_bind _ _ (fun h qs d2 => match d1 with Some t1 => d2 = Some t1 | None => match d2 with Some t => match here (snd files) h c with Some d => default_in E d c t | None => False end | None => True end end)
        (fun d2 h qs acc' => exists t, d2 = Some t /\ exists cd, fst acc' = minsert c cd cds /\ cd_default cd = t /\ (forall t, mhas t (cd_languages cd) = true <-> In t ls) /\
          forall t data, mget t (cd_languages cd) = Some data -> counted h qs t data /\
            exists def, mget (cd_default cd) (cd_languages cd) = Some def /\ lg_ratio data = Some (lg_count data, lg_count def))).
      { destruct d1 as [t1|]; [apply ok_ret; congruence|].
        eapply adds_more; [exact (read_own _ _ (fun d o => match o with Some t => default_in E d c t | None => no_default_in d c end) (fun Hf => default_read false c (own_file c files Hf)))|].
        intros h qs x H o ->. specialize (H o eq_refl). unfold here in *. destruct (snd files); [destruct o; [exact H | exact Logic.I]|]. now rewrite H. }
      2:{ intros h q1 d2 q2 acc' H1 (t & -> & cd & R1 & R2 & R3 & R4). exists t, h. split; [apply mo_here|]. split; [destruct d1; [congruence | exact H1]|].
          exists cd. split; [exact R1|]. split; [exact R2|]. split; [exact R3|].
          intros t' data Hd. destruct (R4 t' data Hd) as (H4 & H5). split; [eapply counted_more; [|exact H4]; intros x; apply mo_r | exact H5]. }
      intros [t|]; [|apply ok_bad; cbn; tauto]. destruct (negb (mhas t cm2)); [apply ok_bad; cbn; tauto|].
      eapply (ok_bind _ _ _ (fun acc1 _ qs acc' => qs = [] /\ exists def, mget (cd_default (fst acc1)) (cd_languages (fst acc1)) = Some def /\
          fst acc' = minsert c (mk_cdetails (set_ratios (lg_count def) (cd_languages (fst acc1))) (cd_default (fst acc1)) (cd_total (fst acc1))) cds) _ (loop_torn ls _ _)).
      - intros (cd & rd). cbn [fst]. destruct (mget (cd_default cd) (cd_languages cd)) as [def|]; [|apply ok_bad; cbn; tauto].
        apply ok_ret. intros h a [= <-]. split; [reflexivity|]. exists def. split; reflexivity.
      - intros h q1 acc1 q2 acc' (Hd & Hl) (-> & def & Hdef & Ha). cbn [fst cd_default cd_languages] in Hd, Hl. exists t. split; [reflexivity|].
        eexists. split; [exact Ha|]. cbn [cd_default cd_languages]. split; [exact Hd|]. rewrite app_nil_r. split.
        + intros t'. rewrite mhas_true. rewrite set_ratios_get. destruct (Hl t') as (L1 & L2). destruct (in_dec (list_eq_dec N.eq_dec) t' ls) as [Hi|Hi].
          * destruct (L1 Hi) as (data & -> & _). cbn [option_map]. split; [auto | eauto].
          * rewrite (L2 Hi). replace (mget t' cm2) with (@None lgdata); [|symmetry; apply mget_None_keys; rewrite F3; exact Hi]. split; [intros (v & Hv); discriminate Hv | contradiction].
        + intros t' data. rewrite !set_ratios_get. destruct (Hl t') as (L1 & L2). destruct (in_dec (list_eq_dec N.eq_dec) t' ls) as [Hi|Hi].
          * destruct (L1 Hi) as (data' & -> & Hcn). cbn [option_map]. intros [= <-]. split; [apply counted_ratio; exact Hcn|]. rewrite Hdef. eexists. split; [reflexivity|]. reflexivity.
          * rewrite (L2 Hi). replace (mget t' cm2) with (@None lgdata); [|symmetry; apply mget_None_keys; rewrite F3; exact Hi]. discriminate.
      Unshelve. cbn [fst cd_languages]. intros Hf. split; [apply F5; rewrite (C4 Hf); constructor|]. intros t' Hi. apply F3, mget_keys in Hi. destruct Hi as (v & Hv). rewrite Hv. f_equal. exact (F1 t' v Hv).
    Qed.
  End Component.

  Lemma pieced_more files c (w1 w2 : list qcall -> Prop) cd : (forall h, w1 h -> w2 h) -> pieced E W files c w1 cd -> pieced E W files c w2 cd.
  Proof.
    intros H (H1 & H2 & H3). split; [eapply from_more; eauto|]. split; [eapply from_more; eauto|]. intros t data Hd. destruct (H3 t data Hd) as (H4 & H5 & H6).
    split; [eapply from_more; eauto|]. split; [eapply from_more; eauto | exact H6].
  Qed.
  Lemma components_torn cs : (forall c f, In (c, f) cs -> mget c (sp_components p) = Some f) -> NoDup (mkeys cs) ->
    forall acc, adds (q_component_loop E D p cs acc) (fun h qs x => on_ok x (fun acc' => forall c, match mget c cs with
      | Some files => exists cd, mget c (fst acc') = Some cd /\ pieced E W files c (mo h qs) cd
      | None => mget c (fst acc') = mget c (fst acc) end)).
  Proof.
    induction cs as [|(c & f) cs IH]; intros Hcs Hn acc; cbn [q_component_loop]; [apply ok_ret; intros h a [= <-] c; reflexivity|].
    cbn [mkeys map fst] in Hn. inversion Hn as [|c' cs' Hc' Hn']; subst c' cs'.
    eapply (ok_bind _ _ _ (fun acc1 h qs acc' => forall c, match mget c cs with
      | Some files => exists cd, mget c (fst acc') = Some cd /\ pieced E W files c (mo h qs) cd
      | None => mget c (fst acc') = mget c (fst acc1) end) _ (component_torn c f (Hcs c f (or_introl eq_refl)) acc)).
    - intros acc1. apply IH; [intros c' f' Hi; apply Hcs; now right | exact Hn'].
    - intros h q1 acc1 q2 acc' (cd & H1 & H2) H3 c1. specialize (H3 c1). cbn [mget]. destruct (ueqb_spec c1 c) as [->|Hne].
      + replace (mget c cs) with (@None (bool * bool)) in H3; [|symmetry; apply mget_None_keys; exact Hc']. rewrite H3, H1, mget_minsert, ueqb_refl.
        exists cd. split; [reflexivity|]. eapply pieced_more; [|exact H2]. intros x. apply mo_l.
      + destruct (mget c1 cs) as [files|].
        * destruct H3 as (cd1 & H4 & H5). exists cd1. split; [exact H4|]. eapply pieced_more; [|exact H5]. intros x. apply mo_r.
        * rewrite H3, H1, mget_minsert. destruct (ueqb_spec c1 c); [contradiction | reflexivity].
  Qed.
  Lemma build_torn : adds (q_build_details E D p) (fun h qs x => on_ok x (fun y => forall c cd, mget c (fst y) = Some cd ->
    exists files, mget c (sp_components p) = Some files /\ pieced E W files c (mo h qs) cd)).
  Proof.
    unfold q_build_details. eapply (ok_bind _ _ _ (fun acc _ qs y => qs = [] /\ fst y = fst acc) _ (components_torn (sp_components p) _ (proj1 Hp) ([], mk_rdetails [] None 0 [] []))).
    - intros (cds & rd). destruct (rd_default rd) as [t|]; [destruct (mget t (rd_languages rd)); [|apply ok_bad; cbn; tauto]|]; apply ok_ret; intros h y [= <-]; split; reflexivity.
    - intros h q1 acc q2 y H (-> & Hy) c cd Hcd. specialize (H c). rewrite Hy in Hcd. cbn [fst mget] in H. rewrite app_nil_r. destruct (mget c (sp_components p)) as [files|]; [|congruence].
      destruct H as (cd1 & H1 & H2). exists files. split; [reflexivity|]. congruence.
    Unshelve. intros c f Hi. exact (nodup_get _ c f (proj1 Hp) Hi).
  Qed.

  Theorem details_torn hist c cd : Forall (fun y => ~ asks_details y) hist ->
    let s := q_prun E D p qstate_new hist in let r := q_pcall E D p (CallComponent c) s in snd r = Ok (AnComponent cd) ->
    exists files, mget c (sp_components p) = Some files /\ pieced E W files c (during s r) cd.
  Proof.
    intros Hh s r Ha. pose proof (run_ok E D p Hp hist _ new_ok) as Hq. fold s in Hq. pose proof (no_details E D p Hp hist Hh qstate_new new_ok eq_refl) as Hn. fold s in Hn.
    unfold r in *. clearbody s. destruct s as (h & st). cbn [snd fst] in *. cbn [q_pcall] in *. unfold q_component_details in *.
    destruct (build_torn h st Hq) as (qs & st' & x & H1 & H2 & H3 & H4).
    assert (Hg : exists st2, q_get_details E D p (h, st) = ((h ++ qs, st2), x)).
    { unfold q_get_details. cbn [snd]. rewrite Hn, H1. destruct x as [y|e| |]; cbn [fst snd]; eexists; reflexivity. }
    destruct Hg as (st2 & Hg). unfold qbind at 1 2 in Ha. rewrite Hg in Ha. destruct x as [(cds & rd)|e| |]; cbn [snd] in Ha; try discriminate Ha.
    destruct (mget c cds) as [cd1|] eqn:Ec; cbn [qret qskip snd] in Ha; [|discriminate Ha]. injection Ha as ->.
    destruct (H4 _ eq_refl c cd Ec) as (files & Hf & Hpc). exists files. split; [exact Hf|]. eapply pieced_more; [|exact Hpc].
    intros x (m & rest & -> & ->). exists m, rest. cbn [fst]. split; [reflexivity|]. unfold qbind at 1 2. rewrite Hg, Ec. cbn [qret qskip fst]. now rewrite app_assoc.
  Qed.
End Torn.
