(** Proofs for C97: the queries for the details. *)
From Coq Require Import Sorted.
From Verif Require Import Base BaseFacts RegistryModel ProviderModel ProviderSpec ProviderProofs ProviderProofs2 QueryModel QuerySpec QueryProofs QueryProofs2 QueryProofs3.

Definition is_ok {A} (x : pout A) : Prop := match x with Ok _ => True | _ => False end.
(** The queries are the first of a plan, and all of it in case of success. *)
Definition along {A} (plan qs : list qcall) (x : pout A) : Prop := exists rest, plan = qs ++ rest /\ (is_ok x -> rest = []).
Lemma along_start {A} plan (x : pout A) : ~ is_ok x -> along plan [] x.
Proof. intros H. exists plan. split; [reflexivity | tauto]. Qed.
Lemma along_fail {A B} p1 p2 qs (x : pout A) (y : pout B) : along p1 qs x -> ~ is_ok y -> along (p1 ++ p2) qs y.
Proof. intros (rest & -> & _) H. exists (rest ++ p2). rewrite app_assoc. split; [reflexivity | tauto]. Qed.
Lemma along_app {A B} p1 p2 q1 q2 (a : A) (y : pout B) : along p1 q1 (Ok a) -> along p2 q2 y -> along (p1 ++ p2) (q1 ++ q2) y.
Proof.
  intros (r1 & -> & H1) (r2 & -> & H2). rewrite (H1 Logic.I), app_nil_r. exists r2. now rewrite app_assoc.
Qed.

Lemma rows_app D h q1 q2 : language_rows D h (q1 ++ q2) = language_rows D h q1 + language_rows D (h ++ q1) q2.
Proof.
  revert h. induction q1 as [|q q1 IH]; intros h; [cbn; now rewrite app_nil_r|]. cbn [app language_rows]. rewrite IH, <- app_assoc. cbn [app]. lia.
Qed.

Lemma nodup_get {V} (a : amap V) k v : NoDup (mkeys a) -> In (k, v) a -> mget k a = Some v.
Proof.
  induction a as [|(k' & v') a IH]; intros Hn Hi; [destruct Hi|]. cbn [mkeys map fst] in Hn. inversion Hn as [|? ? Hk Hn']; subst. cbn [mget].
  destruct Hi as [Hi|Hi]; [injection Hi as -> ->; now rewrite ueqb_refl|]. destruct (ueqb_spec k k') as [->|Hne]; [|now apply IH].
  destruct Hk. unfold mkeys. apply in_map_iff. now exists (k', v).
Qed.

Section Details.
  Variable E : penv.
  Variable D : database.
  Variable p : sprovider.
  Hypothesis Hp : provider_ok p.

  Lemma along_bind {A B} (m : QM A) (f : A -> QM B) p1 p2 : adds m (fun _ qs x => along p1 qs x) -> (forall a, adds (f a) (fun _ qs x => along p2 qs x)) ->
    adds (qbind m f) (fun _ qs x => along (p1 ++ p2) qs x).
  Proof.
    intros Hm Hf. apply (adds_bind m f _ _ _ Hm Hf).
    - intros h q1 a q2 x H1 H2. now apply along_app with a.
    - intros h q1 e H. apply along_fail with (x := @Err _ A e); auto.
    - intros h q1 H. apply along_fail with (x := @Panic _ A); auto.
    - intros h q1 H. apply along_fail with (x := @NoFuel _ A); auto.
  Qed.
  Lemma along_ret {A} (x : pout A) : adds (qret x) (fun _ qs y => along [] qs y).
  Proof. apply adds_ret. intros h. now exists []. Qed.

  (** One query. *)
  Definition single {A} (f : ustr) (q : sql) (ps : list ustr) (read : list (list cell) -> pout A) (h qs : list qcall) (x : pout A) : Prop :=
    qs = [mk_qcall f q ps] /\ x = match D h (mk_qcall f q ps) with Some rows => read rows | None => Err PSqlite end.
  Lemma adds_single {A} c files all k ps f (read : list (list cell) -> pout A) : plain k -> mget c (sp_components p) = Some files -> file_of c files all = Some f ->
    adds (qbind (qret (connection p c all)) (fun '(f, (_, v)) => qbind (quietly (get_query (kind_key k) v (kind_sql k))) (fun q =>
      qbind (q_select D f q ps) (fun rows => qret (read rows))))) (single f (kind_sql k) ps read).
  Proof.
    intros Hk Hc Hf.
    assert (Hm : forall f', file_of c files all = Some f' -> adds (qbind (q_select D f' (kind_sql k) ps) (fun rows => qret (read rows))) (single f' (kind_sql k) ps read)).
    { intros f' _. apply (adds_bind _ _ _ (fun a h qs x => qs = [] /\ x = read a) _ (adds_select D f' (kind_sql k) ps)).
      - intros a. apply adds_ret. auto.
      - intros h q1 a q2 x (-> & H1) (-> & ->). split; [reflexivity|]. destruct (D h _); [now injection H1 as -> | discriminate].
      - intros h q1 e (-> & H1). split; [reflexivity|]. destruct (D h _); [discriminate | now injection H1 as ->].
      - intros h q1 (-> & H1). destruct (D h _); discriminate.
      - intros h q1 (-> & H1). destruct (D h _); discriminate. }
    pose proof (adds_method p Hp c files all k (fun f q => qbind (q_select D f q ps) (fun rows => qret (read rows))) _ Hk Hc Hm) as H.
    rewrite Hf in H. exact H.
  Qed.
  Lemma single_along {A} f q ps read h qs (x : pout A) : single f q ps read h qs x -> along [mk_qcall f q ps] qs x.
  Proof. intros (-> & _). now exists []. Qed.

  Section Component.
    Variables (c : ustr) (files : bool * bool).
    Hypothesis Hc : mget c (sp_components p) = Some files.
    Definition two (q : sql) (ps : list ustr) : list qcall :=
      (if fst files then [mk_qcall aio q ps] else []) ++ (if snd files then [mk_qcall c q ps] else []).
    Definition language_plan (t : ustr) : list qcall := two SqlContributors [t; c] ++ two SqlCount [t; c].
    Definition default_plan (b : bool) : list qcall :=
      (if fst files then [mk_qcall aio SqlDefault [c]] else []) ++ (if b && snd files then [mk_qcall c SqlDefault [c]] else []).
    Definition component_plan (b : bool) (ls : list ustr) : list qcall :=
      two SqlLanguages [c] ++ default_plan b ++ List.concat (map language_plan ls).

    Lemma aio_file : fst files = true -> file_of c files true = Some aio.
    Proof. unfold file_of. now intros ->. Qed.
    Lemma own_file : snd files = true -> file_of c files false = Some c.
    Proof. unfold file_of. now intros ->. Qed.
    Lemma adds_contributors t all f : file_of c files all = Some f -> adds (q_contributors D p c t all) (fun _ qs x => along [mk_qcall f SqlContributors [t; c]] qs x).
    Proof.
      intros Hf. eapply adds_more; [exact (adds_single c files all (KPlain SqlContributors all) [t; c] f (fun rows => map_rows (fun row => get_text row 0) rows) Logic.I Hc Hf)|].
      intros h qs x H. exact (single_along _ _ _ _ _ _ _ H).
    Qed.
    Lemma adds_count t all f : file_of c files all = Some f -> adds (q_count D p c t all) (fun _ qs x => along [mk_qcall f SqlCount [t; c]] qs x).
    Proof.
      intros Hf. eapply adds_more; [exact (adds_single c files all (KPlain SqlCount all) [t; c] f
        (fun rows => let! l := map_rows (fun row => get_int row 0) rows in Ok (last l 0%N)) Logic.I Hc Hf)|].
      intros h qs x H. exact (single_along _ _ _ _ _ _ _ H).
    Qed.
    Lemma adds_default all f : file_of c files all = Some f -> adds (q_default_language E D p c all) (fun _ qs x => along [mk_qcall f SqlDefault [c]] qs x).
    Proof.
      intros Hf. eapply adds_more; [exact (adds_single c files all (KPlain SqlDefault all) [c] f
        (fun rows => let! l := map_rows (fun row => let! raw := get_text row 0 in registry_tag E raw) rows in Ok (last (map Some l) None)) Logic.I Hc Hf)|].
      intros h qs x H. exact (single_along _ _ _ _ _ _ _ H).
    Qed.
    Lemma adds_if {A} (b : bool) (m : QM A) a q : (b = true -> adds m (fun _ qs x => along [q] qs x)) ->
      adds (if b then m else qskip a) (fun _ qs x => along (if b then [q] else []) qs x).
    Proof. intros H. destruct b; [now apply H | apply along_ret]. Qed.

    Lemma adds_language_step t acc : adds (q_language_step D p c files t acc) (fun _ qs x => along (language_plan t) qs x).
    Proof.
      unfold q_language_step. destruct acc as (cd & rd). destruct (mget t (cd_languages cd)) as [data|]; [|apply adds_ret; intros h; now apply along_start].
      unfold language_plan, two. rewrite <- app_assoc.
      apply along_bind; [apply adds_if; intros Hf; now apply adds_contributors, aio_file|]. intros c1.
      apply along_bind; [apply adds_if; intros Hf; now apply adds_contributors, own_file|]. intros c2.
      apply along_bind; [apply adds_if; intros Hf; now apply adds_count, aio_file|]. intros n1.
      rewrite <- (app_nil_r (if snd files then _ else _)).
      apply along_bind; [apply adds_if; intros Hf; now apply adds_count, own_file|]. intros n2.
      destruct (mget t (rd_languages rd)); apply along_ret.
    Qed.
    Lemma adds_language_loop ls : forall acc, adds (q_language_loop D p c files ls acc) (fun _ qs x => along (List.concat (map language_plan ls)) qs x).
    Proof.
      induction ls as [|t ls IH]; intros acc; cbn [q_language_loop map List.concat]; [apply along_ret|].
      apply along_bind; [apply adds_language_step | exact IH].
    Qed.

    (** The languages of a component. *)
    Definition lang_read (rows : list (list cell)) : pout (list ustr) := map_rows (fun row => let! raw := get_text row 0 in registry_tag E raw) rows.
    Lemma lang_read_length rows : forall l, lang_read rows = Ok l -> List.length l = List.length rows.
    Proof.
      induction rows as [|r rows IH]; intros l H; cbn in H; [now injection H as <-|]. fold (lang_read rows) in H.
      destruct (get_text r 0) as [raw|e| |]; cbn [bind] in H; try discriminate H. destruct (registry_tag E raw); cbn [bind] in H; try discriminate H.
      destruct (lang_read rows) as [l'|e| |]; cbn [bind] in H; try discriminate H. injection H as <-. cbn. f_equal. now apply IH.
    Qed.
    Lemma lang_read_nth rows : forall l n t, lang_read rows = Ok l -> nth_error l n = Some t ->
      exists raw rest, nth_error rows n = Some (CellText raw :: rest) /\ pe_canon E raw = Some t.
    Proof.
      induction rows as [|r rows IH]; intros l n t H Hn; cbn in H; [injection H as <-; destruct n; discriminate Hn|]. fold (lang_read rows) in H.
      unfold get_text in H. destruct r as [|[raw|k] r]; cbn [nth_error bind] in H; try discriminate H. unfold registry_tag in H.
      destruct (pe_canon E raw) as [t'|] eqn:Ec; cbn [bind] in H; try discriminate H.
      destruct (lang_read rows) as [l'|e| |] eqn:El; cbn [bind] in H; try discriminate H. injection H as <-.
      destruct n; cbn [nth_error] in Hn |- *; [injection Hn as <-; eauto|]. now apply (IH l').
    Qed.
    Lemma lang_read_once h ps rows l : spelt_once E D -> D h (mk_qcall aio SqlLanguages ps) = Some rows -> lang_read rows = Ok l -> NoDup l.
    Proof.
      intros Ho Hd Hl. apply NoDup_nth_error. intros n m Hn Hnm. destruct (nth_error l n) as [t|] eqn:En; [|apply nth_error_None in En; lia].
      destruct (lang_read_nth rows l n t Hl En) as (r & x & Hr & Hcr). destruct (lang_read_nth rows l m t Hl (eq_sym Hnm)) as (r' & x' & Hr' & Hcr').
      apply (Ho h ps rows n m r r' x x' Hd Hr Hr'); congruence.
    Qed.
    Lemma adds_languages all f : file_of c files all = Some f -> adds (q_languages E D p c all) (single f SqlLanguages [c] lang_read).
    Proof. intros Hf. exact (adds_single c files all (KPlain SqlLanguages all) [c] f lang_read Logic.I Hc Hf). Qed.
    Definition langs_R (plan : list qcall) (once : Prop) (h qs : list qcall) (x : pout (list ustr)) : Prop :=
      along plan qs x /\ forall l, x = Ok l -> List.length l <= language_rows D h qs /\ (once -> NoDup l).
    Lemma single_langs f (once : Prop) h qs x : (once -> f = aio /\ spelt_once E D) -> single f SqlLanguages [c] lang_read h qs x ->
      langs_R [mk_qcall f SqlLanguages [c]] once h qs x.
    Proof.
      intros Ho Hs. split; [exact (single_along _ _ _ _ _ _ _ Hs)|]. intros l ->. destruct Hs as (-> & Hs). cbn [language_rows qc_sql].
      destruct (D h _) as [rows|] eqn:Ed; [|discriminate Hs]. symmetry in Hs. split; [rewrite (lang_read_length rows l Hs); lia|].
      intros H. destruct (Ho H) as (-> & H'). exact (lang_read_once h [c] rows l H' Ed Hs).
    Qed.
    Lemma adds_aio_languages : adds (if fst files then q_languages E D p c true else qskip [])
      (langs_R (if fst files then [mk_qcall aio SqlLanguages [c]] else []) (spelt_once E D)).
    Proof.
      destruct (fst files) eqn:Ef.
      - eapply adds_more; [apply adds_languages, aio_file; exact Ef|]. intros h qs x. apply single_langs. auto.
      - apply adds_ret. intros h. split; [now exists []|]. intros l [= <-]. split; [cbn; lia | constructor].
    Qed.
    Lemma adds_own_languages : adds (if snd files then q_languages E D p c false else qskip [])
      (langs_R (if snd files then [mk_qcall c SqlLanguages [c]] else []) False).
    Proof.
      destruct (snd files) eqn:Ef.
      - eapply adds_more; [apply adds_languages, own_file; exact Ef|]. intros h qs x. apply single_langs. tauto.
      - apply adds_ret. intros h. split; [now exists []|]. intros l [= <-]. split; [cbn; lia | tauto].
    Qed.
    Lemma own_languages_list l2 : forall l1 cm, let ls := fst (add_own_languages l2 (l1, cm)) in List.length ls <= List.length l1 + List.length l2 /\ (NoDup l1 -> NoDup ls).
    Proof.
      induction l2 as [|t l2 IH]; intros l1 cm; cbn [add_own_languages fold_left]; [cbn; split; [lia | auto]|]. cbn [fst snd].
      destruct (umem t l1) eqn:Et.
      - destruct (IH l1 cm) as (H1 & H2). unfold add_own_languages in *. cbn [List.length]. split; [lia | exact H2].
      - destruct (IH (l1 ++ [t]) (minsert t no_data cm)) as (H1 & H2). unfold add_own_languages in *. rewrite app_length in H1. cbn [List.length] in *. split; [lia|].
        intros Hn. apply H2. apply (Permutation_NoDup (Permutation_cons_append l1 t)). constructor; [|exact Hn]. intros Hi. apply umem_In in Hi. congruence.
    Qed.

    Definition component_R {A} (h qs : list qcall) (x : pout A) : Prop :=
      exists b ls, along (component_plan b ls) qs x /\ List.length ls <= language_rows D h qs /\ (spelt_once E D -> NoDup ls).
    Lemma component_R_start {A} h (x : pout A) : ~ is_ok x -> component_R h [] x.
    Proof. intros Hx. exists true, []. split; [now apply along_start | split; [cbn; lia | constructor]]. Qed.
    (** After the languages of the all in one file, and after all languages. *)
    Definition after_aio {A} (l1 : list ustr) (h qs : list qcall) (x : pout A) : Prop :=
      exists b ls, along ((if snd files then [mk_qcall c SqlLanguages [c]] else []) ++ default_plan b ++ List.concat (map language_plan ls)) qs x /\
        List.length ls <= List.length l1 + language_rows D h qs /\ (NoDup l1 -> NoDup ls).
    Definition after_languages {A} (ls : list ustr) (qs : list qcall) (x : pout A) : Prop :=
      exists b, along (default_plan b ++ List.concat (map language_plan ls)) qs x.
    Lemma aio_fails {A B} h q1 (x : pout A) (y : pout B) : along (if fst files then [mk_qcall aio SqlLanguages [c]] else []) q1 x -> ~ is_ok y -> component_R h q1 y.
    Proof.
      intros H Hy. exists true, []. split; [|split; [cbn; lia | constructor]]. unfold component_plan, two. rewrite <- app_assoc. now apply along_fail with x.
    Qed.
    Lemma own_fails {A B} l1 h q1 (x : pout A) (y : pout B) : along (if snd files then [mk_qcall c SqlLanguages [c]] else []) q1 x -> ~ is_ok y -> after_aio l1 h q1 y.
    Proof. intros H Hy. exists true, []. split; [|split; [cbn; lia | constructor]]. now apply along_fail with x. Qed.
    Lemma adds_component acc : adds (q_component_step E D p c files acc) (fun h qs x => component_R h qs x).
    Proof.
      unfold q_component_step. destruct acc as (cds & rd0). set (rcomponents := rd_components rd0 ++ [c]).
      apply (adds_bind _ _ (fun _ qs x => qs = []) (fun _ h qs x => component_R h qs x)); [apply adds_ret; auto| | | | |].
      2:{ intros h q1 a q2 x -> H. rewrite app_nil_r in H. exact H. }
      2:{ intros h q1 e ->. now apply component_R_start. }
      2:{ intros h q1 ->. now apply component_R_start. }
      2:{ intros h q1 ->. now apply component_R_start. }
      intros _. apply (adds_bind _ _ _ (fun l1 h qs x => after_aio l1 h qs x) _ adds_aio_languages).
      2:{ intros h q1 l1 q2 x (H1 & H2) (b & ls & H3 & H4 & H5). destruct (H2 l1 eq_refl) as (H6 & H7). exists b, ls.
          split; [unfold component_plan, two; rewrite <- app_assoc; now apply along_app with l1|]. split; [rewrite rows_app; lia | auto]. }
      2:{ intros h q1 e (H & _). now apply aio_fails with (x := @Err perror (list ustr) e). }
      2:{ intros h q1 (H & _). now apply aio_fails with (x := @Panic perror (list ustr)). }
      2:{ intros h q1 (H & _). now apply aio_fails with (x := @NoFuel perror (list ustr)). }
      intros l1. set (cm1 := if fst files then add_aio_languages l1 [] else []). set (rm1 := fold_left ensure l1 (rd_languages rd0)).
      apply (adds_bind _ _ _ (fun l2 h qs x => after_languages (fst (add_own_languages l2 (l1, cm1))) qs x) _ adds_own_languages).
      2:{ intros h q1 l2 q2 x (H1 & H2) (b & H3). destruct (H2 l2 eq_refl) as (H6 & _). destruct (own_languages_list l2 l1 cm1) as (H7 & H8).
          exists b, (fst (add_own_languages l2 (l1, cm1))). split; [now apply along_app with l2|]. split; [rewrite rows_app; lia | exact H8]. }
      2:{ intros h q1 e (H & _). now apply own_fails with (x := @Err perror (list ustr) e). }
      2:{ intros h q1 (H & _). now apply own_fails with (x := @Panic perror (list ustr)). }
      2:{ intros h q1 (H & _). now apply own_fails with (x := @NoFuel perror (list ustr)). }
      intros l2. destruct (add_own_languages l2 (l1, cm1)) as (ls & cm2). cbn [fst].
      apply (adds_bind _ _ (fun _ qs x => along (if fst files then [mk_qcall aio SqlDefault [c]] else []) qs x) (fun d1 _ qs x => exists b,
        along ((if b && snd files then [mk_qcall c SqlDefault [c]] else []) ++ List.concat (map language_plan ls)) qs x)).
      { apply adds_if. intros Hf. now apply adds_default, aio_file. }
      2:{ intros h q1 a q2 x H1 (b & H2). exists b. unfold default_plan. rewrite <- app_assoc. now apply along_app with a. }
      2:{ intros h q1 e H. exists true. unfold default_plan. rewrite <- app_assoc. now apply along_fail with (x := @Err perror (option ustr) e). }
      2:{ intros h q1 H. exists true. unfold default_plan. rewrite <- app_assoc. now apply along_fail with (x := @Panic perror (option ustr)). }
      2:{ intros h q1 H. exists true. unfold default_plan. rewrite <- app_assoc. now apply along_fail with (x := @NoFuel perror (option ustr)). }
      intros d1. set (b := match d1 with None => true | Some _ => false end).
      apply adds_more with (R := fun _ qs x => along ((if b && snd files then [mk_qcall c SqlDefault [c]] else []) ++ List.concat (map language_plan ls)) qs x);
        [|intros h qs x H; now exists b].
      apply along_bind.
      { unfold b. destruct d1 as [t|]; cbn [andb]; [apply along_ret|]. apply adds_if. intros Hf. now apply adds_default, own_file. }
      intros [t|]; [|apply adds_ret; intros h; now apply along_start].
      destruct (negb (mhas t cm2)); [apply adds_ret; intros h; now apply along_start|].
      rewrite <- (app_nil_r (List.concat _)). apply along_bind; [apply adds_language_loop|]. intros (cd & rd).
      destruct (mget (cd_default cd) (cd_languages cd)); apply along_ret.
    Qed.

    (** What is said of the queries of a component. *)
    Definition about (q : qcall) : Prop := List.length (qc_params q) = parameters (qc_sql q) /\ last (qc_params q) [] = c /\
      ((fst files = true /\ qc_file q = aio) \/ (snd files = true /\ qc_file q = c)).
    Lemma two_about q ps : List.length ps = parameters q -> last ps [] = c -> Forall about (two q ps).
    Proof.
      intros H1 H2. unfold two. destruct (fst files) eqn:E1, (snd files) eqn:E2; repeat apply Forall_cons; try apply Forall_nil; unfold about; cbn; rewrite ?E1, ?E2; auto.
    Qed.
    Lemma plan_about b ls : Forall about (component_plan b ls).
    Proof.
      unfold component_plan. apply Forall_app. split; [now apply two_about|]. apply Forall_app. split.
      - unfold default_plan. destruct (fst files) eqn:E1, (snd files) eqn:E2, b; repeat apply Forall_cons; try apply Forall_nil; unfold about; cbn; rewrite ?E1, ?E2; auto.
      - apply Forall_concat. apply Forall_map. apply Forall_forall. intros t _. unfold language_plan. apply Forall_app. split; now apply two_about.
    Qed.
    Lemma two_length q ps : List.length (two q ps) <= 2.
    Proof. unfold two. destruct (fst files), (snd files); cbn; lia. Qed.
    Lemma plan_length b ls : List.length (component_plan b ls) <= 4 + 4 * List.length ls.
    Proof.
      unfold component_plan. rewrite !app_length. pose proof (two_length SqlLanguages [c]) as H1.
      assert (H2 : List.length (default_plan b) <= 2) by (unfold default_plan; destruct (fst files), b, (snd files); cbn; lia).
      assert (H3 : List.length (List.concat (map language_plan ls)) <= 4 * List.length ls).
      { induction ls as [|t ls IH]; [cbn; lia|]. cbn [map List.concat List.length]. rewrite app_length. unfold language_plan at 1. rewrite app_length.
        pose proof (two_length SqlContributors [t; c]). pose proof (two_length SqlCount [t; c]). lia. }
      lia.
    Qed.
    Definition disjoint (l1 l2 : list qcall) : Prop := forall q, In q l1 -> In q l2 -> False.
    Lemma NoDup_two (l1 l2 : list qcall) : NoDup l1 -> NoDup l2 -> disjoint l1 l2 -> NoDup (l1 ++ l2).
    Proof.
      intros H1 H2 Hd. induction H1 as [|q l1 Hq H1 IH]; [exact H2|]. cbn. constructor.
      - intros Hi. apply in_app_or in Hi. destruct Hi as [Hi|Hi]; [now apply Hq | apply (Hd q); [now left | exact Hi]].
      - apply IH. intros q' Hq'. apply Hd. now right.
    Qed.
    Lemma two_In q ps x : In x (two q ps) -> qc_sql x = q /\ qc_params x = ps.
    Proof. unfold two. intros H. apply in_app_or in H. destruct (fst files), (snd files); cbn in H; destruct H as [H|H]; intuition (subst; auto). Qed.
    Lemma two_NoDup q ps : (snd files = true -> c <> aio) -> NoDup (two q ps).
    Proof.
      intros H. unfold two. destruct (fst files), (snd files); cbn; repeat constructor; cbn; try tauto. intros [Hx|[]]. injection Hx as Hx. now apply H.
    Qed.
    Lemma languages_In ls x : In x (List.concat (map language_plan ls)) -> exists t, In t ls /\ (qc_sql x = SqlContributors \/ qc_sql x = SqlCount) /\ qc_params x = [t; c].
    Proof.
      intros H. apply in_concat in H. destruct H as (l & Hl & Hx). apply in_map_iff in Hl. destruct Hl as (t & <- & Ht). exists t. split; [exact Ht|].
      unfold language_plan in Hx. apply in_app_or in Hx. destruct Hx as [Hx|Hx]; apply two_In in Hx; tauto.
    Qed.
    Lemma plan_NoDup b ls : (snd files = true -> c <> aio) -> NoDup ls -> NoDup (component_plan b ls).
    Proof.
      intros Ho Hn. assert (Hl : NoDup (List.concat (map language_plan ls))).
      { induction Hn as [|t ls Ht Hn IH]; [constructor|]. cbn [map List.concat]. apply NoDup_two; [|exact IH|].
        - unfold language_plan. apply NoDup_two; [now apply two_NoDup|now apply two_NoDup|]. intros q H1 H2. apply two_In in H1, H2. destruct H1, H2. congruence.
        - intros q H1 H2. apply languages_In in H2. destruct H2 as (t' & Ht' & _ & Hq). unfold language_plan in H1. apply in_app_or in H1.
          assert (t = t') by (destruct H1 as [H1|H1]; apply two_In in H1; destruct H1; congruence). now subst. }
      assert (Hd : NoDup (default_plan b)).
      { unfold default_plan. destruct (fst files), b, (snd files); cbn; repeat constructor; cbn; try tauto. intros [Hx|[]]. injection Hx as Hx. now apply Ho. }
      assert (Hs : forall q, In q (default_plan b) -> qc_sql q = SqlDefault).
      { unfold default_plan. intros q H. destruct (fst files), b, (snd files); cbn in H; intuition (subst; auto). }
      unfold component_plan. apply NoDup_two; [now apply two_NoDup| |].
      - apply NoDup_two; [exact Hd|exact Hl|]. intros q H1 H2. apply Hs in H1. apply languages_In in H2. destruct H2 as (t & _ & H2 & _). destruct H2; congruence.
      - intros q H1 H2. apply two_In in H1. apply in_app_or in H2. destruct H2 as [H2|H2]; [apply Hs in H2; destruct H1; congruence|].
        apply languages_In in H2. destruct H1, H2 as (t & _ & H2 & _). destruct H2; congruence.
    Qed.
  End Component.

  Lemma NoDup_prefix {A} (l r : list A) : NoDup (l ++ r) -> NoDup l.
  Proof. induction l as [|x l IH]; intros H; [constructor|]. inversion H; subst. constructor; [intros Hi; apply H2; apply in_or_app; auto | auto]. Qed.
  Definition about_some (cs : amap (bool * bool)) (q : qcall) : Prop := exists c files, In (c, files) cs /\ about c files q.
  Definition loop_R (cs : amap (bool * bool)) (h qs : list qcall) : Prop :=
    Forall (about_some cs) qs /\ List.length qs <= 4 * List.length cs + 4 * language_rows D h qs /\
    (own_names p -> spelt_once E D -> NoDup (mkeys cs) -> NoDup qs).
  Lemma component_loop_R c files cs {A} h qs (x : pout A) : mget c (sp_components p) = Some files -> component_R c files h qs x -> loop_R ((c, files) :: cs) h qs.
  Proof.
    intros Hc (b & ls & (rest & Hr & _) & H2 & H3). split; [|split].
    - pose proof (plan_about c files b ls) as H. rewrite Hr in H. apply Forall_app in H. destruct H as (H & _).
      eapply Forall_impl; [|exact H]. intros q Hq. exists c, files. split; [now left | exact Hq].
    - pose proof (plan_length c files b ls) as H. rewrite Hr, app_length in H. cbn [List.length]. lia.
    - intros Ho Hs _. apply NoDup_prefix with rest. rewrite <- Hr. apply plan_NoDup; [|auto]. intros Hf. apply (Ho c (fst files)). rewrite Hc. destruct files. cbn in *. now subst.
  Qed.
  Lemma adds_component_loop cs : (forall c f, In (c, f) cs -> mget c (sp_components p) = Some f) ->
    forall acc, adds (q_component_loop E D p cs acc) (fun h qs _ => loop_R cs h qs).
  Proof.
    induction cs as [|(c & f) cs IH]; intros Hcs acc; cbn [q_component_loop].
    - apply adds_ret. intros h. split; [constructor|]. split; [cbn; lia | constructor].
    - assert (Hc : mget c (sp_components p) = Some f) by (apply Hcs; now left).
      apply (adds_bind _ _ _ (fun _ h qs _ => loop_R cs h qs) _ (adds_component c f Hc acc)).
      + intros acc'. apply IH. intros c' f' Hi. apply Hcs. now right.
      + intros h q1 a q2 x H1 (H4 & H5 & H6). destruct (component_loop_R c f cs h q1 _ Hc H1) as (H7 & H8 & H9). split; [|split].
        * apply Forall_app. split; [exact H7|]. eapply Forall_impl; [|exact H4]. intros q (c' & f' & Hi & Hq). exists c', f'. split; [now right | exact Hq].
        * destruct (component_loop_R c f [] h q1 _ Hc H1) as (_ & H10 & _). cbn [List.length] in *. rewrite app_length, rows_app. lia.
        * intros Ho Hs Hn. cbn [mkeys map fst] in Hn. inversion Hn as [|? ? Hc' Hn']; subst. apply NoDup_two; [now apply H9 | now apply H6|].
          intros q Hq1 Hq2. destruct (component_loop_R c f [] h q1 _ Hc H1) as (H11 & _). rewrite Forall_forall in H11. destruct (H11 q Hq1) as (c1 & f1 & Hi1 & _ & Hl1 & _).
          rewrite Forall_forall in H4. destruct (H4 q Hq2) as (c2 & f2 & Hi2 & _ & Hl2 & _). destruct Hi1 as [Hi1|[]]. injection Hi1 as <- <-.
          apply Hc'. unfold mkeys. apply in_map_iff. exists (c2, f2). split; [cbn; congruence | exact Hi2].
      + intros h q1 e H. exact (component_loop_R c f cs h q1 _ Hc H).
      + intros h q1 H. exact (component_loop_R c f cs h q1 _ Hc H).
      + intros h q1 H. exact (component_loop_R c f cs h q1 _ Hc H).
  Qed.
  Lemma adds_build : adds (q_build_details E D p) (fun h qs _ => loop_R (sp_components p) h qs).
  Proof.
    unfold q_build_details.
    assert (Hcs : forall c f, In (c, f) (sp_components p) -> mget c (sp_components p) = Some f) by (intros c f Hi; exact (nodup_get _ c f (proj1 Hp) Hi)).
    apply (adds_bind _ _ _ (fun _ _ qs _ => qs = []) _ (adds_component_loop (sp_components p) Hcs _)).
    - intros (cds & rd). destruct (rd_default rd) as [t|]; [|now apply adds_ret]. destruct (mget t (rd_languages rd)); now apply adds_ret.
    - intros h q1 a q2 x H ->. now rewrite app_nil_r.
    - auto.
    - auto.
    - auto.
  Qed.
End Details.
