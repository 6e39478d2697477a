(** Proofs for C112: a call during which the files have one content. *)
From Verif Require Import Base BaseFacts RegistryModel ProviderModel ProviderSpec ProviderProofs ProviderProofs2 QueryModel QuerySpec QueryProofs FreshSpec.

Section Content.
  Variable E : penv.
  Variable p : sprovider.
  Variable D : database.
  Variable w : contents.
  Notation p' := (files_at w p).
  (** The files, if they always had this content. *)
  Definition fixed_at : database := fun _ q =>
    match select E (qc_file q) (w (qc_file q)) (qc_sql q) (qc_params q) with Ok rows => Some rows | _ => None end.
  Notation D' := fixed_at.

  Lemma mget_at f : mget f (sp_connections p') = match mget f (sp_connections p) with Some (_, v) => Some (w f, v) | None => None end.
  Proof.
    unfold files_at. cbn [sp_connections]. induction (sp_connections p) as [|(g & d & v) m IH]; [reflexivity|]. cbn [map mget fst snd].
    destruct (ueqb_spec f g) as [->|Hn]; [reflexivity|]. exact IH.
  Qed.
  Lemma fixed_reads : reads_files E p' D'.
  Proof.
    intros h f d v q ps H. rewrite mget_at in H. destruct (mget f (sp_connections p)) as [(d0 & v0)|]; [|discriminate]. injection H as <- <-. reflexivity.
  Qed.
  Lemma at_ok : provider_ok p -> provider_ok p'.
  Proof.
    intros (H1 & H2). split; [exact H1|]. intros c f Hc. destruct (H2 c f Hc) as (Ha & Hb). rewrite !mget_at. split; intros H.
    - destruct (Ha H) as (d & ->). eauto.
    - destruct (Hb H) as (d & ->). eauto.
  Qed.

  (** The same as long as the answers are. *)
  Definition tracks {T} (m m' : qstate -> qstate * T) : Prop := forall s, exists qs, fst (fst (m s)) = fst s ++ qs /\ (from_content E D w (fst s) qs -> m' s = m s).
  Lemma content_app h q1 q2 : from_content E D w h (q1 ++ q2) -> from_content E D w h q1 /\ from_content E D w (h ++ q1) q2.
  Proof.
    intros H. split; intros r q r' ->.
    - apply (H r q (r' ++ q2)). now rewrite <- app_assoc.
    - rewrite <- app_assoc. apply (H (q1 ++ r) q r'). now rewrite app_assoc.
  Qed.
  Lemma tracks_ret {A} (x : pout A) : tracks (qret x) (qret x).
  Proof. intros s. exists []. split; [now rewrite app_nil_r|reflexivity]. Qed.
  Lemma tracks_quietly {A} (m : PM A) : tracks (quietly m) (quietly m).
  Proof. intros s. exists []. unfold quietly. destruct (m (snd s)). split; [now rewrite app_nil_r|reflexivity]. Qed.
  Lemma tracks_bind {A B} (m m' : QM A) (f f' : A -> QM B) : tracks m m' -> (forall a, tracks (f a) (f' a)) -> tracks (qbind m f) (qbind m' f').
  Proof.
    intros Hm Hf s. destruct (Hm s) as (q1 & H1 & K1). unfold qbind. destruct (m s) as (s1 & [a|e| |]) eqn:Em; cbn [fst] in H1;
      try (exists q1; split; [exact H1|]; intros H; now rewrite (K1 H)).
    destruct (Hf a s1) as (q2 & H2 & K2). exists (q1 ++ q2). split; [rewrite H2, H1; now rewrite app_assoc|]. intros H. apply content_app in H as (Ha & Hb).
    rewrite (K1 Ha). apply K2. now rewrite H1.
  Qed.
  Lemma tracks_select f q ps : tracks (q_select D f q ps) (q_select D' f q ps).
  Proof.
    intros s. exists [mk_qcall f q ps]. split; [reflexivity|]. intros H. unfold q_select. do 2 f_equal. specialize (H [] (mk_qcall f q ps) [] eq_refl).
    rewrite app_nil_r in H. unfold fixed_at. now rewrite H.
  Qed.
  Lemma tracks_connection {A} c all (K K' : ustr -> ustr -> QM A) : (forall f v, tracks (K f v) (K' f v)) ->
    tracks (qbind (qret (connection p c all)) (fun '(f, (_, v)) => K f v)) (qbind (qret (connection p' c all)) (fun '(f, (_, v)) => K' f v)).
  Proof.
    intros HK s. unfold qbind, qret, connection. rewrite !mget_at. change (sp_components p') with (sp_components p).
    destruct (mget c (sp_components p)) as [fs|]; [|exact (tracks_ret (Err (PComponentNotFound c)) s)].
    destruct (all && fst fs); [|destruct (snd fs)].
    - destruct (mget aio (sp_connections p)) as [(d & v)|]; [exact (HK aio v s)|exact (tracks_ret Panic s)].
    - destruct (mget c (sp_connections p)) as [(d & v)|]; [exact (HK c v s)|exact (tracks_ret Panic s)].
    - exact (tracks_ret (Err (PComponentNotFound c)) s).
  Qed.
  Lemma tracks_find_loop f q fuel : forall c i exact t, tracks (q_find_loop E D fuel f q c i exact t) (q_find_loop E D' fuel f q c i exact t).
  Proof.
    induction fuel as [|fuel IH]; intros c i exact t; [apply tracks_ret|]. cbn [q_find_loop]. destruct t as [|x t]; [apply tracks_ret|].
    set (t' := if exact then x :: t else (x :: t) ++ [ch "%"]). cbv zeta. apply tracks_bind; [apply tracks_select|]. intros rows.
    apply tracks_bind; [apply tracks_ret|]. intros [|y ys]; [apply IH|apply tracks_ret].
  Qed.
  Ltac method := apply tracks_connection; intros f v; apply tracks_bind; [apply tracks_quietly|]; intros q.
  Lemma tracks_find_strings c i t all one exact : tracks (q_find_strings E D p c i t all one exact) (q_find_strings E D' p' c i t all one exact).
  Proof. unfold q_find_strings. method. apply tracks_find_loop. Qed.
  Ltac single := method; apply tracks_bind; [apply tracks_select|]; intros rows; apply tracks_ret.
  Lemma tracks_languages c all : tracks (q_languages E D p c all) (q_languages E D' p' c all).
  Proof. unfold q_languages. single. Qed.
  Lemma tracks_identifier_languages c i all : tracks (q_identifier_languages E D p c i all) (q_identifier_languages E D' p' c i all).
  Proof. unfold q_identifier_languages. single. Qed.
  Lemma tracks_contributors c t all : tracks (q_contributors D p c t all) (q_contributors D' p' c t all).
  Proof. unfold q_contributors. single. Qed.
  Lemma tracks_count c t all : tracks (q_count D p c t all) (q_count D' p' c t all).
  Proof. unfold q_count. single. Qed.
  Lemma tracks_default_language c all : tracks (q_default_language E D p c all) (q_default_language E D' p' c all).
  Proof. unfold q_default_language. single. Qed.
  Ltac tr := repeat (first [apply tracks_ret | apply tracks_find_strings | apply tracks_languages | apply tracks_identifier_languages
    | apply tracks_contributors | apply tracks_count | apply tracks_default_language | apply tracks_bind; [|intros ?]
    | match goal with |- context [if ?b then _ else _] => destruct b | |- context [match ?o with _ => _ end] => destruct o end]).
  Lemma tracks_one_string exact c i t : tracks (q_one_string E D p exact c i t) (q_one_string E D' p' exact c i t).
  Proof. unfold q_one_string. change (sp_components p') with (sp_components p). tr. Qed.
  Lemma tracks_strings c i t : tracks (q_strings E D p c i t) (q_strings E D' p' c i t).
  Proof. unfold q_strings. change (sp_components p') with (sp_components p). tr. Qed.
  Lemma tracks_language_step c f t acc : tracks (q_language_step D p c f t acc) (q_language_step D' p' c f t acc).
  Proof. unfold q_language_step. tr. Qed.
  Lemma tracks_language_loop c f ls : forall acc, tracks (q_language_loop D p c f ls acc) (q_language_loop D' p' c f ls acc).
  Proof. induction ls as [|t ls IH]; intros acc; cbn; [apply tracks_ret|]. apply tracks_bind; [apply tracks_language_step | intros; apply IH]. Qed.
  Lemma tracks_component_step c f acc : tracks (q_component_step E D p c f acc) (q_component_step E D' p' c f acc).
  Proof.
    unfold q_component_step. destruct acc as (cds & rd). apply tracks_bind; [apply tracks_ret|]. intros _.
    apply tracks_bind; [tr|]. intros l1. apply tracks_bind; [tr|]. intros l2. destruct (add_own_languages l2 _) as (ls & cm2).
    apply tracks_bind; [tr|]. intros d1. apply tracks_bind; [tr|]. intros [t|]; [|apply tracks_ret]. destruct (negb _); [apply tracks_ret|].
    apply tracks_bind; [apply tracks_language_loop|]. intros (cd & rd'). tr.
  Qed.
  Lemma tracks_component_loop cs : forall acc, tracks (q_component_loop E D p cs acc) (q_component_loop E D' p' cs acc).
  Proof. induction cs as [|(c & f) cs IH]; intros acc; cbn; [apply tracks_ret|]. apply tracks_bind; [apply tracks_component_step | intros; apply IH]. Qed.
  Lemma tracks_build : tracks (q_build_details E D p) (q_build_details E D' p').
  Proof. unfold q_build_details. change (sp_components p') with (sp_components p). apply tracks_bind; [apply tracks_component_loop|]. intros (cds & rd). tr. Qed.
  Lemma tracks_get_details : tracks (q_get_details E D p) (q_get_details E D' p').
  Proof.
    intros s. unfold q_get_details. destruct (ps_details (snd s)) as [d|]; [exists []; split; [now rewrite app_nil_r|reflexivity]|].
    destruct (tracks_build s) as (qs & H1 & H2). exists qs. destruct (q_build_details E D p s) as (s1 & [x|e| |]) eqn:Eb; cbn [fst snd] in *;
      (split; [exact H1|]; intros H; now rewrite (H2 H)).
  Qed.
  Theorem tracks_call c : tracks (q_pcall E D p c) (q_pcall E D' p' c).
  Proof.
    destruct c; cbn [q_pcall]; (apply tracks_bind; [|intros; apply tracks_ret]).
    - apply tracks_one_string.
    - apply tracks_one_string.
    - apply tracks_strings.
    - apply tracks_bind; [apply tracks_get_details|]. intros (cds & rd). destruct (mget component cds); [|apply tracks_ret].
      apply tracks_bind; [apply tracks_identifier_languages|]. intros l. apply tracks_bind; [|intros; apply tracks_ret].
      destruct l; [apply tracks_identifier_languages | apply tracks_ret].
    - apply tracks_bind; [apply tracks_get_details|]. intros (cds & rd). tr.
    - apply tracks_bind; [apply tracks_get_details|]. intros (cds & rd). tr.
  Qed.
  (** The result, and the state it leaves, are those of a provider on this content. *)
  Theorem call_at c s : (exists qs, new_queries s (q_pcall E D p c s) qs /\ from_content E D w (fst s) qs) ->
    (snd (fst (q_pcall E D p c s)), snd (q_pcall E D p c s)) = pcall_run E p' c (snd s).
  Proof.
    intros (qs & H1 & H2). destruct (tracks_call c s) as (qs' & H3 & H4). unfold new_queries in H1. rewrite H1 in H3. apply app_inv_head in H3 as <-.
    rewrite <- (H4 H2). exact (erases_call E p' D' fixed_reads c s).
  Qed.
End Content.
