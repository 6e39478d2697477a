(** Proofs for C97: the provider with queries is that of [ProviderModel]; which queries lookups make. *)
From Coq Require Import Sorted.
From Verif Require Import Base BaseFacts RegistryModel ProviderModel ProviderSpec ProviderProofs ProviderProofs2 QueryModel QuerySpec.

(** ** Files that do not change *)
Section Static.
  Variable E : penv.
  Variable p : sprovider.
  Variable D : database.
  Hypothesis HD : reads_files E p D.

  Definition erases {A} (m : QM A) (m' : PM A) : Prop := forall s, (snd (fst (m s)), snd (m s)) = m' (snd s).
  Lemma erases_ret {A} (x : pout A) : erases (qret x) (pret x).
  Proof. intros s. reflexivity. Qed.
  Lemma erases_bind {A B} (m : QM A) m' (f : A -> QM B) f' : erases m m' -> (forall a, erases (f a) (f' a)) -> erases (qbind m f) (pbind m' f').
  Proof.
    intros Hm Hf s. unfold qbind, pbind. rewrite <- (Hm s). destruct (m s) as (s' & [a|e| |]); cbn [fst snd]; try reflexivity.
    exact (Hf a s').
  Qed.
  Lemma erases_bind_ret {A B} (x : pout A) (f : A -> QM B) f' : (forall a, x = Ok a -> erases (f a) (f' a)) -> erases (qbind (qret x) f) (pbind (pret x) f').
  Proof. intros Hf s. unfold qbind, pbind, qret, pret. destruct x as [a|e| |]; try reflexivity. exact (Hf a eq_refl s). Qed.
  Lemma erases_quietly {A} (m : PM A) : erases (quietly m) m.
  Proof. intros s. unfold quietly. now destruct (m (snd s)). Qed.
  Lemma erases_rows {A} f d v q ps (g : list (list cell) -> pout A) (G : list (list cell) -> QM A) : mget f (sp_connections p) = Some (d, v) ->
    (forall rows, erases (G rows) (pret (g rows))) ->
    erases (qbind (q_select D f q ps) G) (pret (let! rows := select E f d q ps in g rows)).
  Proof.
    intros Hf HG s. unfold qbind, q_select. rewrite (HD (fst s) f d v q ps Hf). pose proof (quiet_select E f d q ps) as (H1 & H2).
    destruct (select E f d q ps) as [rows|e| |] eqn:Es; cbn [bind]; try congruence.
    - exact (HG rows (fst s ++ [mk_qcall f q ps], snd s)).
    - unfold pret. cbn [fst snd]. do 2 f_equal. unfold select in Es. destruct (pe_ok E f q ps); cbn [negb] in Es; [|now injection Es as <-].
      destruct q; destruct ps as [|? [|? [|? [|]]]]; first [discriminate Es | now injection Es as <-].
  Qed.
  Lemma connection_file c all f d v : connection p c all = Ok (f, (d, v)) -> mget f (sp_connections p) = Some (d, v).
  Proof.
    unfold connection. destruct (mget c (sp_components p)) as [fs|]; [|discriminate].
    destruct (all && fst fs); [|destruct (snd fs); [|discriminate]].
    - destruct (mget aio (sp_connections p)) eqn:Em; [|discriminate]. intros H. now injection H as <- ->.
    - destruct (mget c (sp_connections p)) eqn:Em; [|discriminate]. intros H. now injection H as <- ->.
  Qed.
  Lemma erases_method {A} c all key k (m : ustr -> sql -> QM A) (m' : ustr -> db -> sql -> pout A) :
    (forall f d v q, mget f (sp_connections p) = Some (d, v) -> erases (m f q) (pret (m' f d q))) ->
    erases (qbind (qret (connection p c all)) (fun '(f, (_, v)) => qbind (quietly (get_query key v k)) (fun q => m f q)))
           (pbind (pret (connection p c all)) (fun '(f, (d, v)) => pbind (get_query key v k) (fun q => pret (m' f d q)))).
  Proof.
    intros Hm. apply erases_bind_ret. intros (f & d & v) Hc. apply erases_bind; [apply erases_quietly|]. intros q.
    exact (Hm f d v q (connection_file _ _ _ _ _ Hc)).
  Qed.
  Lemma erases_find_loop f d v q : mget f (sp_connections p) = Some (d, v) -> forall fuel c i exact t,
    erases (q_find_loop E D fuel f q c i exact t) (pret (find_loop E fuel f d q c i exact t)).
  Proof.
    intros Hf. induction fuel as [|fuel IH]; intros c i exact t; [apply erases_ret|]. cbn [q_find_loop find_loop].
    destruct t as [|x t]; [apply erases_ret|]. set (t' := if exact then x :: t else (x :: t) ++ [ch "%"]). cbv zeta.
    apply (erases_rows f d v); [exact Hf|]. intros rows s. unfold qbind, qret.
    destruct (map_rows _ rows) as [[|y ys]|e| |]; cbn [bind]; try reflexivity. exact (IH c i exact _ s).
  Qed.
  Lemma erases_find_strings c i t all one exact : erases (q_find_strings E D p c i t all one exact) (find_strings E p c i t all one exact).
  Proof. unfold q_find_strings, find_strings. apply erases_method. intros f d v q Hf. now apply erases_find_loop with v. Qed.
  Lemma erases_languages c all : erases (q_languages E D p c all) (languages E p c all).
  Proof. unfold q_languages, languages. apply erases_method. intros f d v q Hf. apply (erases_rows f d v); [exact Hf|]. intros. apply erases_ret. Qed.
  Lemma erases_identifier_languages c i all : erases (q_identifier_languages E D p c i all) (identifier_languages E p c i all).
  Proof. unfold q_identifier_languages, identifier_languages. apply erases_method. intros f d v q Hf. apply (erases_rows f d v); [exact Hf|]. intros. apply erases_ret. Qed.
  Lemma erases_contributors c t all : erases (q_contributors D p c t all) (contributors E p c t all).
  Proof. unfold q_contributors, contributors. apply erases_method. intros f d v q Hf. apply (erases_rows f d v); [exact Hf|]. intros. apply erases_ret. Qed.
  Lemma erases_count c t all : erases (q_count D p c t all) (count E p c t all).
  Proof. unfold q_count, count. apply erases_method. intros f d v q Hf. apply (erases_rows f d v); [exact Hf|]. intros. apply erases_ret. Qed.
  Lemma erases_default_language c all : erases (q_default_language E D p c all) (default_language E p c all).
  Proof. unfold q_default_language, default_language. apply erases_method. intros f d v q Hf. apply (erases_rows f d v); [exact Hf|]. intros. apply erases_ret. Qed.
  Ltac er := repeat (first [apply erases_ret | apply erases_find_strings | apply erases_languages | apply erases_identifier_languages
    | apply erases_contributors | apply erases_count | apply erases_default_language | apply erases_bind; [|intros ?]
    | match goal with |- context [if ?b then _ else _] => destruct b | |- context [match ?o with _ => _ end] => destruct o end]).
  Lemma erases_one_string exact c i t : erases (q_one_string E D p exact c i t) (one_string E p exact c i t).
  Proof. unfold q_one_string, one_string. er. Qed.
  Lemma erases_strings c i t : erases (q_strings E D p c i t) (strings E p c i t).
  Proof. unfold q_strings, strings. er. Qed.
  Lemma erases_language_step c f t acc : erases (q_language_step D p c f t acc) (language_step E p c f t acc).
  Proof. unfold q_language_step, language_step. er. Qed.
  Lemma erases_language_loop c f ls : forall acc, erases (q_language_loop D p c f ls acc) (language_loop E p c f ls acc).
  Proof. induction ls as [|t ls IH]; intros acc; cbn; [apply erases_ret|]. apply erases_bind; [apply erases_language_step | intros; apply IH]. Qed.
  Lemma erases_component_step c f acc : erases (q_component_step E D p c f acc) (component_step E p c f acc).
  Proof.
    unfold q_component_step, component_step. destruct acc as (cds & rd). apply erases_bind; [apply erases_ret|]. intros _.
    apply erases_bind; [er|]. intros l1. apply erases_bind; [er|]. intros l2. destruct (add_own_languages l2 _) as (ls & cm2).
    apply erases_bind; [er|]. intros d1. apply erases_bind; [er|]. intros [t|]; [|apply erases_ret]. destruct (negb _); [apply erases_ret|].
    apply erases_bind; [apply erases_language_loop|]. intros (cd & rd'). er.
  Qed.
  Lemma erases_component_loop cs : forall acc, erases (q_component_loop E D p cs acc) (component_loop E p cs acc).
  Proof. induction cs as [|(c & f) cs IH]; intros acc; cbn; [apply erases_ret|]. apply erases_bind; [apply erases_component_step | intros; apply IH]. Qed.
  Lemma erases_build : erases (q_build_details E D p) (build_details E p).
  Proof. unfold q_build_details, build_details. apply erases_bind; [apply erases_component_loop|]. intros (cds & rd). er. Qed.
  Lemma erases_get_details : erases (q_get_details E D p) (get_details E p).
  Proof.
    intros s. unfold q_get_details, get_details. destruct (ps_details (snd s)); [reflexivity|]. rewrite <- (erases_build s).
    destruct (q_build_details E D p s) as (s' & [x|e| |]); reflexivity.
  Qed.
  Theorem erases_call c : erases (q_pcall E D p c) (pcall_run E p c).
  Proof.
    destruct c; cbn [q_pcall pcall_run]; (apply erases_bind; [|intros; apply erases_ret]).
    - apply erases_one_string.
    - apply erases_one_string.
    - apply erases_strings.
    - apply erases_bind; [apply erases_get_details|]. intros (cds & rd). destruct (mget component cds); [|apply erases_ret].
      apply erases_bind; [apply erases_identifier_languages|]. intros l. apply erases_bind; [|intros; apply erases_ret].
      destruct l; [apply erases_identifier_languages | apply erases_ret].
    - apply erases_bind; [apply erases_get_details|]. intros (cds & rd). er.
    - apply erases_bind; [apply erases_get_details|]. intros (cds & rd). er.
  Qed.
  Theorem erases_run h : forall s, snd (q_prun E D p s h) = prun E p (snd s) h.
  Proof.
    induction h as [|c h IH]; intros s; [reflexivity|]. cbn [q_prun prun fold_left]. change (fold_left _ h ?x) with (q_prun E D p x h) at 1.
    rewrite (IH (fst (q_pcall E D p c s))). unfold prun. f_equal. exact (f_equal fst (erases_call c s)).
  Qed.
End Static.
