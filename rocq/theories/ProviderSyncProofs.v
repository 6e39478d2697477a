(** Proofs about threads that use one sqlite3 provider. *)
From Verif Require Import Base BaseFacts RegistryModel ProviderModel ProviderSpec ProviderProofs ProviderSyncModel.

Section Threads.
  Variable E : penv.
  Variable p : sprovider.
  Hypothesis Hp : provider_ok p.

  (** What may be in the shared fields. *)
  Definition right (key : ustr) (q : sql) : Prop := exists k, plain k /\ key = kind_key k /\ q = kind_sql k.
  Definition right_components (v : amap cdetails) : Prop := exists rd, value (build_details E p) = Ok (v, rd).
  Definition right_repository (v : rdetails) : Prop := exists cds, value (build_details E p) = Ok (cds, v).
  (** The keys [K] are in the cache of queries; with [c] and [r] the cells are filled. *)
  Record shared_ok (K : list ustr) (c r : bool) (g : pshared) : Prop := {
    so_poisoned : sh_poisoned g = false;
    so_queries : forall key q, mget key (sh_queries g) = Some q -> right key q;
    so_known : forall key, In key K -> mget key (sh_queries g) <> None;
    so_components : forall v, sh_components g = Some v -> right_components v;
    so_repository : forall v, sh_repository g = Some v -> right_repository v;
    so_c : c = true -> sh_components g <> None;
    so_r : r = true -> sh_repository g <> None
  }.

  (** [m] ends with [x], or fails because SQLite fails, in at most [n] steps; the cells are then as [P] says. *)
  Inductive safe {A} (P : bool -> bool -> Prop) (x : pout A) : list ustr -> bool -> bool -> nat -> prog A -> Prop :=
  | s_ret K c r n : (forall a, x = Ok a -> P c r) -> safe P x K c r n (DRet x)
  | s_ask K c r n k : safe P x K c r n (k true) -> k false = DRet (Err PSqlite) -> safe P x K c r (S n) (DAsk k)
  | s_look K c r n key k : (forall q, right key q -> safe P x K c r n (k (Some q))) ->
      (~ In key K -> safe P x K c r n (k None)) -> safe P x K c r (S n) (DLook key k)
  | s_put K c r n key q k : right key q -> safe P x (key :: K) c r n k -> safe P x K c r (S n) (DPut key (us "1.0") q k)
  | s_get_c K c r n k : (forall v, right_components v -> safe P x K true r n (k (Some v))) ->
      (c = false -> safe P x K c r n (k None)) -> safe P x K c r (S n) (DGetComponents k)
  | s_get_r K c r n k : (forall v, right_repository v -> safe P x K c true n (k (Some v))) ->
      (r = false -> safe P x K c r n (k None)) -> safe P x K c r (S n) (DGetRepository k)
  | s_set_c K c r n v k : right_components v -> safe P x K true r n k -> safe P x K c r (S n) (DSetComponents v k)
  | s_set_r K c r n v k : right_repository v -> safe P x K c true n k -> safe P x K c r (S n) (DSetRepository v k).

  (** The outcome of a sequence. *)
  Lemma safe_bind {A B} P Q (x : pout A) (h : A -> pout B) K c r n n' m (g : A -> prog B) : safe P x K c r n m ->
    (forall a, x = Ok a -> forall K c r, P c r -> safe Q (h a) K c r n' (g a)) -> safe Q (bind x h) K c r (n + n') (dbind m g).
  Proof.
    intros Hm Hg. induction Hm as [K c r n Hr|K c r n k Hk IH Hf|K c r n key k H1 IH1 H2 IH2|K c r n key q k Hq H IH
      |K c r n k H1 IH1 H2 IH2|K c r n k H1 IH1 H2 IH2|K c r n v k Hv H IH|K c r n v k Hv H IH]; cbn [dbind Nat.add].
    - assert (Hw : forall y : pout B, (forall a, y = Ok a -> Q c r) -> safe Q y K c r (n + n') (DRet y)) by (intros y Hy; constructor; exact Hy).
      destruct x as [a|e| |]; cbn [bind]; try (apply Hw; discriminate). specialize (Hg a eq_refl K c r (Hr a eq_refl)).
      clear - Hg. revert Hg. generalize (g a). generalize (h a). intros y m H.
      assert (He : forall (P : bool -> bool -> Prop) (y : pout B) K c r n m, safe P y K c r n m -> forall j, safe P y K c r (j + n) m).
      { clear. intros P y K c r n m H. induction H; intros j; try rewrite Nat.add_succ_r; econstructor; eauto. }
      apply He. exact H.
    - constructor; [exact IH|]. rewrite Hf. reflexivity.
    - constructor; [intros q Hq; exact (IH1 q Hq) | intros Hn; exact (IH2 Hn)].
    - constructor; assumption.
    - constructor; [intros v Hv; exact (IH1 v Hv) | intros Hn; exact (IH2 Hn)].
    - constructor; [intros v Hv; exact (IH1 v Hv) | intros Hn; exact (IH2 Hn)].
    - constructor; assumption.
    - constructor; assumption.
  Qed.

  Definition all_cells (c r : bool) : Prop := True.
  (** The program [m] does what [f] does. *)
  Definition follows {A} (m : prog A) (f : PM A) : Prop := exists n, forall K c r, safe all_cells (value f) K c r n m.
  (** The program [m] has the outcome [x]. *)
  Definition ends {A} (m : prog A) (x : pout A) : Prop := exists n, forall K c r, safe all_cells x K c r n m.

  Lemma ends_ret {A} (x : pout A) : ends (DRet x) x.
  Proof. exists 0. intros K c r. constructor. intros; exact Logic.I. Qed.
  Lemma ends_bind {A B} (m : prog A) x (g : A -> prog B) h : ends m x -> (forall a, x = Ok a -> ends (g a) (h a)) -> ends (dbind m g) (bind x h).
  Proof.
    intros (n & Hm) Hg. destruct x as [a|e| |].
    - destruct (Hg a eq_refl) as (n' & Hn'). exists (n + n'). intros K c r. apply (safe_bind all_cells); [apply Hm|].
      intros b [= <-] K' c' r' _. apply Hn'.
    - exists (n + 0). intros K c r. apply (safe_bind all_cells); [apply Hm | discriminate].
    - exists (n + 0). intros K c r. apply (safe_bind all_cells); [apply Hm | discriminate].
    - exists (n + 0). intros K c r. apply (safe_bind all_cells); [apply Hm | discriminate].
  Qed.
  Lemma follows_ret {A} (x : pout A) : follows (DRet x) (pret x).
  Proof. apply ends_ret. Qed.
  Lemma follows_bind {A B} (m : prog A) f (g : A -> prog B) h : follows m f -> steady E p f -> (forall a, value f = Ok a -> steady E p (h a)) ->
    (forall a, value f = Ok a -> follows (g a) (h a)) -> follows (dbind m g) (pbind f h).
  Proof.
    intros Hm Hf Hs Hg. unfold follows. rewrite (value_bind E p f h Hf Hs). exact (ends_bind m (value f) g (fun a => value (h a)) Hm Hg).
  Qed.

  Lemma ends_ask {A} (x : pout A) : ends (DAsk (fun ok => DRet (if ok then x else Err PSqlite))) x.
  Proof. exists 1. intros K c r. constructor; [constructor; intros; exact Logic.I | reflexivity]. Qed.
  Lemma connection_ends c all : ends (sync_connection p c all) (connection p c all).
  Proof. unfold sync_connection. destruct (connection p c all) as [r|e| |]; [apply ends_ask | apply ends_ret ..]. Qed.
  Lemma query_ends k : plain k -> ends (sync_query (kind_key k) (us "1.0") (kind_sql k)) (Ok (kind_sql k)).
  Proof.
    intros Hk.
    assert (Hr : forall q, right (kind_key k) q -> q = kind_sql k).
    { intros q (k' & Hk' & Hkey & ->). symmetry. apply kind_key_inj; assumption. }
    exists 3. intros K c r. unfold sync_query. constructor.
    - intros q Hq. apply Hr in Hq. subst q. constructor. intros; exact Logic.I.
    - intros _. constructor; [exists k; auto|]. constructor.
      + intros q Hq. apply Hr in Hq. subst q. constructor. intros; exact Logic.I.
      + intros Hn. exfalso. apply Hn. left. reflexivity.
  Qed.
  Lemma select_ends f d q ps : ends (sync_select E f d q ps) (select E f d q ps).
  Proof. apply ends_ask. Qed.
  Lemma find_loop_ends fuel f d q c i exact t : ends (sync_find_loop E fuel f d q c i exact t) (find_loop E fuel f d q c i exact t).
  Proof.
    revert t; induction fuel as [|fuel IH]; intros t; cbn [sync_find_loop find_loop]; [apply ends_ret|].
    destruct t as [|x t]; [apply ends_ret|]. apply ends_bind; [apply select_ends|]. intros rows _.
    apply ends_bind; [apply ends_ret|]. intros [|y strings] _; [apply IH | apply ends_ret].
  Qed.

  (** A method that looks up its query and runs [g]. *)
  Lemma method_ends {A} c all k (m : ustr -> db -> sql -> prog A) g : plain k -> (forall f d, ends (m f d (kind_sql k)) (g f d)) ->
    ends (dbind (sync_connection p c all) (fun '(f, (d, v)) => dbind (sync_query (kind_key k) v (kind_sql k)) (fun q => m f d q)))
      (on_connection p c all g).
  Proof.
    intros Hk Hm. unfold on_connection. apply ends_bind; [apply connection_ends|]. intros (f & d & v) Hc.
    apply connection_version in Hc; [|exact Hp]. subst v.
    change (g f d) with (bind (Ok (kind_sql k) : pout sql) (fun _ => g f d)). apply ends_bind; [apply query_ends; exact Hk|]. intros q [= <-]. apply Hm.
  Qed.
  Lemma find_strings_follows c i t all one exact : follows (sync_find_strings E p c i t all one exact) (find_strings E p c i t all one exact).
  Proof.
    unfold follows. rewrite find_strings_value; [|exact Hp].
    apply (method_ends c all (KPattern all one exact) (fun f d q => sync_find_loop E (S (List.length t)) f d q c i exact t)); [exact Logic.I|].
    intros f d. apply find_loop_ends.
  Qed.
  Lemma rows_ends {A} f d q ps (g : list (list cell) -> pout A) :
    ends (dbind (sync_select E f d q ps) (fun rows => DRet (g rows))) (let! rows := select E f d q ps in g rows).
  Proof. apply ends_bind; [apply select_ends|]. intros rows _. apply ends_ret. Qed.
  Lemma languages_follows c all : follows (sync_languages E p c all) (languages E p c all).
  Proof.
    unfold follows. rewrite languages_value; [|exact Hp]. apply (method_ends c all (KPlain SqlLanguages all) (fun f d q => _)); [exact Logic.I|].
    intros f d. apply rows_ends.
  Qed.
  Lemma identifier_languages_follows c i all : follows (sync_identifier_languages E p c i all) (identifier_languages E p c i all).
  Proof.
    unfold follows. rewrite identifier_languages_value; [|exact Hp]. apply (method_ends c all (KPlain SqlIdentifier all) (fun f d q => _)); [exact Logic.I|].
    intros f d. apply rows_ends.
  Qed.
  Lemma contributors_follows c t all : follows (sync_contributors E p c t all) (contributors E p c t all).
  Proof.
    unfold follows. rewrite contributors_value; [|exact Hp]. apply (method_ends c all (KPlain SqlContributors all) (fun f d q => _)); [exact Logic.I|].
    intros f d. apply rows_ends.
  Qed.
  Lemma count_follows c t all : follows (sync_count E p c t all) (count E p c t all).
  Proof.
    unfold follows. rewrite count_value; [|exact Hp]. apply (method_ends c all (KPlain SqlCount all) (fun f d q => _)); [exact Logic.I|].
    intros f d. apply (rows_ends f d SqlCount [t; c] (fun rows => let! l := map_rows (fun row => get_int row 0) rows in Ok (last l 0%N))).
  Qed.
  Lemma default_language_follows c all : follows (sync_default_language E p c all) (default_language E p c all).
  Proof.
    unfold follows. rewrite default_language_value; [|exact Hp]. apply (method_ends c all (KPlain SqlDefault all) (fun f d q => _)); [exact Logic.I|].
    intros f d. apply (rows_ends f d SqlDefault [c] (fun rows =>
      let! l := map_rows (fun row => let! raw := get_text row 0 in registry_tag E raw) rows in Ok (last (map Some l) None))).
  Qed.

  Ltac steadily := repeat first
    [ apply find_strings_steady; exact Hp | apply languages_steady; exact Hp | apply identifier_languages_steady; exact Hp
    | apply contributors_steady; exact Hp | apply count_steady; exact Hp | apply default_language_steady; exact Hp
    | apply language_loop_steady; exact Hp
    | apply steady_ret | apply steady_bind; [|intros ? ?]
    | match goal with
      | |- steady _ _ (if ?b then _ else _) => destruct b
      | |- steady _ _ (match ?x with _ => _ end) => destruct x
      | |- steady _ _ (let (_, _) := ?x in _) => destruct x
      | |- steady _ _ (skip _) => apply steady_ret
      end ].
  Ltac follow := repeat first
    [ apply find_strings_follows | apply languages_follows | apply identifier_languages_follows
    | apply contributors_follows | apply count_follows | apply default_language_follows
    | apply follows_ret
    | apply follows_bind; [|steadily; fail|intros; cbv zeta; steadily; fail|intros ? ?; cbv zeta]
    | match goal with
      | |- follows (if ?b then _ else _) _ => destruct b
      | |- follows (match ?x with _ => _ end) _ => destruct x
      | |- follows (let (_, _) := ?x in _) _ => destruct x
      end ].

  Lemma one_string_follows exact c i t : follows (sync_one_string E p exact c i t) (one_string E p exact c i t).
  Proof. unfold sync_one_string, one_string. destruct (mget c (sp_components p)) as [files|]; follow. Qed.
  Lemma strings_follows c i t : follows (sync_strings E p c i t) (strings E p c i t).
  Proof. unfold sync_strings, strings. destruct (mget c (sp_components p)) as [files|]; follow. Qed.
  Lemma language_step_follows c f t acc : follows (sync_language_step E p c f t acc) (language_step E p c f t acc).
  Proof. unfold sync_language_step, language_step. destruct acc as (cd & rd). follow. Qed.
  Lemma language_loop_follows c f ls acc : follows (sync_language_loop E p c f ls acc) (language_loop E p c f ls acc).
  Proof.
    revert acc; induction ls as [|t ls IH]; intros acc; cbn [sync_language_loop language_loop]; [apply follows_ret|].
    apply follows_bind; [apply language_step_follows|apply language_step_steady; exact Hp|intros; apply language_loop_steady; exact Hp|]. intros acc' _. apply IH.
  Qed.
  Lemma component_step_follows c f acc : follows (sync_component_step E p c f acc) (component_step E p c f acc).
  Proof.
    unfold sync_component_step, component_step. destruct acc as (cds & rd0). follow. apply language_loop_follows.
  Qed.
  Lemma component_loop_follows cs acc : follows (sync_component_loop E p cs acc) (component_loop E p cs acc).
  Proof.
    revert acc; induction cs as [|(c & f) cs IH]; intros acc; cbn [sync_component_loop component_loop]; [apply follows_ret|].
    apply follows_bind; [apply component_step_follows|apply component_step_steady; exact Hp|intros; apply component_loop_steady; exact Hp|]. intros acc' _. apply IH.
  Qed.
  Lemma build_details_follows : follows (sync_build_details E p) (build_details E p).
  Proof.
    unfold sync_build_details, build_details.
    apply follows_bind; [apply component_loop_follows|apply component_loop_steady; exact Hp|intros (cds & rd) _; steadily|]. intros (cds & rd) _. follow.
  Qed.

  (** After [build_cache] both cells are filled. *)
  Definition both (c r : bool) : Prop := c = true /\ r = true.
  Lemma build_cache_safe : exists n, forall K c r,
    safe both (let! _ := value (build_details E p) in Ok tt) K c r n (sync_build_cache E p).
  Proof.
    destruct build_details_follows as (n & Hn). exists (n + 2). intros K c r. unfold sync_build_cache.
    apply (safe_bind all_cells); [apply Hn|]. intros (cds & rd) Hv K' c' r' _.
    constructor; [exists rd; exact Hv|]. constructor; [exists cds; exact Hv|]. constructor. split; reflexivity.
  Qed.
  Lemma components_ends : ends (sync_components E p) (let! (cds, _) := value (build_details E p) in Ok cds).
  Proof.
    destruct build_cache_safe as (n & Hn). exists (S (n + 1)). intros K c r. unfold sync_components. constructor.
    - intros v (rd & Hv). rewrite Hv. cbn [bind]. constructor. intros; exact Logic.I.
    - intros _.
      replace (let! (cds, _) := value (build_details E p) in Ok cds)
        with (let! _ := (let! _ := value (build_details E p) in Ok tt) in let! (cds, _) := value (build_details E p) in Ok cds)
        by (destruct (value (build_details E p)) as [(cds & rd)|e| |]; reflexivity).
      apply (safe_bind both); [apply Hn|]. intros [] Hb K' c' r' (-> & ->). constructor; [|discriminate].
      intros v (rd & Hv). rewrite Hv. cbn [bind]. constructor. intros; exact Logic.I.
  Qed.
  Lemma repository_ends : ends (sync_repository E p) (let! (_, rd) := value (build_details E p) in Ok rd).
  Proof.
    destruct build_cache_safe as (n & Hn). exists (S (n + 1)). intros K c r. unfold sync_repository. constructor.
    - intros v (cds & Hv). rewrite Hv. cbn [bind]. constructor. intros; exact Logic.I.
    - intros _.
      replace (let! (_, rd) := value (build_details E p) in Ok rd)
        with (let! _ := (let! _ := value (build_details E p) in Ok tt) in let! (_, rd) := value (build_details E p) in Ok rd)
        by (destruct (value (build_details E p)) as [(cds & rd)|e| |]; reflexivity).
      apply (safe_bind both); [apply Hn|]. intros [] Hb K' c' r' (-> & ->). constructor; [|discriminate].
      intros v (cds & Hv). rewrite Hv. cbn [bind]. constructor. intros; exact Logic.I.
  Qed.

  Lemma identifier_details_follows c i : follows (sync_identifier_details E p c i) (identifier_details E p c i).
  Proof.
    unfold follows, identifier_details. rewrite (value_bind E p); [|apply get_details_steady; exact Hp|intros (cds & rd) _; steadily].
    rewrite get_details_value.
    replace (bind (value (build_details E p)) _) with (bind (let! (cds, _) := value (build_details E p) in Ok cds)
      (fun cds => value (match mget c cds with
         | None => pret (Err (PComponentNotFound c))
         | Some cd => let* l := identifier_languages E p c i true in
                      let* l' := match l with [] => identifier_languages E p c i false | _ => skip l end in
                      skip (mk_idetails l' (cd_default cd)) end)))
      by (destruct (value (build_details E p)) as [(cds & rd)|e| |]; reflexivity).
    apply ends_bind; [apply components_ends|]. intros cds _. change (ends ?m (value ?f)) with (follows m f). follow.
  Qed.
  Lemma component_details_follows c : follows (sync_component_details E p c) (component_details E p c).
  Proof.
    unfold follows, component_details. rewrite (value_bind E p); [|apply get_details_steady; exact Hp|intros (cds & rd) _; steadily].
    rewrite get_details_value.
    replace (bind (value (build_details E p)) _) with (bind (let! (cds, _) := value (build_details E p) in Ok cds)
      (fun cds => value (match mget c cds with None => pret (Err (PComponentNotFound c)) | Some cd => skip cd end)))
      by (destruct (value (build_details E p)) as [(cds & rd)|e| |]; reflexivity).
    apply ends_bind; [apply components_ends|]. intros cds _. change (ends ?m (value ?f)) with (follows m f). follow.
  Qed.
  Lemma repository_details_follows : follows (sync_repository E p) (repository_details E p).
  Proof.
    unfold follows, repository_details. rewrite (value_bind E p); [|apply get_details_steady; exact Hp|intros (cds & rd) _; steadily].
    rewrite get_details_value.
    replace (bind (value (build_details E p)) _) with (let! (_, rd) := value (build_details E p) in Ok rd)
      by (destruct (value (build_details E p)) as [(cds & rd)|e| |]; reflexivity).
    apply repository_ends.
  Qed.
  Lemma call_follows c : follows (sync_pcall E p c) (pcall_run E p c).
  Proof.
    destruct c; cbn [sync_pcall pcall_run]; (apply follows_bind; [| |intros; apply steady_ret|intros; apply follows_ret]);
      first [ apply one_string_follows | apply strings_follows | apply identifier_details_follows | apply component_details_follows
            | apply repository_details_follows | apply one_string_steady; exact Hp | apply strings_steady; exact Hp
            | apply identifier_details_steady; exact Hp | apply component_details_steady; exact Hp | apply repository_details_steady; exact Hp ].
  Qed.

  (** ** Steps *)
  Lemma safe_more {A} P (x : pout A) K c r n m : safe P x K c r n m -> forall n', n <= n' -> safe P x K c r n' m.
  Proof.
    intros H. induction H as [K c r n Hr|K c r n k Hk IH Hf|K c r n key k H1 IH1 H2 IH2|K c r n key q k Hq H IH
      |K c r n k H1 IH1 H2 IH2|K c r n k H1 IH1 H2 IH2|K c r n v k Hv H IH|K c r n v k Hv H IH]; intros n' Hn;
      [constructor; exact Hr|..]; (destruct n' as [|n']; [lia|]); constructor; auto with arith.
  Qed.

  Lemma shared_new : shared_ok [] false false pshared_new.
  Proof. constructor; cbn; try reflexivity; try discriminate; intros; contradiction. Qed.
  Lemma shared_less K c r g : shared_ok K c r g -> shared_ok [] false false g.
  Proof. intros []. constructor; auto; try discriminate; intros key []. Qed.

  (** What a thread does changes nothing that another one relies on. *)
  Lemma step_safe {A} (x : pout A) P K c r n m g ok g' m' : shared_ok K c r g -> safe P x K c r n m -> prog_step g ok m = Some (g', m') ->
    (forall K c r, shared_ok K c r g -> shared_ok K c r g') /\
    ((m' = DRet (Err PSqlite) /\ ok = false) \/ exists n' K' c' r', n = S n' /\ shared_ok K' c' r' g' /\ safe P x K' c' r' n' m').
  Proof.
    intros Hg Hs. destruct Hs as [K c r n Hr|K c r n k Hk Hf|K c r n key k H1 H2|K c r n key q k Hq H
      |K c r n k H1 H2|K c r n k H1 H2|K c r n v k Hv H|K c r n v k Hv H]; cbn [prog_step].
    - discriminate.
    - intros [= <- <-]. split; [auto|]. destruct ok; [right; exists n, K, c, r; auto | left; auto].
    - rewrite (so_poisoned _ _ _ _ Hg). intros [= <- <-]. split; [auto|]. right. exists n, K, c, r. split; [reflexivity|]. split; [exact Hg|].
      destruct (mget key (sh_queries g)) as [q|] eqn:Eq; [exact (H1 q (so_queries _ _ _ _ Hg key q Eq))|].
      apply H2. intros Hk. exact (so_known _ _ _ _ Hg key Hk Eq).
    - rewrite (so_poisoned _ _ _ _ Hg). unfold make_query. rewrite ueqb_refl. intros [= <- <-].
      assert (Hw : forall K c r, shared_ok K c r g ->
        shared_ok (key :: K) c r (mk_pshared (minsert key q (sh_queries g)) false (sh_components g) (sh_repository g))).
      { intros K' c' r' []. constructor; cbn [sh_poisoned sh_queries sh_components sh_repository]; auto.
        - intros key' q'. rewrite mget_minsert. destruct (ueqb_spec key' key) as [->|Hn]; [intros [= <-]; exact Hq | apply so_queries0].
        - intros key' Hk. rewrite mget_minsert. destruct (ueqb_spec key' key) as [->|Hn]; [discriminate|].
          apply so_known0. destruct Hk as [<-|Hk]; [contradiction Hn; reflexivity | exact Hk]. }
      split.
      + intros K' c' r' Hg'. destruct (Hw K' c' r' Hg'). constructor; auto. intros key' Hk. apply so_known0. right. exact Hk.
      + right. exists n, (key :: K), c, r. auto.
    - intros [= <- <-]. split; [auto|]. right. destruct (sh_components g) as [v|] eqn:Ev.
      + exists n, K, true, r. split; [reflexivity|]. split; [|exact (H1 v (so_components _ _ _ _ Hg v Ev))].
        destruct Hg. constructor; auto. intros _. rewrite Ev. discriminate.
      + exists n, K, c, r. split; [reflexivity|]. split; [exact Hg|]. apply H2. destruct c; [destruct (so_c _ _ _ _ Hg eq_refl Ev) | reflexivity].
    - intros [= <- <-]. split; [auto|]. right. destruct (sh_repository g) as [v|] eqn:Ev.
      + exists n, K, c, true. split; [reflexivity|]. split; [|exact (H1 v (so_repository _ _ _ _ Hg v Ev))].
        destruct Hg. constructor; auto. intros _. rewrite Ev. discriminate.
      + exists n, K, c, r. split; [reflexivity|]. split; [exact Hg|]. apply H2. destruct r; [destruct (so_r _ _ _ _ Hg eq_refl Ev) | reflexivity].
    - intros [= <- <-].
      assert (Hw : forall K c r, shared_ok K c r g ->
        shared_ok K true r (mk_pshared (sh_queries g) (sh_poisoned g) (match sh_components g with None => Some v | o => o end) (sh_repository g))).
      { intros K' c' r' []. constructor; cbn [sh_poisoned sh_queries sh_components sh_repository]; auto.
        - destruct (sh_components g) as [w|]; intros u [= <-]; [apply so_components0; reflexivity | exact Hv].
        - intros _. destruct (sh_components g); discriminate. }
      split; [|right; exists n, K, true, r; split; [reflexivity|]; split; [exact (Hw K c r Hg) | exact H]]. intros K' c' r' Hg'. destruct (Hw K' c' r' Hg'). constructor; auto; intros _; apply so_c0; reflexivity.
    - intros [= <- <-].
      assert (Hw : forall K c r, shared_ok K c r g ->
        shared_ok K c true (mk_pshared (sh_queries g) (sh_poisoned g) (sh_components g) (match sh_repository g with None => Some v | o => o end))).
      { intros K' c' r' []. constructor; cbn [sh_poisoned sh_queries sh_components sh_repository]; auto.
        - destruct (sh_repository g) as [w|]; intros u [= <-]; [apply so_repository0; reflexivity | exact Hv].
        - intros _. destruct (sh_repository g); discriminate. }
      split; [|right; exists n, K, c, true; split; [reflexivity|]; split; [exact (Hw K c r Hg) | exact H]]. intros K' c' r' Hg'. destruct (Hw K' c' r' Hg'). constructor; auto; intros _; apply so_r0; reflexivity.
  Qed.

  (** ** Calls *)
  Definition call_ok (g : pshared) (failed : Prop) (n : nat) (x : pcall * prog panswer) : Prop :=
    (snd x = DRet (Err PSqlite) /\ failed) \/
    exists K c r, shared_ok K c r g /\ safe all_cells (value (pcall_run E p (fst x))) K c r n (snd x).
  Lemma call_ok_more g g' (failed failed' : Prop) n n' x : call_ok g failed n x -> (forall K c r, shared_ok K c r g -> shared_ok K c r g') ->
    (failed -> failed') -> n <= n' -> call_ok g' failed' n' x.
  Proof.
    intros [(Hx & Hf)|(K & c & r & Hg & Hs)] Hw Hff Hn; [left; auto|]. right. exists K, c, r. split; [auto|]. exact (safe_more _ _ _ _ _ _ _ Hs n' Hn).
  Qed.
  Lemma nth_update {A} (l : list A) i x y j : nth_error l i = Some y ->
    nth_error (firstn i l ++ x :: skipn (S i) l) j = if Nat.eqb j i then Some x else nth_error l j.
  Proof.
    revert i j; induction l as [|z l IH]; intros [|i] j Hi; try discriminate Hi.
    - destruct j as [|j]; reflexivity.
    - destruct j as [|j]; [reflexivity|]. cbn [firstn app nth_error Nat.eqb]. exact (IH i j Hi).
  Qed.

  (** One event, for one call. *)
  Lemma event_call G e i x n (failed : Prop) : shared_ok [] false false (pf_shared G) -> nth_error (pf_calls G) i = Some x -> call_ok (pf_shared G) failed n x ->
    (forall j y, nth_error (pf_calls G) j = Some y -> exists n failed, call_ok (pf_shared G) failed n y) ->
    exists x', nth_error (pf_calls (pevent_step E p G e)) i = Some x' /\ fst x' = fst x /\
      call_ok (pf_shared (pevent_step E p G e)) (failed \/ e = EStep i false) (match e with EStep j _ => if Nat.eqb j i then pred n else n | _ => n end) x'.
  Proof.
    intros Hg Hi Hx Hall. destruct e as [c|j ok]; cbn [pevent_step].
    - exists x. cbn [pf_calls pf_shared]. split; [|split; [reflexivity|]].
      + rewrite nth_error_app1; [exact Hi|]. apply nth_error_Some. rewrite Hi. discriminate.
      + apply (call_ok_more _ _ _ _ _ _ _ Hx); auto.
    - destruct (nth_error (pf_calls G) j) as [(c & m)|] eqn:Ej.
      2: { exists x. split; [exact Hi|]. split; [reflexivity|]. destruct (Nat.eqb_spec j i) as [->|Hn]; [congruence|].
           apply (call_ok_more _ _ _ _ _ _ _ Hx); auto. }
      destruct (prog_step (pf_shared G) ok m) as [(s & m')|] eqn:Es.
      + cbn [pf_calls pf_shared]. rewrite (nth_update _ _ _ _ _ Ej). rewrite Nat.eqb_sym. destruct (Nat.eqb_spec j i) as [->|Hn].
        * exists (c, m'). split; [reflexivity|]. assert (x = (c, m)) by congruence. subst x. split; [reflexivity|].
          destruct Hx as [(Hx & Hf)|(K & c' & r & Hg' & Hs)]; cbn [snd fst] in *; [subst m; discriminate Es|].
          destruct (step_safe _ _ _ _ _ _ _ _ _ _ _ Hg' Hs Es) as (Hw & [(-> & ->)|(n' & K' & c'' & r' & -> & Hg'' & Hs')]).
          -- left. auto.
          -- right. exists K', c'', r'. auto.
        * exists x. split; [exact Hi|]. split; [reflexivity|]. destruct (Hall j _ Ej) as (n0 & f0 & [(Hx0 & _)|(K & c' & r & Hg' & Hs)]); cbn [snd fst] in *.
          -- subst m. discriminate Es.
          -- destruct (step_safe _ _ _ _ _ _ _ _ _ _ _ Hg' Hs Es) as (Hw & _). apply (call_ok_more _ _ _ _ _ _ _ Hx); auto.
      + exists x. split; [exact Hi|]. split; [reflexivity|]. destruct (Nat.eqb_spec j i) as [->|Hn].
        * assert (x = (c, m)) by congruence. subst x. destruct Hx as [(Hx & Hf)|(K & c' & r & Hg' & Hs)]; [left; auto|]. right. exists K, c', r.
          split; [exact Hg'|]. cbn [fst snd] in *. inversion Hs; subst; try discriminate Es. { constructor; assumption. }
          all: exfalso; cbn [prog_step] in Es; destruct (sh_poisoned (pf_shared G)); [discriminate Es|]; unfold make_query in Es; rewrite ueqb_refl in Es; discriminate Es.
        * apply (call_ok_more _ _ _ _ _ _ _ Hx); auto.
  Qed.
  Lemma event_shared G e : shared_ok [] false false (pf_shared G) ->
    (forall j y, nth_error (pf_calls G) j = Some y -> exists n failed, call_ok (pf_shared G) failed n y) ->
    shared_ok [] false false (pf_shared (pevent_step E p G e)).
  Proof.
    intros Hg Hall. destruct e as [c|j ok]; cbn [pevent_step]; [exact Hg|].
    destruct (nth_error (pf_calls G) j) as [(c & m)|] eqn:Ej; [|exact Hg].
    destruct (prog_step (pf_shared G) ok m) as [(s & m')|] eqn:Es; [|exact Hg]. cbn [pf_shared].
    destruct (Hall j _ Ej) as (n0 & f0 & [(Hx0 & _)|(K & c' & r & Hg' & Hs)]); cbn [snd fst] in *; [subst m; discriminate Es|].
    destruct (step_safe _ _ _ _ _ _ _ _ _ _ _ Hg' Hs Es) as (Hw & _). auto.
  Qed.

  (** All events: [N] is a number of steps within which the call ends if alone. *)
  Definition limit (c : pcall) (N : nat) : Prop := forall K b r, safe all_cells (value (pcall_run E p c)) K b r N (sync_pcall E p c).
  Lemma limit_some c : exists N, limit c N.
  Proof. exact (call_follows c). Qed.
  Definition conf_ok (evs : list pevent) (G : pconf) : Prop := shared_ok [] false false (pf_shared G) /\
    forall i x, nth_error (pf_calls G) i = Some x -> forall N, limit (fst x) N -> call_ok (pf_shared G) (In (EStep i false) evs) N x.
  Lemma conf_all evs G : conf_ok evs G -> forall j y, nth_error (pf_calls G) j = Some y -> exists n failed, call_ok (pf_shared G) failed n y.
  Proof. intros (_ & H) j y Hj. destruct (limit_some (fst y)) as (N & HN). eexists; eexists. exact (H j y Hj N HN). Qed.
  Lemma length_update {A} (l : list A) i x : i < List.length l -> List.length (firstn i l ++ x :: skipn (S i) l) = List.length l.
  Proof. intros H. rewrite app_length, firstn_length. cbn [List.length]. rewrite skipn_length. lia. Qed.
  Lemma event_ok evs G e : conf_ok evs G -> conf_ok (evs ++ [e]) (pevent_step E p G e).
  Proof.
    intros HG. pose proof (conf_all _ _ HG) as Hall. destruct HG as (Hg & HG). split; [apply event_shared; assumption|].
    intros i x Hi N HN. destruct (nth_error (pf_calls G) i) as [y|] eqn:Ey.
    - destruct (limit_some (fst y)) as (N0 & HN0).
      assert (Hy : forall N, limit (fst y) N -> exists x', nth_error (pf_calls (pevent_step E p G e)) i = Some x' /\ fst x' = fst y /\
        call_ok (pf_shared (pevent_step E p G e)) (In (EStep i false) evs \/ e = EStep i false) N x').
      { intros N' HN'. destruct (event_call G e i y N' _ Hg Ey (HG i y Ey N' HN') Hall) as (x' & H1 & H2 & H3). exists x'. split; [exact H1|]. split; [exact H2|].
        apply (call_ok_more _ _ _ _ _ _ _ H3); auto. destruct e as [c|j ok]; [lia|]. destruct (Nat.eqb j i); lia. }
      destruct (Hy N0 HN0) as (x' & H1 & H2 & _). assert (x' = x) by congruence. subst x'. rewrite H2 in HN.
      destruct (Hy N HN) as (x' & H1' & H2' & H3). assert (x' = x) by congruence. subst x'.
      apply (call_ok_more _ _ _ _ _ _ _ H3); auto. intros [H| ->]; apply in_or_app; [left; exact H | right; left; reflexivity].
    - apply nth_error_None in Ey. destruct e as [c|j ok]; cbn [pevent_step pf_calls pf_shared] in *.
      + rewrite nth_error_app2 in Hi by exact Ey. destruct (i - List.length (pf_calls G)) as [|k]; [|destruct k; discriminate Hi].
        injection Hi as <-. right. exists [], false, false. split; [exact Hg|]. apply HN.
      + destruct (nth_error (pf_calls G) j) as [(c & m)|] eqn:Ej; [|apply nth_error_None in Ey; congruence].
        destruct (prog_step (pf_shared G) ok m) as [(s & m')|] eqn:Es; [|apply nth_error_None in Ey; congruence].
        cbn [pf_calls] in Hi. exfalso. assert (i < List.length (pf_calls G)); [|lia]. rewrite <- (length_update (pf_calls G) j (c, m')).
        * apply nth_error_Some. rewrite Hi. discriminate.
        * apply nth_error_Some. rewrite Ej. discriminate.
  Qed.
  Lemma events_ok evs : conf_ok evs (pevents E p evs).
  Proof.
    unfold pevents. assert (Hw : forall evs evs0 G, conf_ok evs0 G -> conf_ok (evs0 ++ evs) (fold_left (pevent_step E p) evs G)).
    { intros l. induction l as [|e l IH]; intros evs0 G H; cbn [fold_left]; [rewrite app_nil_r; exact H|].
      replace (evs0 ++ e :: l) with ((evs0 ++ [e]) ++ l) by (rewrite <- app_assoc; reflexivity). apply IH. apply event_ok. exact H. }
    apply (Hw evs [] pconf_new). split; [apply shared_new|]. intros [|i] x H; discriminate H.
  Qed.

  Lemma answer_once evs i c x : nth_error (pf_calls (pevents E p evs)) i = Some (c, DRet x) ->
    x = value (pcall_run E p c) \/ (x = Err PSqlite /\ In (EStep i false) evs).
  Proof.
    intros Hi. destruct (limit_some c) as (N & HN). destruct (proj2 (events_ok evs) i _ Hi N HN) as [(Hx & Hf)|(K & b & r & _ & Hs)]; cbn [snd fst] in *.
    - injection Hx as ->. auto.
    - left. inversion Hs; subst. reflexivity.
  Qed.
  Fixpoint steps_of (i : nat) (evs : list pevent) : nat :=
    match evs with
    | [] => 0
    | EStep j _ :: r => if Nat.eqb j i then S (steps_of i r) else steps_of i r
    | EStart _ :: r => steps_of i r
    end.
  Lemma run_ends evs' : forall evs i x n, nth_error (pf_calls (pevents E p evs)) i = Some x -> call_ok (pf_shared (pevents E p evs)) (In (EStep i false) evs) n x ->
    n <= steps_of i evs' -> exists r, nth_error (pf_calls (pevents E p (evs ++ evs'))) i = Some (fst x, DRet r).
  Proof.
    induction evs' as [|e evs' IH]; intros evs i x n Hi Hx Hn; cbn [steps_of] in Hn.
    - rewrite app_nil_r. assert (n = 0) by lia. subst n. destruct x as (c & m). destruct Hx as [(Hx & _)|(K & b & r & _ & Hs)]; cbn [fst snd] in *.
      + subst m. eexists. exact Hi.
      + inversion Hs; subst. eexists. exact Hi.
    - replace (evs ++ e :: evs') with ((evs ++ [e]) ++ evs') by (rewrite <- app_assoc; reflexivity).
      destruct (event_call (pevents E p evs) e i x n _ (proj1 (events_ok evs)) Hi Hx (conf_all _ _ (events_ok evs))) as (x' & H1 & H2 & H3).
      assert (He : pevent_step E p (pevents E p evs) e = pevents E p (evs ++ [e])) by (unfold pevents; rewrite fold_left_app; reflexivity).
      rewrite He in H1, H3. rewrite <- H2. eapply IH; [exact H1| |].
      + apply (call_ok_more _ _ _ _ _ _ _ H3); [auto| |apply le_n]. intros [H| ->]; apply in_or_app; [left; exact H | right; left; reflexivity].
      + destruct e as [c|j ok]; [exact Hn|]. destruct (Nat.eqb j i); lia.
  Qed.
  Lemma call_ends c : exists n, forall evs evs' i m, nth_error (pf_calls (pevents E p evs)) i = Some (c, m) -> n <= steps_of i evs' ->
    exists r, nth_error (pf_calls (pevents E p (evs ++ evs'))) i = Some (c, DRet r).
  Proof.
    destruct (limit_some c) as (N & HN). exists N. intros evs evs' i m Hi Hn. apply (run_ends evs' evs i (c, m) N Hi); [|exact Hn].
    exact (proj2 (events_ok evs) i _ Hi N HN).
  Qed.
End Threads.
