(** Proofs about the sqlite3 provider: the state does not matter, the ancestor search, strings. *)
From Verif Require Import Base BaseFacts RegistryModel ProviderModel ProviderSpec.

(** ** The state of the provider does not change answers *)

(** The keys of the query cache. *)
Inductive kind := KPattern (all one exact : bool) | KPlain (q : sql) (all : bool).
Definition kind_key (k : kind) : ustr :=
  match k with
  | KPattern all one exact => us "Pattern" ++ (if exact then us "Exact" else []) ++ (if all then us "Aio" else []) ++ (if one then us "One" else [])
  | KPlain SqlLanguages all => aio_key (us "Languages") all
  | KPlain SqlIdentifier all => aio_key (us "Identifier") all
  | KPlain SqlContributors all => aio_key (us "Contributors") all
  | KPlain SqlCount all => aio_key (us "Count") all
  | KPlain SqlDefault all => aio_key (us "Default") all
  | KPlain (SqlPattern _ _) _ => []
  end.
Definition kind_sql (k : kind) : sql := match k with KPattern _ one exact => SqlPattern one exact | KPlain q _ => q end.
Definition plain (k : kind) : Prop := match k with KPlain (SqlPattern _ _) _ => False | _ => True end.

Lemma kind_key_inj k k' : plain k -> plain k' -> kind_key k = kind_key k' -> kind_sql k = kind_sql k'.
Proof.
  destruct k as [[] [] []|[] []], k' as [[] [] []|[] []]; cbn [plain]; intros H1 H2 H; try contradiction; try reflexivity;
    vm_compute in H; discriminate H.
Qed.

Definition queries_ok (m : amap sql) : Prop :=
  forall key q, mget key m = Some q -> exists k, plain k /\ key = kind_key k /\ q = kind_sql k.

Section Steady.
  Variable E : penv.
  Variable p : sprovider.
  Hypothesis Hp : provider_ok p.

  Definition value {A} (m : PM A) : pout A := snd (m pstate_new).
  Definition state_ok (st : pstate) : Prop :=
    queries_ok (ps_queries st) /\ forall x, ps_details st = Some x -> value (build_details E p) = Ok x.
  Definition steady {A} (m : PM A) : Prop :=
    forall st, state_ok st -> snd (m st) = value m /\ state_ok (fst (m st)) .

  Lemma state_new_ok : state_ok pstate_new.
  Proof. split; [intros key q H; discriminate H | intros x H; discriminate H]. Qed.

  Lemma steady_ret {A} (x : pout A) : steady (pret x).
  Proof. intros st H; split; [reflexivity | exact H]. Qed.

  Lemma value_bind {A B} (m : PM A) (f : A -> PM B) : steady m -> (forall a, value m = Ok a -> steady (f a)) ->
    value (pbind m f) = bind (value m) (fun a => value (f a)).
  Proof.
    intros Hm Hf. destruct (Hm pstate_new state_new_ok) as (_ & Hs). unfold value in *. unfold pbind.
    destruct (m pstate_new) as (st' & [a|e| |]) eqn:Em; cbn [snd fst bind] in *; try reflexivity.
    exact (proj1 (Hf a eq_refl st' Hs)).
  Qed.

  Lemma steady_bind {A B} (m : PM A) (f : A -> PM B) : steady m -> (forall a, value m = Ok a -> steady (f a)) -> steady (pbind m f).
  Proof.
    intros Hm Hf st Hst. rewrite (value_bind m f Hm Hf). destruct (Hm st Hst) as (Hv & Hs). unfold pbind.
    destruct (m st) as (st' & [a|e| |]) eqn:Em; cbn [snd fst] in *; rewrite <- Hv; cbn [bind snd fst]; auto.
    apply (Hf a (eq_sym Hv)); exact Hs.
  Qed.

  Lemma steady_query k : plain k -> steady (get_query (kind_key k) (us "1.0") (kind_sql k)).
  Proof.
    intros Hk st (Hq & Hd). unfold value, get_query, make_query. cbn [ps_queries pstate_new mget]. rewrite ueqb_refl.
    cbn [snd fst]. destruct (mget (kind_key k) (ps_queries st)) as [q|] eqn:Eq; cbn [snd fst].
    - split; [|split; assumption]. destruct (Hq _ _ Eq) as (k' & Hk' & Hkey & ->). f_equal. symmetry; apply kind_key_inj; assumption.
    - split; [reflexivity|]. split; [|exact Hd]. intros key q H. cbn [ps_queries] in H. rewrite mget_minsert in H.
      destruct (ueqb_spec key (kind_key k)) as [->|Hn]; [injection H as <-; exists k; auto | exact (Hq key q H)].
  Qed.
  Lemma value_query k : value (get_query (kind_key k) (us "1.0") (kind_sql k)) = Ok (kind_sql k).
  Proof. unfold value, get_query, make_query. cbn [ps_queries pstate_new mget]. rewrite ueqb_refl. reflexivity. Qed.

  Lemma steady_ext {A} (m : PM A) m' : (forall st, m st = m' st) -> steady m -> steady m'.
  Proof. intros He H st Hst. unfold value. rewrite <- !He. exact (H st Hst). Qed.

  Lemma connection_version c all f d v : connection p c all = Ok (f, (d, v)) -> v = us "1.0".
  Proof.
    unfold connection. destruct (mget c (sp_components p)) as [(fa, fo)|] eqn:Ec; [|discriminate]. cbn [fst snd].
    destruct (proj2 Hp c _ Ec) as (Ha & Ho). cbn [fst snd] in *. destruct (all && fa) eqn:Ea.
    - apply andb_prop in Ea. destruct Ea as (_ & Ea). destruct (Ha Ea) as (d' & Hd'). rewrite Hd'. intros H; injection H as <- <- <-; reflexivity.
    - destruct fo; [|discriminate]. destruct (Ho eq_refl) as (d' & Hd'). rewrite Hd'. intros H; injection H as <- <- <-; reflexivity.
  Qed.

  Lemma steady_method {A} c all k (g : ustr -> db -> sql -> pout A) : plain k ->
    let m := pbind (pret (connection p c all)) (fun '(f, (d, v)) =>
               pbind (get_query (kind_key k) v (kind_sql k)) (fun q => pret (g f d q))) in
    steady m /\ value m = bind (connection p c all) (fun '(f, (d, v)) => g f d (kind_sql k)).
  Proof.
    intros Hk m.
    assert (Hs : forall x, value (pret (connection p c all)) = Ok x ->
      steady ((fun '(f, (d, v)) => pbind (get_query (kind_key k) v (kind_sql k)) (fun q => pret (g f d q))) x)).
    { intros (f & d & v) Hx. apply connection_version in Hx. subst v. apply steady_bind; [apply steady_query; exact Hk | intros; apply steady_ret]. }
    split; [apply steady_bind; [apply steady_ret | exact Hs]|].
    subst m. rewrite value_bind; [|apply steady_ret | exact Hs]. change (value (pret (connection p c all))) with (connection p c all).
    destruct (connection p c all) as [(f & d & v)|e| |] eqn:Ec; cbn [bind]; try reflexivity.
    apply connection_version in Ec. subst v. rewrite value_bind; [|apply steady_query; exact Hk | intros; apply steady_ret].
    rewrite value_query. reflexivity.
  Qed.

  Definition on_connection {A} (c : ustr) (all : bool) (g : ustr -> db -> pout A) : pout A :=
    bind (connection p c all) (fun '(f, (d, v)) => g f d).
  Lemma find_strings_steady c i t all one exact : steady (find_strings E p c i t all one exact).
  Proof. exact (proj1 (steady_method c all (KPattern all one exact) (fun f d q => find_loop E (S (List.length t)) f d q c i exact t) I)). Qed.
  Lemma find_strings_value c i t all one exact : value (find_strings E p c i t all one exact) =
    on_connection c all (fun f d => find_loop E (S (List.length t)) f d (SqlPattern one exact) c i exact t).
  Proof. exact (proj2 (steady_method c all (KPattern all one exact) (fun f d q => find_loop E (S (List.length t)) f d q c i exact t) I)). Qed.
  Lemma languages_steady c all : steady (languages E p c all).
  Proof. exact (proj1 (steady_method c all (KPlain SqlLanguages all) (fun f d q => _) I)). Qed.
  Lemma languages_value c all : value (languages E p c all) = on_connection c all (fun f d =>
    let! rows := select E f d SqlLanguages [c] in map_rows (fun row => let! raw := get_text row 0 in registry_tag E raw) rows).
  Proof. exact (proj2 (steady_method c all (KPlain SqlLanguages all) (fun f d q => _) I)). Qed.
  Lemma identifier_languages_steady c i all : steady (identifier_languages E p c i all).
  Proof. exact (proj1 (steady_method c all (KPlain SqlIdentifier all) (fun f d q => _) I)). Qed.
  Lemma identifier_languages_value c i all : value (identifier_languages E p c i all) = on_connection c all (fun f d =>
    let! rows := select E f d SqlIdentifier [i; c] in map_rows (fun row => let! raw := get_text row 0 in registry_tag E raw) rows).
  Proof. exact (proj2 (steady_method c all (KPlain SqlIdentifier all) (fun f d q => _) I)). Qed.
  Lemma contributors_steady c t all : steady (contributors E p c t all).
  Proof. exact (proj1 (steady_method c all (KPlain SqlContributors all) (fun f d q => _) I)). Qed.
  Lemma contributors_value c t all : value (contributors E p c t all) = on_connection c all (fun f d =>
    let! rows := select E f d SqlContributors [t; c] in map_rows (fun row => get_text row 0) rows).
  Proof. exact (proj2 (steady_method c all (KPlain SqlContributors all) (fun f d q => _) I)). Qed.
  Lemma count_steady c t all : steady (count E p c t all).
  Proof. exact (proj1 (steady_method c all (KPlain SqlCount all) (fun f d q => _) I)). Qed.
  Lemma count_value c t all : value (count E p c t all) = on_connection c all (fun f d =>
    let! rows := select E f d SqlCount [t; c] in let! l := map_rows (fun row => get_int row 0) rows in Ok (last l 0%N)).
  Proof. exact (proj2 (steady_method c all (KPlain SqlCount all) (fun f d q => _) I)). Qed.
  Lemma default_language_steady c all : steady (default_language E p c all).
  Proof. exact (proj1 (steady_method c all (KPlain SqlDefault all) (fun f d q => _) I)). Qed.
  Lemma default_language_value c all : value (default_language E p c all) = on_connection c all (fun f d =>
    let! rows := select E f d SqlDefault [c] in
    let! l := map_rows (fun row => let! raw := get_text row 0 in registry_tag E raw) rows in Ok (last (map Some l) None)).
  Proof. exact (proj2 (steady_method c all (KPlain SqlDefault all) (fun f d q => _) I)). Qed.

  Ltac steady := repeat first
    [ apply find_strings_steady | apply languages_steady | apply identifier_languages_steady | apply contributors_steady
    | apply count_steady | apply default_language_steady | apply steady_ret | apply steady_bind; [|intros ? ?]
    | match goal with
      | |- steady (if ?b then _ else _) => destruct b
      | |- steady (match ?x with _ => _ end) => destruct x
      | |- steady (let (_, _) := ?x in _) => destruct x
      | |- steady (skip _) => apply steady_ret
      end ].

  Lemma one_string_steady exact c i t : steady (one_string E p exact c i t).
  Proof. unfold one_string. steady. Qed.
  Lemma strings_steady c i t : steady (strings E p c i t).
  Proof. unfold strings. steady. Qed.
  Lemma language_step_steady c f t acc : steady (language_step E p c f t acc).
  Proof. unfold language_step. steady. Qed.
  Lemma language_loop_steady c f ls acc : steady (language_loop E p c f ls acc).
  Proof.
    revert acc; induction ls as [|t ls IH]; intros acc; cbn [language_loop]; [apply steady_ret|].
    apply steady_bind; [apply language_step_steady | intros acc' _; apply IH].
  Qed.
  Lemma component_step_steady c f acc : steady (component_step E p c f acc).
  Proof.
    unfold component_step. destruct acc as (cds & rd0). steady. apply language_loop_steady.
  Qed.
  Lemma component_loop_steady cs acc : steady (component_loop E p cs acc).
  Proof.
    revert acc; induction cs as [|(c & f) cs IH]; intros acc; cbn [component_loop]; [apply steady_ret|].
    apply steady_bind; [apply component_step_steady | intros acc' _; apply IH].
  Qed.
  Lemma build_details_steady : steady (build_details E p).
  Proof. unfold build_details. apply steady_bind; [apply component_loop_steady | intros (cds & rd) _; steady]. Qed.
  Lemma get_details_steady : steady (get_details E p).
  Proof.
    intros st Hst. assert (Hv : value (get_details E p) = value (build_details E p)).
    { unfold value, get_details. cbn [ps_details pstate_new]. destruct (build_details E p pstate_new) as (st' & [x|e| |]); reflexivity. }
    rewrite Hv. unfold get_details. destruct (ps_details st) as [x|] eqn:Ex.
    - cbn [fst snd]. split; [symmetry; exact (proj2 Hst x Ex) | exact Hst].
    - destruct (build_details_steady st Hst) as (Hb & (Hq & Hs)).
      destruct (build_details E p st) as (st' & [x|e| |]); cbn [fst snd] in *; (split; [exact Hb|]); split; try assumption.
      cbn [ps_details]. intros y Hy; injection Hy as <-. symmetry; exact Hb.
  Qed.
  Lemma get_details_value : value (get_details E p) = value (build_details E p).
  Proof. unfold value, get_details. cbn [ps_details pstate_new]. destruct (build_details E p pstate_new) as (st' & [x|e| |]); reflexivity. Qed.
  Lemma identifier_details_steady c i : steady (identifier_details E p c i).
  Proof. unfold identifier_details. apply steady_bind; [apply get_details_steady | intros (cds & rd) _; steady]. Qed.
  Lemma component_details_steady c : steady (component_details E p c).
  Proof. unfold component_details. apply steady_bind; [apply get_details_steady | intros (cds & rd) _; steady]. Qed.
  Lemma repository_details_steady : steady (repository_details E p).
  Proof. unfold repository_details. apply steady_bind; [apply get_details_steady | intros (cds & rd) _; steady]. Qed.
  Lemma call_steady c : steady (pcall_run E p c).
  Proof.
    destruct c; cbn [pcall_run]; (apply steady_bind; [|intros; apply steady_ret]);
      [apply one_string_steady | apply one_string_steady | apply strings_steady | apply identifier_details_steady
      | apply component_details_steady | apply repository_details_steady].
  Qed.

  Lemma prun_ok h st : state_ok st -> state_ok (prun E p st h).
  Proof. revert st; induction h as [|c h IH]; intros st H; cbn [prun fold_left]; [exact H | apply IH; apply call_steady; exact H]. Qed.
  (** Every call gives after any history what it gives on a new provider. *)
  Lemma history_steady c h : snd (pcall_run E p c (prun E p pstate_new h)) = snd (pcall_run E p c pstate_new).
  Proof. apply call_steady. apply prun_ok. apply state_new_ok. Qed.
End Steady.
