(** Features: proofs. *)
From Coq Require Import String.
From Verif Require Import Base LexerModel TreeSpec ValueModel CommandModel FormatterModel FormatterSpec FeatureModel FeatureSpec.
Open Scope string_scope.

(** ** The features that are on *)
Lemma cf_eqb_eq a b : cf_eqb a b = true <-> a = b.
Proof.
  unfold cf_eqb. rewrite Bool.andb_true_iff, !String.eqb_eq. destruct a as [a1 a2], b as [b1 b2]. cbn. split; [intros [-> ->]; reflexivity|].
  intros H. inversion H. auto.
Qed.
Lemma closure_single n : forall l f, In f (closure n l) <-> exists g, In g l /\ In f (closure n [g]).
Proof.
  induction n as [|n IH]; intros l f; cbn [closure].
  - split; [intros H; exists f; cbn; auto | intros (g & Hg & [->|[]]); exact Hg].
  - rewrite (IH (l ++ flat_map enables l)%list). split.
    + intros (g & Hg & Hf). apply in_app_iff in Hg as [Hg|Hg].
      * exists g. split; [exact Hg|]. apply IH. exists g. split; [apply in_app_iff; left; left; reflexivity|exact Hf].
      * apply in_flat_map in Hg as (h & Hh & Hg). exists h. split; [exact Hh|]. apply IH. exists g.
        split; [apply in_app_iff; right; apply in_flat_map; exists h; cbn; auto|exact Hf].
    + intros (g & Hg & Hf). apply IH in Hf as (h & Hh & Hf). exists h. split; [|exact Hf].
      apply in_app_iff in Hh as [[<-|[]]|Hh]; apply in_app_iff; [left; exact Hg|].
      right. apply in_flat_map in Hh as (k & [<-|[]] & Hh). apply in_flat_map. exists g. auto.
Qed.

Definition closed_check : bool :=
  forallb (fun e => let c := closure 8 [fst e] in forallb (fun f => forallb (fun g => existsb (cf_eqb g) c) (enables f)) c) features.
Lemma closed_ok : closed_check = true.
Proof. vm_compute. reflexivity. Qed.
Lemma unique_ok : forallb (fun e => Nat.eqb (List.length (filter (fun e' => cf_eqb (fst e') (fst e)) features)) 1) features = true.
Proof. vm_compute. reflexivity. Qed.
Lemma filter_one {A} (p : A -> bool) l x y : List.length (filter p l) = 1 -> In x l -> p x = true -> find p l = Some y -> y = x.
Proof.
  intros Hl Hx Hp Hf. apply find_some in Hf as (Hy & Hpy). destruct (filter p l) as [|z [|? ?]] eqn:E; try discriminate.
  assert (Hxz : In x (filter p l)) by (apply filter_In; auto). assert (Hyz : In y (filter p l)) by (apply filter_In; auto).
  rewrite E in *. destruct Hxz as [<-|[]], Hyz as [<-|[]]. reflexivity.
Qed.
Lemma enables_of f l : In (f, l) features -> enables f = l.
Proof.
  intros H. unfold enables. pose proof unique_ok as U. rewrite forallb_forall in U. specialize (U _ H). apply Nat.eqb_eq in U. cbn [fst] in U.
  destruct (find (fun e => cf_eqb (fst e) f) features) as [[f' l']|] eqn:E.
  - pose proof (filter_one _ _ (f, l) _ U H (proj2 (cf_eqb_eq _ _) eq_refl) E) as X. inversion X. reflexivity.
  - exfalso. pose proof (find_none _ _ E _ H) as X. cbn in X. rewrite (proj2 (cf_eqb_eq f f) eq_refl) in X. discriminate.
Qed.
Lemma in_enables f g : In g (enables f) -> exists l, In (f, l) features /\ In g l.
Proof.
  unfold enables. destruct (find (fun e => cf_eqb (fst e) f) features) as [[f' l']|] eqn:E; [|intros []].
  apply find_some in E as (Hi & He). apply cf_eqb_eq in He. cbn in He. subst f'. exists l'. auto.
Qed.
Lemma closure_in n : forall l f, In f l -> In f (closure n l).
Proof. induction n as [|n IH]; intros l f H; cbn [closure]; [exact H|]. apply IH, in_app_iff. left. exact H. Qed.

Lemma on_iff req c f : on req c f = true <-> enabled req (c, f).
Proof.
  unfold on. rewrite existsb_exists. split.
  - intros (x & Hx & He). apply cf_eqb_eq in He. subst x.
    assert (G : forall n l, (forall g, In g l -> enabled req g) -> forall h, In h (closure n l) -> enabled req h).
    { induction n as [|n IH]; intros l Hl h; cbn [closure]; [apply Hl|]. apply IH. intros g Hg. apply in_app_iff in Hg as [Hg|Hg]; [exact (Hl g Hg)|].
      apply in_flat_map in Hg as (k & Hk & Hg). apply in_enables in Hg as (l' & H1 & H2). exact (en_by req k g l' (Hl k Hk) H1 H2). }
    apply (G 8 req); [|exact Hx]. intros g Hg. apply en_requested, Hg.
  - intros He. exists (c, f). split; [|apply cf_eqb_eq; reflexivity].
    induction He as [g Hg|g h l He IH Hg Hh]; [apply closure_in, Hg|].
    apply closure_single in IH as (k & Hk & Hin). apply closure_single. exists k. split; [exact Hk|].
    rewrite <- (enables_of g l Hg) in Hh.
    destruct (existsb (fun e => cf_eqb (fst e) k) features) eqn:E.
    + apply existsb_exists in E as ([k' lk] & Hf & E). apply cf_eqb_eq in E. cbn in E. subst k'.
      pose proof closed_ok as C. unfold closed_check in C. rewrite forallb_forall in C. specialize (C _ Hf). cbv zeta in C. cbn [fst] in C.
      rewrite forallb_forall in C. specialize (C _ Hin). rewrite forallb_forall in C. specialize (C _ Hh).
      apply existsb_exists in C as (z & Hz & Ez). apply cf_eqb_eq in Ez. subst z. exact Hz.
    + assert (En : enables k = []).
      { unfold enables. destruct (find _ features) as [[k' lk]|] eqn:F; [|reflexivity]. exfalso. apply find_some in F as (F1 & F2).
        assert (X : existsb (fun e => cf_eqb (fst e) k) features = true) by (apply existsb_exists; exists (k', lk); auto). congruence. }
      assert (Ec : forall n, closure n [k] = [k]).
      { induction n as [|n IHn]; [reflexivity|]. cbn [closure flat_map List.app]. rewrite En. cbn. exact IHn. }
      rewrite Ec in Hin. destruct Hin as [<-|[]]. rewrite En in Hh. destruct Hh.
Qed.

(** What enables a feature, by computation over the table. *)
Definition enablers (f : cfeature) : list cfeature := map fst (filter (fun e => existsb (cf_eqb f) (closure 8 [fst e])) features).
Lemma enablers_general (cl : list cfeature -> list cfeature) (table : list (cfeature * list cfeature)) req f :
  (forall l f, In f (cl l) <-> exists g, In g l /\ In f (cl [g])) -> (forall g, In g req -> exists l, In (g, l) table) ->
  (existsb (cf_eqb f) (cl req) = true <-> exists g, In g req /\ In g (map fst (filter (fun e => existsb (cf_eqb f) (cl [fst e])) table))).
Proof.
  intros Hcl Hb. rewrite existsb_exists. split.
  - intros (x & Hx & He). apply cf_eqb_eq in He. subst x. apply Hcl in Hx as (g & Hg & Hx). exists g. split; [exact Hg|].
    destruct (Hb g Hg) as (l & Hl). apply in_map_iff. exists (g, l). split; [reflexivity|]. apply filter_In. split; [exact Hl|].
    cbn [fst]. apply existsb_exists. exists f. split; [exact Hx|apply cf_eqb_eq; reflexivity].
  - intros (g & Hg & Hf). apply in_map_iff in Hf as ([g' l] & E & Hf). cbn [fst] in E. subst g'.
    apply filter_In in Hf as (_ & Hf). cbn [fst] in Hf. apply existsb_exists in Hf as (z & Hz & Ez). exists z. split; [|exact Ez].
    apply Hcl. exists g. auto.
Qed.
Lemma on_enablers req f : build req -> (enabled req f <-> exists g, In g req /\ In g (enablers f)).
Proof.
  intros Hb. destruct f as [c f]. rewrite <- on_iff. exact (enablers_general (closure 8) features req (c, f) (closure_single 8) Hb).
Qed.
Lemma never_on req c f : build req -> enablers (c, f) = [] -> on req c f = false.
Proof.
  intros Hb He. destruct (on req c f) eqn:E; [|reflexivity]. apply on_iff in E. apply (on_enablers req _ Hb) in E as (g & _ & Hg).
  rewrite He in Hg. destruct Hg.
Qed.
Lemma implied req a b : build req -> incl (enablers a) (enablers b) -> enabled req a -> enabled req b.
Proof. intros Hb Hi H. apply (on_enablers req _ Hb) in H as (g & Hg & H). apply (on_enablers req _ Hb). exists g. auto. Qed.

(** ** Sources *)
Lemma no_env fe : (forall l a b, fe_datetime fe l a b = None) -> (forall l a, fe_date fe l a = None) -> (forall l a, fe_time fe l a = None) ->
  (forall l g, fe_decimal fe l g = None) -> (forall l, fe_cardinal fe l = None) -> (forall l, fe_ordinal fe l = None) ->
  forall reg locale vals strs cs cp n x s, needs_data x -> ~ rend fe reg locale vals strs cs cp n x s.
Proof.
  intros Hdt Hd Ht Hdec Hc Ho reg locale vals strs cs cp n x s (ph & kw & sels & -> & Hk) Hr.
  inversion Hr; subst.
  - rewrite Hdec in *. discriminate.
  - match goal with H : shown _ _ ?m _ |- _ => destruct m; cbn in H; destruct H as (f0 & Hs & _) end; [rewrite Hd in Hs|rewrite Ht in Hs|rewrite Hdt in Hs]; discriminate Hs.
  - cbn [In] in Hk. destruct Hk as [E|[E|[E|[E|[]]]]]; vm_compute in E; discriminate.
  - rewrite Hc in *. discriminate.
  - rewrite Ho in *. discriminate.
Qed.
Lemma no_text fe : (forall l a b, fe_datetime fe l a b = None) -> (forall l a, fe_date fe l a = None) -> (forall l a, fe_time fe l a = None) ->
  (forall l g, fe_decimal fe l g = None) -> (forall l, fe_cardinal fe l = None) -> (forall l, fe_ordinal fe l = None) ->
  forall reg locale vals strs cs cp n l s x, In x l -> needs_data x -> ~ renders fe reg locale vals strs cs cp n l s.
Proof.
  intros Hdt Hd Ht Hdec Hc Ho reg locale vals strs cs cp n l s x Hx Hn Hr.
  induction l as [|y l IH] in s, Hx, Hr |- *; [destruct Hx|]. inversion Hr; subst. destruct Hx as [->|Hx]; [|eauto].
  eapply no_env; eauto.
Qed.

Lemma usable_iff req s : usable req s <-> constructor req s = true /\ branch req s = true.
Proof.
  unfold usable. split.
  - intros (Hc & _ & Hf). split; [exact Hc|]. destruct (branch req s) eqn:E; [reflexivity|]. exfalso.
    set (e := mk_fmtenv (fun n => mk_decimal 0 0 0) (fun _ => mk_decimal 0 0 0) (fun _ => None) (fun _ x => x)
      (fun _ _ => Some (fun _ => [])) (fun _ => None) (fun _ => None) (fun _ _ _ => None) (fun _ _ => None) (fun _ _ => None) (fun _ _ _ => true) (fun _ => None)).
    destruct (Hf (fun _ => e)) as (H & _). specialize (H [] None). unfold formatter_env in H. cbn in H. rewrite E in H. discriminate.
  - intros (Hc & Hb). split; [exact Hc|]. split.
    + intros I d Hl. unfold icu_try_new. destruct s as [|p|p]; cbn [constructor] in Hc; rewrite Hc; cbn [loads] in Hl.
      * subst d. reflexivity.
      * destruct Hl as (H1 & H2 & H3). unfold load_all. rewrite H1, H2, H3. cbn. destruct d; reflexivity.
      * destruct Hl as (H1 & H2 & H3). unfold load_all. rewrite H1, H2, H3. cbn. destruct d; reflexivity.
    + intros fe. unfold all_of, formatter_env. cbn. rewrite Hb. repeat split; reflexivity.
Qed.
