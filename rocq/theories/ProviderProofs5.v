(** Proofs about the sqlite3 provider: details. *)
From Verif Require Import Base BaseFacts RegistryModel ProviderModel ProviderSpec ProviderProofs ProviderProofs2 ProviderProofs4.

(** ** Lists *)
Lemma distinct_In x l : In x (distinct l) <-> In x l.
Proof.
  induction l as [|y l IH]; [reflexivity|]. cbn [distinct]. destruct (umem y l) eqn:Em.
  - rewrite IH. apply umem_In in Em. split; [intros H; right; exact H | intros [<-|H]; assumption].
  - cbn [In]. rewrite IH. reflexivity.
Qed.
Lemma distinct_NoDup l : NoDup (distinct l).
Proof.
  induction l as [|y l IH]; [constructor|]. cbn [distinct]. destruct (umem y l) eqn:Em; [exact IH|].
  constructor; [|exact IH]. rewrite distinct_In. apply umem_nIn. exact Em.
Qed.
Lemma push_new_In l x y : In y (push_new l x) <-> In y l \/ y = x.
Proof.
  unfold push_new. destruct (umem x l) eqn:Em.
  - apply umem_In in Em. split; [auto | intros [H| ->]; assumption].
  - rewrite in_app_iff. cbn [In]. split; intros [H|H]; auto; destruct H as [H|[]]; auto.
Qed.
Lemma push_new_NoDup l x : NoDup l -> NoDup (push_new l x).
Proof.
  intros H. unfold push_new. destruct (umem x l) eqn:Em; [exact H|]. apply umem_nIn in Em.
  apply (Permutation_NoDup (Permutation_cons_append l x)). constructor; assumption.
Qed.
Lemma push_all_In xs : forall l y, In y (fold_left push_new xs l) <-> In y l \/ In y xs.
Proof.
  induction xs as [|x xs IH]; intros l y; cbn [fold_left In]; [tauto|]. rewrite IH, push_new_In.
  split; [intros [[H| ->]|H]; auto | intros [H|[->|H]]; auto].
Qed.
Lemma push_all_NoDup xs : forall l, NoDup l -> NoDup (fold_left push_new xs l).
Proof. induction xs as [|x xs IH]; intros l H; cbn [fold_left]; [exact H | apply IH, push_new_NoDup, H]. Qed.
Lemma sumN_app a b : sumN (a ++ b) = (sumN a + sumN b)%N.
Proof. unfold sumN. induction a as [|x a IH]; cbn [app fold_right]; [reflexivity|]. rewrite IH. lia. Qed.
Lemma sumN_perm a b : Permutation a b -> sumN a = sumN b.
Proof. unfold sumN. induction 1; cbn [fold_right]; lia. Qed.
Lemma map_fst_minsert_old {V} k (v : V) m : In k (mkeys m) -> mkeys (minsert k v m) = mkeys m.
Proof. intros H. apply mkeys_minsert_old. apply mget_keys in H. destruct H as (w & Hw). congruence. Qed.

Definition no_data_map (m : amap lgdata) : Prop := forall t x, mget t m = Some x -> x = no_data.
Lemma add_aio_languages_facts ls : forall m, no_data_map m -> NoDup (mkeys m) ->
  no_data_map (add_aio_languages ls m) /\ NoDup (mkeys (add_aio_languages ls m)) /\
  forall t, In t (mkeys (add_aio_languages ls m)) <-> In t (mkeys m) \/ In t ls.
Proof.
  induction ls as [|x ls IH]; intros m Hm Hn; cbn [add_aio_languages fold_left]; [split; [exact Hm|split; [exact Hn|cbn; tauto]]|].
  destruct (IH (minsert x no_data m)) as (H1 & H2 & H3).
  - intros t y. rewrite mget_minsert. destruct (ueqb t x); [intros H; injection H as <-; reflexivity | apply Hm].
  - apply minsert_NoDup, Hn.
  - split; [exact H1|]. split; [exact H2|]. intros t. unfold add_aio_languages in H3. rewrite H3, minsert_keys_In. cbn [In].
    split; [intros [[->|H]|H]; auto | intros [H|[->|H]]; auto].
Qed.
Lemma add_own_languages_facts l2 : forall ls m, no_data_map m -> NoDup (mkeys m) -> (forall t, In t (mkeys m) <-> In t ls) ->
  let (ls', m') := add_own_languages l2 (ls, m) in
  no_data_map m' /\ NoDup (mkeys m') /\ (forall t, In t (mkeys m') <-> In t ls') /\ (forall t, In t ls' <-> In t ls \/ In t l2) /\
  (NoDup ls -> NoDup ls').
Proof.
  induction l2 as [|x l2 IH]; intros ls m Hm Hn Hk.
  - cbn. split; [exact Hm|]. split; [exact Hn|]. split; [exact Hk|]. split; [tauto | auto].
  - change (add_own_languages (x :: l2) (ls, m)) with
      (add_own_languages l2 (if umem x ls then (ls, m) else (ls ++ [x], minsert x no_data m))).
    destruct (umem x ls) eqn:Em.
    + specialize (IH ls m Hm Hn Hk). destruct (add_own_languages l2 (ls, m)) as (ls' & m'). destruct IH as (H1 & H2 & H3 & H4 & H5).
      split; [exact H1|]. split; [exact H2|]. split; [exact H3|]. split; [|exact H5]. intros t. rewrite H4. apply umem_In in Em. cbn [In].
      split; [tauto|]. intros [H|[->|H]]; auto.
    + apply umem_nIn in Em. specialize (IH (ls ++ [x]) (minsert x no_data m)).
      destruct (add_own_languages l2 (ls ++ [x], minsert x no_data m)) as (ls' & m').
      destruct IH as (H1 & H2 & H3 & H4 & H5).
      * intros t y. rewrite mget_minsert. destruct (ueqb t x); [intros H; injection H as <-; reflexivity | apply Hm].
      * apply minsert_NoDup, Hn.
      * intros t. rewrite minsert_keys_In, Hk, in_app_iff. cbn [In]. split; [intros [->|H]; auto | intros [H|[->|[]]]; auto].
      * split; [exact H1|]. split; [exact H2|]. split; [exact H3|]. split.
        -- intros t. rewrite H4, in_app_iff. cbn [In]. tauto.
        -- intros Hnd. apply H5. apply (Permutation_NoDup (Permutation_cons_append ls x)). constructor; assumption.
Qed.
Lemma ensure_all_facts ls : forall m, NoDup (mkeys m) ->
  NoDup (mkeys (fold_left ensure ls m)) /\ (forall t, In t (mkeys (fold_left ensure ls m)) <-> In t (mkeys m) \/ In t ls) /\
  (forall t x, mget t m = Some x -> mget t (fold_left ensure ls m) = Some x) /\
  (forall t x, mget t m = None -> mget t (fold_left ensure ls m) = Some x -> x = no_data).
Proof.
  induction ls as [|y ls IH]; intros m Hn; cbn [fold_left].
  - split; [exact Hn|]. split; [cbn; tauto|]. split; [auto | congruence].
  - assert (He : NoDup (mkeys (ensure m y)) /\ (forall t, In t (mkeys (ensure m y)) <-> In t (mkeys m) \/ t = y) /\
      (forall t x, mget t m = Some x -> mget t (ensure m y) = Some x) /\ (forall t x, mget t m = None -> mget t (ensure m y) = Some x -> x = no_data)).
    { unfold ensure. destruct (mhas y m) eqn:Eh.
      - apply mhas_true in Eh. apply mget_keys in Eh. split; [exact Hn|]. split; [intros t; split; [auto | intros [H| ->]; assumption]|].
        split; [auto | congruence].
      - apply mhas_false in Eh. split; [apply minsert_NoDup, Hn|]. split; [intros t; rewrite minsert_keys_In; tauto|]. split.
        + intros t x Hx. rewrite mget_minsert. destruct (ueqb_spec t y) as [->|_]; [congruence | exact Hx].
        + intros t x Hx. rewrite mget_minsert. destruct (ueqb t y); [intros H; injection H as <-; reflexivity | congruence]. }
    destruct He as (E1 & E2 & E3 & E4). destruct (IH (ensure m y) E1) as (H1 & H2 & H3 & H4).
    split; [exact H1|]. split; [intros t; rewrite H2, E2; cbn [In]; split; [intros [[H| ->]|H]; auto | intros [H|[->|H]]; auto]|]. split; [auto|].
    intros t x Hx Hf. destruct (mget t (ensure m y)) as [z|] eqn:Ez.
    + rewrite (H3 t z Ez) in Hf. injection Hf as <-. exact (E4 t z Hx Ez).
    + exact (H4 t x Ez Hf).
Qed.
Lemma set_ratios_get n m t : mget t (set_ratios n m) =
  option_map (fun x => mk_lgdata (lg_count x) (Some (lg_count x, n)) (lg_contributors x)) (mget t m).
Proof. induction m as [|(k, x) m IH]; [reflexivity|]. cbn [set_ratios map fst snd mget]. destruct (ueqb t k); [reflexivity | exact IH]. Qed.
Lemma set_ratios_keys n m : mkeys (set_ratios n m) = mkeys m.
Proof. unfold set_ratios, mkeys. rewrite map_map. reflexivity. Qed.

(** ** The queries *)
Lemma map_rows_texts {A} (f : A -> ustr) rows : map_rows (fun row => get_text row 0) (map (fun r => [CellText (f r)]) rows) = Ok (map f rows).
Proof. induction rows as [|r rows IH]; [reflexivity|]. cbn [map map_rows get_text nth_error bind]. rewrite IH. reflexivity. Qed.
Lemma map_rows_tags {A} E (f : A -> ustr) rows l :
  map_rows (fun row => let! raw := get_text row 0 in registry_tag E raw) (map (fun r => [CellText (f r)]) rows) = Ok l ->
  Forall2 (fun r t => pe_canon E (f r) = Some t) rows l.
Proof.
  revert l; induction rows as [|r rows IH]; intros l H; cbn [map map_rows get_text nth_error bind] in H.
  - injection H as <-. constructor.
  - unfold registry_tag in H at 1. destruct (pe_canon E (f r)) as [t|] eqn:Et; [|discriminate H]. cbn [bind] in H.
    apply bind_Ok in H. destruct H as (l' & Hl & H). injection H as <-. constructor; [exact Et | exact (IH l' Hl)].
Qed.
Lemma Forall2_In_l {A B} (R : A -> B -> Prop) l l' x : Forall2 R l l' -> In x l -> exists y, In y l' /\ R x y.
Proof. induction 1 as [|a b l l' Hr Hf IH]; intros []; [subst; exists b; cbn; auto|]. destruct (IH H) as (y & Hy & Hr'). exists y. cbn; auto. Qed.
Lemma Forall2_In_r {A B} (R : A -> B -> Prop) l l' y : Forall2 R l l' -> In y l' -> exists x, In x l /\ R x y.
Proof. induction 1 as [|a b l l' Hr Hf IH]; intros []; [subst; exists a; cbn; auto|]. destruct (IH H) as (x & Hx & Hr'). exists x. cbn; auto. Qed.
Lemma Forall2_NoDup {A B} (R : A -> B -> Prop) l l' : Forall2 R l l' -> NoDup l ->
  (forall x x' y, In x l -> In x' l -> R x y -> R x' y -> x = x') -> NoDup l'.
Proof.
  induction 1 as [|a b l l' Hr Hf IH]; intros Hn Hinj; [constructor|]. inversion Hn as [|z m Hz Hm]; subst. constructor.
  - intros Hin. destruct (Forall2_In_r R l l' b Hf Hin) as (x & Hx & Hrx). apply Hz.
    rewrite (Hinj a x b); [exact Hx | left; reflexivity | right; exact Hx | exact Hr | exact Hrx].
  - apply IH; [exact Hm|]. intros x x' y Hx Hx'. apply Hinj; right; assumption.
Qed.
Lemma last_In {A} (l : list A) x : last (map Some l) None = Some x -> In x l.
Proof.
  induction l as [|y l IH]; [discriminate|]. cbn [map last]. destruct l as [|z l]; [intros H; injection H as <-; left; reflexivity|].
  intros H. right. apply IH. exact H.
Qed.
Lemma last_None {A} (l : list A) : last (map Some l) None = None -> l = [].
Proof.
  induction l as [|y l IH]; [reflexivity|]. cbn [map last]. destruct l as [|z l]; [discriminate|]. intros H. specialize (IH H). discriminate IH.
Qed.

Section Queries.
  Variable E : penv.
  Variable p : sprovider.
  Hypothesis Hp : provider_ok p.
  Hypothesis Ho : order_ok E.

  Lemma order_In f q ps l x : In x (pe_texts E f q ps l) <-> In x l.
  Proof. split; apply Permutation_in; [apply Ho | apply Permutation_sym, Ho]. Qed.
  Lemma order_defaults_In f q ps l x : In x (pe_defaults E f q ps l) <-> In x l.
  Proof. split; apply Permutation_in; [apply Ho | apply Permutation_sym, Ho]. Qed.
  Lemma order_patterns_In f q ps l x : In x (pe_patterns E f q ps l) <-> In x l.
  Proof. split; apply Permutation_in; [apply Ho | apply Permutation_sym, Ho]. Qed.

  Definition at_ (c : ustr) (all : bool) (d : db) : Prop := if all then in_aio p c d else in_own p c d.
  Lemma at_connection {A} c all d (g : ustr -> db -> pout A) : at_ c all d -> on_connection p c all g = g (if all then aio else c) d.
  Proof.
    unfold on_connection, connection. destruct all; intros (f & v & Hc & Hd); rewrite Hc; cbn [fst snd andb]; rewrite Hd; reflexivity.
  Qed.

  Definition speaks (d : db) (c t : ustr) : Prop := exists r, In r (db_contributor d) /\ co_component r = c /\ pe_canon E (co_tag r) = Some t.
  Definition contrib_in (d : db) (c t n : ustr) : Prop := exists r, In r (db_contributor d) /\ co_component r = c /\ co_tag r = t /\ co_name r = n.
  Definition one_spelling_in (d : db) (c : ustr) : Prop := forall r r', In r (db_contributor d) -> In r' (db_contributor d) ->
    co_component r = c -> co_component r' = c -> pe_canon E (co_tag r) = pe_canon E (co_tag r') -> co_tag r = co_tag r'.

  Lemma languages_spec c all d l : at_ c all d -> value (languages E p c all) = Ok l ->
    (forall t, In t l <-> speaks d c t) /\ (one_spelling_in d c -> NoDup l).
  Proof.
    intros Hat H. rewrite languages_value, (at_connection c all d _ Hat) in H by exact Hp. unfold select in H.
    destruct (pe_ok E _ _ _); cbn [negb bind] in H; [|discriminate H].
    apply (map_rows_tags E (fun t => t)) in H.
    set (raws := distinct (map co_tag (filter (fun r => ueqb (co_component r) c) (db_contributor d)))) in *.
    assert (Hraw : forall x, In x raws <-> exists r, In r (db_contributor d) /\ co_component r = c /\ co_tag r = x).
    { intros x. unfold raws. rewrite distinct_In, in_map_iff. split.
      - intros (r & <- & Hr). apply filter_In in Hr. destruct Hr as (Hr & Hc). apply ueqb_eq in Hc. eauto.
      - intros (r & Hr & Hc & <-). exists r. split; [reflexivity|]. apply filter_In. split; [exact Hr | apply ueqb_eq; exact Hc]. }
    split.
    - intros t. split.
      + intros Ht. destruct (Forall2_In_r _ _ _ t H Ht) as (x & Hx & Hcan). apply order_In, Hraw in Hx. destruct Hx as (r & Hr & Hc & <-). exists r. auto.
      + intros (r & Hr & Hc & Hcan). assert (Hx : In (co_tag r) raws) by (apply Hraw; eauto).
        apply (order_In (if all then aio else c) SqlLanguages [c]) in Hx.
        destruct (Forall2_In_l _ _ _ _ H Hx) as (y & Hy & Hcan'). congruence.
    - intros Hone. apply (Forall2_NoDup _ _ _ H); [apply (Permutation_NoDup (Permutation_sym (proj1 (proj2 Ho) _ _ _ raws))), distinct_NoDup|].
      intros x x' y Hx Hx' H1 H2. apply order_In, Hraw in Hx. apply order_In, Hraw in Hx'.
      destruct Hx as (r & Hr & Hc & <-). destruct Hx' as (r' & Hr' & Hc' & <-). apply Hone; auto. congruence.
  Qed.
  Lemma contributors_spec c t all d l : at_ c all d -> value (contributors E p c t all) = Ok l ->
    NoDup l /\ forall n, In n l <-> contrib_in d c t n.
  Proof.
    intros Hat H. rewrite contributors_value, (at_connection c all d _ Hat) in H by exact Hp. unfold select in H.
    destruct (pe_ok E _ _ _); cbn [negb bind] in H; [|discriminate H].
    rewrite (map_rows_texts (fun x => x)) in H. injection H as <-. rewrite map_id. split.
    - apply (Permutation_NoDup (Permutation_sym (proj1 (proj2 Ho) _ _ _ _))), distinct_NoDup.
    - intros n. rewrite order_In, distinct_In, in_map_iff. split.
      + intros (r & <- & Hr). apply filter_In in Hr. destruct Hr as (Hr & Hc). apply andb_prop in Hc. destruct Hc as (H1 & H2).
        apply ueqb_eq in H1, H2. exists r. auto.
      + intros (r & Hr & Hc & Ht & <-). exists r. split; [reflexivity|]. apply filter_In. split; [exact Hr|]. subst. rewrite !ueqb_refl. reflexivity.
  Qed.
  Lemma count_spec c t all d n : at_ c all d -> value (count E p c t all) = Ok n -> n = stored_in d c t.
  Proof.
    intros Hat H. rewrite count_value, (at_connection c all d _ Hat) in H by exact Hp. unfold select in H.
    destruct (pe_ok E _ _ _); cbn [negb bind] in H; [|discriminate H].
    cbn [map_rows get_int nth_error bind last] in H. injection H as <-. reflexivity.
  Qed.
  Lemma default_spec c all d o : at_ c all d -> value (default_language E p c all) = Ok o ->
    match o with Some t => default_in E d c t | None => no_default_in d c end.
  Proof.
    intros Hat H. rewrite default_language_value, (at_connection c all d _ Hat) in H by exact Hp. unfold select in H.
    destruct (pe_ok E _ _ _); cbn [negb bind] in H; [|discriminate H].
    apply bind_Ok in H. destruct H as (l & Hl & H). injection H as <-. apply (map_rows_tags E ir_tag) in Hl.
    destruct (last (map Some l) None) as [t|] eqn:El.
    - apply last_In in El. destruct (Forall2_In_r _ _ _ t Hl El) as (r & Hr & Hcan). apply order_defaults_In in Hr. apply filter_In in Hr.
      destruct Hr as (Hr & Hc). apply ueqb_eq in Hc. exists r. auto.
    - apply last_None in El. subst l. inversion Hl as [Hnil|]. intros r Hr Hc.
      assert (Hi : In r (pe_defaults E (if all then aio else c) SqlDefault [c] (filter (fun r => ueqb (ir_identifier r) c) (db_component d)))).
      { apply order_defaults_In, filter_In. split; [exact Hr | apply ueqb_eq; exact Hc]. }
      rewrite <- Hnil in Hi. destruct Hi.
  Qed.
  Lemma languages_quiet c all : quiet_m E p (languages E p c all).
  Proof.
    split; [apply languages_steady; exact Hp|]. rewrite languages_value by exact Hp. apply quiet_on_connection; [exact Hp|]. intros f d.
    apply quiet_bind; [apply quiet_select|]. intros rows _. apply quiet_map_rows. intros r. apply quiet_bind; [apply quiet_get_text | intros; apply quiet_tag].
  Qed.
  Lemma identifier_languages_quiet c i all : quiet_m E p (identifier_languages E p c i all).
  Proof.
    split; [apply identifier_languages_steady; exact Hp|]. rewrite identifier_languages_value by exact Hp. apply quiet_on_connection; [exact Hp|].
    intros f d. apply quiet_bind; [apply quiet_select|]. intros rows _. apply quiet_map_rows. intros r.
    apply quiet_bind; [apply quiet_get_text | intros; apply quiet_tag].
  Qed.
  Lemma contributors_quiet c t all : quiet_m E p (contributors E p c t all).
  Proof.
    split; [apply contributors_steady; exact Hp|]. rewrite contributors_value by exact Hp. apply quiet_on_connection; [exact Hp|]. intros f d.
    apply quiet_bind; [apply quiet_select|]. intros rows _. apply quiet_map_rows. intros r. apply quiet_get_text.
  Qed.
  Lemma count_quiet c t all : quiet_m E p (count E p c t all).
  Proof.
    split; [apply count_steady; exact Hp|]. rewrite count_value by exact Hp. apply quiet_on_connection; [exact Hp|]. intros f d.
    apply quiet_bind; [apply quiet_select|]. intros rows _. apply quiet_bind; [|intros; apply quiet_Ok]. apply quiet_map_rows. intros r. apply quiet_get_int.
  Qed.
  Lemma default_language_quiet c all : quiet_m E p (default_language E p c all).
  Proof.
    split; [apply default_language_steady; exact Hp|]. rewrite default_language_value by exact Hp. apply quiet_on_connection; [exact Hp|]. intros f d.
    apply quiet_bind; [apply quiet_select|]. intros rows _. apply quiet_bind; [|intros; apply quiet_Ok]. apply quiet_map_rows. intros r.
    apply quiet_bind; [apply quiet_get_text | intros; apply quiet_tag].
  Qed.
End Queries.
