(** How the answers of the methods of the sqlite3 provider relate. *)
From Verif Require Import Base BaseFacts RegistryModel ProviderModel ProviderSpec ProviderProofs ProviderProofs2 ProviderProofs3.

Section Levels.
  Variable p : sprovider.

  Lemma first_level_unique d c i t e a a' : first_level d c i t e a -> first_level d c i t e a' -> a = a'.
  Proof.
    intros (H1 & H2 & H3 & H4) (H1' & H2' & H3' & H4'). apply (ancestor_same_length a a' t H1 H1').
    specialize (H4 a' H1' H3'). specialize (H4' a H1 H3). lia.
  Qed.
  Lemma answering_unique c i t e d a d' a' : answering p c i t e d a -> answering p c i t e d' a' -> d = d' /\ a = a'.
  Proof.
    assert (Hno : forall d a, first_level d c i t e a -> no_level d c i t e -> False).
    { intros x b (H1 & H2 & H3 & _) Hn. exact (Hn b H1 H2 H3). }
    intros [(H1 & H2)|(H0 & H1 & H2)] [(K1 & K2)|(K0 & K1 & K2)].
    - pose proof (in_aio_unique p c d d' H1 K1) as <-. split; [reflexivity | exact (first_level_unique d c i t e a a' H2 K2)].
    - destruct (Hno d a H2 (K0 d H1)).
    - destruct (Hno d' a' K2 (H0 d' K1)).
    - pose proof (in_own_unique p c d d' H1 K1) as <-. split; [reflexivity | exact (first_level_unique d c i t e a a' H2 K2)].
  Qed.
  Lemma answer_unique E r x y : answer_of E r x -> answer_of E r y -> x = y.
  Proof. destruct x, y. intros (H1 & H2) (K1 & K2). cbn [fst snd] in *. congruence. Qed.
  Lemma answering_source c i t e d a : answering p c i t e d a -> source p c d /\ first_level d c i t e a.
  Proof. intros [(H1 & H2)|(_ & H1 & H2)]; (split; [|exact H2]); [left | right]; exact H1. Qed.
  Lemma source_connection c d : source p c d -> exists file v, mget file (sp_connections p) = Some (d, v).
  Proof. intros [(f & v & _ & H)|(f & v & _ & H)]; eauto. Qed.
  Lemma source_known c d : source p c d -> known p c.
  Proof. intros [(f & v & H & _)|(f & v & H & _)]; apply mget_In in H; exact (in_map fst _ _ H). Qed.
  Lemma eq_starts d c i a : has d c i (eq a) -> has d c i (starts_with a).
  Proof. intros (r & H1 & H2 & H3 & H4). exists r. repeat split; try assumption. subst a. apply starts_with_refl. Qed.
End Levels.

(** ** The first of all strings *)
Section First.
  Variable E : penv.
  Variable p : sprovider.
  Hypothesis Hp : provider_ok p.
  Hypothesis He : env_fine E p.
  Hypothesis Hfix : fixed_order E p.

  Lemma map_rows_first {A} (f : list cell -> pout A) rows l : map_rows f rows = Ok l -> map_rows f (firstn 1 rows) = Ok (firstn 1 l).
  Proof.
    destruct rows as [|r rows]; cbn [map_rows firstn]; [intros [= <-]; reflexivity|]. intros H. apply bind_Ok in H. destruct H as (a & Ha & H).
    apply bind_Ok in H. destruct H as (l' & _ & H). injection H as <-. rewrite Ha. reflexivity.
  Qed.
  Lemma find_first file d v c i e t : mget file (sp_connections p) = Some (d, v) -> forall fuel l,
    find_loop E fuel file d (SqlPattern false e) c i e t = Ok l -> find_loop E fuel file d (SqlPattern true e) c i e t = Ok (firstn 1 l).
  Proof.
    intros Hd fuel. revert t. induction fuel as [|f IH]; intros t l; [discriminate|]. cbn [find_loop]. destruct t as [|x t]; [intros [= <-]; reflexivity|].
    unfold select. destruct He as (_ & Hs & _). rewrite !Hs. cbn [negb]. destruct (Hfix file d v Hd) as (rows & _ & Hord). rewrite !Hord. cbn [bind].
    rewrite <- firstn_map.
    match goal with |- context [map_rows ?g (map ?h ?rs)] => set (ask := map_rows g (map h rs)); assert (Hask : forall l, ask = Ok l -> map_rows g (firstn 1 (map h rs)) = Ok (firstn 1 l))
      by (intros l0; apply map_rows_first) end.
    intros H. apply bind_Ok in H. destruct H as (l0 & Hl0 & H). rewrite (Hask l0 Hl0). cbn [bind]. destruct l0 as [|y l0]; cbn [firstn]; [exact (IH _ _ H)|].
    injection H as <-. reflexivity.
  Qed.
  Lemma string_first c i t l : value (strings E p c i t) = Ok l -> value (string_ E p c i t) = Ok (hd_error l).
  Proof.
    destruct (mget c (sp_components p)) as [(fa, fo)|] eqn:Hc; [|unfold strings, string_, one_string, value; rewrite Hc; discriminate].
    unfold string_. rewrite (one_string_value E p Hp false c i t fa fo Hc), (strings_value E p Hp c i t fa fo Hc).
    assert (Hf : forall all l, (if all : bool then fa else fo) = true -> value (find_strings E p c i t all false false) = Ok l ->
      value (find_strings E p c i t all true false) = Ok (firstn 1 l)).
    { intros all l0 Hall. rewrite !find_strings_value by exact Hp. unfold on_connection, connection. rewrite Hc. cbn [fst snd].
      destruct (proj2 Hp c _ Hc) as (Ha & Ho). cbn [fst snd] in *. destruct all; subst; cbn [andb].
      - destruct (Ha eq_refl) as (d & Hd). rewrite Hd. cbn [bind]. apply (find_first aio d _ c i false t Hd).
      - destruct (Ho eq_refl) as (d & Hd). rewrite Hd. cbn [bind]. apply (find_first c d _ c i false t Hd). }
    assert (Hown : forall l, (if fo then value (find_strings E p c i t false false false) else Ok []) = Ok l ->
      (let! l := if fo then value (find_strings E p c i t false true false) else Ok [] in Ok (last (map Some l) None)) = Ok (hd_error l)).
    { intros l0. destruct fo; [|intros [= <-]; reflexivity]. intros H. rewrite (Hf false l0 eq_refl H). destruct l0; reflexivity. }
    intros H. apply bind_Ok in H. destruct H as (l0 & Hl0 & H). destruct fa.
    - rewrite (Hf true l0 eq_refl Hl0). destruct l0 as [|x l0]; cbn [firstn bind map last].
      + exact (Hown l H).
      + injection H as <-. reflexivity.
    - injection Hl0 as <-. cbn [bind map last]. exact (Hown l H).
  Qed.
End First.
