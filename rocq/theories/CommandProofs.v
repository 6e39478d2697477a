(** Proofs about the command registry and the built-in commands. *)
From Verif Require Import Base BaseFacts ValueModel CommandModel.

(** A history of [insert] calls ([command] and [list] do not change the registry) and the registry after it. *)
Fixpoint after_inserts (r : cregistry) (h : list (ustr * command)) : cregistry :=
  match h with [] => r | (name, f) :: h' => after_inserts (fst (creg_insert r name f)) h' end.

Lemma after_inserts_app r h1 h2 : after_inserts r (h1 ++ h2) = after_inserts (after_inserts r h1) h2.
Proof. revert r. induction h1 as [|[n f] h1 IH]; intros r; [reflexivity|]. cbn. apply IH. Qed.

Lemma mget_minsert_none {V} k (v : V) m : mget k m = None -> minsert k v m = m ++ [(k, v)].
Proof. induction m as [|[k' v'] m IH]; cbn; [reflexivity|]. destruct (ueqb k k'); [discriminate|]. intros H. now rewrite IH. Qed.
Lemma mget_app {V} k (m m' : amap V) : mget k (m ++ m') = match mget k m with Some v => Some v | None => mget k m' end.
Proof. induction m as [|[k' v'] m IH]; cbn; [reflexivity|]. destruct (ueqb k k'); [reflexivity|exact IH]. Qed.

(** Every lookup gives the first command inserted under the name. *)
Lemma lookup_first h : forall r name, mget name (after_inserts r h) = match mget name r with Some f => Some f | None => mget name h end.
Proof.
  induction h as [|[n f] h IH]; intros r name; cbn [after_inserts mget]; [now destruct (mget name r)|].
  rewrite IH. unfold creg_insert, mhas. destruct (mget n r) as [g|] eqn:E; cbn [fst].
  - destruct (mget name r) eqn:E'; [reflexivity|]. destruct (ueqb_spec name n) as [->|]; [congruence|reflexivity].
  - rewrite mget_minsert_none, mget_app by exact E. destruct (mget name r); [reflexivity|]. cbn. now destruct (ueqb name n).
Qed.
Lemma names_nodup h : forall r, NoDup (creg_list r) -> NoDup (creg_list (after_inserts r h)).
Proof.
  induction h as [|[n f] h IH]; intros r Hr; cbn [after_inserts]; [exact Hr|]. apply IH. unfold creg_insert, mhas.
  destruct (mget n r) as [g|] eqn:E; [exact Hr|]. cbn [fst]. rewrite mget_minsert_none by exact E.
  unfold creg_list, mkeys in *. rewrite map_app. cbn. apply (Permutation.Permutation_NoDup (l := n :: map fst r)).
  - apply Permutation.Permutation_cons_append.
  - constructor; [|exact Hr]. intros Hi. apply in_map_iff in Hi as ([k v] & <- & Hi). cbn in E.
    clear - E Hi. induction r as [|[k' v'] r IH]; [destruct Hi|]. cbn in E. destruct (ueqb_spec k k') as [->|N]; [discriminate|].
    destruct Hi as [[= ? ?]|Hi]; [congruence|auto].
Qed.
Lemma keys_mget {V} k (m : amap V) : In k (map fst m) <-> mget k m <> None.
Proof.
  induction m as [|[k' v'] m IH]; cbn; [split; [intros []|intros H; now destruct H]|].
  destruct (ueqb_spec k k') as [->|N]; [split; [discriminate|auto]|]. rewrite <- IH. split; [intros [?|?]; [congruence|auto]|auto].
Qed.

Theorem registry_lookup h name : creg_command (after_inserts creg_new h) name = ok_or (mget name h) (NotFound name).
Proof. unfold creg_command. now rewrite lookup_first. Qed.
Theorem registry_insert h name f : let r := after_inserts creg_new h in
  (In name (map fst h) -> creg_insert r name f = (r, Err (AlreadyExists name))) /\
  (~ In name (map fst h) -> snd (creg_insert r name f) = Ok tt /\ forall n, creg_command (fst (creg_insert r name f)) n =
     if ueqb n name then Ok f else creg_command r n).
Proof.
  cbn zeta. unfold creg_insert, mhas. rewrite keys_mget, lookup_first. cbn [mget creg_new]. split.
  - intros H. destruct (mget name h); [reflexivity|now destruct H].
  - intros H. destruct (mget name h) eqn:E; [destruct H; discriminate|]. split; [reflexivity|]. intros n. cbn [fst]. unfold creg_command.
    rewrite mget_minsert_none by now rewrite lookup_first. rewrite mget_app, lookup_first. cbn [mget creg_new].
    destruct (ueqb_spec n name) as [->|N]; [now rewrite E|]. now destruct (mget n h).
Qed.
Theorem registry_list h : NoDup (creg_list (after_inserts creg_new h)) /\
  forall name, In name (creg_list (after_inserts creg_new h)) <-> In name (map fst h).
Proof.
  split; [apply names_nodup; constructor|]. intros name. unfold creg_list, mkeys. now rewrite !keys_mget, lookup_first.
Qed.

(** Built-in commands. *)
Theorem file_path_panics ps : file_path ps = Panic <-> ps = [].
Proof.
  unfold file_path, command_parameter. destruct ps as [|v ps]; [split; reflexivity|]. split; [|discriminate].
  destruct v; try discriminate. destruct ps as [|v ps]; [discriminate|]. destruct v; discriminate.
Qed.
Theorem english_panics ps : english_a_or_an ps = Panic <-> ps = [] \/ exists name r, ps = VString name :: VString [] :: r.
Proof.
  unfold english_a_or_an, command_parameter. destruct ps as [|v ps]; [split; auto|]. split.
  - destruct v; try discriminate. destruct ps as [|v ps]; [discriminate|]. destruct v as [w| | | | | | | | | |]; try discriminate.
    destruct w as [|c w]; [eauto|]. cbn. match goal with |- (if ?b then _ else _) = _ -> _ => destruct b end; discriminate.
  - intros [H|(name & r & [= -> ->])]; [discriminate|reflexivity].
Qed.
Theorem english_article name c w r : english_a_or_an (VString name :: VString (c :: w) :: r) =
  Ok (if existsb (N.eqb c) (us "aeiou") then us "an" else us "a").
Proof. unfold english_a_or_an. cbn [command_parameter bind hd_error unwrap]. now destruct (existsb _ _). Qed.

Lemma parameter_results ps :
  (forall s, command_parameter ps = Ok s <-> exists name r, ps = VString name :: VString s :: r) /\
  (forall name n, command_parameter ps = Err (ParameterMissing name n) <-> ps = [VString name] /\ n = 1) /\
  (forall name n, command_parameter ps = Err (InvalidType name n) <->
     (exists v r, ps = VString name :: v :: r /\ (forall s, v <> VString s) /\ n = 1) \/
     (exists v r, ps = v :: r /\ (forall s, v <> VString s) /\ name = us "command identifier" /\ n = 0)) /\
  (forall e, command_parameter ps = Err e -> exists name n, e = ParameterMissing name n \/ e = InvalidType name n) /\
  command_parameter ps <> NoFuel.
Proof.
  assert (Hn : forall v r, ps = v :: r -> (forall s, v <> VString s) -> command_parameter ps = Err (InvalidType (us "command identifier") 0)).
  { intros v r -> Hv. destruct v; try reflexivity. destruct (Hv s eq_refl). }
  assert (Hi : forall name v r, ps = VString name :: v :: r -> (forall s, v <> VString s) -> command_parameter ps = Err (InvalidType name 1)).
  { intros name v r -> Hv. destruct v; try reflexivity. destruct (Hv s eq_refl). }
  assert (Hc : ps = [] \/ (exists v r, ps = v :: r /\ forall s, v <> VString s) \/ (exists name, ps = [VString name]) \/
    (exists name s r, ps = VString name :: VString s :: r) \/ (exists name v r, ps = VString name :: v :: r /\ forall s, v <> VString s)).
  { destruct ps as [|v r]; [left; reflexivity|]. right. assert (Hv : (exists s, v = VString s) \/ forall s, v <> VString s) by (destruct v; eauto; right; discriminate).
    destruct Hv as [(name & ->)|Hv]; [|left; eauto]. right. destruct r as [|v r]; [left; eauto|]. right.
    assert (Hv : (exists s, v = VString s) \/ forall s, v <> VString s) by (destruct v; eauto; right; discriminate).
    destruct Hv as [(s & ->)|Hv]; [left|right]; eauto 6. }
  destruct Hc as [Hc|[(v & r & Hc & Hv)|[(name & Hc)|[(name & s & r & Hc)|(name & v & r & Hc & Hv)]]]].
  - subst ps. cbn. repeat split; try discriminate; try (intros (a & b & H); discriminate H); try (intros (H & _); discriminate H).
    intros [(a & b & H & _)|(a & b & H & _)]; discriminate H.
  - rewrite (Hn v r Hc Hv). subst ps. repeat split; try discriminate.
    + intros (a & b & [= -> _]). destruct (Hv a eq_refl).
    + intros ([= -> _] & _). destruct (Hv name eq_refl).
    + intros [= <- <-]. right. exists v, r. auto.
    + intros [(a & b & [= -> _] & _)|(a & b & _ & _ & -> & ->)]; [destruct (Hv name eq_refl) | reflexivity].
    + intros e [= <-]. eauto.
  - subst ps. cbn. repeat split; try discriminate.
    + intros (a & b & H). discriminate H.
    + injection H as <- <-. reflexivity.
    + injection H as <- <-. reflexivity.
    + intros ([= <-] & ->). reflexivity.
    + intros [(a & b & H & _)|(a & b & [= <- _] & H & _)]; [discriminate H | destruct (H name eq_refl)].
    + intros e [= <-]. eauto.
  - subst ps. cbn. repeat split; try discriminate.
    + intros [= <-]. eauto.
    + intros (a & b & [= _ -> _]). reflexivity.
    + intros (H & _). discriminate H.
    + intros [(a & b & [= _ <- _] & H & _)|(a & b & [= <- _] & H & _)]; destruct (H _ eq_refl).
  - rewrite (Hi name v r Hc Hv). subst ps. repeat split; try discriminate.
    + intros (a & b & [= _ -> _]). destruct (Hv s eq_refl).
    + intros (H & _). discriminate H.
    + intros [= <- <-]. left. exists v, r. auto.
    + intros [(a & b & [= -> _ _] & _ & ->)|(a & b & [= <- _] & H & _)]; [reflexivity | destruct (H name eq_refl)].
    + intros e [= <-]. eauto.
Qed.
Theorem command_results : forall ps,
  (forall s, file_path ps = Ok s <-> exists name r, ps = VString name :: VString s :: r) /\
  (forall s, english_a_or_an ps = Ok s -> exists name c w r, ps = VString name :: VString (c :: w) :: r) /\
  (forall f name n, (f = file_path \/ f = english_a_or_an) -> (f ps = Err (ParameterMissing name n) <-> ps = [VString name] /\ n = 1)) /\
  (forall f name n, (f = file_path \/ f = english_a_or_an) -> (f ps = Err (InvalidType name n) <->
     (exists v r, ps = VString name :: v :: r /\ (forall s, v <> VString s) /\ n = 1) \/
     (exists v r, ps = v :: r /\ (forall s, v <> VString s) /\ name = us "command identifier" /\ n = 0))) /\
  (forall f e, (f = file_path \/ f = english_a_or_an) -> f ps = Err e -> exists name n, e = ParameterMissing name n \/ e = InvalidType name n) /\
  file_path ps <> NoFuel /\ english_a_or_an ps <> NoFuel.
Proof.
  intros ps. destruct (parameter_results ps) as (H1 & H2 & H3 & H4 & H5).
  assert (He : forall e, english_a_or_an ps = Err e <-> command_parameter ps = Err e).
  { intros e. unfold english_a_or_an. destruct (command_parameter ps) as [[|c w]|e'| |]; cbn; try (split; discriminate); [|tauto].
    destruct ((c =? 97) || _)%N; split; discriminate. }
  split; [exact H1|]. split.
  - intros s. unfold english_a_or_an. destruct (command_parameter ps) as [[|c w]|e'| |] eqn:Ec; cbn; try discriminate. intros _.
    destruct (proj1 (H1 _) eq_refl) as (name & r & Hr). eauto 6.
  - split; [|split; [|split; [|split]]].
    + intros f name n [-> | ->]; [exact (H2 name n) | rewrite He; exact (H2 name n)].
    + intros f name n [-> | ->]; [exact (H3 name n) | rewrite He; exact (H3 name n)].
    + intros f e [-> | ->]; [exact (H4 e) | rewrite He; exact (H4 e)].
    + exact H5.
    + unfold english_a_or_an. destruct (command_parameter ps) as [[|c w]|e'| |]; cbn; try discriminate; [|contradiction]. destruct ((c =? 97) || _)%N; discriminate.
Qed.
