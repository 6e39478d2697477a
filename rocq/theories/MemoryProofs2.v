(** Proofs for C90 and C91: the registry of language tags and the provider. *)
From Verif Require Import Base BaseFacts RegistryModel RegistrySpec RegistryProofs ProviderModel ProviderProofs MemorySpec.

Section Registry.
  Variable L : locid.
  Hypothesis HL : locid_ok L.

  Lemma tag_memory h rs r s y : reachable L h rs r -> In s h -> canon L s = Some y ->
    exists x, r_tag x = y /\ forall L', tag L' r s = (r, Ok x) /\ tag L' r y = (r, Ok x).
  Proof.
    intros Hr Hs Hc. pose proof (reachable_inv L HL h rs r Hr) as [H1 H2 H3 H4 H5 H6 H7].
    destruct (H3 s y Hs Hc) as (Hy & Hd). destruct (mget y (lr_tags r)) as [x|] eqn:Ey; [|contradiction].
    destruct (H1 _ _ Ey) as (Ht & _ & _ & _). exists x. split; [exact Ht|]. intros L'. split; [|unfold tag; now rewrite Ey].
    unfold tag. destruct (ueqb_spec s y) as [->|N]; [now rewrite Ey|].
    destruct (mget s (lr_tags r)) as [x'|] eqn:Es.
    { destruct (H1 _ _ Es) as (_ & Hc' & _). congruence. }
    destruct (mget s (lr_deprecated r)) as [x'|] eqn:Ed; [|destruct (Hd N); reflexivity].
    destruct (H2 _ _ Ed) as (Hc' & Ht' & _). rewrite Hc in Hc'. injection Hc' as ->. congruence.
  Qed.

  Lemma tags_size h rs r D : reachable L h rs r -> incl h D ->
    List.length (list_tags r) <= List.length D /\ List.length (list_deprecated r) <= List.length D.
  Proof.
    intros Hr Hi. pose proof (reachable_inv L HL h rs r Hr) as [H1 H2 H3 (N1 & N2) H5 H6 H7]. unfold list_tags, list_deprecated. rewrite !map_length. split.
    - rewrite <- (map_length fst (lr_tags r)), <- (map_length (fun s => match canon L s with Some y => y | None => [] end) D).
      apply NoDup_incl_length; [exact N1|]. intros k Hk. apply mget_keys in Hk as (x & Ek).
      destruct (H1 _ _ Ek) as (_ & _ & (s & Hs & Hc) & _). apply in_map_iff. exists s. rewrite Hc. split; [reflexivity|]. now apply Hi.
    - rewrite <- (map_length fst (lr_deprecated r)). apply NoDup_incl_length; [exact N2|]. intros k Hk.
      apply mget_keys in Hk as (x & Ek). destruct (H2 _ _ Ek) as (_ & _ & Hin & _). now apply Hi.
  Qed.
End Registry.

(** ** Locales *)
Lemma tag_icu L r s : lr_icu (fst (tag L r s)) = lr_icu r.
Proof.
  unfold tag. destruct (mget s (lr_tags r)); [reflexivity|]. destruct (mget s (lr_deprecated r)); [reflexivity|].
  destruct (canon L s) as [new|]; [|reflexivity]. destruct (mget new (lr_tags r)); [reflexivity|]. cbn. destruct (ueqb s new); reflexivity.
Qed.
Lemma icu_memory L r t r1 x r2 : icu_language L r t = (r1, Ok x) -> later L r1 r2 -> forall L', icu_language L' r2 t = (r2, Ok x).
Proof.
  intros H Hl L'. assert (Hg : mget (r_tag t) (lr_icu r2) = Some x).
  { assert (H1 : mget (r_tag t) (lr_icu r1) = Some x).
    { unfold icu_language in H. destruct (mget (r_tag t) (lr_icu r)) as [y|] eqn:Ey; [injection H as <- <-; exact Ey|].
      destruct (parse_locale L (r_tag t)); [|discriminate]. injection H as <- <-. cbn. apply mget_minsert_eq. }
    clear H. induction Hl as [|r2 s r3 o _ IH Ht|r2 u r3 o _ IH Ht]; [exact H1| |].
    - pose proof (tag_icu L r2 s) as G. rewrite Ht in G. cbn in G. now rewrite G.
    - unfold icu_language in Ht. destruct (mget (r_tag u) (lr_icu r2)) as [y|] eqn:Ey; [injection Ht as <- <-; exact IH|].
      destruct (parse_locale L (r_tag u)); [|injection Ht as <- <-; exact IH]. injection Ht as <- <-. cbn.
      rewrite mget_minsert. destruct (ueqb_spec (r_tag t) (r_tag u)) as [E|N]; [congruence|exact IH]. }
  unfold icu_language. now rewrite Hg.
Qed.
Lemma icu_size L h rs r D : locid_ok L -> reachable L h rs r -> incl h D -> List.length (lr_icu r) <= List.length D.
Proof.
  intros HL Hr Hi.
  assert (H : NoDup (mkeys (lr_icu r)) /\ forall k, In k (mkeys (lr_icu r)) -> In k (map r_tag rs)).
  { clear Hi. induction Hr as [|h rs r s r' o Hr IH Ht|h rs r t r' o Hr IH Hin Ht].
    - cbn. split; [constructor|intros k []].
    - pose proof (tag_icu L r s) as G. rewrite Ht in G. cbn in G. rewrite G. split; [apply IH|]. intros k Hk. apply IH in Hk. destruct o; auto. now right.
    - unfold icu_language in Ht. destruct (mget (r_tag t) (lr_icu r)) as [y|]; [injection Ht as <- <-; exact IH|].
      destruct (parse_locale L (r_tag t)); [|injection Ht as <- <-; exact IH]. injection Ht as <- <-. cbn. split.
      + apply minsert_NoDup, IH.
      + intros k Hk. apply minsert_keys_In in Hk as [->|Hk]; [apply in_map, Hin|now apply IH]. }
  destruct H as (H1 & H2). pose proof (reachable_inv L HL h rs r Hr) as [I1 _ _ _ _ I6 _].
  rewrite <- (map_length fst (lr_icu r)), <- (map_length (fun s => match canon L s with Some y => y | None => [] end) D).
  apply NoDup_incl_length; [exact H1|]. intros k Hk. apply H2, in_map_iff in Hk as (x & <- & Hx). destruct (I1 _ _ (I6 x Hx)) as (_ & _ & (s & Hs & Hc) & _).
  apply in_map_iff. exists s. rewrite Hc. split; [reflexivity|]. now apply Hi.
Qed.

(** ** The provider *)
Definition all_keys : list ustr :=
  map (fun '(a, b, c) => kind_key (KPattern a b c))
    [(true, true, true); (true, true, false); (true, false, true); (true, false, false);
     (false, true, true); (false, true, false); (false, false, true); (false, false, false)] ++
  List.concat (map (fun q => [kind_key (KPlain q true); kind_key (KPlain q false)]) [SqlLanguages; SqlIdentifier; SqlContributors; SqlCount; SqlDefault]).

Section Provider.
  Variable E : penv.
  Variable p : sprovider.
  Definition few (st : pstate) : Prop := NoDup (mkeys (ps_queries st)) /\ incl (mkeys (ps_queries st)) all_keys.
  Definition grows {A} (m : PM A) : Prop := forall st,
    (forall x, ps_details st = Some x -> ps_details (fst (m st)) = Some x) /\ (few st -> few (fst (m st))).
  Lemma grows_ret {A} (x : pout A) : grows (pret x).
  Proof. intros st. split; auto. Qed.
  Lemma grows_bind {A B} (m : PM A) (f : A -> PM B) : grows m -> (forall a, grows (f a)) -> grows (pbind m f).
  Proof.
    intros Hm Hf st. destruct (Hm st) as (H1 & H2). unfold pbind. destruct (m st) as (st' & [a|e| |]); cbn [fst] in *; auto.
    destruct (Hf a st') as (H3 & H4). split; auto.
  Qed.
  Lemma grows_query k v : In (kind_key k) all_keys -> grows (get_query (kind_key k) v (kind_sql k)).
  Proof.
    intros Hk st. unfold get_query. destruct (mget _ (ps_queries st)) as [q|]; [split; auto|]. unfold make_query. destruct (ueqb v _); [|split; auto].
    cbn [fst ps_details]. split; [auto|]. intros (H1 & H2). split; cbn [ps_queries].
    - now apply minsert_NoDup.
    - intros key H. apply minsert_keys_In in H as [->|H]; auto.
  Qed.
  Lemma pattern_key a b c : In (kind_key (KPattern a b c)) all_keys.
  Proof. unfold all_keys. apply in_or_app. left. destruct a, b, c; vm_compute; tauto. Qed.
  Lemma plain_key q a : (forall x y, q <> SqlPattern x y) -> In (kind_key (KPlain q a)) all_keys.
  Proof. intros Hq. unfold all_keys. apply in_or_app. right. destruct q; [now destruct (Hq one exact)| | | | |]; destruct a; vm_compute; tauto. Qed.
  Lemma method_grows {A} c all k (g : ustr -> db -> sql -> pout A) : In (kind_key k) all_keys ->
    grows (pbind (pret (connection p c all)) (fun '(f, (d, v)) => pbind (get_query (kind_key k) v (kind_sql k)) (fun q => pret (g f d q)))).
  Proof. intros Hk. apply grows_bind; [apply grows_ret|]. intros (f & d & v). apply grows_bind; [now apply grows_query|]. intros; apply grows_ret. Qed.
  Lemma find_strings_grows c i t all one exact : grows (find_strings E p c i t all one exact).
  Proof. exact (method_grows c all (KPattern all one exact) (fun f d q => find_loop E (S (List.length t)) f d q c i exact t) (pattern_key _ _ _)). Qed.
  Ltac other := apply plain_key; discriminate.
  Lemma languages_grows c all : grows (languages E p c all).
  Proof. refine (method_grows c all (KPlain SqlLanguages all) (fun f d q => _) _); other. Qed.
  Lemma identifier_languages_grows c i all : grows (identifier_languages E p c i all).
  Proof. refine (method_grows c all (KPlain SqlIdentifier all) (fun f d q => _) _); other. Qed.
  Lemma contributors_grows c t all : grows (contributors E p c t all).
  Proof. refine (method_grows c all (KPlain SqlContributors all) (fun f d q => _) _); other. Qed.
  Lemma count_grows c t all : grows (count E p c t all).
  Proof. refine (method_grows c all (KPlain SqlCount all) (fun f d q => _) _); other. Qed.
  Lemma default_language_grows c all : grows (default_language E p c all).
  Proof. refine (method_grows c all (KPlain SqlDefault all) (fun f d q => _) _); other. Qed.
  Ltac grow := repeat first
    [ apply find_strings_grows | apply languages_grows | apply identifier_languages_grows | apply contributors_grows
    | apply count_grows | apply default_language_grows | apply grows_ret | apply grows_bind; [|intros ?]
    | match goal with
      | |- grows (if ?b then _ else _) => destruct b
      | |- grows (match ?x with _ => _ end) => destruct x
      | |- grows (let (_, _) := ?x in _) => destruct x
      | |- grows (skip _) => apply grows_ret
      end ].
  Lemma one_string_grows exact c i t : grows (one_string E p exact c i t).
  Proof. unfold one_string. grow. Qed.
  Lemma strings_grows c i t : grows (strings E p c i t).
  Proof. unfold strings. grow. Qed.
  Lemma language_loop_grows c f ls acc : grows (language_loop E p c f ls acc).
  Proof.
    revert acc; induction ls as [|t ls IH]; intros acc; cbn [language_loop]; [apply grows_ret|].
    apply grows_bind; [unfold language_step; grow|intros; apply IH].
  Qed.
  Lemma component_loop_grows cs acc : grows (component_loop E p cs acc).
  Proof.
    revert acc; induction cs as [|(c & f) cs IH]; intros acc; cbn [component_loop]; [apply grows_ret|].
    apply grows_bind; [|intros; apply IH]. unfold component_step. destruct acc. grow. apply language_loop_grows.
  Qed.
  Lemma build_details_grows : grows (build_details E p).
  Proof. unfold build_details. apply grows_bind; [apply component_loop_grows|]. intros (cds & rd). grow. Qed.
  Lemma get_details_grows : grows (get_details E p).
  Proof.
    intros st. unfold get_details. destruct (ps_details st) as [x|] eqn:Ex; [split; [intros y Hy; cbn [fst]; congruence|auto]|]. destruct (build_details_grows st) as (H1 & H2).
    destruct (build_details E p st) as (st' & [y|e| |]); cbn [fst] in *; (split; [intros ? Hn; discriminate Hn|exact H2]).
  Qed.
  Lemma call_grows c : grows (pcall_run E p c).
  Proof.
    destruct c; cbn [pcall_run]; (apply grows_bind; [|intros; apply grows_ret]);
      [apply one_string_grows|apply one_string_grows|apply strings_grows|..];
      unfold identifier_details, component_details, repository_details; (apply grows_bind; [apply get_details_grows|]); intros (cds & rd); grow.
  Qed.
  Lemma prun_details h x : forall st, ps_details st = Some x -> ps_details (prun E p st h) = Some x.
  Proof. induction h as [|c h IH]; intros st H; cbn; [exact H|]. apply IH, call_grows, H. Qed.
  Lemma prun_few h : forall st, few st -> few (prun E p st h).
  Proof. induction h as [|c h IH]; intros st H; cbn; [exact H|]. apply IH, call_grows, H. Qed.

  Lemma details_filled c st a : asks_details c -> snd (pcall_run E p c st) = Ok a -> exists x, ps_details (fst (pcall_run E p c st)) = Some x.
  Proof.
    assert (Hg : forall A (f : amap cdetails * rdetails -> PM A), (forall y, grows (f y)) -> forall st a,
      snd (pbind (get_details E p) f st) = Ok a -> exists x, ps_details (fst (pbind (get_details E p) f st)) = Some x).
    { intros A f Hf st0 a0 H. unfold pbind in *. assert (Hx : forall x, snd (get_details E p st0) = Ok x -> ps_details (fst (get_details E p st0)) = Some x).
      { unfold get_details. destruct (ps_details st0) as [x|] eqn:Ex; cbn [fst snd]; [intros y [= <-]; exact Ex|].
        destruct (build_details E p st0) as (st' & [x|e| |]); cbn [fst snd]; intros y Hy; try discriminate. injection Hy as <-. reflexivity. }
      destruct (get_details E p st0) as (st' & [x|e| |]); cbn [fst snd] in *; try discriminate. exists x. apply Hf, Hx. reflexivity. }
    assert (Hb : forall A (m : PM A) (f : A -> panswer), (forall a, snd (m st) = Ok a -> exists x, ps_details (fst (m st)) = Some x) ->
      snd (pbind m (fun y => skip (f y)) st) = Ok a -> exists x, ps_details (fst (pbind m (fun y => skip (f y)) st)) = Some x).
    { intros A m f Hm H. unfold pbind in *. destruct (m st) as (st' & [x|e| |]); cbn [fst snd skip pret] in *; try discriminate. exact (Hm x eq_refl). }
    destruct c; cbn [asks_details pcall_run]; intros Hc; try contradiction; apply Hb; intros b; apply Hg; intros (cds & rd); grow.
  Qed.
End Provider.
Lemma details_memory E p h c a h' c' : asks_details c -> snd (pcall_run E p c (prun E p pstate_new h)) = Ok a -> asks_overview c' ->
  let st := prun E p pstate_new (h ++ c :: h') in
  forall E' p', pcall_run E' p' c' st = pcall_run E p c' st.
Proof.
  intros Hc Ha Hc' st E' p'. destruct (details_filled E p c _ a Hc Ha) as (x & Hx).
  assert (Hs : ps_details st = Some x). { unfold st, prun. rewrite fold_left_app. cbn. apply prun_details. exact Hx. }
  destruct c'; cbn [asks_overview] in Hc'; try contradiction; cbn [pcall_run]; unfold component_details, repository_details, pbind, get_details; now rewrite Hs.
Qed.
Lemma queries_size E p h : List.length (ps_queries (prun E p pstate_new h)) <= 18.
Proof.
  destruct (prun_few E p h pstate_new) as (H1 & H2); [split; [constructor|intros k []]|].
  rewrite <- (map_length fst). change 18 with (List.length all_keys). apply NoDup_incl_length; assumption.
Qed.
