(** Property C99: the methods of the sqlite3 provider agree with each other. *)
From Verif Require Import Base BaseFacts RegistryModel ProviderModel ProviderSpec ProviderProofs ProviderProofs2 ProviderProofs3 ProviderProofs6
  ProviderProofs7 ProviderProofs8 AgreeProofs PropertiesProvider.

(** ** C99: one string and all strings. There is a string exactly if there are strings, and it is one of them. *)
Theorem C99_strings : forall E es p h h' c i t, made es p -> env_fine E p -> known p c -> no_wildcard t ->
  exists o l, result E p h (CallString c i t) = Ok (AnString o) /\ result E p h' (CallStrings c i t) = Ok (AnStrings l) /\
  (o = None <-> l = []) /\ forall x, o = Some x -> In x l.
Proof.
  intros E es p h h' c i t Hm He Hk Hw. destruct (C34_specific_partial E es p h c i t Hm He Hk Hw) as (o & Ho & H & _).
  destruct (C37_strings E es p h' c i t Hm He Hk Hw) as (l & Hl & K). exists o, l. split; [exact Ho|]. split; [exact Hl|].
  destruct o as [x|].
  - destruct H as (d & a & r & Ha & Hr & Hx). assert (Hin : In x l).
    { destruct K as [(_ & K)|(d' & a' & rows & rest & Ha' & Hperm & _ & Hrest & Hf)].
      - destruct (answering_source p c i t false d a Ha) as (Hs & H1 & H2 & H3 & _). destruct (K d Hs a H1 H2 H3).
      - destruct (answering_unique p c i t false d a d' a' Ha Ha') as (<- & <-).
        assert (Hi : In r rows).
        { pose proof (Permutation_in r (Permutation_sym Hperm) (proj1 Hr)) as Hi. apply in_app_or in Hi. destruct Hi as [Hi|Hi]; [exact Hi | destruct (Hrest r Hi Hr)]. }
        clear - Hf Hi Hx. induction Hf as [|r' x' rows l' Hy Hf IH]; [destruct Hi|]. destruct Hi as [->|Hi]; [left; exact (answer_unique E r x' x Hy Hx) | right; exact (IH Hi)]. }
    split.
    + split; [discriminate | intros ->; destruct Hin].
    + intros y [= <-]. exact Hin.
  - split; [|discriminate]. split; [intros _ | reflexivity].
    destruct K as [(-> & _)|(d & a & rows & rest & Ha & _)]; [reflexivity|].
    destruct (answering_source p c i t false d a Ha) as (Hs & H1 & H2 & H3 & _). destruct (H d Hs a H1 H2 H3).
Qed.
Print Assumptions C99_strings.
(** If SQLite gives the rows in one order, it is the first of them, for any tag. *)
Theorem C99_first : forall E es p h h' c i t l, made es p -> env_fine E p -> fixed_order E p ->
  result E p h' (CallStrings c i t) = Ok (AnStrings l) -> result E p h (CallString c i t) = Ok (AnString (hd_error l)).
Proof.
  intros E es p h h' c i t l Hm He Hf H. apply made_ok in Hm. rewrite (result_strings E p Hm) in H. rewrite (result_string E p Hm).
  apply bind_Ok in H. destruct H as (l' & Hl & H). injection H as ->. rewrite (string_first E p Hm He Hf c i t l Hl). reflexivity.
Qed.
Print Assumptions C99_first.
Example C99_first_example : result env_stored (prov dir_ex) [] (CallStrings (us "app") (us "greet") (us "en-AU")) = Ok (AnStrings [(us "Hello", us "en"); (us "Howzit", us "en-ZA")]) /\
  result env_stored (prov dir_ex) [] (CallString (us "app") (us "greet") (us "en-AU")) = Ok (AnString (Some (us "Hello", us "en"))).
Proof. split; vm_compute; reflexivity. Qed.

(** ** The exact match. False: if there are strings in both files, the exact match may be in the requested language though
    the other methods return one in a less specific language. *)
Theorem C99_exact_refuted : exists E es p c i t x y, made es p /\ env_fine E p /\ fixed_order E p /\
  result E p [] (CallExact c i t) = Ok (AnString (Some x)) /\ result E p [] (CallString c i t) = Ok (AnString (Some y)) /\
  snd x = t /\ ~ starts_with t (snd y).
Proof.
  pose (es := [file "__all_in_one__" [row "app" "greet" "en-ZA" "Howzit"] [wrote "app" "en-ZA" "Ann"] [main "app" "en-ZA"];
               file "app" [row "app" "greet" "en-GB" "Good day"] [wrote "app" "en-GB" "Ann"] [main "app" "en-GB"]]).
  exists env_stored, es, (prov es), (us "app"), (us "greet"), (us "en-GB"), (us "Good day", us "en-GB"), (us "Howzit", us "en-ZA").
  split; [apply prov_made; vm_compute; reflexivity|]. split; [apply stored_fine|]. split; [apply stored_order|].
  split; [vm_compute; reflexivity|]. split; [vm_compute; reflexivity|]. split; [reflexivity|].
  intros (x & y & Hs & Hx). cbn [snd] in Hs.
  assert (Hl : List.length x = 5) by (apply (f_equal (@List.length N)) in Hx; rewrite !map_length in Hx; exact Hx).
  assert (Hy : x = us "en-ZA").
  { destruct x as [|x0 [|x1 [|x2 [|x3 [|x4 [|]]]]]]; try discriminate Hl. vm_compute in Hs. injection Hs as <- <- <- <- <- _. reflexivity. }
  subst x. vm_compute in Hx. discriminate Hx.
Qed.
Print Assumptions C99_exact_refuted.
(** What holds: if there is an exact match, there is a string; if one file holds the component, and the stored languages are
    canonical, the language of the string starts with that of the exact match. *)
Theorem C99_exact_partial : forall E es p h h' c i t x, made es p -> env_fine E p -> no_wildcard t ->
  result E p h (CallExact c i t) = Ok (AnString (Some x)) ->
  exists y, result E p h' (CallString c i t) = Ok (AnString (Some y)) /\
  (one_source p c -> canonical_tags E p -> ancestor (snd x) t /\ starts_with (snd x) (snd y)).
Proof.
  intros E es p h h' c i t x Hm He Hw Hx.
  assert (Hk : known p c).
  { destruct (in_dec (list_eq_dec N.eq_dec) c (mkeys (sp_components p))) as [Hk|Hk]; [exact Hk|].
    destruct (C37_unknown E es p h c i t Hm Hk) as (_ & _ & K). congruence. }
  destruct (C35_exact_partial E es p h c i t Hm He Hk Hw) as (o & Ho & H & _). rewrite Hx in Ho. injection Ho as <-.
  destruct H as (d & a & r & Ha & Hr & Hxr). destruct (answering_source p c i t true d a Ha) as (Hs & H1 & H2 & H3 & _).
  destruct (C34_specific_partial E es p h' c i t Hm He Hk Hw) as (o & Ho & K & _).
  destruct o as [y|].
  - exists y. split; [exact Ho|]. intros H1s Hcan. destruct K as (d' & a' & r' & Ha' & Hr' & Hyr).
    destruct (answering_source p c i t false d' a' Ha') as (Hs' & K1 & K2 & K3 & K4).
    pose proof (H1s d d' Hs Hs') as <-. destruct (source_connection p c d Hs) as (f & v & Hd).
    destruct Hr as (R1 & R2 & R3 & R4). destruct Hr' as (R1' & R2' & R3' & R4').
    assert (Hxt : snd x = a) by (destruct Hxr as (_ & Hq); rewrite (proj1 (Hcan f d v Hd r R1)) in Hq; injection Hq as <-; symmetry; exact R4).
    assert (Hyt : snd y = pr_tag r') by (destruct Hyr as (_ & Hq); rewrite (proj1 (Hcan f d v Hd r' R1')) in Hq; injection Hq as <-; reflexivity).
    rewrite Hxt, Hyt. split; [exact H1|]. apply (starts_with_trans a a' (pr_tag r')); [|exact R4'].
    specialize (K4 a H1 (eq_starts d c i a H3)). apply ancestor_app in H1, K1. destruct H1 as (u & H1), K1 as (u' & K1). rewrite H1 in K1.
    assert (Hpre : a' = a ++ skipn (List.length a) a').
    { rewrite <- (firstn_skipn (List.length a) a') at 1. f_equal. apply (f_equal (firstn (List.length a))) in K1.
      rewrite !firstn_app, Nat.sub_diag, firstn_all in K1. cbn [firstn] in K1. rewrite app_nil_r in K1. rewrite K1 at 2.
      replace (List.length a - List.length a') with 0 by lia. cbn [firstn]. rewrite app_nil_r. reflexivity. }
    exists a, (skipn (List.length a) a'). split; [exact Hpre | reflexivity].
  - destruct (K d Hs a H1 H2 (eq_starts d c i a H3)).
Qed.
Print Assumptions C99_exact_partial.

(** ** The languages of an identifier. False: for a component in both files, a string may be returned of which the language
    is not listed. *)
Theorem C99_listed_refuted : exists E es p c i t x o, made es p /\ env_fine E p /\ canonical_tags E p /\
  result E p [] (CallExact c i t) = Ok (AnString (Some x)) /\ snd x = t /\
  result E p [] (CallIdentifier c i) = Ok (AnIdentifier o) /\ ~ In t (id_languages o).
Proof.
  exists env_stored, dir_ex, (prov dir_ex), (us "app"), (us "greet"), (us "de"), (us "Hallo", us "de"), (mk_idetails [us "en"; us "en-ZA"; us "fr"] (us "en")).
  split; [exact dir_made|]. split; [apply stored_fine|]. split; [exact (proj1 C48_example)|].
  split; [vm_compute; reflexivity|]. split; [reflexivity|]. split; [vm_compute; reflexivity|].
  cbn [id_languages In]. intros [H|[H|[H|[]]]]; vm_compute in H; discriminate H.
Qed.
Print Assumptions C99_listed_refuted.
(** What holds, if the stored languages are canonical: an exact match for a language listed is in that language; and if one
    file holds the component, the language of every string returned is listed. *)
Theorem C99_listed_partial : forall E es p h h' c i o, made es p -> env_fine E p -> canonical_tags E p ->
  result E p h (CallIdentifier c i) = Ok (AnIdentifier o) ->
  (forall t, t <> [] -> In t (id_languages o) -> exists x, result E p h' (CallExact c i t) = Ok (AnString (Some x)) /\ snd x = t) /\
  (one_source p c -> forall t, no_wildcard t ->
   (forall x, result E p h' (CallExact c i t) = Ok (AnString (Some x)) -> In (snd x) (id_languages o)) /\
   (forall x, result E p h' (CallString c i t) = Ok (AnString (Some x)) -> In (snd x) (id_languages o)) /\
   (forall l x, result E p h' (CallStrings c i t) = Ok (AnStrings l) -> In x l -> In (snd x) (id_languages o))).
Proof.
  intros E es p h h' c i o Hm He Hcan Ho. destruct (C50_identifier_partial E es p h c i o Hm (proj1 He) Ho) as (_ & Hl).
  assert (Hsrc : exists d, source p c d /\ (forall t, In t (id_languages o) <-> id_speaks E d c i t) /\
    forall t, first_level d c i t true t -> answering p c i t true d t).
  { destruct Hl as [(d & H1 & _ & H2)|(H0 & d & H1 & H2)]; exists d.
    - split; [left; exact H1|]. split; [exact H2|]. intros t Ht. left. split; [exact H1 | exact Ht].
    - split; [right; exact H1|]. split; [exact H2|]. intros t Ht. right. split; [|split; [exact H1 | exact Ht]].
      intros d' Hd' b _ _ (r & R1 & R2 & R3 & _). apply (H0 d' Hd'). exists r. repeat split; assumption. }
  clear Hl. destruct Hsrc as (d0 & Hs0 & Hl0 & Hans). pose proof (source_known p c d0 Hs0) as Hk. destruct (source_connection p c d0 Hs0) as (f & v & Hd). split.
  - intros t Ht Hin. apply Hl0 in Hin. destruct Hin as (r & R1 & R2 & R3 & R4).
    destruct (Hcan f d0 v Hd r R1) as (Hc & Hw). rewrite Hc in R4. injection R4 as R4. rewrite R4 in Hw.
    assert (Hhas : has d0 c i (eq t)) by (exists r; repeat split; try assumption; symmetry; exact R4).
    destruct (C35_exact_partial E es p h' c i t Hm He Hk Hw) as (o' & Ho' & H & _). destruct o' as [x|].
    2:{ destruct (H d0 Hs0 t (or_introl eq_refl) Ht Hhas). }
    exists x. split; [exact Ho'|]. destruct H as (d & a & r' & Ha & Hr & Hx).
    assert (Ha0 : answering p c i t true d0 t).
    { apply Hans. split; [left; reflexivity|]. split; [exact Ht|]. split; [exact Hhas|]. intros b Hb _. exact (ancestor_length b t Hb). }
    destruct (answering_unique p c i t true d a d0 t Ha Ha0) as (-> & ->). destruct Hr as (K1 & _ & _ & K4). destruct Hx as (_ & Hx).
    rewrite (proj1 (Hcan f d0 v Hd r' K1)) in Hx. injection Hx as <-. symmetry. exact K4.
  - intros H1s t Hw.
    assert (Hrow : forall d r x (g : ustr -> Prop), source p c d -> hit d c i g r -> answer_of E r x -> In (snd x) (id_languages o)).
    { intros d r x g Hs (R1 & R2 & R3 & _) (_ & Hx). pose proof (H1s d d0 Hs Hs0) as ->. apply Hl0. exists r. auto. }
    split; [|split].
    + intros x Hx. destruct (C35_exact_partial E es p h' c i t Hm He Hk Hw) as (o' & Ho' & H & _). rewrite Hx in Ho'. injection Ho' as <-.
      destruct H as (d & a & r & Ha & Hr & Hxr). exact (Hrow d r x _ (proj1 (answering_source p c i t true d a Ha)) Hr Hxr).
    + intros x Hx. destruct (C34_specific_partial E es p h' c i t Hm He Hk Hw) as (o' & Ho' & H & _). rewrite Hx in Ho'. injection Ho' as <-.
      destruct H as (d & a & r & Ha & Hr & Hxr). exact (Hrow d r x _ (proj1 (answering_source p c i t false d a Ha)) Hr Hxr).
    + intros l x Hx Hin. destruct (C37_strings E es p h' c i t Hm He Hk Hw) as (l' & Hl' & H). rewrite Hx in Hl'. injection Hl' as <-.
      destruct H as [(-> & _)|(d & a & rows & rest & Ha & _ & Hhit & _ & Hf)]; [destruct Hin|].
      assert (Hr : exists r, In r rows /\ answer_of E r x).
      { clear - Hf Hin. induction Hf as [|r y rows l Hy Hf IH]; [destruct Hin|]. destruct Hin as [->|Hin]; [exists r; split; [left; reflexivity | exact Hy]|].
        destruct (IH Hin) as (r' & H1 & H2). exists r'. split; [right; exact H1 | exact H2]. }
      destruct Hr as (r & Hr & Hxr). exact (Hrow d r x _ (proj1 (answering_source p c i t false d a Ha)) (Hhit r Hr) Hxr).
Qed.
Print Assumptions C99_listed_partial.

(** ** The languages of a component. False: those of an identifier need not be among them, as only languages with a
    contributor are. *)
Theorem C99_component_refuted : exists E es p c i t o cd, made es p /\ env_fine E p /\ one_source p c /\ canonical_tags E p /\
  result E p [] (CallIdentifier c i) = Ok (AnIdentifier o) /\ result E p [] (CallComponent c) = Ok (AnComponent cd) /\
  In t (id_languages o) /\ ~ In t (mkeys (cd_languages cd)).
Proof.
  eexists env_stored, za_first, (prov za_first), (us "app"), (us "greet"), (us "en-ZA"), _, _.
  split; [apply prov_made; vm_compute; reflexivity|]. split; [apply stored_fine|]. split; [|split; [|split; [|split; [|split]]]].
  4:{ vm_compute. reflexivity. }
  3:{ vm_compute. reflexivity. }
  - intros d d' [(f & v & H1 & H2)|(f & v & H1 & H2)] [(g & w & K1 & K2)|(g & w & K1 & K2)]; try (vm_compute in H1; discriminate H1);
      try (vm_compute in K1; discriminate K1); congruence.
  - intros f d v Hd r Hr. assert (Hin : In (f, (d, v)) (sp_connections (prov za_first))) by (apply mget_In; exact Hd).
    assert (Hconn : sp_connections (prov za_first) = [(us "app", (match en_db (hd own_ex za_first) with Some x => x | None => d end, us "1.0"))]) by (vm_compute; reflexivity).
    rewrite Hconn in Hin. destruct Hin as [Hin|[]]. injection Hin as _ <- _. cbn in Hr.
    repeat (destruct Hr as [<-|Hr]; [split; [vm_compute; reflexivity | apply no_wildcard_b; reflexivity]|]). destruct Hr.
  - cbn. auto.
  - intros [H|[]]. vm_compute in H. discriminate H.
Qed.
Print Assumptions C99_component_refuted.
(** What holds: if every language of the strings has a contributor, and is canonical, the languages of an identifier are
    among those of the component. *)
Theorem C99_component_partial : forall E es p h h' c i o cd, made es p -> env_fine E p -> canonical_tags E p -> all_listed E p c ->
  result E p h (CallIdentifier c i) = Ok (AnIdentifier o) -> result E p h' (CallComponent c) = Ok (AnComponent cd) ->
  incl (id_languages o) (mkeys (cd_languages cd)).
Proof.
  intros E es p h h' c i o cd Hm He Hcan Hall Ho Hcd t Ht. destruct (C38_component_partial E es p h' c cd Hm (proj1 He) Hcd) as (Hkeys & _).
  apply Hkeys. destruct (C50_identifier_partial E es p h c i o Hm (proj1 He) Ho) as (_ & Hl).
  assert (Hsrc : exists d, source p c d /\ id_speaks E d c i t).
  { destruct Hl as [(d & H1 & _ & H2)|(_ & d & H1 & H2)]; exists d; (split; [|apply H2; exact Ht]); [left | right]; exact H1. }
  destruct Hsrc as (d & Hs & r & R1 & R2 & R3 & R4). destruct (source_connection p c d Hs) as (f & v & Hd).
  rewrite (proj1 (Hcan f d v Hd r R1)) in R4. injection R4 as <-. exact (Hall d r Hs R1 R2).
Qed.
Print Assumptions C99_component_partial.
(** The default language of an identifier is that of the component, and a language of it; the languages of a component are
    among those of the repository. *)
Theorem C99_default : forall E es p h h' c i o cd, made es p -> order_ok E ->
  result E p h (CallIdentifier c i) = Ok (AnIdentifier o) -> result E p h' (CallComponent c) = Ok (AnComponent cd) ->
  id_default o = cd_default cd /\ In (id_default o) (mkeys (cd_languages cd)).
Proof.
  intros E es p h h' c i o cd Hm Ho H Hcd. destruct (C50_identifier_partial E es p h c i o Hm Ho H) as ((cd' & Hcd' & Hdef) & _).
  rewrite (C47_history E es p h h' (CallComponent c) Hm), Hcd in Hcd'. injection Hcd' as <-. split; [exact Hdef|]. rewrite Hdef.
  destruct (C38_component_partial E es p h' c cd Hm Ho Hcd) as (_ & _ & _ & _ & Hin & _). exact Hin.
Qed.
Print Assumptions C99_default.
Theorem C99_repository : forall E es p h h' c cd rd, made es p -> order_ok E -> known p c ->
  result E p h (CallComponent c) = Ok (AnComponent cd) -> result E p h' CallRepository = Ok (AnRepository rd) ->
  In c (rd_components rd) /\ incl (mkeys (cd_languages cd)) (mkeys (rd_languages rd)) /\ (cd_total cd <= rd_total rd)%N /\
  forall t x, mget t (cd_languages cd) = Some x -> incl (lg_contributors x) (rd_contributors rd).
Proof.
  intros E es p h h' c cd rd Hm Ho Hk Hcd Hrd.
  destruct (C39_repository_partial E es p h' rd Hm Ho Hrd) as (cds & K1 & K2 & K3 & K4 & _ & _ & _ & K5 & _ & K6 & _).
  destruct (C38_component_partial E es p h c cd Hm Ho Hcd) as (H1 & _ & H2 & _). split; [rewrite K4; exact Hk|]. split; [|split].
  - intros t Ht. apply K5. exists c. split; [exact Hk | apply H1; exact Ht].
  - assert (Hin : In (c, cd) cds).
    { unfold known in Hk. rewrite <- K1 in Hk. apply in_map_iff in Hk. destruct Hk as ((c', cd') & Hc & Hin). cbn [fst] in Hc. subst c'.
      pose proof (K2 c cd' h Hin) as Hq. rewrite Hcd in Hq. injection Hq as <-. exact Hin. }
    rewrite K3. clear - Hin. induction cds as [|x cds IH]; [destruct Hin|]. unfold sumN in *. cbn [map fold_right]. destruct Hin as [->|Hin]; cbn [snd]; [lia|].
    specialize (IH Hin). lia.
  - intros t x Hx n Hn. apply K6. destruct (H2 t x Hx) as (_ & _ & _ & H3). exists c, t. split; [exact Hk|]. split; [|apply H3; exact Hn].
    apply H1. exact (in_map fst _ _ (mget_In _ _ _ Hx)).
Qed.
Print Assumptions C99_repository.
(** If the details count strings of a language, there is an exact match for that language and some identifier; and if one
    file holds the component, it is in that language. *)
Theorem C99_count : forall E es p h c cd t x, made es p -> env_fine E p -> canonical_tags E p -> t <> [] ->
  result E p h (CallComponent c) = Ok (AnComponent cd) -> mget t (cd_languages cd) = Some x -> (0 < lg_count x)%N ->
  exists i, forall h', exists y, result E p h' (CallExact c i t) = Ok (AnString (Some y)) /\ ancestor (snd y) t /\ (one_source p c -> snd y = t).
Proof.
  intros E es p h c cd t x Hm He Hcan Ht Hcd Hx Hn. destruct (C38_component_partial E es p h c cd Hm (proj1 He) Hcd) as (_ & _ & H & _).
  destruct (H t x Hx) as (Hc & _). rewrite Hc in Hn. clear H Hc.
  assert (Hrow : exists d r, source p c d /\ In r (db_pattern d) /\ pr_tag r = t /\ pr_component r = c).
  { assert (Hin : forall d, (0 < stored_in d c t)%N -> exists r, In r (db_pattern d) /\ pr_tag r = t /\ pr_component r = c).
    { intros d. unfold stored_in. destruct (filter _ (db_pattern d)) as [|r l] eqn:Ef; [cbn; lia|]. intros _. exists r.
      assert (Hr : In r (filter (fun r => ueqb (pr_tag r) t && ueqb (pr_component r) c) (db_pattern d))) by (rewrite Ef; left; reflexivity).
      apply filter_In in Hr. destruct Hr as (Hr & Hq). apply andb_true_iff in Hq. destruct Hq as (Q1 & Q2).
      split; [exact Hr|]. split; [destruct (ueqb_spec (pr_tag r) t) | destruct (ueqb_spec (pr_component r) c)]; congruence. }
    unfold stored in Hn. destruct (aio_db p c) as [d|] eqn:Ea.
    - destruct (N.eq_dec (stored_in d c t) 0) as [Hz|Hz].
      + rewrite Hz in Hn. destruct (own_db p c) as [d'|] eqn:Eo; [|lia]. destruct (Hin d') as (r & Hr); [lia|]. exists d', r. split; [right; apply own_db_in; exact Eo | exact Hr].
      + destruct (Hin d) as (r & Hr); [lia|]. exists d, r. split; [left; apply aio_db_in; exact Ea | exact Hr].
    - destruct (own_db p c) as [d'|] eqn:Eo; [|lia]. destruct (Hin d') as (r & Hr); [lia|]. exists d', r. split; [right; apply own_db_in; exact Eo | exact Hr]. }
  destruct Hrow as (d & r & Hs & R1 & R2 & R3). exists (pr_identifier r). intros h'. set (i := pr_identifier r).
  destruct (source_connection p c d Hs) as (f & v & Hd). pose proof (proj2 (Hcan f d v Hd r R1)) as Hw. rewrite R2 in Hw.
  pose proof (source_known p c d Hs) as Hk.
  assert (Hhas : has d c i (eq t)) by (exists r; repeat split; try assumption; symmetry; exact R2).
  destruct (C35_exact_partial E es p h' c i t Hm He Hk Hw) as (o & Ho & H & _). destruct o as [y|].
  2:{ destruct (H d Hs t (or_introl eq_refl) Ht Hhas). }
  exists y. split; [exact Ho|]. destruct H as (d' & a & r' & Ha & (K1 & _ & _ & K4) & _ & Hy).
  destruct (answering_source p c i t true d' a Ha) as (Hs' & A1 & A2 & A3 & A4). destruct (source_connection p c d' Hs') as (f' & v' & Hd').
  rewrite (proj1 (Hcan f' d' v' Hd' r' K1)) in Hy. injection Hy as <-. cbn [fit] in K4. rewrite <- K4. split; [exact A1|]. intros H1.
  pose proof (H1 d d' Hs Hs') as <-. apply (ancestor_same_length a t t A1 (or_introl eq_refl)).
  specialize (A4 t (or_introl eq_refl) Hhas). pose proof (ancestor_length a t A1). lia.
Qed.
Print Assumptions C99_count.
Example C99_example : exists o cd rd,
  result env_stored (prov dir_ex) [] (CallIdentifier (us "app") (us "bye")) = Ok (AnIdentifier o) /\
  result env_stored (prov dir_ex) [] (CallComponent (us "app")) = Ok (AnComponent cd) /\ result env_stored (prov dir_ex) [] CallRepository = Ok (AnRepository rd) /\
  id_languages o = [us "en"] /\ mkeys (cd_languages cd) = [us "en"; us "en-ZA"; us "fr"; us "en-GB"; us "de"] /\
  option_map lg_count (mget (us "de") (cd_languages cd)) = Some 2%N /\ cd_total cd = 7%N /\ rd_total rd = 8%N /\
  result env_stored (prov dir_ex) [] (CallExact (us "app") (us "bye") (us "de")) = Ok (AnString (Some (us "Tschau", us "de"))).
Proof. do 3 eexists. split; [vm_compute; reflexivity|]. split; [vm_compute; reflexivity|]. split; [vm_compute; reflexivity|]. repeat split; vm_compute; reflexivity. Qed.
