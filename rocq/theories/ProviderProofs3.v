(** Proofs about the sqlite3 provider: conditions under which lookups do what is wanted, [try_new], the schema. *)
From Verif Require Import Base BaseFacts RegistryModel ProviderModel ProviderSpec ProviderProofs ProviderProofs2.

(** ** Prefixes *)
Lemma starts_with_lower a s : starts_with a s <-> exists y, map lower s = map lower a ++ y.
Proof.
  split.
  - intros (u & v & -> & Hm). exists (map lower v). rewrite map_app, Hm. reflexivity.
  - intros (y & Hy). exists (firstn (List.length a) s), (skipn (List.length a) s). split; [symmetry; apply firstn_skipn|].
    rewrite <- firstn_map, Hy. rewrite <- (map_length lower a) at 1.
    rewrite firstn_app, firstn_all, Nat.sub_diag. cbn. apply app_nil_r.
Qed.
Lemma lower_hyphen x : lower x = ch "-" <-> x = ch "-".
Proof.
  unfold lower. destruct ((65 <=? x) && (x <=? 90))%N%bool eqn:Eb.
  - apply andb_prop in Eb. destruct Eb as (H1 & H2). apply N.leb_le in H1, H2. change (ch "-") with 45%N. split; intros H; lia.
  - tauto.
Qed.
Lemma starts_with_refl a : starts_with a a.
Proof. exists a, []. split; [symmetry; apply app_nil_r | reflexivity]. Qed.
Lemma starts_with_trans a b s : starts_with a b -> starts_with b s -> starts_with a s.
Proof.
  rewrite !starts_with_lower. intros (y & Hy) (z & Hz). exists (y ++ z). rewrite Hz, Hy, app_assoc. reflexivity.
Qed.
Lemma prefix_starts a r : starts_with a (a ++ r).
Proof. exists a, r. auto. Qed.
Lemma starts_with_length a s : starts_with a s -> List.length a <= List.length s.
Proof.
  intros (u & v & -> & Hm). apply (f_equal (@List.length N)) in Hm. rewrite !map_length in Hm. rewrite app_length. lia.
Qed.
Lemma starts_with_nonempty a s : starts_with a s -> a <> [] -> s <> [].
Proof. intros H Ha ->. apply starts_with_length in H. destruct a; [contradiction | cbn in H; lia]. Qed.

(** A proper ancestor of a tag that starts with [a] is, up to case, an ancestor of [a] or starts with [a]. *)
Lemma ancestor_of_extension a b s : starts_with a s -> ancestor b s ->
  starts_with a b \/ exists b', ancestor b' a /\ map lower b' = map lower b.
Proof.
  rewrite starts_with_lower. intros (y & Hy) Hb. destruct (le_lt_dec (List.length a) (List.length b)) as [Hle|Hlt].
  - left. rewrite starts_with_lower. destruct (ancestor_app b s Hb) as (r & ->). rewrite map_app in Hy.
    exists (skipn (List.length a) (map lower b)).
    rewrite <- (firstn_skipn (List.length a) (map lower b)) at 1. f_equal.
    apply (f_equal (firstn (List.length a))) in Hy. rewrite firstn_app in Hy. rewrite map_length in Hy.
    replace (List.length a - List.length b) with 0 in Hy by lia. cbn [firstn] in Hy. rewrite app_nil_r in Hy. rewrite Hy.
    rewrite <- (map_length lower a). rewrite firstn_app, firstn_all, Nat.sub_diag. cbn. apply app_nil_r.
  - right. destruct Hb as [->|(r & ->)].
    + apply (f_equal (@List.length N)) in Hy. rewrite app_length, !map_length in Hy. lia.
    + exists (firstn (List.length b) a). rewrite map_app in Hy. cbn [map] in Hy.
      assert (Hm : map lower (firstn (List.length b) a) = map lower b).
      { rewrite <- firstn_map. apply (f_equal (firstn (List.length b))) in Hy. rewrite !firstn_app, !map_length in Hy.
        rewrite Nat.sub_diag in Hy. cbn [firstn] in Hy. replace (List.length b - List.length a) with 0 in Hy by lia.
        cbn [firstn] in Hy. rewrite !app_nil_r in Hy. rewrite <- Hy. rewrite <- (map_length lower b). apply firstn_all. }
      split; [|exact Hm]. right. exists (skipn (S (List.length b)) a).
      rewrite <- (firstn_skipn (List.length b) a) at 1. f_equal.
      apply (f_equal (fun l => nth_error l (List.length b))) in Hy.
      rewrite nth_error_app2 in Hy by (rewrite map_length; lia). rewrite map_length, Nat.sub_diag in Hy. cbn [nth_error] in Hy.
      rewrite nth_error_app1 in Hy by (rewrite map_length; lia). rewrite nth_error_map in Hy.
      destruct (nth_error a (List.length b)) as [x|] eqn:Ex; [|discriminate Hy]. cbn [option_map] in Hy. injection Hy as Hy.
      change (lower (ch "-")) with (ch "-") in Hy. symmetry in Hy. apply (proj1 (lower_hyphen x)) in Hy. subst x.
      clear - Ex. revert b Ex. induction a as [|z a IH]; intros b Ex; [destruct (List.length b); discriminate Ex|].
      destruct b as [|w b]; cbn in *; [injection Ex as ->; reflexivity | apply IH; exact Ex].
Qed.

Lemma find_head E file d q c i exact t f x l : t <> [] -> ask E file d q c i exact t = Ok (x :: l) ->
  find_loop E (S f) file d q c i exact t = Ok (x :: l).
Proof.
  intros Hn H. unfold ask, asked in H. destruct t as [|z t]; [contradiction|]. cbn [find_loop].
  destruct (select E file d q [i; if exact then z :: t else (z :: t) ++ [ch "%"]; c]) as [rs| | |]; cbn [bind] in *; try discriminate H.
  rewrite H. reflexivity.
Qed.

(** ** Conditions for lookups *)
Section Conditions.
  Variable E : penv.
  Variable p : sprovider.
  Hypothesis Hp : provider_ok p.
  Hypothesis He : env_fine E p.

  Lemma answering_source c i t exact d a : answering p c i t exact d a -> source p c d /\ first_level d c i t exact a.
  Proof. intros [(H1 & H2)|(_ & H1 & H2)]; split; auto; [left | right]; exact H1. Qed.

  Lemma most_specific c i t : known p c -> no_wildcard t -> one_source p c -> no_extensions p c i t ->
    exists o, value (string_ E p c i t) = Ok o /\
    match o with
    | None => forall d a, source p c d -> ancestor a t -> a <> [] -> ~ has d c i (eq a)
    | Some x => exists d r, source p c d /\ hit d c i (fun s => ancestor s t) r /\ answer_of E r x /\
        forall d' b, source p c d' -> ancestor b t -> has d' c i (eq b) -> List.length b <= List.length (pr_tag r)
    end.
  Proof.
    intros Hk Hw H1 Hne. destruct (one_string_answer E p Hp He false c i t Hk Hw) as (o & Ho & H). exists o. split; [exact Ho|].
    destruct o as [x|].
    - destruct H as (d & a & r & Ha & Hr & Hx & _). apply answering_source in Ha. destruct Ha as (Hs & (Hanc & Hnil & _ & Hlong)).
      exists d, r. split; [exact Hs|]. pose proof (Hne d a r Hs Hanc Hnil Hr) as Hra. destruct Hr as (Hr1 & Hr2 & Hr3 & Hr4).
      split; [repeat split; assumption|]. split; [exact Hx|]. intros d' b Hs' Hb (r' & Hr').
      rewrite (H1 d' d Hs' Hs) in Hr'. cbn [fit] in Hr4. apply starts_with_length in Hr4.
      assert (List.length b <= List.length a); [|lia]. apply Hlong; [exact Hb|]. exists r'.
      destruct Hr' as (H2 & H3 & H4 & H5). split; [exact H2|]. split; [exact H3|]. split; [exact H4|]. cbn [fit]. rewrite <- H5. apply starts_with_refl.
    - intros d a Hs Hanc Hnil (r & H2 & H3 & H4 & H5). apply (H d Hs a Hanc Hnil). exists r.
      split; [exact H2|]. split; [exact H3|]. split; [exact H4|]. cbn [fit]. rewrite <- H5. apply starts_with_refl.
  Qed.

  Lemma subtag_boundaries c i t x : known p c -> no_wildcard t ->
    (forall d r, source p c d -> In r (db_pattern d) -> pr_component r = c -> pr_identifier r = i -> same_boundaries t (pr_tag r)) ->
    value (string_ E p c i t) = Ok (Some x) -> exists d a r, source p c d /\ hit d c i (extends a) r /\ ancestor a t /\ a <> [] /\ answer_of E r x.
  Proof.
    intros Hk Hw Hb Hx. destruct (one_string_answer E p Hp He false c i t Hk Hw) as (o & Ho & H).
    unfold string_ in Hx. rewrite Ho in Hx. injection Hx as ->. destruct H as (d & a & r & Ha & Hr & Hx & _).
    apply answering_source in Ha. destruct Ha as (Hs & (Hanc & Hnil & _ & _)). exists d, a, r.
    destruct Hr as (H1 & H2 & H3 & H4). cbn [fit] in H4. split; [exact Hs|]. split; [|auto].
    split; [exact H1|]. split; [exact H2|]. split; [exact H3|]. specialize (Hb d r Hs H1 H2 H3 (List.length a)).
    destruct H4 as (u & v & Hu & Hm). exists u, v. split; [exact Hu|]. split; [exact Hm|].
    assert (Hl : List.length u = List.length a) by (apply (f_equal (@List.length N)) in Hm; rewrite !map_length in Hm; exact Hm).
    destruct Hb as [Hb|Hb].
    - destruct Hanc as [->|(s & ->)]; [right; reflexivity|]. left. rewrite nth_error_app2 by lia. rewrite Nat.sub_diag. reflexivity.
    - rewrite Hu, nth_error_app2 in Hb by lia. rewrite Hl, Nat.sub_diag in Hb. destruct v as [|y v]; [discriminate Hb|]. injection Hb as ->. eauto.
    - rewrite Hu, app_length in Hb. destruct v; [auto | cbn in Hb; lia].
  Qed.

  (** Exact lookups. *)
  Lemma exact_no_ancestors c i t : known p c -> no_wildcard t -> t <> [] ->
    (forall d a, source p c d -> ancestor a t -> a <> t -> ~ has d c i (eq a)) ->
    exists o, value (string_exact_match E p c i t) = Ok o /\
    match o with
    | None => forall d, source p c d -> ~ has d c i (eq t)
    | Some x => exists d r, source p c d /\ hit d c i (eq t) r /\ answer_of E r x
    end.
  Proof.
    intros Hk Hw Ht Hna. destruct (one_string_answer E p Hp He true c i t Hk Hw) as (o & Ho & H). exists o. split; [exact Ho|]. destruct o as [x|].
    - destruct H as (d & a & r & Ha & Hr & Hx & _). apply answering_source in Ha. destruct Ha as (Hs & (Hanc & Hnil & _ & _)). exists d, r.
      split; [exact Hs|]. split; [|exact Hx]. destruct (ueqb_spec a t) as [->|Hn]; [exact Hr|]. exfalso. apply (Hna d a Hs Hanc Hn). exists r. exact Hr.
    - intros d Hs Hh. apply (H d Hs t); [left; reflexivity | exact Ht | exact Hh].
  Qed.

  (** ** Asking again *)
  Hypothesis Hfix : fixed_order E p.
  Hypothesis Hcanon : canonical_tags E p.

  Lemma filter_first {A} (P Q : A -> bool) l r rest : filter P l = r :: rest -> (forall x, Q x = true -> P x = true) -> Q r = true ->
    exists rest', filter Q l = r :: rest'.
  Proof.
    intros Hp' HQ Hr. induction l as [|x l IH]; [discriminate Hp'|]. cbn [filter] in *. destruct (P x) eqn:Ex.
    - injection Hp' as -> _. rewrite Hr. eauto.
    - destruct (Q x) eqn:Eq; [apply HQ in Eq; congruence | apply IH; exact Hp'].
  Qed.

  Definition level_test (c i a : ustr) (r : prow) : bool :=
    ueqb (pr_identifier r) i && like (asked false a) (pr_tag r) && ueqb (pr_component r) c.
  Lemma level_test_hit d c i a r : no_wildcard a -> In r (db_pattern d) -> (level_test c i a r = true <-> hit d c i (starts_with a) r).
  Proof.
    intros Hw Hr. rewrite <- (level_rows_hit d c i false a r Hw). unfold level_rows. rewrite filter_In. unfold level_test. tauto.
  Qed.
  Lemma level_test_prefix c i a b r : no_wildcard a -> no_wildcard b -> starts_with a b -> level_test c i b r = true -> level_test c i a r = true.
  Proof.
    intros Ha Hb Hab. unfold level_test, asked. rewrite !andb_true_iff, !like_prefix by assumption. intros ((H1 & H2) & H3). repeat split; try assumption.
    exact (starts_with_trans a b _ Hab H2).
  Qed.

  (** The answer of a level, with the order of the rows. *)
  Lemma ask_rows file d v rows c i a : mget file (sp_connections p) = Some (d, v) ->
    (forall q ps f, pe_patterns E file q ps (filter f (db_pattern d)) = filter f rows) -> Permutation rows (db_pattern d) ->
    ask E file d (SqlPattern true false) c i false a =
    Ok (map (fun r => (pr_string r, pr_tag r)) (firstn 1 (filter (level_test c i a) rows))).
  Proof.
    intros Hd Hord Hperm. unfold ask, select. destruct He as (_ & Hs & _). rewrite Hs. cbn [negb bind]. rewrite Hord.
    change (fun r : prow => ueqb (pr_identifier r) i && like (asked false a) (pr_tag r) && ueqb (pr_component r) c) with (level_test c i a).
    destruct (filter (level_test c i a) rows) as [|r rest] eqn:Ef; [reflexivity|]. cbn [firstn map map_rows get_text nth_error bind].
    assert (Hr : In r (db_pattern d)).
    { apply (Permutation_in r Hperm). apply (proj1 (filter_In (level_test c i a) r rows)). rewrite Ef. left; reflexivity. }
    unfold registry_tag. rewrite (proj1 (Hcanon file d v Hd r Hr)). reflexivity.
  Qed.

  (** The search gives the first row of the first level. *)
  Lemma find_rows file d v c i t : mget file (sp_connections p) = Some (d, v) -> no_wildcard t ->
    (no_level d c i t false /\ find_loop E (S (List.length t)) file d (SqlPattern true false) c i false t = Ok []) \/
    exists a r, ancestor a t /\ a <> [] /\ hit d c i (starts_with a) r /\
      find_loop E (S (List.length t)) file d (SqlPattern true false) c i false t = Ok [(pr_string r, pr_tag r)] /\
      find_loop E (S (List.length (pr_tag r))) file d (SqlPattern true false) c i false (pr_tag r) = Ok [(pr_string r, pr_tag r)].
  Proof.
    intros Hd Hw. destruct (Hfix file d v Hd) as (rows & Hperm & Hord).
    destruct (find_search E file d (SqlPattern true false) c i false (List.length t) t (S (List.length t))) as (ls & (Hls & _) & Hs); [lia | lia|].
    destruct (search_first _ _ _ Hs) as [(Hx & Hb)|(u & a & w & Hl & Hx & Hn & _)].
    - left. split; [|exact Hx]. intros b Hanc Hnil (r & Hr).
      pose proof (Hb b (proj2 (Hls b) (conj Hnil Hanc))) as Hk. rewrite (ask_rows file d v rows c i b Hd Hord Hperm) in Hk.
      assert (Hi : In r (filter (level_test c i b) rows)).
      { apply filter_In. split; [apply (Permutation_in r (Permutation_sym Hperm)); apply Hr|].
        apply (level_test_hit d c i b r (ancestor_wild b t Hanc Hw) (proj1 Hr)). exact Hr. }
      destruct (filter (level_test c i b) rows); [destruct Hi | discriminate Hk].
    - right. assert (Ha : a <> [] /\ ancestor a t) by (apply Hls; rewrite Hl; apply in_or_app; right; left; reflexivity).
      destruct Ha as (Hnil & Hanc). pose proof (ancestor_wild a t Hanc Hw) as Haw.
      rewrite (ask_rows file d v rows c i a Hd Hord Hperm) in Hx, Hn.
      destruct (filter (level_test c i a) rows) as [|r rest] eqn:Ef; [contradiction (Hn eq_refl)|].
      assert (Hr : In r rows /\ level_test c i a r = true) by (apply filter_In; rewrite Ef; left; reflexivity). destruct Hr as (Hr & Ht).
      pose proof (Permutation_in r Hperm Hr) as Hrd. exists a, r.
      pose proof (proj1 (level_test_hit d c i a r Haw Hrd) Ht) as Hhit. split; [exact Hanc|]. split; [exact Hnil|]. split; [exact Hhit|].
      split; [exact Hx|]. destruct Hhit as (_ & Hc & Hi & Hsw). destruct (Hcanon file d v Hd r Hrd) as (Hcan & Hrw).
      assert (Hq : level_test c i (pr_tag r) r = true).
      { apply (level_test_hit d c i (pr_tag r) r Hrw Hrd). repeat split; try assumption. apply starts_with_refl. }
      destruct (filter_first (level_test c i a) (level_test c i (pr_tag r)) rows r rest Ef) as (rest' & Hf); [|exact Hq|].
      { intros y. apply level_test_prefix; assumption. }
      pose proof (starts_with_nonempty a _ Hsw Hnil) as Htn.
      assert (Hask : ask E file d (SqlPattern true false) c i false (pr_tag r) = Ok [(pr_string r, pr_tag r)]).
      { rewrite (ask_rows file d v rows c i (pr_tag r) Hd Hord Hperm), Hf. reflexivity. }
      exact (find_head E file d _ c i false (pr_tag r) _ _ [] Htn Hask).
  Qed.

  Lemma asks_again c i t x : no_wildcard t -> value (string_ E p c i t) = Ok (Some x) -> value (string_ E p c i (snd x)) = Ok (Some x).
  Proof.
    intros Hw Hx. unfold string_ in *. destruct (mget c (sp_components p)) as [(fa, fo)|] eqn:Hc.
    2:{ unfold one_string, value in Hx. rewrite Hc in Hx. discriminate Hx. }
    rewrite (one_string_value E p Hp false c i (snd x) fa fo Hc). rewrite (one_string_value E p Hp false c i t fa fo Hc) in Hx.
    assert (Hval : forall (t' : ustr) (all : bool), (if all then fa else fo) = true -> exists file d v, mget file (sp_connections p) = Some (d, v) /\
      (all = true -> in_aio p c d) /\ file = (if all then aio else c) /\
      value (find_strings E p c i t' all true false) = find_loop E (S (List.length t')) file d (SqlPattern true false) c i false t').
    { intros t' all Hall. rewrite find_strings_value by exact Hp. unfold on_connection, connection. rewrite Hc. cbn [fst snd].
      destruct (proj2 Hp c _ Hc) as (Ha & Ho). cbn [fst snd] in *. destruct all; subst; cbn [andb].
      - destruct (Ha eq_refl) as (d & Hd). rewrite Hd. exists aio, d, (us "1.0"). repeat split; try assumption. intros _. exists fo, (us "1.0"). auto.
      - destruct (Ho eq_refl) as (d & Hd). rewrite Hd. exists c, d, (us "1.0"). repeat split; try assumption. discriminate. }
    assert (Hown : (let! l := if fo then value (find_strings E p c i t false true false) else Ok [] in Ok (last (map Some l) None)) = Ok (Some x) ->
      (let! l := if fo then value (find_strings E p c i (snd x) false true false) else Ok [] in Ok (last (map Some l) None)) = Ok (Some x) /\
      exists a, ancestor a t /\ a <> [] /\ starts_with a (snd x) /\ no_wildcard (snd x)).
    { destruct fo; [|discriminate]. destruct (Hval t false eq_refl) as (file & d & v & Hd & _ & Hf & Hv). rewrite Hv. intros Ho.
      destruct (find_rows file d v c i t Hd Hw) as [(_ & Hl)|(a & r & Ha & Hnil & Hr & Hl & Hl')]; rewrite Hl in Ho; cbn in Ho; [discriminate Ho|].
      injection Ho as <-. cbn [snd]. destruct (Hval (pr_tag r) false eq_refl) as (file' & d' & v' & Hd' & _ & Hf' & Hv'). rewrite Hf in *. rewrite Hf' in *.
      assert (d' = d) by congruence. subst d'. rewrite Hv', Hl'. split; [reflexivity|]. exists a.
      split; [exact Ha|]. split; [exact Hnil|]. split; [exact (proj2 (proj2 (proj2 Hr)))|]. exact (proj2 (Hcanon _ d v Hd r (proj1 Hr))). }
    destruct fa.
    - destruct (Hval t true eq_refl) as (file & d & v & Hd & _ & Hf & Hv). rewrite Hv in Hx.
      destruct (Hval (snd x) true eq_refl) as (file' & d' & v' & Hd' & _ & Hf' & Hv'). rewrite Hv'. rewrite Hf in *. rewrite Hf' in *.
      assert (d' = d) by congruence. subst d'.
      destruct (find_rows _ d v c i t Hd Hw) as [(Hno & Hl)|(a & r & Ha & Hnil & Hr & Hl & Hl')]; rewrite Hl in Hx; cbn [bind map last] in Hx.
      + destruct (Hown Hx) as (Hown' & a & Ha & Hnil & Hsw & Hxw).
        destruct (find_rows _ d v c i (snd x) Hd Hxw) as [(_ & Hl2)|(b & r & Hb & Hbn & Hr & _)].
        * rewrite Hl2. cbn [bind map last]. exact Hown'.
        * exfalso. destruct (ancestor_of_extension a b (snd x) Hsw Hb) as [Hab|(b' & Hb' & Hm)].
          -- apply (Hno a Ha Hnil). exists r. destruct Hr as (H1 & H2 & H3 & H4). repeat split; try assumption. exact (starts_with_trans a b _ Hab H4).
          -- apply (Hno b').
             ++ destruct Ha as [->|(s & ->)]; [exact Hb'|]. destruct Hb' as [->|(s' & ->)]; [right; exists s; reflexivity|].
                right. exists (s' ++ ch "-" :: s). rewrite <- app_assoc. reflexivity.
             ++ intros ->. destruct b; [contradiction | discriminate Hm].
             ++ exists r. destruct Hr as (H1 & H2 & H3 & H4). repeat split; try assumption. cbn [fit].
                rewrite starts_with_lower in *. rewrite Hm. exact H4.
      + injection Hx as <-. cbn [snd] in *. rewrite Hl'. reflexivity.
    - cbn [bind map last] in *. apply Hown. exact Hx.
  Qed.
End Conditions.
