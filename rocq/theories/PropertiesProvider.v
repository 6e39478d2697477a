(** Properties C34 to C42 and C47 to C51 of the sqlite3 provider. *)
From Coq Require Import Sorted.
From Verif Require Import Base BaseFacts RegistryModel ProviderModel ProviderSpec ProviderProofs ProviderProofs2 ProviderProofs3 ProviderProofs4
  ProviderProofs5 ProviderProofs6 ProviderProofs7 ProviderProofs8.

(** ** For examples *)
(** Language tags are in canonical form, except EN; rows come in the order stored, or in that of the languages. *)
Definition canon_ex (t : ustr) : option ustr := Some (if ueqb t (us "EN") then us "en" else t).
Definition env_stored : penv := mk_penv canon_ex (fun _ _ _ => true) (fun _ _ _ l => l) (fun _ _ _ l => l) (fun _ _ _ l => l).
Fixpoint put (r : prow) (l : list prow) : list prow :=
  match l with [] => [r] | r' :: l' => if tag_le (pr_tag r) (pr_tag r') then r :: l else r' :: put r l' end.
Definition env_index : penv :=
  mk_penv canon_ex (fun _ _ _ => true) (fun _ _ _ l => fold_right put [] l) (fun _ _ _ l => l) (fun _ _ _ l => l).
Definition schema_ex : schema :=
  mk_schema (us "metadata" :: map fst required_tables)
    (fun t => match find (fun x => ueqb (fst x) t) required_tables with
              | Some (_, l) => map (fun x => let '(name, ty, nn, pk) := x in mk_column name ty nn None pk) l
              | None => [] end) [us "1.0"] (Some (us "app.sqlite3")) true.
Definition row (c i t s : string) : prow := mk_prow (us c) (us i) (us t) (us s).
Definition wrote (c t n : string) : crow := mk_crow (us c) (us t) (us n).
Definition main (c t : string) : irow := mk_irow (us c) (us t).
Definition file (name : string) (rows : list prow) (contributors : list crow) (components : list irow) : entry :=
  mk_entry (Some (us name)) (Some (mk_db schema_ex rows contributors components)).
Definition prov (es : list entry) : sprovider := match provider_try_new (fun _ => true) es with Ok p => p | _ => mk_sprovider [] [] end.

Lemma prov_made es : (match provider_try_new (fun _ => true) es with Ok _ => true | _ => false end) = true -> made es (prov es).
Proof.
  unfold prov, made. destruct (provider_try_new (fun _ => true) es) as [(cs & conns)|e| |] eqn:Ee; try discriminate. intros _.
  exists (fun _ => true), cs. split; [exact Ee | apply Permutation_refl].
Qed.
Lemma stored_fine p : env_fine env_stored p.
Proof. split; [split; [|split]; intros; apply Permutation_refl|]. split; [intros f q ps; reflexivity|]. intros n d v _. repeat split; intros r _; discriminate. Qed.
Lemma put_perm r l : Permutation (put r l) (r :: l).
Proof.
  induction l as [|r' l IH]; cbn [put]; [apply Permutation_refl|]. destruct (tag_le _ _); [apply Permutation_refl|].
  eapply Permutation_trans; [apply perm_skip; exact IH | apply perm_swap].
Qed.
Lemma index_fine p : env_fine env_index p.
Proof.
  split; [split; [|split]; intros; try apply Permutation_refl|].
  - cbn [pe_patterns env_index]. induction l as [|r l IH]; cbn [fold_right]; [apply Permutation_refl|].
    eapply Permutation_trans; [apply put_perm | apply perm_skip; exact IH].
  - split; [intros f q ps; reflexivity|]. intros n d v _. repeat split; intros r _; discriminate.
Qed.
Lemma tag_le_total a b : tag_le a b = false -> tag_le b a = true.
Proof.
  revert b; induction a as [|x a IH]; intros [|y b] H; cbn [tag_le] in *; try reflexivity; try discriminate.
  apply Bool.orb_false_iff in H. destruct H as (H1 & H2). apply N.ltb_ge in H1.
  destruct (N.eqb_spec x y) as [->|Hn]; cbn [andb] in H2.
  - rewrite N.eqb_refl, (IH b H2). cbn. apply Bool.orb_true_r.
  - assert (y < x)%N by lia. rewrite (proj2 (N.ltb_lt y x) H). reflexivity.
Qed.
Lemma tag_le_trans a b c : tag_le a b = true -> tag_le b c = true -> tag_le a c = true.
Proof.
  revert b c; induction a as [|x a IH]; intros [|y b] [|z c] H1 H2; cbn [tag_le] in *; try reflexivity; try discriminate.
  apply Bool.orb_true_iff in H1, H2. apply Bool.orb_true_iff.
  destruct H1 as [H1|H1], H2 as [H2|H2]; rewrite ?Bool.andb_true_iff, ?N.ltb_lt, ?N.eqb_eq in *.
  - left; lia.
  - left. destruct H2 as (<- & _). exact H1.
  - left. destruct H1 as (-> & _). exact H2.
  - right. destruct H1 as (-> & H1), H2 as (-> & H2). split; [reflexivity | exact (IH b c H1 H2)].
Qed.
Lemma index_sorted : index_order env_index.
Proof.
  intros f one exact ps l. cbn [pe_patterns env_index]. induction l as [|r l IH]; cbn [fold_right]; [constructor|].
  revert IH. generalize (fold_right put [] l). clear l. intros l Hs. induction l as [|r' l IH]; cbn [put].
  - constructor; constructor.
  - inversion Hs as [|x m Hm Hall]; subst. destruct (tag_le (pr_tag r) (pr_tag r')) eqn:Et.
    + constructor; [exact Hs|]. constructor; [exact Et|]. apply Forall_forall. intros y Hy.
      apply (tag_le_trans _ _ _ Et). exact (proj1 (Forall_forall _ _) Hall y Hy).
    + constructor; [exact (IH Hm)|]. apply Forall_forall. intros y Hy. apply (Permutation_in y (put_perm r l)) in Hy.
      destruct Hy as [<-|Hy]; [exact (tag_le_total _ _ Et) | exact (proj1 (Forall_forall _ _) Hall y Hy)].
Qed.
Lemma stored_order p : fixed_order env_stored p.
Proof. intros f d v _. exists (db_pattern d). split; [apply Permutation_refl | reflexivity]. Qed.

(** A directory: an all in one file with two components, and a file of one of them. *)
Definition aio_ex : entry := file "__all_in_one__"
  [row "app" "greet" "en" "Hello"; row "app" "greet" "en-ZA" "Howzit"; row "app" "greet" "fr" "Salut"; row "app" "bye" "en" "Bye"; row "lib" "err" "en" "Error"]
  [wrote "app" "en" "Ann"; wrote "app" "en-ZA" "Bo"; wrote "app" "fr" "Cy"; wrote "lib" "en" "Ann"] [main "app" "en"; main "lib" "en"].
Definition own_ex : entry := file "app" [row "app" "greet" "en-GB" "Good day"; row "app" "bye" "de" "Tschau"; row "app" "greet" "de" "Hallo"]
  [wrote "app" "en-GB" "Di"; wrote "app" "de" "Ann"] [main "app" "en"].
Definition dir_ex : list entry := [own_ex; aio_ex].
Lemma dir_made : made dir_ex (prov dir_ex).
Proof. apply prov_made. vm_compute. reflexivity. Qed.
Lemma no_wildcard_b t : forallb (fun c => negb ((c =? ch "%") || (c =? ch "_"))%N) t = true -> no_wildcard t.
Proof.
  intros H. split; intros Hi; apply (proj1 (forallb_forall _ _) H) in Hi; vm_compute in Hi; discriminate Hi.
Qed.

(** ** C34: the most specific matching language. False: a string for the requested tag in the file of the component is not
    found if the all in one file has one for an ancestor; and one row is taken among those of which the language starts with
    the requested tag, so that en-ZA may be returned though there is a string for en. *)
Theorem C34_specific_refuted :
  (exists E es p c i t x d r, made es p /\ env_fine E p /\ result E p [] (CallString c i t) = Ok (AnString (Some x)) /\
     in_own p c d /\ hit d c i (eq t) r /\ snd x <> t) /\
  (exists E es p c i t x d r, made es p /\ env_fine E p /\ one_source p c /\ result E p [] (CallString c i t) = Ok (AnString (Some x)) /\
     source p c d /\ hit d c i (eq t) r /\ snd x <> t).
Proof.
  split.
  - exists env_stored, dir_ex, (prov dir_ex), (us "app"), (us "greet"), (us "en-GB"), (us "Hello", us "en").
    eexists _, (row "app" "greet" "en-GB" "Good day"). split; [exact dir_made|]. split; [apply stored_fine|]. split; [vm_compute; reflexivity|].
    split; [exists true, (us "1.0"); split; vm_compute; reflexivity|]. split; [split; [vm_compute; left; reflexivity|]; repeat split | discriminate].
  - pose (es := [file "app" [row "app" "greet" "en-ZA" "Howzit"; row "app" "greet" "en" "Hello"] [wrote "app" "en" "Ann"] [main "app" "en"]]).
    exists env_stored, es, (prov es), (us "app"), (us "greet"), (us "en"), (us "Howzit", us "en-ZA").
    eexists _, (row "app" "greet" "en" "Hello"). split; [apply prov_made; vm_compute; reflexivity|]. split; [apply stored_fine|]. split; [|].
    + intros d d' [(f & v & H1 & H2)|(f & v & H1 & H2)] [(f' & v' & H3 & H4)|(f' & v' & H3 & H4)]; try (vm_compute in H1, H3; discriminate); congruence.
    + split; [vm_compute; reflexivity|]. split; [right; exists false, (us "1.0"); split; vm_compute; reflexivity|].
      split; [split; [vm_compute; right; left; reflexivity|]; repeat split | discriminate].
Qed.
Print Assumptions C34_specific_refuted.

(** What holds, for every content, tag and history: the string returned belongs to the component and the identifier, and its
    language starts with the longest ancestor of the tag for which there is one in the first file having any. If the
    component is in one file and no language found extends the tag beyond an ancestor, it is that of the tag or its longest
    ancestor. If SQLite returns rows in the order of the index and the letters of the stored languages are written as in the
    tag, a string for the tag itself is preferred. *)
Theorem C34_specific_partial : forall E es p h c i t, made es p -> env_fine E p -> known p c -> no_wildcard t ->
  exists o, result E p h (CallString c i t) = Ok (AnString o) /\
  match o with
  | None => forall d, source p c d -> no_level d c i t false
  | Some x => exists d a r, answering p c i t false d a /\ hit d c i (starts_with a) r /\ answer_of E r x
  end /\
  (one_source p c -> no_extensions p c i t ->
   match o with
   | None => forall d a, source p c d -> ancestor a t -> a <> [] -> ~ has d c i (eq a)
   | Some x => exists d r, source p c d /\ hit d c i (fun s => ancestor s t) r /\ answer_of E r x /\
       forall d' b, source p c d' -> ancestor b t -> has d' c i (eq b) -> List.length b <= List.length (pr_tag r)
   end) /\
  (one_source p c -> index_order E -> t <> [] ->
   (forall d r, source p c d -> hit d c i (starts_with t) r -> exists y, pr_tag r = t ++ y) ->
   (exists d, source p c d /\ has d c i (eq t)) ->
   exists d r x, o = Some x /\ source p c d /\ hit d c i (eq t) r /\ answer_of E r x).
Proof.
  intros E es p h c i t Hm He Hk Hw. apply made_ok in Hm. destruct (one_string_answer E p Hm He false c i t Hk Hw) as (o & Ho & H). exists o.
  rewrite (result_string E p Hm). unfold string_. rewrite Ho. split; [reflexivity|]. split; [|split].
  - destruct o as [x|]; [|exact H]. destruct H as (d & a & r & H1 & H2 & H3 & _). exists d, a, r. auto.
  - intros H1 H2. destruct (most_specific E p Hm He c i t Hk Hw H1 H2) as (o' & Ho' & H'). unfold string_ in Ho'. rewrite Ho in Ho'. injection Ho' as <-. exact H'.
  - intros H1 H2 H3 H4 H5. destruct (requested_first E p Hm He c i t Hk Hw H3 H1 H2 H4 H5) as (d & r & x & K1 & K2 & K3 & K4).
    unfold string_ in K4. rewrite Ho in K4. injection K4 as ->. exists d, r, x. auto.
Qed.
Print Assumptions C34_specific_partial.
(** [starts_with] compares letters as SQLite does: only the letters A-Z and a-z are the same. *)
Theorem C34_letters : forall c c', lower c = lower c' <->
  c = c' \/ exists k, (k < 26)%N /\ ((c = 65 + k /\ c' = 97 + k) \/ (c = 97 + k /\ c' = 65 + k))%N.
Proof.
  intros c c'. unfold lower. destruct (N.leb_spec 65 c), (N.leb_spec c 90), (N.leb_spec 65 c'), (N.leb_spec c' 90); cbn [andb];
    (split; [intros H'; try (left; lia); right; first [exists (c - 65)%N; lia | exists (c' - 65)%N; lia] | intros [->|(k & Hk & [(-> & ->)|(-> & ->)])]; lia]).
Qed.
Print Assumptions C34_letters.
(** With the index, en is found though en-ZA is stored first. *)
Definition za_first : list entry :=
  [file "app" [row "app" "greet" "en-ZA" "Howzit"; row "app" "greet" "en" "Hello"] [wrote "app" "en" "Ann"] [main "app" "en"]].
Example C34_example : result env_index (prov za_first) [] (CallString (us "app") (us "greet") (us "en")) = Ok (AnString (Some (us "Hello", us "en"))) /\
  result env_index (prov za_first) [] (CallString (us "app") (us "greet") (us "en-GB-oed")) = Ok (AnString (Some (us "Hello", us "en"))) /\
  result env_stored (prov dir_ex) [] (CallString (us "app") (us "bye") (us "de-AT")) = Ok (AnString (Some (us "Tschau", us "de"))) /\
  result env_stored (prov dir_ex) [] (CallString (us "app") (us "bye") (us "ja")) = Ok (AnString None).
Proof. repeat split; vm_compute; reflexivity. Qed.
Example C34_example_applies : exists x, result env_index (prov za_first) [] (CallString (us "app") (us "greet") (us "en")) = Ok (AnString (Some x)) /\ snd x = us "en".
Proof.
  assert (Hone : one_source (prov za_first) (us "app")).
  { intros d d' [(f & v & H1 & H2)|(f & v & H1 & H2)] [(f' & v' & H3 & H4)|(f' & v' & H3 & H4)]; try (vm_compute in H1, H3; discriminate); congruence. }
  destruct (C34_specific_partial env_index za_first (prov za_first) [] (us "app") (us "greet") (us "en")) as (o & Ho & _ & _ & H).
  - apply prov_made; vm_compute; reflexivity.
  - apply index_fine.
  - vm_compute. left. reflexivity.
  - apply no_wildcard_b. reflexivity.
  - destruct (H Hone index_sorted) as (d & r & x & -> & _ & Hr & Hx).
    + discriminate.
    + intros d r [(f & v & H1 & H2)|(f & v & H1 & H2)] (Hr & _); [vm_compute in H1; discriminate H1|].
      vm_compute in H2. injection H2 as <- _. destruct Hr as [<-|[<-|[]]]; [exists (us "-ZA"); reflexivity | exists []; reflexivity].
    + eexists. split; [right; exists false, (us "1.0"); split; vm_compute; reflexivity|]. exists (row "app" "greet" "en" "Hello").
      split; [vm_compute; right; left; reflexivity | repeat split].
    + exists x. split; [exact Ho|]. destruct Hx as (_ & Hx). rewrite <- (proj2 (proj2 (proj2 Hr))) in Hx. vm_compute in Hx. injection Hx as Hx. symmetry. exact Hx.
Qed.

(** ** C35: exact match is exact. False: the loop removes subtags also for exact matches. *)
Theorem C35_exact_refuted : exists E es p c i t x, made es p /\ env_fine E p /\
  result E p [] (CallExact c i t) = Ok (AnString (Some x)) /\ forall d, source p c d -> ~ has d c i (eq t).
Proof.
  exists env_stored, za_first, (prov za_first), (us "app"), (us "greet"), (us "en-GB"), (us "Hello", us "en").
  split; [apply prov_made; vm_compute; reflexivity|]. split; [apply stored_fine|]. split; [vm_compute; reflexivity|].
  intros d [(f & v & H & Hd)|(f & v & _ & Hd)] (r & Hr & _ & _ & Ht); [vm_compute in H; discriminate H|].
  vm_compute in Hd; injection Hd as <- _. destruct Hr as [<-|[<-|[]]]; vm_compute in Ht; discriminate Ht.
Qed.
Print Assumptions C35_exact_refuted.

(** What holds: the string returned belongs to the component and the identifier and its language is the tag or an ancestor
    of it, the longest one in the first file having any; if there are no strings for proper ancestors, the match is exact. *)
Theorem C35_exact_partial : forall E es p h c i t, made es p -> env_fine E p -> known p c -> no_wildcard t ->
  exists o, result E p h (CallExact c i t) = Ok (AnString o) /\
  match o with
  | None => forall d, source p c d -> no_level d c i t true
  | Some x => exists d a r, answering p c i t true d a /\ hit d c i (eq a) r /\ answer_of E r x
  end /\
  (t <> [] -> (forall d a, source p c d -> ancestor a t -> a <> t -> ~ has d c i (eq a)) ->
   match o with
   | None => forall d, source p c d -> ~ has d c i (eq t)
   | Some x => exists d r, source p c d /\ hit d c i (eq t) r /\ answer_of E r x
   end).
Proof.
  intros E es p h c i t Hm He Hk Hw. apply made_ok in Hm. destruct (one_string_answer E p Hm He true c i t Hk Hw) as (o & Ho & H). exists o.
  rewrite (result_exact E p Hm). unfold string_exact_match. rewrite Ho. split; [reflexivity|]. split.
  - destruct o as [x|]; [|exact H]. destruct H as (d & a & r & H1 & H2 & H3 & _). exists d, a, r. auto.
  - intros H1 H2. destruct (exact_no_ancestors E p Hm He c i t Hk Hw H1 H2) as (o' & Ho' & H'). unfold string_exact_match in Ho'. rewrite Ho in Ho'.
    injection Ho' as <-. exact H'.
Qed.
Print Assumptions C35_exact_partial.
Example C35_example : result env_stored (prov dir_ex) [] (CallExact (us "app") (us "greet") (us "fr")) = Ok (AnString (Some (us "Salut", us "fr"))) /\
  result env_stored (prov dir_ex) [] (CallExact (us "app") (us "greet") (us "f")) = Ok (AnString None) /\
  result env_stored (prov dir_ex) [] (CallString (us "app") (us "greet") (us "f")) = Ok (AnString (Some (us "Salut", us "fr"))).
Proof. repeat split; vm_compute; reflexivity. Qed.

(** ** C36: prefix matching respects subtag boundaries. False: the pattern is the tag followed by a percent sign, so that a
    request for Finnish is answered with a Filipino string. *)
Theorem C36_boundaries_refuted : exists E es p c i t x, made es p /\ env_fine E p /\
  result E p [] (CallString c i t) = Ok (AnString (Some x)) /\ forall a, ancestor a t -> a <> [] -> ~ extends a (snd x).
Proof.
  pose (es := [file "app" [row "app" "greet" "fil" "Kumusta"] [wrote "app" "fil" "Ann"] [main "app" "fil"]]).
  exists env_stored, es, (prov es), (us "app"), (us "greet"), (us "fi-FI"), (us "Kumusta", us "fil").
  split; [apply prov_made; vm_compute; reflexivity|]. split; [apply stored_fine|]. split; [vm_compute; reflexivity|].
  cbn [snd]. intros a Ha Hn (x & y & Hs & Hm & Hy).
  assert (Hl : List.length x = List.length a) by (apply (f_equal (@List.length N)) in Hm; rewrite !map_length in Hm; exact Hm).
  assert (Hhy : forall r, us "fil" <> x ++ ch "-" :: r).
  { intros r Hr. assert (Hi : In (ch "-") (us "fil")) by (rewrite Hr; apply in_or_app; right; left; reflexivity). vm_compute in Hi. intuition discriminate. }
  destruct Hy as [->|(r & ->)]; [|exact (Hhy r Hs)]. rewrite app_nil_r in Hs. subst x.
  assert (Ha' : a = us "fi-FI" \/ a = us "fi").
  { assert (Hno : forall u, forallb (fun c => negb (c =? ch "-")%N) u = true -> ~ In (ch "-") u).
    { intros u H Hi. apply (proj1 (forallb_forall _ _) H) in Hi. vm_compute in Hi. discriminate Hi. }
    apply (ancestor_parent (us "fi-FI") (us "fi") (us "FI") a eq_refl (Hno (us "FI") eq_refl)) in Ha. destruct Ha as [->|Ha]; [left; reflexivity|].
    right. exact (proj1 (ancestor_alone (us "fi") a (Hno (us "fi") eq_refl)) Ha). }
  destruct Ha' as [->| ->]; vm_compute in Hl; discriminate Hl.
Qed.
Print Assumptions C36_boundaries_refuted.

(** What holds: if a subtag of every stored language ends where one of the tag ends, the language of the string extends an
    ancestor of the tag by whole subtags. *)
Theorem C36_boundaries_partial : forall E es p h c i t x, made es p -> env_fine E p -> known p c -> no_wildcard t ->
  (forall d r, source p c d -> In r (db_pattern d) -> pr_component r = c -> pr_identifier r = i -> same_boundaries t (pr_tag r)) ->
  result E p h (CallString c i t) = Ok (AnString (Some x)) ->
  exists d a r, source p c d /\ hit d c i (extends a) r /\ ancestor a t /\ a <> [] /\ answer_of E r x.
Proof.
  intros E es p h c i t x Hm He Hk Hw Hb H. apply made_ok in Hm. rewrite (result_string E p Hm) in H. apply bind_Ok in H.
  destruct H as (o & Ho & H). injection H as ->. exact (subtag_boundaries E p Hm He c i t x Hk Hw Hb Ho).
Qed.
Print Assumptions C36_boundaries_partial.
Example C36_example : same_boundaries (us "en-GB") (us "en-ZA") /\ ~ same_boundaries (us "fi") (us "fil") /\
  result env_stored (prov dir_ex) [] (CallString (us "app") (us "greet") (us "en-ZA-x-old")) = Ok (AnString (Some (us "Howzit", us "en-ZA"))).
Proof.
  split; [|split; [|vm_compute; reflexivity]].
  - intros n [H| ->]; [left|right; vm_compute; lia]. destruct n as [|[|[|[|[|n]]]]]; vm_compute in *; try discriminate H; try reflexivity. destruct n; discriminate H.
  - intros H. destruct (H 2 (or_intror eq_refl)) as [K|K]; vm_compute in K; [discriminate K | lia].
Qed.

(** ** C37: [strings] returns all rows of the level at which it answers. *)
Theorem C37_strings : forall E es p h c i t, made es p -> env_fine E p -> known p c -> no_wildcard t ->
  exists l, result E p h (CallStrings c i t) = Ok (AnStrings l) /\
  ((l = [] /\ forall d, source p c d -> no_level d c i t false) \/
   exists d a rows rest, answering p c i t false d a /\ Permutation (rows ++ rest) (db_pattern d) /\
     (forall r, In r rows -> hit d c i (starts_with a) r) /\ (forall r, In r rest -> ~ hit d c i (starts_with a) r) /\
     Forall2 (answer_of E) rows l).
Proof.
  intros E es p h c i t Hm He Hk Hw. apply made_ok in Hm. destruct (strings_answer E p Hm He c i t Hk Hw) as (l & Hl & H). exists l.
  rewrite (result_strings E p Hm), Hl. split; [reflexivity | exact H].
Qed.
Print Assumptions C37_strings.
Example C37_example :
  result env_stored (prov dir_ex) [] (CallStrings (us "app") (us "greet") (us "en-GB")) = Ok (AnStrings [(us "Hello", us "en"); (us "Howzit", us "en-ZA")]) /\
  result env_stored (prov dir_ex) [] (CallStrings (us "app") (us "greet") (us "de-CH")) = Ok (AnStrings [(us "Hallo", us "de")]) /\
  result env_stored (prov dir_ex) [] (CallStrings (us "lib") (us "err") (us "ja")) = Ok (AnStrings []).
Proof. repeat split; vm_compute; reflexivity. Qed.
(** A component that is not known is an error, in every history. *)
Theorem C37_unknown : forall E es p h c i t, made es p -> ~ known p c ->
  result E p h (CallStrings c i t) = Err (PComponentNotFound c) /\ result E p h (CallString c i t) = Err (PComponentNotFound c) /\
  result E p h (CallExact c i t) = Err (PComponentNotFound c).
Proof.
  intros E es p h c i t Hm Hk. apply made_ok in Hm. rewrite (result_strings E p Hm), (result_string E p Hm), (result_exact E p Hm).
  unfold value, string_, string_exact_match.
  rewrite (proj2 (unknown_component E p c i t true pstate_new Hk)), (proj1 (unknown_component E p c i t true pstate_new Hk)),
    (proj1 (unknown_component E p c i t false pstate_new Hk)). repeat split.
Qed.
Print Assumptions C37_unknown.

(** ** C38: statistics of a component. False: strings in a language without contributor are not counted; and a language
    written in two ways in table contributor of the all in one file is counted twice. *)
Theorem C38_component_refuted :
  (exists E es p c cd t, made es p /\ env_fine E p /\ result E p [] (CallComponent c) = Ok (AnComponent cd) /\
     (0 < stored p c t)%N /\ mget t (cd_languages cd) = None /\ cd_total cd <> rows_of p c) /\
  (exists E es p c cd, made es p /\ env_fine E p /\ result E p [] (CallComponent c) = Ok (AnComponent cd) /\ all_listed E p c /\
     cd_total cd <> sumN (map (fun x => lg_count (snd x)) (cd_languages cd))).
Proof.
  split.
  - exists env_stored, za_first, (prov za_first), (us "app"), (mk_cdetails [(us "en", mk_lgdata 1 (Some (1, 1)%N) [us "Ann"])] (us "en") 1), (us "en-ZA").
    split; [apply prov_made; vm_compute; reflexivity|]. split; [apply stored_fine|]. split; [vm_compute; reflexivity|].
    split; [vm_compute; reflexivity|]. split; [vm_compute; reflexivity|]. vm_compute. discriminate.
  - pose (es := [file "__all_in_one__" [row "app" "greet" "en" "Hello"] [wrote "app" "en" "Ann"; wrote "app" "EN" "Bo"] [main "app" "en"]]).
    exists env_stored, es, (prov es), (us "app"), (mk_cdetails [(us "en", mk_lgdata 1 (Some (1, 1)%N) [us "Ann"])] (us "en") 2).
    split; [apply prov_made; vm_compute; reflexivity|]. split; [apply stored_fine|]. split; [vm_compute; reflexivity|].
    split; [|vm_compute; discriminate].
    intros d r [(f & v & H1 & H2)|(f & v & H1 & H2)] Hr _; [|vm_compute in H1; discriminate H1].
    assert (Hs : source (prov es) (us "app") d) by (left; exists f, v; auto).
    vm_compute in H2. injection H2 as <- _. destruct Hr as [<-|[]]. eexists _, (wrote "app" "en" "Ann"). split; [exact Hs|].
    split; [left; reflexivity|]. split; vm_compute; reflexivity.
Qed.
Print Assumptions C38_component_refuted.

(** What holds, for every content: the languages are those of the contributors; for each, the number is that of the strings
    stored, the ratio is to the number for the default language, and the contributors are those stored, without duplicates;
    the default language is a language of the component. If every language is written in one way, the total is the sum; if
    moreover every string is in a language with a contributor, it is the number of strings stored. *)
Theorem C38_component_partial : forall E es p h c cd, made es p -> order_ok E -> result E p h (CallComponent c) = Ok (AnComponent cd) ->
  (forall t, In t (mkeys (cd_languages cd)) <-> has_language E p c t) /\ NoDup (mkeys (cd_languages cd)) /\
  (forall t x, mget t (cd_languages cd) = Some x -> lg_count x = stored p c t /\ lg_ratio x = Some (stored p c t, stored p c (cd_default cd)) /\
     NoDup (lg_contributors x) /\ forall n, In n (lg_contributors x) <-> contributes p c t n) /\
  default_of E p c (cd_default cd) /\ In (cd_default cd) (mkeys (cd_languages cd)) /\
  (one_spelling E p c -> cd_total cd = sumN (map (fun x => lg_count (snd x)) (cd_languages cd)) /\ (all_listed E p c -> cd_total cd = rows_of p c)).
Proof.
  intros E es p h c cd Hm Ho H. apply made_ok in Hm. rewrite (result_component E p Hm) in H. apply bind_Ok in H. destruct H as (cd' & Hcd & H).
  injection H as ->. destruct (component_details_right E p Hm Ho c cd Hcd) as (fa & fo & ls & Hc & Hr). pose proof Hr as Hr0.
  destruct Hr as [C1 C2 C3 C4 C5 C6 C7 C8]. split; [exact C3|]. split; [exact C4|]. split; [|split; [exact C6|split; [apply C3; exact C7|]]].
  - intros t x Hx. destruct (C5 t x Hx) as ((H1 & H2 & H3) & H4). auto.
  - intros Hone. pose proof (C2 (or_introl Hone)) as Hn. split; [exact (component_sum E p c fa ls cd Hr0 Hn)|].
    intros Hall. rewrite C8. apply stored_sum; [exact Hn|]. intros d r Hs Hr Hrc. apply C1. exact (Hall d r Hs Hr Hrc).
Qed.
Print Assumptions C38_component_partial.
Example C38_example : exists cd, result env_stored (prov dir_ex) [] (CallComponent (us "app")) = Ok (AnComponent cd) /\ cd_total cd = 7%N /\
  cd_default cd = us "en" /\ map (fun x => (fst x, lg_count (snd x), lg_contributors (snd x))) (cd_languages cd) =
    [(us "en", 2%N, [us "Ann"]); (us "en-ZA", 1%N, [us "Bo"]); (us "fr", 1%N, [us "Cy"]); (us "en-GB", 1%N, [us "Di"]); (us "de", 2%N, [us "Ann"])].
Proof. eexists. split; [vm_compute; reflexivity|]. repeat split. Qed.
(** The conditions hold for the example. *)
Example C38_example_applies : one_spelling env_stored (prov dir_ex) (us "app") /\ all_listed env_stored (prov dir_ex) (us "app") /\ rows_of (prov dir_ex) (us "app") = 7%N.
Proof.
  split; [|split; [|vm_compute; reflexivity]].
  - assert (Hcan : forall a b, a <> us "EN" -> b <> us "EN" -> canon_ex a = canon_ex b -> a = b).
    { intros a b Ha Hb H. unfold canon_ex in H. destruct (ueqb_spec a (us "EN")); [contradiction|]. destruct (ueqb_spec b (us "EN")); [contradiction|]. congruence. }
    assert (Hne : forall d r, source (prov dir_ex) (us "app") d -> In r (db_contributor d) -> co_tag r <> us "EN").
    { intros d r [(f & v & _ & H)|(f & v & _ & H)] Hr; vm_compute in H; injection H as <- _; cbn in Hr;
        repeat (destruct Hr as [<-|Hr]; [discriminate|]); destruct Hr. }
    intros d r r' Hs Hr Hr' _ _ He. apply Hcan; [exact (Hne d r Hs Hr) | exact (Hne d r' Hs Hr') | exact He].
  - assert (Ha : in_aio (prov dir_ex) (us "app") (mk_db schema_ex (db_pattern (match en_db aio_ex with Some d => d | None => mk_db schema_ex [] [] [] end))
       (db_contributor (match en_db aio_ex with Some d => d | None => mk_db schema_ex [] [] [] end)) (db_component (match en_db aio_ex with Some d => d | None => mk_db schema_ex [] [] [] end))))
      by (exists true, (us "1.0"); split; vm_compute; reflexivity).
    assert (Hw : in_own (prov dir_ex) (us "app") (mk_db schema_ex (db_pattern (match en_db own_ex with Some d => d | None => mk_db schema_ex [] [] [] end))
       (db_contributor (match en_db own_ex with Some d => d | None => mk_db schema_ex [] [] [] end)) (db_component (match en_db own_ex with Some d => d | None => mk_db schema_ex [] [] [] end))))
      by (exists true, (us "1.0"); split; vm_compute; reflexivity).
    intros d r [Hs|Hs] Hr Hc.
    + rewrite (in_aio_unique _ _ _ _ Hs Ha) in Hr. eexists. cbn in Hr.
      destruct Hr as [<-|[<-|[<-|[<-|[<-|[]]]]]]; try discriminate Hc.
      * exists (wrote "app" "en" "Ann"). split; [left; exact Ha|]. repeat split. left; reflexivity.
      * exists (wrote "app" "en-ZA" "Bo"). split; [left; exact Ha|]. repeat split. right; left; reflexivity.
      * exists (wrote "app" "fr" "Cy"). split; [left; exact Ha|]. repeat split. right; right; left; reflexivity.
      * exists (wrote "app" "en" "Ann"). split; [left; exact Ha|]. repeat split. left; reflexivity.
    + rewrite (in_own_unique _ _ _ _ Hs Hw) in Hr. eexists. cbn in Hr. destruct Hr as [<-|[<-|[<-|[]]]].
      * exists (wrote "app" "en-GB" "Di"). split; [right; exact Hw|]. repeat split. left; reflexivity.
      * exists (wrote "app" "de" "Ann"). split; [right; exact Hw|]. repeat split. right; left; reflexivity.
      * exists (wrote "app" "de" "Ann"). split; [right; exact Hw|]. repeat split. right; left; reflexivity.
Qed.

(** ** C39: statistics of the repository. False: the numbers of a language are not the sum if a component counts it twice. *)
Theorem C39_repository_refuted : exists E es p rd t x cd y, made es p /\ env_fine E p /\ result E p [] CallRepository = Ok (AnRepository rd) /\
  sp_components p = [(us "app", (true, false))] /\ result E p [] (CallComponent (us "app")) = Ok (AnComponent cd) /\
  mget t (rd_languages rd) = Some x /\ mget t (cd_languages cd) = Some y /\ lg_count x <> lg_count y.
Proof.
  pose (es := [file "__all_in_one__" [row "app" "greet" "en" "Hello"] [wrote "app" "en" "Ann"; wrote "app" "EN" "Bo"] [main "app" "en"]]).
  eexists env_stored, es, (prov es), _, (us "en"), _, _, _.
  split; [apply prov_made; vm_compute; reflexivity|]. split; [apply stored_fine|]. split; [vm_compute; reflexivity|].
  split; [vm_compute; reflexivity|]. split; [vm_compute; reflexivity|]. split; [vm_compute; reflexivity|]. split; [vm_compute; reflexivity|].
  vm_compute. discriminate.
Qed.
Print Assumptions C39_repository_refuted.

(** What holds, for every content: there are details of every component; the total is the sum of their totals; every
    component is listed once; the default language is that of the component application, if any; the contributors are
    those of the languages of the components, without duplicates; the ratios are to the number of the default language; if
    every component writes each language in one way, the number of a language is the sum over the components. The data of
    the languages list no contributors. *)
Theorem C39_repository_partial : forall E es p h rd, made es p -> order_ok E -> result E p h CallRepository = Ok (AnRepository rd) ->
  exists cds, map fst cds = mkeys (sp_components p) /\
  (forall c cd h', In (c, cd) cds -> result E p h' (CallComponent c) = Ok (AnComponent cd)) /\
  rd_total rd = sumN (map (fun y => cd_total (snd y)) cds) /\
  rd_components rd = mkeys (sp_components p) /\ NoDup (rd_components rd) /\
  rd_default rd = option_map cd_default (mget (us "application") cds) /\
  NoDup (mkeys (rd_languages rd)) /\
  (forall t, In t (mkeys (rd_languages rd)) <-> exists c, known p c /\ has_language E p c t) /\
  NoDup (rd_contributors rd) /\
  (forall n, In n (rd_contributors rd) <-> exists c t, known p c /\ has_language E p c t /\ contributes p c t n) /\
  (forall t x, mget t (rd_languages rd) = Some x -> lg_contributors x = [] /\
     (forall d, rd_default rd = Some d -> exists y, mget d (rd_languages rd) = Some y /\ lg_ratio x = Some (lg_count x, lg_count y)) /\
     ((forall c, known p c -> one_spelling E p c) ->
      lg_count x = sumN (map (fun y => match mget t (cd_languages (snd y)) with Some z => lg_count z | None => 0%N end) cds))).
Proof.
  intros E es p h rd Hm Ho H. apply made_ok in Hm. rewrite (result_repository E p Hm) in H. apply bind_Ok in H. destruct H as (rd' & Hrd & H).
  injection H as ->. destruct (repository_details_value E p Hm Ho rd Hrd) as (L & cds & Hv & HD). exists cds.
  destruct (cds_keys E p Hm L cds rd HD) as (Hk & Hnd). pose proof HD as HD0. destruct HD as [[R1 R2 R3 R4 R5 R6 R7 R8 R9 R10] D2 D3].
  assert (HL : forall c ls, In (c, ls) L -> known p c /\ forall t, In t ls <-> has_language E p c t).
  { intros c ls Hin. split; [unfold known; rewrite <- D2; exact (in_map fst L (c, ls) Hin)|]. destruct (R2 c ls Hin) as (cd & _ & fa & fo & _ & Hr). exact (cr_list _ _ _ _ _ _ Hr). }
  assert (HLk : forall c, known p c -> exists ls, In (c, ls) L).
  { intros c Hc. unfold known in Hc. rewrite <- D2 in Hc. apply in_map_iff in Hc. destruct Hc as ((c' & ls) & Hc & Hin). cbn [fst] in Hc. subst c'. eauto. }
  split; [exact Hk|]. split.
  { intros c cd h' Hin. rewrite (result_component E p Hm). unfold component_details. rewrite (value_bind E p).
    - rewrite get_details_value, Hv. cbn [bind]. rewrite (In_mget cds c cd Hnd Hin). reflexivity.
    - apply get_details_steady; exact Hm.
    - intros (cds' & rd') _. destruct (mget c cds'); apply steady_ret. }
  split; [exact R6|]. split; [rewrite R8; exact D2|]. split; [rewrite R8, D2; exact (proj1 Hm)|]. split; [exact R7|]. split; [exact R3|]. split; [|split; [exact R9|split]].
  - intros t. rewrite R4. split.
    + intros (c & ls & Hin & Ht). destruct (HL c ls Hin) as (Hc & Hls). exists c. split; [exact Hc | apply Hls; exact Ht].
    + intros (c & Hc & Ht). destruct (HLk c Hc) as (ls & Hin). exists c, ls. split; [exact Hin | apply (HL c ls Hin); exact Ht].
  - intros n. rewrite R10. split.
    + intros (c & ls & t & Hin & Ht & Hn). destruct (HL c ls Hin) as (Hc & Hls). exists c, t. split; [exact Hc|]. split; [apply Hls; exact Ht | exact Hn].
    + intros (c & t & Hc & Ht & Hn). destruct (HLk c Hc) as (ls & Hin). exists c, ls, t. split; [exact Hin|]. split; [apply (HL c ls Hin); exact Ht | exact Hn].
  - intros t x Hx. split; [exact (proj2 (R5 t x Hx))|]. split; [intros d Hd; exact (D3 d t x Hd Hx)|].
    intros Hone. exact (repository_count E p Hm L cds rd t x HD0 Hone Hx).
Qed.
Print Assumptions C39_repository_partial.
Example C39_example : exists rd, result env_stored (prov dir_ex) [] CallRepository = Ok (AnRepository rd) /\ rd_total rd = 8%N /\
  rd_components rd = [us "app"; us "lib"] /\ rd_contributors rd = [us "Ann"; us "Bo"; us "Cy"; us "Di"] /\ rd_default rd = None /\
  map (fun x => (fst x, lg_count (snd x))) (rd_languages rd) = [(us "en", 3%N); (us "en-ZA", 1%N); (us "fr", 1%N); (us "en-GB", 1%N); (us "de", 2%N)].
Proof. eexists. split; [vm_compute; reflexivity|]. repeat split. Qed.
(** The details are returned if SQLite runs every query, the stored tags are valid and every component has a default
    language with a contributor. *)
Theorem C39_succeeds : forall E es p h, made es p -> env_fine E p -> defaults_fine E p ->
  (exists rd, result E p h CallRepository = Ok (AnRepository rd)) /\ forall c, known p c -> exists cd, result E p h (CallComponent c) = Ok (AnComponent cd).
Proof.
  intros E es p h Hm He Hd. apply made_ok in Hm. split.
  - destruct (repository_details_succeed E p Hm He Hd) as (rd & Hrd). exists rd. rewrite (result_repository E p Hm), Hrd. reflexivity.
  - intros c Hc. destruct (component_details_succeed E p Hm He Hd c Hc) as (cd & Hcd). exists cd. rewrite (result_component E p Hm), Hcd. reflexivity.
Qed.
Print Assumptions C39_succeeds.

(** ** C40: no method panics, whatever files there are, after any history. *)
Theorem C40_no_panic : forall E es p h c, made es p -> order_ok E -> result E p h c <> Panic /\ result E p h c <> NoFuel.
Proof. intros E es p h c Hm Ho. exact (history_quiet E p (made_ok es p Hm) Ho c h). Qed.
Print Assumptions C40_no_panic.
Example C40_example : result env_stored (prov dir_ex) [CallRepository] (CallIdentifier (us "lib") (us "none")) = Err (PComponentNotFound (us "lib")) /\
  result env_stored (prov za_first) [] (CallIdentifier (us "lib") (us "none")) = Err (PComponentNotFound (us "lib")) /\
  exists d, result env_stored (prov za_first) [] (CallIdentifier (us "app") (us "none")) = Ok (AnIdentifier d).
Proof. split; [vm_compute; reflexivity|]. split; [vm_compute; reflexivity|]. eexists. vm_compute. reflexivity. Qed.
(** Making a provider does not panic if the names of the files are UTF-8; it does if one is not. *)
Theorem C40_try_new : forall ok es, names_fine es -> provider_try_new ok es <> Panic /\ provider_try_new ok es <> NoFuel.
Proof. exact try_new_no_panic. Qed.
Print Assumptions C40_try_new.
Theorem C40_try_new_refuted : exists ok es, provider_try_new ok es = Panic.
Proof. exists (fun _ => true), [mk_entry None None]. vm_compute. reflexivity. Qed.
Print Assumptions C40_try_new_refuted.

(** ** C41: verification of the schema. False: a table with fewer columns than required is accepted. *)
Definition cut_schema : schema :=
  mk_schema (sc_tables schema_ex) (fun t => firstn 2 (sc_columns schema_ex t)) [us "1.0"] (Some (us "app.sqlite3")) true.
Theorem C41_schema_refuted : exists s v, verify_schema s = Ok v /\ ~ schema_complete s.
Proof.
  exists cut_schema, (us "1.0"). split; [vm_compute; reflexivity|]. intros H.
  destruct (H (us "language") [(us "rowID", us "INTEGER", 1, 1); (us "tag", us "TEXT", 1, 0); (us "englishName", us "TEXT", 0, 0); (us "added", us "DATE", 1, 0)]%N) as (_ & Hc).
  - unfold required_tables. right. right. left. reflexivity.
  - destruct (Hc 3 _ eq_refl) as (col & Hcol & _). vm_compute in Hcol. discriminate Hcol.
Qed.
Print Assumptions C41_schema_refuted.
(** What holds: a schema is accepted exactly if it is readable, has table metadata with version 1.0 and all tables, and the
    columns there are, up to the number required, fit in name, type, NOT NULL, primary key and default. If no table has
    fewer columns than required, it is complete; and a complete schema is accepted. *)
Theorem C41_schema_partial : forall s,
  (forall v, verify_schema s = Ok v <-> schema_fits s /\ v = us "1.0") /\
  (schema_fits s -> (forall t cols, In (t, cols) required_tables -> List.length cols <= List.length (sc_columns s t)) -> schema_complete s) /\
  (schema_complete s -> sc_readable s = true -> In (us "metadata") (sc_tables s) -> last (sc_versions s) [] = us "1.0" -> schema_fits s).
Proof. intros s. split; [intros v; apply verify_schema_ok|]. split; [apply fits_complete | apply complete_fits]. Qed.
Print Assumptions C41_schema_partial.
Example C41_example : verify_schema schema_ex = Ok (us "1.0") /\
  verify_schema (mk_schema (us "metadata" :: []) (sc_columns schema_ex) [us "1.0"] None true) = Err (SMissingTable (us "contributor")) /\
  (exists e, verify_schema (mk_schema (sc_tables schema_ex) (fun t => map (fun c => mk_column (cl_name c) (cl_type c) 0 (cl_default c) (cl_pk c)) (sc_columns schema_ex t))
     [us "1.0"] None true) = Err e).
Proof. split; [vm_compute; reflexivity|]. split; [vm_compute; reflexivity|]. eexists. vm_compute. reflexivity. Qed.

(** ** C42: the search for a language asks for the ancestors of the tag, longest first, each at most once, up to the first for
    which there is an answer or an error. *)
Theorem C42_search : forall E file d q c i exact t fuel, List.length t < fuel ->
  exists l, are_levels t l /\ search (ask E file d q c i exact) l (find_loop E fuel file d q c i exact t).
Proof. intros E file d q c i exact t fuel H. exact (find_search E file d q c i exact (List.length t) t fuel (le_n _) H). Qed.
Print Assumptions C42_search.
(** The fuel of the model of [find_strings] suffices. *)
Theorem C42_terminates : forall E file d q c i exact t, find_loop E (S (List.length t)) file d q c i exact t <> NoFuel.
Proof. intros. apply quiet_find. Qed.
Print Assumptions C42_terminates.
Example C42_example : are_levels (us "en-GB-oed") [us "en-GB-oed"; us "en-GB"; us "en"].
Proof.
  split.
  - intros a. split.
    + intros [<-|[<-|[<-|[]]]]; (split; [discriminate|]); [left; reflexivity | right; exists (us "oed"); reflexivity | right; exists (us "GB-oed"); reflexivity].
    + assert (Hno : forall u, forallb (fun c => negb (c =? ch "-")%N) u = true -> ~ In (ch "-") u).
      { intros u H Hi. apply (proj1 (forallb_forall _ _) H) in Hi. vm_compute in Hi. discriminate Hi. }
      intros (_ & Ha). apply (ancestor_parent _ (us "en-GB") (us "oed") a eq_refl (Hno (us "oed") eq_refl)) in Ha. destruct Ha as [->|Ha]; [left; reflexivity|].
      apply (ancestor_parent _ (us "en") (us "GB") a eq_refl (Hno (us "GB") eq_refl)) in Ha. destruct Ha as [->|Ha]; [right; left; reflexivity|].
      right; right; left. symmetry. exact (proj1 (ancestor_alone (us "en") a (Hno (us "en") eq_refl)) Ha).
  - repeat constructor; vm_compute; lia.
Qed.

(** ** C47: what a call returns does not depend on the calls before it, though queries and details are cached. *)
Theorem C47_history : forall E es p h h' c, made es p -> result E p h c = result E p h' c.
Proof.
  intros E es p h h' c Hm. apply made_ok in Hm. unfold result. rewrite (history_steady E p Hm c h), (history_steady E p Hm c h'). reflexivity.
Qed.
Print Assumptions C47_history.
Example C47_example : let h := [CallStrings (us "app") (us "greet") (us "en"); CallRepository; CallExact (us "lib") (us "err") (us "en")] in
  ps_queries (prun env_stored (prov dir_ex) pstate_new h) <> [] /\ ps_details (prun env_stored (prov dir_ex) pstate_new h) <> None /\
  result env_stored (prov dir_ex) h (CallString (us "app") (us "greet") (us "fr")) = Ok (AnString (Some (us "Salut", us "fr"))).
Proof. split; [vm_compute; discriminate|]. split; vm_compute; [discriminate | reflexivity]. Qed.

(** ** C48: asking again for the language of the answer gives the same answer. True if SQLite returns the rows of a table in
    one order, and the stored tags are canonical. *)
Theorem C48_again_partial : forall E es p h h' c i t x, made es p -> env_fine E p -> fixed_order E p -> canonical_tags E p -> no_wildcard t ->
  result E p h (CallString c i t) = Ok (AnString (Some x)) -> result E p h' (CallString c i (snd x)) = Ok (AnString (Some x)).
Proof.
  intros E es p h h' c i t x Hm He Hf Hc Hw H. apply made_ok in Hm. rewrite (result_string E p Hm) in *. apply bind_Ok in H.
  destruct H as (o & Ho & H). injection H as ->. rewrite (asks_again E p Hm He Hf Hc c i t x Hw Ho). reflexivity.
Qed.
Print Assumptions C48_again_partial.
(** False otherwise: a string stored for "iw" is found for "iw", but not for its canonical form "he". *)
Theorem C48_again_refuted : exists E es p c i t x, made es p /\ env_fine E p /\ fixed_order E p /\ no_wildcard t /\
  result E p [] (CallString c i t) = Ok (AnString (Some x)) /\ result E p [] (CallString c i (snd x)) <> Ok (AnString (Some x)).
Proof.
  pose (E := mk_penv (fun t => Some (if ueqb t (us "iw") then us "he" else t)) (fun _ _ _ => true) (fun _ _ _ l => l) (fun _ _ _ l => l) (fun _ _ _ l => l)).
  pose (es := [file "app" [row "app" "greet" "iw" "Shalom"] [wrote "app" "iw" "Ann"] [main "app" "iw"]]).
  exists E, es, (prov es), (us "app"), (us "greet"), (us "iw"), (us "Shalom", us "he").
  split; [apply prov_made; vm_compute; reflexivity|]. split.
  { split; [split; [|split]; intros; apply Permutation_refl|]. split; [intros f q ps; reflexivity|]. intros n d v _. repeat split; intros r _; discriminate. }
  split; [intros f d v _; exists (db_pattern d); split; [apply Permutation_refl | reflexivity]|].
  split; [apply no_wildcard_b; reflexivity|]. split; [vm_compute; reflexivity|]. vm_compute. discriminate.
Qed.
Print Assumptions C48_again_refuted.
Example C48_example : canonical_tags env_stored (prov dir_ex) /\
  result env_stored (prov dir_ex) [] (CallString (us "app") (us "greet") (us "en-GB")) = Ok (AnString (Some (us "Hello", us "en"))) /\
  result env_stored (prov dir_ex) [] (CallString (us "app") (us "greet") (us "en")) = Ok (AnString (Some (us "Hello", us "en"))).
Proof.
  split; [|split; vm_compute; reflexivity]. intros f d v Hd r Hr.
  assert (Hin : In (f, (d, v)) (sp_connections (prov dir_ex))) by (apply mget_In; exact Hd).
  assert (Hconn : sp_connections (prov dir_ex) = [(us "app", (match en_db own_ex with Some x => x | None => d end, us "1.0"));
    (us "__all_in_one__", (match en_db aio_ex with Some x => x | None => d end, us "1.0"))]) by (vm_compute; reflexivity).
  rewrite Hconn in Hin. destruct Hin as [Hin|[Hin|[]]]; injection Hin as _ <- _; cbn in Hr;
    repeat (destruct Hr as [<-|Hr]; [split; [vm_compute; reflexivity | apply no_wildcard_b; reflexivity]|]); destruct Hr.
Qed.

(** ** C49: a provider knows exactly the components of its directory. *)
Theorem C49_components : forall es p, made es p -> NoDup (map en_stem es) ->
  NoDup (mkeys (sp_components p)) /\
  (forall c, known p c <-> (c <> us "__all_in_one__" /\ exists d, has_file es c d) \/ exists d, has_file es (us "__all_in_one__") d /\ lists_component d c) /\
  (forall c d, in_aio p c d <-> has_file es (us "__all_in_one__") d /\ lists_component d c) /\
  (forall c d, in_own p c d <-> c <> us "__all_in_one__" /\ has_file es c d).
Proof.
  change (us "__all_in_one__") with aio.
  intros es p Hm Hn. destruct (made_reads es p Hn Hm) as [R1 R2 R3 R4 R5]. split; [exact R1|].
  assert (Haio : forall c d, in_aio p c d <-> has_file es aio d /\ lists_component d c).
  { intros c d. split.
    - intros (f & v & Hc & Hd). destruct (proj1 (R3 c) (ex_intro _ f Hc)) as (d' & Hd' & Hl). apply R2 in Hd. destruct Hd as (_ & Hd).
      pose proof (proj2 (R2 aio d _) (conj eq_refl Hd)) as K1. pose proof (proj2 (R2 aio d' _) (conj eq_refl Hd')) as K2.
      assert (d = d') by congruence. subst d'. auto.
    - intros (Hd & Hl). destruct (proj2 (R3 c) (ex_intro _ d (conj Hd Hl))) as (f & Hf). exists f, (us "1.0"). split; [exact Hf|]. apply R2. auto. }
  assert (Hown : forall c d, in_own p c d <-> c <> aio /\ has_file es c d).
  { intros c d. split.
    - intros (f & v & Hc & Hd). apply R2 in Hd. destruct (proj1 (R4 c) (ex_intro _ f Hc)) as (Hne & _). split; [exact Hne | apply Hd].
    - intros (Hne & Hd). destruct (proj2 (R4 c) (conj Hne (ex_intro _ d Hd))) as (f & Hf). exists f, (us "1.0"). split; [exact Hf|]. apply R2. auto. }
  split; [|split; [exact Haio | exact Hown]]. intros c. unfold known. rewrite <- mget_keys. split.
  - intros ((fa & fo) & Hc). destruct fo; [left; apply R4; eauto|]. destruct fa; [right; apply R3; eauto | destruct (R5 c Hc)].
  - intros [H|H]; [apply R4 in H | apply R3 in H]; destruct H as (f & Hf); eauto.
Qed.
Print Assumptions C49_components.
Example C49_example : NoDup (map en_stem dir_ex) /\ mkeys (sp_components (prov dir_ex)) = [us "app"; us "lib"] /\
  provider_try_new (fun _ => true) [] = Err NNoSqlite3Files.
Proof.
  split; [|split; vm_compute; reflexivity]. cbn. constructor; [|constructor; [intros [] | constructor]]. intros [H|[]]. discriminate H.
Qed.

(** ** C50: details of an identifier. False: for a component without own file, an identifier that does not exist gives the
    error that the component was not found. *)
Theorem C50_identifier_refuted : exists E es p c i, made es p /\ env_fine E p /\ known p c /\
  (exists cd, result E p [] (CallComponent c) = Ok (AnComponent cd)) /\ result E p [] (CallIdentifier c i) = Err (PComponentNotFound c).
Proof.
  exists env_stored, dir_ex, (prov dir_ex), (us "lib"), (us "none"). split; [exact dir_made|]. split; [apply stored_fine|].
  split; [vm_compute; right; left; reflexivity|]. split; [eexists; vm_compute; reflexivity | vm_compute; reflexivity].
Qed.
Print Assumptions C50_identifier_refuted.
(** What holds: details that are returned give the default language of the component, and the languages of the strings with
    the identifier in the all in one file, or, if there are none, in the file of the component. *)
Theorem C50_identifier_partial : forall E es p h c i o, made es p -> order_ok E -> result E p h (CallIdentifier c i) = Ok (AnIdentifier o) ->
  (exists cd, result E p h (CallComponent c) = Ok (AnComponent cd) /\ id_default o = cd_default cd) /\
  ((exists d, in_aio p c d /\ has d c i (fun _ => True) /\ forall t, In t (id_languages o) <-> id_speaks E d c i t) \/
   ((forall d, in_aio p c d -> ~ has d c i (fun _ => True)) /\ exists d, in_own p c d /\ forall t, In t (id_languages o) <-> id_speaks E d c i t)).
Proof.
  intros E es p h c i o Hm Ho H. apply made_ok in Hm. rewrite (result_identifier E p Hm) in H. apply bind_Ok in H. destruct H as (o' & Ho' & H).
  injection H as ->. destruct (identifier_right E p Hm Ho c i o Ho') as ((cd & Hcd & Hdef) & Hl). split; [|exact Hl].
  exists cd. rewrite (result_component E p Hm), Hcd. auto.
Qed.
Print Assumptions C50_identifier_partial.
Example C50_example : result env_stored (prov dir_ex) [] (CallIdentifier (us "app") (us "greet")) =
  Ok (AnIdentifier (mk_idetails [us "en"; us "en-ZA"; us "fr"] (us "en"))).
Proof. vm_compute. reflexivity. Qed.

(** ** C51: the details of a component depend on its own files only. False: a component without default language, or with one
    in which it has no contributor, makes the details of all components fail. *)
Definition broken : entry := file "plugin" [row "plugin" "x" "en" "X"] [wrote "plugin" "en" "Ann"] [].
Theorem C51_separate_refuted : exists E es e p p' c cd, made es p /\ made (es ++ [e]) p' /\ known p c /\
  result E p [] (CallComponent c) = Ok (AnComponent cd) /\
  (forall d, source p c d <-> source p' c d) /\ result E p' [] (CallComponent c) = Err (PDefaultLanguage (us "plugin")).
Proof.
  eexists env_stored, za_first, broken, (prov za_first), (prov (za_first ++ [broken])), (us "app"), _.
  split; [apply prov_made; vm_compute; reflexivity|]. split; [apply prov_made; vm_compute; reflexivity|].
  split; [vm_compute; left; reflexivity|]. split; [vm_compute; reflexivity|]. split; [|vm_compute; reflexivity].
  intros d. split; intros [(f & v & H1 & H2)|(f & v & H1 & H2)]; try (vm_compute in H1; discriminate H1); right; exists f, v; (split; [exact H1 | exact H2]).
Qed.
Print Assumptions C51_separate_refuted.
