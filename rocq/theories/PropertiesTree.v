(** Property theorems C06, C07, C10-C14 (crates/localiser/src/tree.rs). *)
From Verif Require Import Base BaseFacts LexerModel LexerSpec IcuExample TreeModel TreeSpec DocSpec DocCheck TreeProofs4 DocProofs DocProofs2.

Definition parse (s : ustr) : tout tree := tree_try_new icu_ex s l10n_grammar.

(** ** C06: parsing never panics. False; witnesses: *)
Theorem C06_never_panics_refuted :
  parse (us "{#cmd#}") = Panic /\ parse (us "{#cmd##x}") = Panic /\
  parse (us "a#{x -y}") = Panic /\ parse (us "a#{x `{ }") = Panic.
Proof. repeat split; vm_compute; reflexivity. Qed.
Print Assumptions C06_never_panics_refuted.

(** The strings on which the parser panics are exactly those with a token sequence described by [panicking]: a
    command whose delay marker is followed by [}] or [#], or a named string starting with punctuation or an escape. *)
Theorem C06_panics_exactly_partial : forall d s g,
  tree_try_new d s g = Panic <-> s <> [] /\ g <> [] /\ exists l, segmentation d g s l /\ panicking l.
Proof. exact tree_panic_iff. Qed.
Print Assumptions C06_panics_exactly_partial.

(** In particular a string without a number sign is safe, and the parser always terminates. *)
Theorem C06_no_hash_partial : forall d s g, ~ In (ch "#") s -> tree_try_new d s g <> Panic.
Proof. exact tree_no_hash_no_panic. Qed.
Print Assumptions C06_no_hash_partial.

Theorem C06_terminates : forall d s g, tree_try_new d s g <> NoFuel.
Proof. exact tree_terminates. Qed.
Print Assumptions C06_terminates.

Example C06_example : ~ In (ch "#") (us "a {b plural} {c}") /\
  exists tr, parse (us "a {b plural} {c}") = Ok tr /\ List.length (tr_nodes tr) = 9.
Proof. split; [vm_compute; intuition discriminate|]. eexists; split; [vm_compute; reflexivity | reflexivity]. Qed.

(** ** C07: accepted strings give a well-formed arena over exactly the tokens of the string. *)
Theorem C07_well_formed_tree : forall d s g tr, tree_try_new d s g = Ok tr ->
  wf_arena tr /\ tokenise d s g = Ok (tr_tokens tr).
Proof. intros d s g tr H. destruct (tree_sound d s g tr H) as (H1 & H2 & _). exact (conj H1 H2). Qed.
Print Assumptions C07_well_formed_tree.

Definition dogs : ustr := us "There {dogs_number plural one#one_dog other#dogs} in the park.#{dogs are # dogs}{one_dog is 1 dog}".
Example C07_example : exists tr, parse dogs = Ok tr /\ List.length (tr_nodes tr) = 24.
Proof. eexists; split; [vm_compute; reflexivity | reflexivity]. Qed.

(** ** C54: the lengths of the tree are those of the string *)
Theorem C54_lengths : forall d s g tr, tree_try_new d s g = Ok tr ->
  l_bytes (tr_lengths tr) = blen s /\ l_characters (tr_lengths tr) = List.length s /\
  l_graphemes (tr_lengths tr) = sum (map t_length_graphemes (tr_tokens tr)) /\
  l_tokens (tr_lengths tr) = List.length (tr_tokens tr).
Proof. exact tree_lengths. Qed.
Print Assumptions C54_lengths.
Example C54_example : exists tr, parse [97; 233; 32; 123; 98; 125; 8364]%N = Ok tr /\ tr_lengths tr = mk_lengths 10 7 7 6.
Proof. eexists; split; vm_compute; reflexivity. Qed.

(** ** C10: literal text patterns. False: [{`text`}] is rejected whatever the text. *)
Theorem C10_literal_text_refuted :
  parse (us "a {`b`} c") = Err EndedAbruptly /\ parse (us "{`b`}") = Err EndedAbruptly /\
  parse (us "{#cmd `b`}") = Err EndedAbruptly.
Proof. repeat split; vm_compute; reflexivity. Qed.
Print Assumptions C10_literal_text_refuted.

(** More strongly, every string with a literal text pattern is rejected, whatever precedes and follows it. *)
Theorem C10_literal_always_rejected : forall d m rest, icu_ok d -> main_wf d m -> NoDup (placeholders m) ->
  tree_try_new d (strprint m ++ us "{`" ++ rest) l10n_grammar = Err EndedAbruptly.
Proof. intros d m rest Hd. exact (literal_rejected d Hd m rest). Qed.
Print Assumptions C10_literal_always_rejected.

Theorem C10_literal_parameter_always_rejected : forall d m name w c rest, icu_ok d -> main_wf d m -> NoDup (placeholders m) ->
  is_ident d name -> is_ws1 d w ->
  tree_try_new d (strprint m ++ us "{#" ++ name ++ w ++ us "`" ++ c :: rest) l10n_grammar = Err EndedAbruptly.
Proof. intros d m name w c rest Hd. exact (command_literal_rejected d Hd m name w c rest). Qed.
Print Assumptions C10_literal_parameter_always_rejected.

Example C10_example :
  let m := mk_dstr (us "see ") [(DPlace (us "v") None, us " or ")] in
  main_wf icu_ex m /\ NoDup (placeholders m) /\ strprint m = us "see {v} or ".
Proof. cbn zeta. split; [apply mainb_ok; reflexivity|]. split; [apply nodupb_ok; reflexivity | reflexivity]. Qed.

(** ** C11: identifiers are unique *)
Theorem C11_unique_identifiers : forall d s g tr, tree_try_new d s g = Ok tr ->
  exists a, tree_is tr a /\ NoDup (placeholder_names a) /\ NoDup (string_names a).
Proof.
  intros d s g tr H. destruct (tree_sound d s g tr H) as (_ & _ & c & (_ & _ & H1 & H2) & _ & H3).
  exact (ex_intro _ (ccontent c) (conj H3 (conj H1 H2))).
Qed.
Print Assumptions C11_unique_identifiers.

(** [open_string B P N]: the tokens [B] end inside a string, with placeholder names [P] and string names [N] so far. *)
Theorem C11_duplicate_placeholder : forall d s g B P N id rest, s <> [] -> g <> [] ->
  open_string B P N -> In id P -> segmentation d g s (B ++ g_ (us "{") :: (TIdentifier, id) :: rest) ->
  tree_try_new d s g = Err (UniquePattern id).
Proof. exact tree_dup_pattern. Qed.
Print Assumptions C11_duplicate_placeholder.

Theorem C11_duplicate_string : forall d s g B P N id rest, s <> [] -> g <> [] ->
  open_group B P N -> NoDup P -> NoDup N -> In id N ->
  segmentation d g s (B ++ g_ (us "{") :: (TIdentifier, id) :: rest) -> tree_try_new d s g = Err (UniqueNamed id).
Proof. exact tree_dup_named. Qed.
Print Assumptions C11_duplicate_string.

Example C11_example : exists tr, parse dogs = Ok tr.
Proof. eexists; vm_compute; reflexivity. Qed.
Example C11_duplicate_example :
  parse (us "{a} b {a}") = Err (UniquePattern (us "a")) /\ parse (us "{a} #{x # {a}}") = Err (UniquePattern (us "a")) /\
  parse (us "b#{x c}{x d}") = Err (UniqueNamed (us "x")) /\
  open_string (pieces_print [PPat (us "a") [] None; PText (TWhiteSpace, us " "); PText (TIdentifier, us "b")]) [us "a"] [].
Proof.
  split; [vm_compute; reflexivity|]. split; [vm_compute; reflexivity|]. split; [vm_compute; reflexivity|].
  split; [left|split; [repeat constructor; intros []|constructor]].
  apply (om [PPat (us "a") [] None; PText (TWhiteSpace, us " "); PText (TIdentifier, us "b")]).
  split; repeat constructor; discriminate.
Qed.

(** ** C12: a string that ends inside a pattern, command, literal or named string is rejected *)
Theorem C12_unterminated_rejected : forall d s g l, s <> [] -> g <> [] -> segmentation d g s l -> unterminated l ->
  tree_try_new d s g = Err EndedAbruptly.
Proof. exact tree_unterminated. Qed.
Print Assumptions C12_unterminated_rejected.

(** Cutting an accepted string after any of its tokens gives an accepted string or one that ends inside something
    still open; the latter are rejected. *)
Theorem C12_cut_strings : forall d s g tr a b, tree_try_new d s g = Ok tr -> a <> [] ->
  map seg_of (tr_tokens tr) = a ++ b ->
  let p := List.concat (map snd a) in
  (exists tr', tree_try_new d p g = Ok tr') \/ (unterminated a /\ tree_try_new d p g = Err EndedAbruptly).
Proof. exact tree_prefix. Qed.
Print Assumptions C12_cut_strings.

Example C12_example :
  (exists tr, parse (us "a {b plural x#y} c#{y z {w}}") = Ok tr) /\
  parse (us "a {b plural x#y") = Err EndedAbruptly /\ parse (us "a {b plural x#y} c#{y z {w}") = Err EndedAbruptly /\
  parse (us "a {#b") = Err EndedAbruptly /\ parse (us "a {`b") = Err EndedAbruptly /\
  unterminated ([(TIdentifier, us "a")] ++ [g_ (us "{"); (TIdentifier, us "b")]).
Proof.
  split; [eexists; vm_compute; reflexivity|]. do 4 (split; [vm_compute; reflexivity|]).
  eapply (un_piece _ [] [] (PPat (us "b") [] None) _ [g_ (us "}")]).
  - split; [left; apply (om [PText (TIdentifier, us "a")]); split; repeat constructor; discriminate | split; constructor].
  - exact I.
  - repeat constructor; intros [].
  - reflexivity.
  - discriminate.
  - discriminate.
Qed.

(** ** C13: shape. [tree_is tr a] (TreeSpec) fixes the kind and number of children of every node: the root has the main
    string and at most one named group, a named string one identifier and one string, a pattern its identifier,
    an optional keyword and selectors of two identifiers. [a] is what the tokens of the string say. *)
Theorem C13_shape : forall d s g tr, tree_try_new d s g = Ok tr ->
  exists c, cwf c /\ segmentation d g s (cprint c) /\ tree_is tr (ccontent c).
Proof. intros d s g tr H. destruct (tree_sound d s g tr H) as (_ & _ & H3). exact H3. Qed.
Print Assumptions C13_shape.

Theorem C13_unambiguous : forall d s g tr c, tree_try_new d s g = Ok tr -> cwf c -> segmentation d g s (cprint c) ->
  tree_is tr (ccontent c).
Proof. intros d s g tr c. exact (tree_reads d s g c tr). Qed.
Print Assumptions C13_unambiguous.

Theorem C13_accepted_iff : forall d s g, (exists tr, tree_try_new d s g = Ok tr) <->
  s <> [] /\ g <> [] /\ exists c, cwf c /\ segmentation d g s (cprint c).
Proof. exact tree_accept_iff. Qed.
Print Assumptions C13_accepted_iff.

Example C13_example : exists tr, parse dogs = Ok tr /\ branch_is tr 0 NRoot [1; 13] /\ branch_is tr 13 NNamedGroup [14; 20].
Proof. eexists; split; [vm_compute; reflexivity|]. split; eexists; repeat split; reflexivity. Qed.

(** ** C14: documented strings are accepted. False for named strings starting with punctuation, an escape or a
    placeholder, for empty named strings, for two adjacent number signs, and for the empty string. *)
Definition doc1 (st : dstr) : doc := mk_doc (mk_dstr (us "a") []) (Some ([], [mk_dnamed (us "x") (us " ") st []])).
Theorem C14_documented_refuted : forall st, In st [
    mk_dstr (us "-y") [];                                 (* a#{x -y} *)
    mk_dstr [] [(DEsc (ch "{"), us " ")];                 (* a#{x `{ } *)
    mk_dstr [] [(DPlace (us "y") None, [])];              (* a#{x {y}} *)
    mk_dstr [] [];                                        (* a#{x } *)
    mk_dstr (us "y") [(DHash, []); (DHash, [])] ] ->      (* a#{x y##} *)
  doc_wf icu_ex (doc1 st) /\ unique_names (doc1 st) /\ forall tr, parse (dprint (doc1 st)) <> Ok tr.
Proof.
  intros st H. cbn [In] in H.
  repeat (destruct H as [<-|H];
    [split; [apply docb_ok; reflexivity | split; [apply uniqueb_ok; reflexivity | intros tr; vm_compute; discriminate]]|]).
  contradiction.
Qed.
Print Assumptions C14_documented_refuted.

Theorem C14_empty_refuted : parse [] = Err (TreeLexer EmptyString).
Proof. reflexivity. Qed.
Print Assumptions C14_empty_refuted.

(** The documented strings with unique identifiers that are accepted are exactly those whose named strings start with
    an identifier character or a number sign and contain no two adjacent number signs ([supported]). *)
Theorem C14_accepted_iff_partial : forall d e, icu_ok d -> doc_wf d e -> unique_names e -> dprint e <> [] ->
  ((exists tr, tree_try_new d (dprint e) l10n_grammar = Ok tr) <-> supported d e).
Proof. intros d e Hd. exact (doc_accepted_iff d Hd e). Qed.
Print Assumptions C14_accepted_iff_partial.

(** And the tree means what the documentation says, up to the division of text into pieces. *)
Theorem C14_meaning_partial : forall d e, icu_ok d -> doc_wf d e -> unique_names e -> supported d e -> dprint e <> [] ->
  exists tr a, tree_try_new d (dprint e) l10n_grammar = Ok tr /\ tree_is tr a /\ joined a = joined (doc_content e) /\
    List.concat (map t_string (tr_tokens tr)) = dprint e.
Proof. intros d e Hd. exact (doc_accepted d Hd e). Qed.
Print Assumptions C14_meaning_partial.

Definition dogs_doc : doc :=
  mk_doc (mk_dstr (us "There ") [(DPlace (us "dogs_number") (Some (us " ", us "plural",
       [(us " ", (us "one", us "one_dog")); (us " ", (us "other", us "dogs"))])), us " in the park.")])
    (Some ([], [mk_dnamed (us "dogs") (us " ") (mk_dstr (us "are ") [(DHash, us " dogs")]) [];
                mk_dnamed (us "one_dog") (us " ") (mk_dstr (us "is 1 dog") []) []])).
Example C14_example :
  icu_ok icu_ex /\ doc_wf icu_ex dogs_doc /\ unique_names dogs_doc /\ supported icu_ex dogs_doc /\ dprint dogs_doc = dogs.
Proof.
  split; [exact icu_ex_ok|]. split; [apply docb_ok; reflexivity|]. split; [apply uniqueb_ok; reflexivity|].
  split; [apply supportedb_ok; reflexivity | reflexivity].
Qed.
