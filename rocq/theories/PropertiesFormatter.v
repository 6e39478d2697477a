(** Property theorems C08, C09, C15-C20, C43-C45 (crates/localiser/src/formatter.rs). *)
From Verif Require Import Base BaseFacts LexerModel LexerSpec IcuExample TreeModel TreeSpec DocSpec DocCheck ValueModel CommandModel
  IsoModel FormatterModel FormatterSpec FormatterProofs4 FormatterProofs5 FmtExample PropertiesTree.

(** ** C08: text without grammar characters. The formatter refuses such a string with [FNoGrammar], on which the
    localiser returns the string itself (see PropertiesLocaliser). *)
Theorem C08_plain_text_tree : forall d s, icu_ok d -> s <> [] -> (forall c, In c s -> ~ In c l10n_grammar) ->
  exists tr, tree_try_new d s l10n_grammar = Ok tr /\ tr_has_grammar tr = false.
Proof. exact tree_plain. Qed.
Print Assumptions C08_plain_text_tree.

Theorem C08_grammar_detected : forall d s tr, icu_ok d -> tree_try_new d s l10n_grammar = Ok tr ->
  (tr_has_grammar tr = true <-> exists c, In c s /\ In c l10n_grammar).
Proof. exact tree_grammar_iff. Qed.
Print Assumptions C08_grammar_detected.

Theorem C08_empty_text_refuted : forall d, tree_try_new d [] l10n_grammar = Err (TreeLexer EmptyString).
Proof. reflexivity. Qed.
Print Assumptions C08_empty_text_refuted.

Example C08_example : build_ex (us "Just some text, 100% plain.") = Err FNoGrammar /\
  forall c, In c (us "Just some text, 100% plain.") -> ~ In c l10n_grammar.
Proof. split; [vm_compute; reflexivity|]. intros c H1 H2. vm_compute in H1, H2. intuition congruence. Qed.

(** ** C09: escaping. For texts with at least one grammar character; the others are C08. *)
Theorem C09_escape_round_trip : forall d fe reg tag locale w, icu_ok d -> (exists c, In c w /\ In c l10n_grammar) ->
  exists fm, formatter_try_new d l10n_grammar fe reg tag locale (escape w) = Ok fm /\
    forall fm' vals fuel, after_formatting fe reg fm fm' -> 0 < fuel -> snd (format fuel fe reg fm' vals) = Ok w.
Proof. intros d fe reg tag locale w Hd. exact (escape_format d fe reg tag locale Hd w). Qed.
Print Assumptions C09_escape_round_trip.

Example C09_example : escape (us "{#} `x`") = us "`{`#`} ``x``" /\ text_ex (us "`{`#`} ``x``") [] = Ok (us "{#} `x`").
Proof. split; vm_compute; reflexivity. Qed.

(** ** C15: plain placeholders *)
Theorem C15_substitution : forall d fe reg tag locale s, icu_ok d -> main_wf d s -> NoDup (spats (str_content s)) ->
  plain s -> ds_rest s <> [] ->
  exists fm, formatter_try_new d l10n_grammar fe reg tag locale (strprint s) = Ok fm /\
    forall fm' vals fuel, after_formatting fe reg fm fm' -> 0 < fuel ->
      snd (format fuel fe reg fm' vals) = plain_text vals s.
Proof. intros d fe reg tag locale s Hd. exact (plain_format d fe reg tag locale Hd s). Qed.
Print Assumptions C15_substitution.

Definition greeting : dstr := mk_dstr (us "Hi ") [(DPlace (us "a") None, us " & "); (DPlace (us "b") None, us "! "); (DEsc (ch "#"), us "1")].
Example C15_example : main_wf icu_ex greeting /\ NoDup (spats (str_content greeting)) /\ plain greeting /\
  strprint greeting = us "Hi {a} & {b}! `#1" /\
  plain_text [(us "b", VString (us "B")); (us "a", VTagged (us "A") (us "en"))] greeting = Ok (us "Hi A & B! #1") /\
  plain_text [(us "a", VString (us "A"))] greeting = Err (FPlaceholderValue (us "PatternString") (us "b")) /\
  plain_text [(us "a", VUnsigned 3)] greeting = Err (FInvalidValue (us "PatternString")).
Proof.
  split; [apply mainb_ok; reflexivity|]. split; [apply nodupb_ok; reflexivity|].
  split; [repeat constructor|]. repeat split; vm_compute; reflexivity.
Qed.

(** ** C16 and C17: the text of strings with select, plural and ordinal placeholders. *)

(** What formatting gives, for every accepted string, after every history and for all values: the rendering in which
    the selector itself is taken as the name of the branch. *)
Theorem C16_C17_implemented_text_partial : forall d g fe reg tag locale s a fm fm' vals t,
  content_of d g s a -> hash_in_plurals_only a -> formatter_try_new d g fe reg tag locale s = Ok fm ->
  after_formatting fe reg fm fm' ->
  (gives fe reg fm' vals (Ok t) <-> implemented_text fe reg locale vals a t).
Proof. exact format_iff. Qed.
Print Assumptions C16_C17_implemented_text_partial.

(** It is the documented rendering when every selector has the branch of the same name and the categories of the plural
    numbers have selectors of their own. *)
Theorem C16_C17_documented_text_partial : forall d fe reg tag locale s a fm fm' vals t,
  content_of d l10n_grammar s a -> hash_in_plurals_only a -> own_branches a -> categories_covered fe locale vals a ->
  formatter_try_new d l10n_grammar fe reg tag locale s = Ok fm -> after_formatting fe reg fm fm' ->
  (gives fe reg fm' vals (Ok t) <-> documented_text fe reg locale vals a t).
Proof. exact format_documented. Qed.
Print Assumptions C16_C17_documented_text_partial.

(** The content of a documented string is what the documentation says, so the theorems above apply to it. *)
Theorem C16_C17_documented_content : forall d e, icu_ok d -> doc_wf d e -> unique_names e -> supported d e -> dprint e <> [] ->
  exists a, content_of d l10n_grammar (dprint e) a /\ joined a = joined (doc_content e).
Proof. intros d e Hd. exact (doc_content_of d Hd e). Qed.
Print Assumptions C16_C17_documented_content.

(** Select: the value [a] has the branch [b], but the string [a] is shown. *)
Definition named (id : ustr) (s : dstr) : dnamed := mk_dnamed id (us " ") s [].
Definition swapped : doc := mk_doc
  (mk_dstr [] [(DPlace (us "v") (Some (us " ", us "select", [(us " ", (us "a", us "b")); (us " ", (us "b", us "a"))])), [])])
  (Some ([], [named (us "a") (mk_dstr (us "AAA") []); named (us "b") (mk_dstr (us "BBB") [])])).
Theorem C16_select_refuted : let vals := [(us "v", VString (us "a"))] in
  dprint swapped = us "{v select a#b b#a}#{a AAA}{b BBB}" /\ doc_wf icu_ex swapped /\ unique_names swapped /\
  documented_text env_ex reg_ex (us "en") vals (doc_content swapped) (us "BBB") /\
  text_ex (dprint swapped) vals = Ok (us "AAA").
Proof.
  cbn zeta. split; [reflexivity|]. split; [apply docb_ok; reflexivity|]. split; [apply uniqueb_ok; reflexivity|].
  split; [|vm_compute; reflexivity].
  change (us "BBB") with ([] ++ (us "BBB" ++ []) ++ [] ++ []). repeat apply rn_cons; try apply rn_nil; try apply rn_text.
  eapply rn_select; [reflexivity|reflexivity|now left|reflexivity|]. repeat apply rn_cons; try apply rn_nil; try apply rn_text.
Qed.
Print Assumptions C16_select_refuted.

(** Plural: the branch of [one] is [b], but the selector is looked up, and the formatter is not even built (see C43);
    a category without selector is an error instead of falling back to [other]. *)
Definition only_other : doc := mk_doc
  (mk_dstr [] [(DPlace (us "n") (Some (us " ", us "plural", [(us " ", (us "other", us "other"))])), [])])
  (Some ([], [named (us "other") (mk_dstr [] [(DHash, us " dogs")])])).
Theorem C17_fallback_refuted : let vals := [(us "n", VUnsigned 1)] in
  dprint only_other = us "{n plural other#other}#{other # dogs}" /\ doc_wf icu_ex only_other /\ unique_names only_other /\
  documented_text env_ex reg_ex (us "en") vals (doc_content only_other) (us "1 dogs") /\
  text_ex (dprint only_other) vals = Err (FSelectorsIndexNamed (us "one") 0).
Proof.
  cbn zeta. split; [reflexivity|]. split; [apply docb_ok; reflexivity|]. split; [apply uniqueb_ok; reflexivity|].
  split; [|vm_compute; reflexivity].
  change (us "1 dogs") with ([] ++ ([] ++ us "1" ++ us " dogs" ++ []) ++ [] ++ []).
  repeat apply rn_cons; try apply rn_nil; try apply rn_text.
  eapply rn_plural; [reflexivity|constructor|reflexivity|reflexivity| | |].
  - right. split; [|now left]. vm_compute. intuition discriminate.
  - reflexivity.
  - repeat apply rn_cons; try apply rn_nil; try apply rn_text. now apply rn_hash.
Qed.
Print Assumptions C17_fallback_refuted.

Definition swapped_plural : doc := mk_doc
  (mk_dstr [] [(DPlace (us "n") (Some (us " ", us "plural", [(us " ", (us "one", us "other")); (us " ", (us "other", us "one"))])), [])])
  (Some ([], [named (us "one") (mk_dstr (us "AAA") []); named (us "other") (mk_dstr (us "BBB") [])])).
Theorem C17_branch_refuted : let vals := [(us "n", VUnsigned 1)] in
  dprint swapped_plural = us "{n plural one#other other#one}#{one AAA}{other BBB}" /\ doc_wf icu_ex swapped_plural /\
  unique_names swapped_plural /\
  documented_text env_ex reg_ex (us "en") vals (doc_content swapped_plural) (us "BBB") /\
  text_ex (dprint swapped_plural) vals = Ok (us "AAA").
Proof.
  cbn zeta. split; [reflexivity|]. split; [apply docb_ok; reflexivity|]. split; [apply uniqueb_ok; reflexivity|].
  split; [|vm_compute; reflexivity].
  change (us "BBB") with ([] ++ (us "BBB" ++ []) ++ [] ++ []). repeat apply rn_cons; try apply rn_nil; try apply rn_text.
  eapply rn_plural; [reflexivity|constructor|reflexivity|reflexivity|left; now left|reflexivity|].
  repeat apply rn_cons; try apply rn_nil; try apply rn_text.
Qed.
Print Assumptions C17_branch_refuted.

(** An example of all conditions of the positive theorem. *)
Definition dogs_own : doc := mk_doc
  (mk_dstr (us "There ") [(DPlace (us "n") (Some (us " ", us "plural", [(us " ", (us "one", us "one")); (us " ", (us "other", us "other"))])), us " in the ");
     (DPlace (us "p") (Some (us " ", us "select", [(us " ", (us "park", us "park"))])), us ".")])
  (Some ([], [named (us "one") (mk_dstr (us "is 1 dog") []); named (us "other") (mk_dstr (us "are ") [(DHash, us " dogs")]);
     named (us "park") (mk_dstr (us "big park") [])])).
Example C16_C17_example : let a := doc_content dogs_own in
  doc_wf icu_ex dogs_own /\ unique_names dogs_own /\ supported icu_ex dogs_own /\
  dprint dogs_own = us "There {n plural one#one other#other} in the {p select park#park}.#{one is 1 dog}{other are # dogs}{park big park}" /\
  own_branches a /\ hash_in_plurals_only a /\ buildable reg_ex a /\
  (forall vals, categories_covered env_ex (us "en") vals a) /\
  text_ex (dprint dogs_own) [(us "n", VUnsigned 12); (us "p", VString (us "park"))] = Ok (us "There are 12 dogs in the big park.").
Proof.
  cbn zeta. split; [apply docb_ok; reflexivity|]. split; [apply uniqueb_ok; reflexivity|]. split; [apply supportedb_ok; reflexivity|].
  split; [reflexivity|]. split; [|split; [|split; [|split; [|vm_compute; reflexivity]]]].
  - intros name body ph kw sels sel branch H1 H2 H3. cbn in H1.
    repeat (destruct H1 as [[= <- <-]|H1]; [cbn in H2; repeat (destruct H2 as [H2|H2]; [try discriminate H2|]); try contradiction|]); try contradiction.
    + injection H2 as <- <- <-. destruct H3 as [[= <- <-]|[[= <- <-]|[]]]; reflexivity.
    + injection H2 as <- <- <-. destruct H3 as [[= <- <-]|[]]; reflexivity.
  - intros name body x ph sels sel branch H1 H2 -> H3 target H4 H5. cbn in H1.
    repeat (destruct H1 as [[= <- <-]|H1]; [cbn in H2; repeat (destruct H2 as [H2|H2]; [try discriminate H2|]); try contradiction|]); try contradiction.
    injection H2 as <- <-. destruct H3 as [[= <- <-]|[]]. cbn in H4.
    repeat (destruct H4 as [H4|H4]; [try discriminate H4|]); try contradiction. injection H4 as <-.
    cbn in H5. intuition discriminate.
  - apply (content_check_iff env_ex reg_ex (us "en")). vm_compute. reflexivity.
  - intros vals name body ph sels v dec rules H1 _ _ H2.
    assert (Hp : In (SPat ph (Some (us "plural", sels))) body /\ rules = english_cardinal).
    { destruct H2 as [(H2 & H3)|(H2 & _)]; cbn in H1;
      repeat (destruct H1 as [H1|H1]; [injection H1 as <- <-; cbn in H2; repeat (destruct H2 as [H2|H2]; [try discriminate H2|]); try contradiction|]); try contradiction.
      split; [injection H2 as <- <-; cbn; auto|]. change (Some english_cardinal = Some rules) in H3. congruence. }
    clear H2. destruct Hp as (H2 & ->). cbn in H1.
    repeat (destruct H1 as [H1|H1]; [injection H1 as <- <-; cbn in H2; repeat (destruct H2 as [H2|H2]; [try discriminate H2|]); try contradiction|]); try contradiction.
    injection H2 as <- <-. unfold english_cardinal. destruct (dec_coef dec =? 1)%N; cbn; auto.
Qed.

(** ** C18: formatting terminates. False: a select placeholder whose selector and value are [_] formats the main
    string again. *)
Theorem C18_diverges_refuted : exists fm, build_ex (us "{v select _#_}") = Ok fm /\
  diverges env_ex reg_ex fm [(us "v", VString (us "_"))].
Proof.
  eexists. split; [vm_compute; reflexivity|]. intros fuel. unfold format.
  match goal with |- context [format_pattern ?fe ?reg ?fm ?vals _ ?nm ?ns] =>
    assert (H : forall fuel, format_pattern fe reg fm vals fuel nm ns = (ns, NoFuel)) end.
  { intros f. induction f as [|f IH]; [reflexivity|]. cbn in *. rewrite IH. reflexivity. }
  rewrite H. reflexivity.
Qed.
Print Assumptions C18_diverges_refuted.

(** That is the only cause: without such a placeholder and value, the number of named strings bounds the depth of
    recursion. *)
Theorem C18_terminates_partial : forall d g fe reg tag locale s a fm fm' vals fuel, content_of d g s a ->
  (forall name f args, mget name reg = Some f -> f args <> NoFuel) -> ~ selects_main vals a ->
  formatter_try_new d g fe reg tag locale s = Ok fm -> after_formatting fe reg fm fm' ->
  List.length (group_of a) < fuel -> snd (format fuel fe reg fm' vals) <> NoFuel.
Proof. exact format_terminates. Qed.
Print Assumptions C18_terminates_partial.

Example C18_example : ~ selects_main [(us "n", VUnsigned 12); (us "p", VString (us "park"))] (doc_content dogs_own) /\
  forall name f args, mget name reg_ex = Some f -> f args <> NoFuel.
Proof.
  split.
  - intros (name & body & ph & sels & v & H1 & H2 & H3 & H4 & H5). cbn in H1.
    repeat (destruct H1 as [[= <- <-]|H1]; [cbn in H2; repeat (destruct H2 as [H2|H2]; [try discriminate H2|]); try contradiction|]); try contradiction.
    injection H2 as <- <-. cbn in H3. destruct H3 as [H3|[]]. discriminate H3.
  - intros name f args H. assert (Hf : f = english_a_or_an \/ f = file_path).
    { unfold reg_ex in H. cbn [mget] in H. destruct (ueqb _ _); [injection H as <-; auto|]. destruct (ueqb _ _); [injection H as <-; auto|discriminate]. }
    destruct Hf as [-> | ->]; unfold english_a_or_an, file_path, command_parameter; destruct args as [|v args]; try discriminate;
      destruct v; try discriminate; destruct args as [|v args]; try discriminate; destruct v; try discriminate.
    destruct s0; [discriminate|]. cbn. match goal with |- (if ?b then _ else _) <> _ => destruct b end; discriminate.
Qed.

(** ** C19: no dependence on earlier calls. False: a number sign in a string used by plural and select placeholders
    keeps the number of an earlier call. *)
Definition stale : ustr := us "{n plural one#one other#other} {s select one#one}#{one x # y}{other o}".
Theorem C19_stale_number_refuted : exists fm fm', build_ex stale = Ok fm /\ after_formatting env_ex reg_ex fm fm' /\
  let vals := [(us "n", VUnsigned 5); (us "s", VString (us "one"))] in
  snd (format 3 env_ex reg_ex fm vals) = Ok (us "o x  y") /\ snd (format 3 env_ex reg_ex fm' vals) = Ok (us "o x 1 y").
Proof.
  eexists. exists (fst (format 3 env_ex reg_ex (match build_ex stale with Ok fm => fm | _ => mk_formatter [] [] [] [] [] end)
    [(us "n", VUnsigned 1); (us "s", VString (us "one"))])).
  split; [vm_compute; reflexivity|]. split; [|split; vm_compute; reflexivity].
  apply (af_call env_ex reg_ex _ _ [(us "n", VUnsigned 1); (us "s", VString (us "one"))] 3). vm_compute. apply af_fresh.
Qed.
Print Assumptions C19_stale_number_refuted.

(** Without number signs in the branches of select placeholders, every result (text, error, panic) is that of the fresh
    formatter. *)
Theorem C19_history_partial : forall d g fe reg tag locale s a fm fm' vals fuel, content_of d g s a -> hash_in_plurals_only a ->
  formatter_try_new d g fe reg tag locale s = Ok fm -> after_formatting fe reg fm fm' ->
  snd (format fuel fe reg fm' vals) = snd (format fuel fe reg fm vals).
Proof. exact format_history. Qed.
Print Assumptions C19_history_partial.

Example C19_example : exists fm, build_ex (dprint dogs_own) = Ok fm /\
  let fm' := fst (format 3 env_ex reg_ex fm [(us "n", VUnsigned 5)]) in fm' <> fm /\
  let vals := [(us "n", VUnsigned 12); (us "p", VString (us "park"))] in
  snd (format 3 env_ex reg_ex fm' vals) = Ok (us "There are 12 dogs in the big park.").
Proof. eexists. split; [vm_compute; reflexivity|]. split; [intros H; vm_compute in H; discriminate H|vm_compute; reflexivity]. Qed.

(** ** C20: no panics. False because of a built-in command: *)
Theorem C20_panic_refuted : text_ex (us "{#english_a_or_an # v}") [(us "v", VString [])] = Panic.
Proof. vm_compute. reflexivity. Qed.
Print Assumptions C20_panic_refuted.

(** With commands that do not panic, nothing panics. *)
Theorem C20_build_partial : forall d g fe reg tag locale s tr,
  (forall name f args, mget name reg = Some f -> f (VString name :: args) <> Panic) ->
  tree_try_new d s g = Ok tr -> formatter_try_new d g fe reg tag locale s <> Panic.
Proof. exact safe_build_no_panic. Qed.
Print Assumptions C20_build_partial.
Theorem C20_format_partial : forall d g fe reg tag locale s fm fm' vals fuel,
  (forall name f args, mget name reg = Some f -> f (VString name :: args) <> Panic) ->
  formatter_try_new d g fe reg tag locale s = Ok fm -> after_formatting fe reg fm fm' ->
  snd (format fuel fe reg fm' vals) <> Panic.
Proof. exact safe_format_no_panic. Qed.
Print Assumptions C20_format_partial.

(** With the built-in commands, building never panics, and formatting does not if no value is the empty string. *)
Theorem C20_built_in_build : forall d fe reg tag locale s tr, built_in reg -> tree_try_new d s l10n_grammar = Ok tr ->
  formatter_try_new d l10n_grammar fe reg tag locale s <> Panic.
Proof. exact built_in_build_no_panic. Qed.
Print Assumptions C20_built_in_build.
Theorem C20_built_in_format_partial : forall d fe reg tag locale s fm fm' vals fuel, built_in reg ->
  (forall ph v, mget ph vals = Some v -> v <> VString []) ->
  formatter_try_new d l10n_grammar fe reg tag locale s = Ok fm -> after_formatting fe reg fm fm' ->
  snd (format fuel fe reg fm' vals) <> Panic.
Proof. exact built_in_format_no_panic. Qed.
Print Assumptions C20_built_in_format_partial.

Example C20_example : built_in reg_ex /\ text_ex (us "{#english_a_or_an # v} {v}") [(us "v", VString (us "owl"))] = Ok (us "an owl").
Proof.
  split; [|vm_compute; reflexivity]. intros name f H. unfold reg_ex in H. cbn [mget] in H.
  destruct (ueqb _ _); [injection H as <-; auto|]. destruct (ueqb _ _); [injection H as <-; auto|discriminate].
Qed.

(** ** C43: documented strings can be built. False: the example of the documentation is refused, because the selectors
    are not names of strings. *)
Theorem C43_documented_example_refuted :
  doc_wf icu_ex dogs_doc /\ unique_names dogs_doc /\ supported icu_ex dogs_doc /\
  (forall ph kw sels sel branch, In (SPat ph (Some (kw, sels))) (fst (doc_content dogs_doc)) -> In (sel, branch) sels ->
     In branch (string_names (doc_content dogs_doc))) /\
  build_ex (dprint dogs_doc) = Err (FSelectorNamed (us "one") (us "one") (us "dogs_number")).
Proof.
  split; [apply docb_ok; reflexivity|]. split; [apply uniqueb_ok; reflexivity|]. split; [apply supportedb_ok; reflexivity|].
  split; [|vm_compute; reflexivity]. intros ph kw sels sel branch H1 H2. cbn in H1.
  repeat (destruct H1 as [H1|H1]; [try discriminate H1|]); try contradiction. injection H1 as <- <- <-.
  destruct H2 as [[= <- <-]|[[= <- <-]|[]]]; cbn; auto.
Qed.
Print Assumptions C43_documented_example_refuted.

(** Exactly which strings can be built. *)
Theorem C43_built_iff_partial : forall d fe reg tag locale s a, icu_ok d -> content_of d l10n_grammar s a -> s <> [] ->
  ((exists fm, formatter_try_new d l10n_grammar fe reg tag locale s = Ok fm) <->
   (exists c, In c s /\ In c l10n_grammar) /\ buildable reg a).
Proof. intros d fe reg tag locale s a Hd. exact (build_iff d fe reg tag locale Hd s a). Qed.
Print Assumptions C43_built_iff_partial.

Example C43_example : buildable reg_ex (doc_content dogs_own) /\ ~ buildable reg_ex (doc_content dogs_doc).
Proof.
  split; [apply (content_check_iff env_ex reg_ex (us "en")); vm_compute; reflexivity|].
  intros H. apply (content_check_iff env_ex reg_ex (us "en")) in H. vm_compute in H. discriminate H.
Qed.

(** ** C44: the options of [decimal] and [date_time]. False: every option is refused. *)
Theorem C44_options_refuted :
  build_ex (us "{n decimal group#auto}") = Err (FInvalidOptionValue (us "group") (us "group") (us "decimal")) /\
  build_ex (us "{n decimal sign#always}") = Err (FInvalidOptionValue (us "sign") (us "sign") (us "decimal")) /\
  build_ex (us "{n date_time date#full}") = Err (FInvalidOptionValue (us "date") (us "date") (us "date_time")) /\
  build_ex (us "{n date_time time#short}") = Err (FInvalidOptionValue (us "time") (us "time") (us "date_time")).
Proof. repeat split; vm_compute; reflexivity. Qed.
Print Assumptions C44_options_refuted.

Theorem C44_options_always_rejected : forall d fe reg tag locale s a name body ph kw opts,
  content_of d l10n_grammar s a -> In (name, body) (all_strings a) ->
  In (SPat ph (Some (kw, opts))) body -> kw = us "decimal" \/ kw = us "date_time" -> opts <> [] ->
  forall fm, formatter_try_new d l10n_grammar fe reg tag locale s <> Ok fm.
Proof. exact options_rejected. Qed.
Print Assumptions C44_options_always_rejected.

Example C44_example : text_ex (us "on {d date_time} paid {n decimal}") [(us "n", VInteger (-5)); (us "d", VString (us "2024-02-29"))]
  = Ok (us "on 2024/2/29 paid -5").
Proof. vm_compute. reflexivity. Qed.

(** ** C45: the selector [other] is mandatory. Enforced for plural and ordinal, not for select. *)
Theorem C45_plural_other : forall d fe reg tag locale s a name body ph kw sels,
  content_of d l10n_grammar s a -> In (name, body) (all_strings a) ->
  In (SPat ph (Some (kw, sels))) body -> kw = us "plural" \/ kw = us "ordinal" -> ~ In (us "other") (map fst sels) ->
  forall fm, formatter_try_new d l10n_grammar fe reg tag locale s <> Ok fm.
Proof. exact plural_needs_other. Qed.
Print Assumptions C45_plural_other.
Theorem C45_select_other_refuted : exists fm, build_ex (us "{v select a#a}#{a x}") = Ok fm /\
  snd (format 3 env_ex reg_ex fm [(us "v", VString (us "b"))]) = Err (FSelectorsIndexNamed (us "b") 0).
Proof. eexists. split; [vm_compute; reflexivity|]. vm_compute. reflexivity. Qed.
Print Assumptions C45_select_other_refuted.
Example C45_example : build_ex (us "{v plural one#one}#{one x}") = Err (FSelectorOther (us "plural") (us "v")).
Proof. vm_compute. reflexivity. Qed.
