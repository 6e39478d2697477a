(** Property theorems C67-C69: what the errors of parsing, of building and of using a formatter say is true of the pattern
    string and the values (crates/localiser/src/tree.rs, formatter.rs, error.rs). *)
From Verif Require Import Base BaseFacts LexerModel LexerSpec LexerProofs LexerProofs2 IcuExample TreeModel TreeSpec DocSpec DocCheck ValueModel
  CommandModel IsoModel FormatterModel FormatterSpec FmtExample DefectSpec DefectProofs DefectProofs2
  TreeMachine TreeGrammar TreeProofs2 TreeProofs4 SyntaxErrorSpec SyntaxErrorProofs SyntaxErrorProofs2.

(** Content of a concrete string. *)
Lemma content_ex s c : cwf c ->
  match tokenise icu_ex s l10n_grammar with Ok ts => map seg_of ts = cprint c | _ => False end ->
  content_of icu_ex l10n_grammar s (ccontent c).
Proof.
  intros Hc H. exists c. split; [exact Hc|]. split; [|reflexivity].
  destruct (tokenise icu_ex s l10n_grammar) as [ts|e| |] eqn:E; try contradiction. rewrite <- H.
  apply (tokenise_segmentation _ _ _ _ E).
Qed.
Ltac cwf_ex := unfold cwf, main_ok, sub_ok; cbn; repeat (split || constructor || intro || discriminate);
  cbn in *; intuition discriminate.

(** ** C67: errors of building *)

(** A value of an option is declared wrong under the name of the option; options of [date_time] are blamed on other
    keywords; the named string said to be missing is called like the selector. *)
Definition c_sign : cst := mk_cst [PPat (us "n") [us " "] (Some (us "decimal", [KWs (us " "); KSel (us "sign") TGrammar (us "always")]))] None.
Definition c_calendar : cst :=
  mk_cst [PPat (us "d") [us " "] (Some (us "date_time", [KWs (us " "); KSel (us "calendar") TGrammar (us "gregorian")]))] None.
Definition c_select : cst := mk_cst [PPat (us "v") [us " "] (Some (us "select", [KWs (us " "); KSel (us "a") TGrammar (us "b")]))]
  (Some [GNamed (us "b") (us " ") [] [PText (TIdentifier, us "x")]]).

Theorem C67_building_refuted :
  (exists a, content_of icu_ex l10n_grammar (us "{n decimal sign#always}") a /\
     build_ex (us "{n decimal sign#always}") = Err (FInvalidOptionValue (us "sign") (us "sign") (us "decimal")) /\
     ~ says reg_ex a (FInvalidOptionValue (us "sign") (us "sign") (us "decimal"))) /\
  (exists a, content_of icu_ex l10n_grammar (us "{d date_time calendar#gregorian}") a /\
     build_ex (us "{d date_time calendar#gregorian}") = Err (FInvalidOption (us "calendar") (us "ordinal") (us "d")) /\
     ~ says reg_ex a (FInvalidOption (us "calendar") (us "ordinal") (us "d"))) /\
  (exists a, content_of icu_ex l10n_grammar (us "{v select a#b}#{b x}") a /\
     build_ex (us "{v select a#b}#{b x}") = Err (FSelectorNamed (us "a") (us "a") (us "v")) /\
     ~ says reg_ex a (FSelectorNamed (us "a") (us "a") (us "v"))).
Proof.
  split; [|split].
  - exists (ccontent c_sign). split; [apply content_ex; [cwf_ex | vm_compute; reflexivity]|]. split; [vm_compute; reflexivity|].
    intros (known & ph & sels & values & Hl & Hs & _).
    inversion Hl as [x Hx E1 E2|pre name body post x Hg Hx E1 E2]; [|destruct pre; discriminate Hg].
    destruct Hx as [Hx|[]]. injection Hx as <- <-. destruct Hs as [Hs|[]]. discriminate Hs.
  - exists (ccontent c_calendar). split; [apply content_ex; [cwf_ex | vm_compute; reflexivity]|]. split; [vm_compute; reflexivity|].
    intros (known & sels & Hl & _).
    inversion Hl as [x Hx E1 E2|pre name body post x Hg Hx E1 E2]; [|destruct pre; discriminate Hg].
    destruct Hx as [Hx|[]]. discriminate Hx.
  - exists (ccontent c_select). split; [apply content_ex; [cwf_ex | vm_compute; reflexivity]|]. split; [vm_compute; reflexivity|].
    intros (known & kw & sels & Hl & Hs & _).
    inversion Hl as [x Hx E1 E2|pre name body post x Hg Hx E1 E2].
    + destruct Hx as [Hx|[]]. injection Hx as <- <-. destruct Hs as [Hs|[]]. discriminate Hs.
    + destruct pre as [|p [|q pre]]; try discriminate Hg. injection Hg as <- <- _. destruct Hx as [Hx|[]]. discriminate Hx.
Qed.
Print Assumptions C67_building_refuted.

(** What each error of building amounts to, without exception. *)
Theorem C67_building_implemented : forall d fe reg tag locale s a e, icu_ok d -> content_of d l10n_grammar s a -> s <> [] ->
  formatter_try_new d l10n_grammar fe reg tag locale s = Err e ->
  (e = FNoGrammar /\ forall c, In c s -> ~ In c l10n_grammar) \/ reports reg a e.
Proof. exact build_reports. Qed.
Print Assumptions C67_building_implemented.

(** All the errors but those three say what is the case. *)
Theorem C67_building_partial : forall d fe reg tag locale s a e, icu_ok d -> content_of d l10n_grammar s a -> s <> [] ->
  formatter_try_new d l10n_grammar fe reg tag locale s = Err e -> sound_error e ->
  (e = FNoGrammar /\ forall c, In c s -> ~ In c l10n_grammar) \/ says reg a e.
Proof.
  intros d fe reg tag locale s a e Hd Hc Hs H He.
  destruct (build_reports d fe reg tag locale s a e Hd Hc Hs H) as [H1|H1]; [left; exact H1|].
  right. apply sound_says; assumption.
Qed.
Print Assumptions C67_building_partial.

Example C67_example :
  build_ex (us "no pattern at all") = Err FNoGrammar /\
  build_ex (us "{n plural one#one}#{one x}") = Err (FSelectorOther (us "plural") (us "n")) /\
  build_ex (us "{n ordinal some#one other#one}#{one x}") = Err (FInvalidSelector (us "some") (us "ordinal") (us "n")) /\
  build_ex (us "{n decimals}") = Err (FInvalidKeyword (us "decimals") (us "n")) /\
  build_ex (us "{n decimal signs#always}") = Err (FInvalidOption (us "signs") (us "decimal") (us "n")) /\
  build_ex (us "a#{_ b}") = Err (FNamedStringIdentifier (us "_")) /\
  build_ex (us "{#nothing}") = Err (FCommand (NotFound (us "nothing"))) /\
  content_of icu_ex l10n_grammar (us "{n decimals}") (ccontent (mk_cst [PPat (us "n") [us " "] (Some (us "decimals", []))] None)) /\
  sound_error (FInvalidKeyword (us "decimals") (us "n")).
Proof.
  do 7 (split; [vm_compute; reflexivity|]). split; [|exact I].
  apply content_ex; [cwf_ex | vm_compute; reflexivity].
Qed.

(** ** C68: errors of formatting *)
Theorem C68_formatting : forall d g fe reg tag locale s a fm fm' vals fuel e, content_of d g s a ->
  formatter_try_new d g fe reg tag locale s = Ok fm -> after_formatting fe reg fm fm' ->
  snd (format fuel fe reg fm' vals) = Err e -> format_says fe reg locale vals a e.
Proof. exact format_reports. Qed.
Print Assumptions C68_formatting.

Example C68_example :
  text_ex (us "{n decimal}") [] = Err (FPlaceholderValue (us "PatternDecimal") (us "n")) /\
  text_ex (us "{n plural other#other}#{other x}") [] = Err (FPlaceholderValue (us "PatternComplex") (us "n")) /\
  text_ex (us "{n ordinal other#other}#{other x}") [(us "n", VInteger 3)] = Err (FInvalidValue (us "PatternOrdinal")) /\
  text_ex (us "{v select a#a}#{a x}") [(us "v", VString (us "b"))] = Err (FSelectorsIndexNamed (us "b") 0) /\
  (exists e, text_ex (us "{d date_time}") [(us "d", VString (us "2024-13-01"))] = Err (FIso e)) /\
  text_ex (us "{#file_path# p}") [(us "p", VString (us "a"))] = Ok (us "a") /\
  (exists e, text_ex (us "{#file_path# p}") [(us "p", VUnsigned 7)] = Err (FCommand e)).
Proof.
  do 4 (split; [vm_compute; reflexivity|]). split; [eexists; vm_compute; reflexivity|].
  split; [vm_compute; reflexivity|]. eexists; vm_compute; reflexivity.
Qed.

(** ** C69: errors of parsing point at what is wrong *)
Definition parse (s : ustr) : tout tree := tree_try_new icu_ex s l10n_grammar.
Definition tokens_ex (s : ustr) : list segment := runs icu_ex l10n_grammar s.

(** Viability of concrete tokens, by an accepted string or by the state of the parser. *)
Lemma viable_ex s tr l rest : parse s = Ok tr -> tokens_ex s = l ++ rest -> viable icu_ex l.
Proof.
  intros H E. destruct (tree_sound _ _ _ _ H) as (_ & _ & c & Hc & Hl & _). exists rest, c, s. split; [exact Hc|].
  split; [|exact Hl]. rewrite (segmentation_unique _ _ _ _ Hl). exact E.
Qed.
Lemma not_viable_ex l m : arun am_init 0 (map fake l) = Ok m -> dead (am_state m) -> ~ viable icu_ex l.
Proof. intros R Hm. rewrite <- (segs_fake l). exact (dead_not_viable icu_ex _ m R Hm). Qed.

(** A name not followed by white space is itself reported, although it is fine; a named string starting with punctuation is
    only reported later; and literal text patterns are said to have ended abruptly although nothing can end them. *)
Theorem C69_syntax_refuted :
  (parse (us "a#{n}") = Err (InvalidToken PNamedString 3 (us "n")) /\
   ~ tree_says icu_ex (tokens_ex (us "a#{n}")) (InvalidToken PNamedString 3 (us "n"))) /\
  (parse (us "a#{n -}") = Err (InvalidToken PNamedString 6 (us "}")) /\
   ~ tree_says icu_ex (tokens_ex (us "a#{n -}")) (InvalidToken PNamedString 6 (us "}"))) /\
  (parse (us "{`x`}") = Err EndedAbruptly /\ ~ tree_says icu_ex (tokens_ex (us "{`x`}")) EndedAbruptly).
Proof.
  split; [|split].
  - split; [vm_compute; reflexivity|]. intros H. inversion H as [st B x rest Hl Hf Hi| | | |]; clear H.
    destruct Hf as (_ & Hf). apply Hf. clear Hf.
    assert (Hx : exists tr, parse (us "a#{n x}") = Ok tr) by (eexists; vm_compute; reflexivity). destruct Hx as (tr & Hx).
    vm_compute in Hl.
    repeat (destruct B as [|?b B]; [injection Hl as <- <-; try (match goal with K : graphemes _ _ = _ |- _ => vm_compute in K; discriminate K end)|];
      try (injection Hl as <- Hl)); try (destruct B; discriminate Hl).
    all: try (eapply (viable_ex (us "a#{n x}")); [exact Hx | vm_compute; reflexivity]).
  - split; [vm_compute; reflexivity|]. intros H. inversion H as [st B x rest Hl Hf Hi| | | |]; clear H.
    destruct Hf as (Hf & _). vm_compute in Hl.
    repeat (destruct B as [|?b B]; [injection Hl as <- <-; try (match goal with K : graphemes _ _ = _ |- _ => vm_compute in K; discriminate K end)|];
      try (injection Hl as <- Hl)); try (destruct B; discriminate Hl).
    all: try (revert Hf; eapply not_viable_ex; [vm_compute; reflexivity | exact Logic.I]).
  - split; [vm_compute; reflexivity|]. intros H. inversion H as [| | | |Hv _].
    revert Hv. eapply not_viable_ex; [vm_compute; reflexivity | exact Logic.I].
Qed.
Print Assumptions C69_syntax_refuted.

(** What each error of the parser amounts to, without exception. *)
Theorem C69_syntax_implemented : forall d s l e, icu_ok d -> has_words d -> s <> [] -> segmentation d l10n_grammar s l ->
  tree_try_new d s l10n_grammar = Err e -> tree_reports d l e.
Proof. exact tree_reports_all. Qed.
Print Assumptions C69_syntax_implemented.

(** Elsewhere than at the head of a named string the token and position reported are those of the first token that no
    accepted string can have there; reported duplicates are duplicates. *)
Theorem C69_syntax_partial : forall d s l e, icu_ok d -> has_words d -> s <> [] -> segmentation d l10n_grammar s l ->
  tree_try_new d s l10n_grammar = Err e -> sound_tree_error e -> tree_says d l e.
Proof. intros d s l e Hd Hw Hs Hl H He. apply sound_tree_says; [exact He|]. exact (tree_reports_all d s l e Hd Hw Hs Hl H). Qed.
Print Assumptions C69_syntax_partial.

Example C69_example :
  icu_ok icu_ex /\ has_words icu_ex /\
  parse (us "ab {c -}") = Err (InvalidToken PPattern 6 (us "-")) /\
  parse (us "a } b") = Err (InvalidToken PString 2 (us "}")) /\
  parse (us "{a plural b c}") = Err (InvalidToken PKeyword 11 (us " ")) /\
  parse (us "{#}") = Err (InvalidToken PCommand 2 (us "}")) /\
  parse (us "a# b") = Err (InvalidToken PNamedGroup 3 (us "b")) /\
  parse (us "a#{n b##}") = Err (MultiNumberSign 7) /\
  parse (us "{a} {a}") = Err (UniquePattern (us "a")).
Proof. split; [exact icu_ex_ok|]. split; [repeat split; vm_compute; reflexivity|]. repeat split; vm_compute; reflexivity. Qed.
