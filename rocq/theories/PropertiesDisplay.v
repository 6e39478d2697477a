(** Property C74: the texts of the errors tell the truth. *)
From Verif Require Import Base LexerModel TreeModel ValueModel L10nData ErrorModel ErrorSpec DisplaySpec DisplayProofs.
Local Open Scope list_scope.
Local Opaque us u8.

(** ** C74: the text of every error begins with the names of its type and variant, says its fields with their nouns, shows the
    text of the error it is due to, and ends with a full stop. *)
(** It is not so: some have no names in front, one has the name of another variant, two mix their fields up and one has a line
    break between the noun and the field. *)
Theorem C74_display_refuted :
  ~ headed (XIcu IeGrapheme) (error_text (XIcu IeGrapheme)) /\
  (forall t c, ~ headed (XSchema (SeMissingColumn t c)) (error_text (XSchema (SeMissingColumn t c)))) /\
  (forall e rest, error_text (XTree (TreeLexer e)) <> us "TreeError::Lexer: " ++ rest) /\
  ~ facts (XSchema (SeColumnMismatch (us "pattern") (us "identifier"))) (error_text (XSchema (SeColumnMismatch (us "pattern") (us "identifier")))) /\
  ~ facts (XFormatter (FePatternPart (us "n") 2)) (error_text (XFormatter (FePatternPart (us "n") 2))) /\
  ~ facts (XLocaliser (LeCacheEntry (us "c") (us "i"))) (error_text (XLocaliser (LeCacheEntry (us "c") (us "i")))).
Proof.
  split; [now apply text_headless|]. split; [intros t c; now apply text_headless|]. split.
  { intros e rest H. apply (text_headless (XTree (TreeLexer e)) Logic.I). exists rest. exact H. }
  split; [|split]; intros (H & K); [apply containsb_true in H|apply containsb_true in H|apply containsb_true in K]; vm_compute in H, K; discriminate.
Qed.
Print Assumptions C74_display_refuted.

(** What holds: the text of every error ends with a full stop, and has the text of its cause in brackets; the names are in front
    exactly of the errors that are not listed; the fields are said but by the three errors. *)
Theorem C74_display_partial : forall e, ended (error_text e) /\ shows_cause e (error_text e) /\
  (headed e (error_text e) <-> ~ headless e) /\ (~ mixed_up e -> facts e (error_text e)).
Proof.
  intros e. split; [apply text_ended|]. split; [apply text_cause|]. split; [|apply text_facts].
  split; [intros H K; exact (text_headless e K H)|apply text_headed].
Qed.
Print Assumptions C74_display_partial.
Theorem C74_tells_partial : forall e, ~ headless e -> ~ mixed_up e -> tells e (error_text e).
Proof. intros e Hh Hm. destruct (C74_display_partial e) as (H1 & H2 & H3 & H4). split; [now apply H3|]. split; [exact H1|]. split; [exact H2|now apply H4]. Qed.
Print Assumptions C74_tells_partial.

(** The text has the texts of all the errors the error is due to, however deep, each in brackets. *)
Theorem C74_causes : forall e k, due_to e k -> contains (error_text e) (us "[" ++ cause_text k ++ us "]").
Proof. exact text_due. Qed.
Print Assumptions C74_causes.

(** Two errors with the names in front and the same text are of the same type and variant. *)
Theorem C74_told_apart_partial : forall e e', ~ headless e -> ~ headless e' -> error_text e = error_text e' -> error_name e = error_name e'.
Proof. intros e e' H H' Ht. apply (heads_apart e e' (error_text e)); [now apply text_headed|]. rewrite Ht. now apply text_headed. Qed.
Print Assumptions C74_told_apart_partial.

(** A number is shown as a numeral, so that it can be read: a numeral has one value. *)
Theorem C74_numbers : forall n, numeral (show n) n.
Proof. exact show_numeral. Qed.
Print Assumptions C74_numbers.

Example C74_example :
  let lexer := XLexer LexerModel.EmptyString in
  let e := XLocaliser (LeFormatter (FeTree (TreeLexer LexerModel.EmptyString))) in
  due_to e (Own lexer) /\
  error_text e = us "LocaliserError::Formatter: [FormatterError::Tree: [TreeError::LexerError: [LexerError::EmptyString: Empty string was supplied.].].]." /\
  tells (XTree (InvalidToken PKeyword 120 (us "#"))) (u8 "TreeError::InvalidToken: In the parser state ‘Keyword’ an invalid token ‘#’ was found at the position 120 of the string.").
Proof.
  cbv zeta. split; [|split; [vm_compute; reflexivity|]].
  - eapply due_further; [reflexivity|]. eapply due_further; [reflexivity|]. now apply due_direct.
  - apply (C74_tells_partial (XTree (InvalidToken PKeyword 120 (us "#")))); exact id.
Qed.
