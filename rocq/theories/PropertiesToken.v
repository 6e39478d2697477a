(** Property theorems C89: what tokens depend on (crates/lexer/src/lexer.rs). *)
From Verif Require Import Base BaseFacts LexerModel LexerSpec TokenSpec TokenProofs IcuExample.

(** C89: where two strings meet without a token across, the tokens of the concatenation are those of the first
    followed by those of the second, with their positions moved by the lengths of the first. *)
Theorem C89_concat : forall d s t g ts vs, tokenise d s g = Ok ts -> tokenise d t g = Ok vs -> apart d g s t ->
  tokenise d (s ++ t) g =
    Ok (ts ++ map (moved (blen s) (List.length s) (sum (map t_length_graphemes ts))) vs).
Proof. exact concat_tokens. Qed.
Print Assumptions C89_concat.

(** ... and only there. *)
Theorem C89_concat_only : forall d s t g ts vs b c gr, tokenise d s g = Ok ts -> tokenise d t g = Ok vs ->
  tokenise d (s ++ t) g = Ok (ts ++ map (moved b c gr) vs) -> apart d g s t.
Proof. exact concat_only. Qed.
Print Assumptions C89_concat_only.

(** Elsewhere the last token of the first and the first of the second become one, and no other changes. *)
Theorem C89_merge : forall d s t g a x y b,
  tokenise d s g = Ok (a ++ [x]) -> tokenise d t g = Ok (y :: b) -> ~ apart d g s t ->
  exists z b', tokenise d (s ++ t) g = Ok (a ++ z :: b') /\
    t_type z = t_type x /\ t_type z = t_type y /\ t_string z = t_string x ++ t_string y /\
    t_start_byte z = t_start_byte x /\ t_start_character z = t_start_character x /\
    t_start_grapheme z = t_start_grapheme x /\
    Forall2 (moved_to (blen s) (List.length s)) b b'.
Proof. exact merge_tokens. Qed.
Print Assumptions C89_merge.

(** Text appended to a string changes its last token at most, and that only by making it longer. *)
Theorem C89_prefix : forall d s t g ts, tokenise d s g = Ok ts ->
  exists a x z b w, ts = a ++ [x] /\ tokenise d (s ++ t) g = Ok (a ++ z :: b) /\
    t_type z = t_type x /\ t_string z = t_string x ++ w /\ t_start_byte z = t_start_byte x /\
    t_start_character z = t_start_character x /\ t_start_grapheme z = t_start_grapheme x.
Proof. exact prefix_tokens. Qed.
Print Assumptions C89_prefix.

(** Order, repetitions and characters of the grammar that are not syntax characters of the string do not matter. *)
Theorem C89_grammar : forall d s g g', g <> [] -> g' <> [] -> same_grammar d s g g' ->
  tokenise d s g = tokenise d s g'.
Proof. exact grammar_tokens. Qed.
Print Assumptions C89_grammar.

(** Of the Unicode data only those about the characters and pieces of the string matter. *)
Theorem C89_data : forall d d' s g, same_data d d' s -> tokenise d s g = tokenise d' s g.
Proof. exact data_tokens. Qed.
Print Assumptions C89_data.

Example C89_concat_example : exists ts vs,
  tokenise icu_ex (us "ab {") l10n_grammar = Ok ts /\ tokenise icu_ex (us "{x}") l10n_grammar = Ok vs /\
  apart icu_ex l10n_grammar (us "ab {") (us "{x}") /\ List.length ts = 3 /\ List.length vs = 3.
Proof.
  eexists _, _. split; [vm_compute; reflexivity|]. split; [vm_compute; reflexivity|].
  split; [|split; reflexivity].
  intros s' x y t' E1 E2. change (us "ab {") with (us "ab " ++ us "{") in E1. apply app_inj_tail in E1.
  destruct E1 as (_ & <-). injection E2 as <- _.
  exists TGrammar, TGrammar. split; [|split; [|right; reflexivity]]; constructor; try reflexivity; left; reflexivity.
Qed.

Example C89_merge_example : exists a x y b,
  tokenise icu_ex (us "{ab") l10n_grammar = Ok (a ++ [x]) /\ tokenise icu_ex (us "cd}") l10n_grammar = Ok (y :: b) /\
  ~ apart icu_ex l10n_grammar (us "{ab") (us "cd}").
Proof.
  exists [mk_token (us "{") TGrammar 0 0 0 1 1 1 1], (mk_token (us "ab") TIdentifier 1 1 1 2 2 2 3),
    (mk_token (us "cd") TIdentifier 0 0 0 2 2 2 2), [mk_token (us "}") TGrammar 2 2 2 1 1 1 3].
  split; [vm_compute; reflexivity|]. split; [vm_compute; reflexivity|].
  intros H. destruct (H (us "{a") (List.hd 0%N (us "b")) (List.hd 0%N (us "c")) (us "d}") eq_refl eq_refl) as (p & q & P & Q & D).
  inversion P; subst; try discriminate; inversion Q; subst; try discriminate. destruct D as [D|D]; [contradiction D; reflexivity | discriminate].
Qed.

Example C89_grammar_example :
  same_grammar icu_ex (us "a{b}-c") (us "{}") (us "x}#}{") /\ tokenise icu_ex (us "a{b}-c") (us "x}#}{") =
  tokenise icu_ex (us "a{b}-c") (us "{}").
Proof.
  split; [|vm_compute; reflexivity].
  intros c Hc _ Hs. cbn in Hc.
  repeat (destruct Hc as [<-|Hc]; [vm_compute in Hs |- *; try discriminate Hs; intuition discriminate|]). contradiction Hc.
Qed.
