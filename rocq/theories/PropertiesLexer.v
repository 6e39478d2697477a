(** Property theorems C01-C05 (crates/lexer/src/lexer.rs). *)
From Verif Require Import Base BaseFacts LexerModel LexerSpec LexerProofs LexerProofs2 IcuExample.

(** C01: nothing is lost, tokens are contiguous. *)
Theorem C01_lossless : forall d s g ts, tokenise d s g = Ok ts ->
  List.concat (map t_string ts) = s /\
  (forall t, nth_error ts 0 = Some t -> t_start_byte t = 0 /\ t_start_character t = 0) /\
  (forall i t t', nth_error ts i = Some t -> nth_error ts (S i) = Some t' ->
     t_start_byte t' = t_end_byte t /\
     t_start_byte t' = t_start_byte t + t_length_bytes t /\
     t_start_character t' = t_start_character t + t_length_characters t) /\
  (forall t, In t ts -> t_length_bytes t = blen (t_string t) /\
     t_length_characters t = List.length (t_string t) /\
     t_end_byte t = t_start_byte t + t_length_bytes t) /\
  exists t, last_opt ts = Some t /\ t_end_byte t = blen s.
Proof. exact lossless. Qed.
Print Assumptions C01_lossless.

Definition example_string : ustr := us "Ok, {a b}#`x".
Example C01_example : exists ts,
  tokenise icu_ex example_string l10n_grammar = Ok ts /\
  map t_string ts = map us ["Ok"; ","; " "; "{"; "a"; " "; "b"; "}"; "#"; "`"; "x"]%string.
Proof. eexists; split; [vm_compute; reflexivity | vm_compute; reflexivity]. Qed.

(** C02: tokens are non-empty and homogeneous; grammar tokens are single characters. *)
Theorem C02_homogeneous : forall d s g ts t, tokenise d s g = Ok ts -> In t ts ->
  t_string t <> [] /\
  Forall (fun c => class_of d g c (t_type t)) (t_string t) /\
  (t_type t = TGrammar -> exists c, t_string t = [c] /\ In c g).
Proof. exact homogeneous. Qed.
Print Assumptions C02_homogeneous.

(** Classes exclude each other, so [class_of] determines the type. *)
Theorem C02_class_functional : forall d g c,
  exists ty, class_of d g c ty /\ forall ty', class_of d g c ty' -> ty' = ty.
Proof. exact class_functional. Qed.
Print Assumptions C02_class_functional.

Example C02_example : exists ts t,
  tokenise icu_ex example_string l10n_grammar = Ok ts /\ In t ts /\ t_type t = TGrammar /\ t_string t = us "{".
Proof.
  eexists; eexists; split; [vm_compute; reflexivity|].
  split; [right; right; right; left; reflexivity | vm_compute; auto].
Qed.

(** C03: tokenisation is the unique maximal homogeneous segmentation. *)
Theorem C03_unique : forall d s g ts, tokenise d s g = Ok ts ->
  segmentation d g s (map seg_of ts) /\
  forall l, segmentation d g s l -> l = map seg_of ts.
Proof. exact unique_segmentation. Qed.
Print Assumptions C03_unique.

Theorem C03_retokenise : forall d g l, l <> [] -> g <> [] -> Forall (good_segment d g) l -> maximal l ->
  exists ts, tokenise d (List.concat (map snd l)) g = Ok ts /\ map seg_of ts = l.
Proof. exact retokenise. Qed.
Print Assumptions C03_retokenise.

Example C03_example :
  let l := [(TIdentifier, us "ab"); (TGrammar, us "{"); (TGrammar, us "{"); (TWhiteSpace, us "  "); (TSyntax, us "--")] in
  l <> [] /\ l10n_grammar <> [] /\ Forall (good_segment icu_ex l10n_grammar) l /\ maximal l.
Proof.
  cbn zeta. split; [discriminate|]. split; [discriminate|]. split.
  - repeat apply Forall_cons; try apply Forall_nil;
      (split; [discriminate|]; split; [repeat constructor; intros H; vm_compute in H;
        repeat (destruct H as [H|H]; [discriminate|]); contradiction H | intros H; try discriminate H; reflexivity]).
  - repeat first [apply max_one | apply max_cons; [first [left; discriminate | right; reflexivity]|]].
Qed.

(** C04: [start_grapheme] is the sum of the grapheme lengths before. *)
Theorem C04_grapheme_positions_partial : forall d s g ts i t, tokenise d s g = Ok ts -> nth_error ts i = Some t ->
  t_start_grapheme t = sum (map t_length_graphemes (firstn i ts)).
Proof. exact grapheme_positions. Qed.
Print Assumptions C04_grapheme_positions_partial.

(** The second half of C04, "the total over all tokens is the number of clusters of the whole string", holds
    when no cluster crosses a boundary between two tokens, i.e. the segmenter is additive there. *)
Theorem C04_total_partial : forall d s g ts, tokenise d s g = Ok ts ->
  (forall a t b, ts = a ++ t :: b -> b <> [] ->
     breaks d (List.concat (map t_string (t :: b))) - 1 =
     (breaks d (t_string t) - 1) + (breaks d (List.concat (map t_string b)) - 1)) ->
  sum (map t_length_graphemes ts) = breaks d s - 1.
Proof. exact total_graphemes. Qed.
Print Assumptions C04_total_partial.

Example C04_partial_example : exists ts,
  tokenise icu_ex (us "ab {c}") l10n_grammar = Ok ts /\ List.length ts = 5 /\
  sum (map t_length_graphemes ts) = 6 /\
  forall a t b, ts = a ++ t :: b -> b <> [] ->
     breaks icu_ex (List.concat (map t_string (t :: b))) - 1 =
     (breaks icu_ex (t_string t) - 1) + (breaks icu_ex (List.concat (map t_string b)) - 1).
Proof.
  eexists; split; [vm_compute; reflexivity|]. split; [reflexivity|]. split; [reflexivity|].
  intros a t b H Hb.
  do 5 (destruct a as [|? a]; [injection H as <- <-; try (contradiction Hb; reflexivity); vm_compute; reflexivity |
       injection H as _ H]).
  destruct a; discriminate.
Qed.

(** The unrestricted statement is false: a full stop followed by U+0301 is one cluster of the string but two
    tokens of one cluster each. *)
Theorem C04_total_graphemes_refuted : exists s ts,
  tokenise icu_ex s l10n_grammar = Ok ts /\
  sum (map t_length_graphemes ts) = 3 /\ breaks icu_ex s - 1 = 2.
Proof. exists [97; 46; 769]%N; eexists; split; [vm_compute; reflexivity | split; vm_compute; reflexivity]. Qed.
Print Assumptions C04_total_graphemes_refuted.

(** C05: construction and iterator protocol. *)
Theorem C05_construction : forall d s g,
  (lexer_try_new d s g = Err NoGrammar <-> g = []) /\
  (lexer_try_new d s g = Err EmptyString <-> g <> [] /\ s = []) /\
  ((exists l, lexer_try_new d s g = Ok l) <-> g <> [] /\ s <> []).
Proof. exact construction. Qed.
Print Assumptions C05_construction.

Theorem C05_iteration : forall d s g l, lexer_try_new d s g = Ok l ->
  exists ts, tokenise d s g = Ok ts /\ 1 <= List.length ts <= List.length s /\
  forall n, next_many d (List.length ts + n) l = map Some ts ++ repeat None n.
Proof. exact iteration. Qed.
Print Assumptions C05_iteration.

Theorem C05_fused : forall d l l' n, lexer_next d l = (None, l') -> next_many d n l' = repeat None n.
Proof. exact next_fused. Qed.
Print Assumptions C05_fused.

Example C05_example : exists l l', lexer_try_new icu_ex (us "a b") l10n_grammar = Ok l /\
  nth 3 (next_many icu_ex 5 l) (Some (mk_token [] TSyntax 0 0 0 0 0 0 0)) = None /\
  lexer_next icu_ex (snd (lexer_next icu_ex (snd (lexer_next icu_ex (snd (lexer_next icu_ex l)))))) = (None, l').
Proof. eexists; eexists; split; [vm_compute; reflexivity | split; vm_compute; reflexivity]. Qed.
