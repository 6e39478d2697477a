(** A concrete ICU data set for examples: the Unicode Pattern_White_Space set and Pattern_Syntax set, and a
    simple grapheme segmenter (combining diacritical marks U+0300..U+036F extend the preceding character).
    Only used in examples and refutations; no positive theorem is restricted to it. *)
From Verif Require Import Base LexerModel.

Definition in_ranges (l : list (N * N)) (c : N) : bool :=
  existsb (fun r => (N.leb (fst r) c && N.leb c (snd r))%bool) l.

Definition pattern_white_space : N -> bool :=
  in_ranges [(9, 13); (32, 32); (133, 133); (8206, 8207); (8232, 8233)]%N.

Definition pattern_syntax : N -> bool :=
  in_ranges [(33, 47); (58, 64); (91, 94); (96, 96); (123, 126); (161, 167); (169, 169); (171, 172);
             (174, 174); (176, 177); (182, 182); (187, 187); (191, 191); (215, 215); (247, 247);
             (8208, 8231); (8240, 8254); (8257, 8275); (8277, 8286); (8592, 9311); (9472, 10101);
             (10132, 11263); (11776, 11903); (12289, 12291); (12296, 12320); (12336, 12336);
             (64830, 64831); (65093, 65094)]%N.

Definition extends (c : N) : bool := in_ranges [(768, 879)]%N c.

Fixpoint graphemes (s : ustr) : nat :=
  match s with
  | [] => 0
  | c :: r => (if extends c then 0 else 1) + graphemes r
  end.

(** number of break points: clusters + 1; a leading combining mark forms a cluster of its own *)
Definition example_breaks (s : ustr) : nat :=
  match s with
  | [] => 0
  | c :: r => 2 + graphemes r
  end.

Definition icu_ex : icu := mk_icu pattern_white_space pattern_syntax example_breaks.

(** The grammar characters passed by the localiser (localiser.rs 130-159). *)
Definition l10n_grammar : ustr := us "{}`#".
