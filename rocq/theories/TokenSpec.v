(** Specification of what tokens depend on (C89). *)
From Verif Require Import Base LexerModel LexerSpec.

(** The same token further on in a string: [b] bytes, [c] characters, [gr] grapheme clusters. *)
Definition moved (b c gr : nat) (t : token) : token :=
  mk_token (t_string t) (t_type t) (b + t_start_byte t) (c + t_start_character t) (gr + t_start_grapheme t)
    (t_length_bytes t) (t_length_characters t) (t_length_graphemes t) (b + t_end_byte t).

(** The same up to the count of grapheme clusters before it. *)
Definition moved_to (b c : nat) (t t' : token) : Prop :=
  exists gr, t' = mk_token (t_string t) (t_type t) (b + t_start_byte t) (c + t_start_character t) gr
    (t_length_bytes t) (t_length_characters t) (t_length_graphemes t) (b + t_end_byte t).

(** No token can contain the last character of [s] and the first of [t]. *)
Definition apart (d : icu) (g : list uchar) (s t : ustr) : Prop :=
  forall s' x y t', s = s' ++ [x] -> t = y :: t' ->
  exists tx ty, class_of d g x tx /\ class_of d g y ty /\ (tx <> ty \/ tx = TGrammar).

(** Two grammars that do not differ on the syntax characters of a string. *)
Definition same_grammar (d : icu) (s g g' : ustr) : Prop :=
  forall c, In c s -> white_space d c = false -> syntax d c = true -> (In c g <-> In c g').

(** Two data sets that do not differ on the characters of a string and on the pieces of it. *)
Definition same_data (d d' : icu) (s : ustr) : Prop :=
  (forall c, In c s -> white_space d c = white_space d' c /\ syntax d c = syntax d' c) /\
  (forall a w b, s = a ++ w ++ b -> breaks d w = breaks d' w).
