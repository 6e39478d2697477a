(** Specification of tokenisation, independent of the iterator in [LexerModel]. *)
From Verif Require Import Base LexerModel.

(** The class of a character, as documented at lexer.rs 52-63. *)
Inductive class_of (d : icu) (g : list uchar) (c : uchar) : ttype -> Prop :=
| class_ws : white_space d c = true -> class_of d g c TWhiteSpace
| class_grammar : white_space d c = false -> syntax d c = true -> In c g -> class_of d g c TGrammar
| class_syntax : white_space d c = false -> syntax d c = true -> ~ In c g -> class_of d g c TSyntax
| class_ident : white_space d c = false -> syntax d c = false -> class_of d g c TIdentifier.

(** A segment: a class and a string. A segment is good when it is not empty, all of its
    characters have its class, and grammar segments are single characters. *)
Definition segment := (ttype * ustr)%type.
Definition good_segment (d : icu) (g : list uchar) (x : segment) : Prop :=
  snd x <> [] /\ Forall (fun c => class_of d g c (fst x)) (snd x) /\
  (fst x = TGrammar -> List.length (snd x) = 1).

(** Neighbouring segments are of different class unless both are grammar. *)
Inductive maximal : list segment -> Prop :=
| max_nil : maximal []
| max_one x : maximal [x]
| max_cons x y l : (fst x <> fst y \/ fst x = TGrammar) -> maximal (y :: l) -> maximal (x :: y :: l).

(** The segmentations of a string. *)
Definition segmentation (d : icu) (g : list uchar) (s : ustr) (l : list segment) : Prop :=
  List.concat (map snd l) = s /\ Forall (good_segment d g) l /\ maximal l.

Definition seg_of (t : token) : segment := (t_type t, t_string t).

(** Positions: every token starts at the sums of the lengths before it, and its lengths
    are those of its own string. *)
Fixpoint positions (d : icu) (b c gr : nat) (ts : list token) : Prop :=
  match ts with
  | [] => True
  | t :: r =>
    t_start_byte t = b /\ t_start_character t = c /\ t_start_grapheme t = gr /\
    t_length_bytes t = blen (t_string t) /\
    t_length_characters t = List.length (t_string t) /\
    t_length_graphemes t = breaks d (t_string t) - 1 /\
    t_end_byte t = b + blen (t_string t) /\
    positions d (b + blen (t_string t)) (c + List.length (t_string t))
      (gr + (breaks d (t_string t) - 1)) r
  end.

Definition sum (l : list nat) : nat := fold_right Nat.add 0 l.
