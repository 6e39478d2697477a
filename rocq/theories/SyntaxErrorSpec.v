(** What the errors of parsing a pattern string say about it (error.rs 24-53 [TreeError], 217-247
    its [Display]), independent of tree.rs: in
    terms of the syntax of [TreeSpec] only. *)
From Verif Require Import Base LexerModel LexerSpec IcuExample TreeModel TreeSpec.

(** Some accepted string starts with the tokens [l]. *)
Definition viable (d : icu) (l : list segment) : Prop :=
  exists rest c s, cwf c /\ cprint c = l ++ rest /\ segmentation d l10n_grammar s (cprint c).

(** [x] is the first token that cannot stand where it does: the tokens [B] before it are fine. *)
Definition fault (d : icu) (B : list segment) (x : segment) : Prop := viable d B /\ ~ viable d (B ++ [x]).

(** Number of grapheme clusters of tokens. *)
Definition graphemes (d : icu) (l : list segment) : nat := sum (map (fun x => breaks d (snd x) - 1) l).

(** The construct that the tokens [B] end in. *)
Definition inside (st : pstate) (B : list segment) : Prop :=
  match st with
  | PString => exists B0 P N, open_main B0 P N /\ (B = B0 \/ B = B0 ++ [g_ (us "{")])
  | PSubString => exists B0 P N, open_sub B0 P N /\ (B = B0 \/ B = B0 ++ [g_ (us "{")])
  | PPattern => exists B0 P N id ws, open_string B0 P N /\ B = B0 ++ g_ (us "{") :: (TIdentifier, id) :: wprint ws
  | PKeyword => exists B0 P N id ws kw ks y, open_string B0 P N /\ Forall kwf ks /\
      B = B0 ++ g_ (us "{") :: (TIdentifier, id) :: wprint ws ++ (TIdentifier, kw) :: flat_map kprint ks ++ y /\
      (y = [] \/ (exists a, y = [(TIdentifier, a)]) \/ exists a ty, y = [(TIdentifier, a); (ty, us "#")])
  | PCommand => exists B0 P N qs, open_string B0 P N /\ command_prefix (flat_map qpar qs) /\
      B = B0 ++ g_ (us "{") :: g_ (us "#") :: flat_map qprint qs
  | PNamedGroup => exists P N, open_group B P N
  | PNamedString => exists B0 P N y, open_group B0 P N /\ B = B0 ++ g_ (us "{") :: y /\
      (y = [] \/ (exists id, y = [(TIdentifier, id)]) \/ exists id w ws, y = (TIdentifier, id) :: (TWhiteSpace, w) :: wprint ws)
  | PLiteralText | PLiteral => False
  end.

(** ** What the errors say *)
Inductive tree_says (d : icu) (l : list segment) : tree_error -> Prop :=
| says_token st B x rest : l = B ++ x :: rest -> fault d B x -> inside st B ->
    tree_says d l (InvalidToken st (graphemes d B) (snd x))
| says_number_sign B rest : l = B ++ g_ (us "#") :: rest -> fault d B (g_ (us "#")) -> (exists B', B = B' ++ [g_ (us "#")]) ->
    inside PSubString B -> tree_says d l (MultiNumberSign (graphemes d B))
| says_pattern B P N id rest : l = B ++ g_ (us "{") :: (TIdentifier, id) :: rest -> open_string B P N -> In id P ->
    fault d (B ++ [g_ (us "{")]) (TIdentifier, id) -> tree_says d l (UniquePattern id)
| says_named B P N id rest : l = B ++ g_ (us "{") :: (TIdentifier, id) :: rest -> open_group B P N -> In id N ->
    fault d (B ++ [g_ (us "{")]) (TIdentifier, id) -> tree_says d l (UniqueNamed id)
| says_end : viable d l -> (forall c, cwf c -> l <> cprint c) -> tree_says d l EndedAbruptly.

(** ** The other cases that occur *)

(** A named string starts with punctuation, an escape (tree.rs 726-767), or, at the end of the string, anything else that
    is not a word or number sign. *)
Definition dead_start (y : list segment) : Prop := (exists z, y = [(TSyntax, z)]) \/ exists z, y = [g_ (us "`"); z].
Definition bad_start (y : list segment) : Prop := dead_start y \/ y = [g_ (us "`")] \/ y = [g_ (us "{")].

Inductive tree_reports (d : icu) (l : list segment) : tree_error -> Prop :=
| reports_truth e : tree_says d l e -> tree_reports d l e
| reports_name B P N id x rest : open_group B P N ->             (* not followed by white space: the name is reported *)
    l = B ++ g_ (us "{") :: (TIdentifier, id) :: x :: rest -> fault d (B ++ [g_ (us "{"); (TIdentifier, id)]) x ->
    tree_reports d l (InvalidToken PNamedString (graphemes d (B ++ [g_ (us "{")])) id)
| reports_start B P N id w ws y0 y x rest : open_group B P N ->  (* the token after the faulty start is reported *)
    dead_start (y0 :: y) -> l = B ++ header id w ws ++ (y0 :: y) ++ x :: rest -> fault d (B ++ header id w ws) y0 ->
    tree_reports d l (InvalidToken PNamedString (graphemes d (B ++ header id w ws ++ y0 :: y)) (snd x))
| reports_literal B P N rest : open_string B P N -> l = B ++ g_ (us "{") :: g_ (us "`") :: rest ->
    fault d (B ++ [g_ (us "{")]) (g_ (us "`")) -> tree_reports d l EndedAbruptly
| reports_command_literal B P N qs rest : open_string B P N ->
    l = B ++ g_ (us "{") :: g_ (us "#") :: flat_map qprint qs ++ g_ (us "`") :: rest ->
    fault d (B ++ g_ (us "{") :: g_ (us "#") :: flat_map qprint qs) (g_ (us "`")) -> tree_reports d l EndedAbruptly
| reports_start_end B P N id w ws y0 y : open_group B P N -> bad_start (y0 :: y) -> l = B ++ header id w ws ++ y0 :: y ->
    fault d (B ++ header id w ws) y0 -> tree_reports d l EndedAbruptly.

(** Errors that are always true. *)
Definition sound_tree_error (e : tree_error) : Prop :=
  match e with InvalidToken PNamedString _ _ | EndedAbruptly => False | _ => True end.

(** An identifier character and a white space character exist. *)
Definition has_words (d : icu) : Prop :=
  white_space d (ch " ") = true /\ white_space d (ch "x") = false /\ syntax d (ch "x") = false.
