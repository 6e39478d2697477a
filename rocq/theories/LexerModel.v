(** Model of crates/lexer/src/lexer.rs. *)
From Verif Require Import Base.

(** crates/lexer/src/icu.rs 77-87 [IcuDataProvider]: the three ICU data sets used by the lexer.
    [breaks s] is the number of break points [segment_str s] yields (including 0 and the end).
    External code, hence a parameter. *)
Record icu := mk_icu {
  white_space : uchar -> bool;   (* Pattern_White_Space *)
  syntax : uchar -> bool;        (* Pattern_Syntax *)
  breaks : ustr -> nat           (* GraphemeClusterSegmenter::segment_str(..).count() *)
}.

(** lexer.rs 64-70 *)
Inductive ttype := TWhiteSpace | TIdentifier | TGrammar | TSyntax.

Definition ttype_eqb (a b : ttype) : bool :=
  match a, b with
  | TWhiteSpace, TWhiteSpace | TIdentifier, TIdentifier | TGrammar, TGrammar | TSyntax, TSyntax => true
  | _, _ => false
  end.

(** lexer.rs 81-91 *)
Record token := mk_token {
  t_string : ustr;
  t_type : ttype;
  t_start_byte : nat;
  t_start_character : nat;
  t_start_grapheme : nat;
  t_length_bytes : nat;
  t_length_characters : nat;
  t_length_graphemes : nat;
  t_end_byte : nat
}.

(** lexer.rs 100-113; the [icu_data_provider] field is passed separately. *)
Record lexer := mk_lexer {
  lx_end_reached : bool;
  lx_iter : list (nat * uchar);
  lx_grammar : list uchar;
  lx_start_byte : nat;
  lx_start_character : nat;
  lx_length_bytes : nat;
  lx_token_type : ttype;
  lx_token_string : ustr;
  lx_token_start_byte : nat;
  lx_token_start_character : nat;
  lx_token_start_grapheme : nat
}.

(** error.rs (lexer) [LexerError] *)
Inductive lexer_error := NoGrammar | EmptyString.

(** [str::char_indices] *)
Fixpoint char_indices_from (pos : nat) (s : ustr) : list (nat * uchar) :=
  match s with
  | [] => []
  | c :: r => (pos, c) :: char_indices_from (pos + clen c) r
  end.
Definition char_indices (s : ustr) : list (nat * uchar) := char_indices_from 0 s.

Definition char_mem (c : uchar) (l : list uchar) : bool := existsb (N.eqb c) l.

(** lexer.rs 169-191 [token_type] (the same decision is inlined at 135-149). *)
Definition char_type (d : icu) (grammar : list uchar) (c : uchar) : ttype :=
  if white_space d c then TWhiteSpace
  else if syntax d c then (if char_mem c grammar then TGrammar else TSyntax)
  else TIdentifier.

(** lexer.rs 120-165 [try_new] *)
Definition lexer_try_new (d : icu) (s grammar : ustr) : outcome lexer_error lexer :=
  match grammar with
  | [] => Err NoGrammar
  | _ :: _ =>
    match s with
    | [] => Err EmptyString
    | _ :: _ =>
      match char_indices s with
      | [] => Panic                                            (* 133: unwrap *)
      | (_, c) :: it =>
        Ok (mk_lexer false it grammar 0 0 (blen s) (char_type d grammar c) [c] 0 0 0)
      end
    end
  end.

(** lexer.rs 193-218 [token]. The [usize] subtractions are truncated here; the position theorems show
    that the byte and character operands are always in order, and [breaks] of a non-empty string is at least 2
    in ICU (start and end are break points). *)
Definition lexer_token (d : icu) (l : lexer) (new_type : ttype) (c : uchar) : token * lexer :=
  let len_graphemes := breaks d (lx_token_string l) - 1 in
  (mk_token (lx_token_string l) (lx_token_type l) (lx_token_start_byte l)
     (lx_token_start_character l) (lx_token_start_grapheme l)
     (lx_start_byte l - lx_token_start_byte l)
     (lx_start_character l - lx_token_start_character l)
     len_graphemes (lx_start_byte l),
   mk_lexer (lx_end_reached l) (lx_iter l) (lx_grammar l) (lx_start_byte l) (lx_start_character l)
     (lx_length_bytes l) new_type [c] (lx_start_byte l) (lx_start_character l)
     (lx_token_start_grapheme l + len_graphemes)).

(** Advance the iterator by one character: 228-230. *)
Definition lexer_advance (l : lexer) (it : list (nat * uchar)) (pos : nat) : lexer :=
  mk_lexer (lx_end_reached l) it (lx_grammar l) pos (S (lx_start_character l)) (lx_length_bytes l)
    (lx_token_type l) (lx_token_string l) (lx_token_start_byte l) (lx_token_start_character l)
    (lx_token_start_grapheme l).

(** [self.token_string.push(character)] *)
Definition lexer_push (l : lexer) (c : uchar) : lexer :=
  mk_lexer (lx_end_reached l) (lx_iter l) (lx_grammar l) (lx_start_byte l) (lx_start_character l)
    (lx_length_bytes l) (lx_token_type l) (lx_token_string l ++ [c]) (lx_token_start_byte l)
    (lx_token_start_character l) (lx_token_start_grapheme l).

(** lexer.rs 228-262: the while loop and the completion of the final token. *)
Fixpoint lexer_loop (d : icu) (it : list (nat * uchar)) (l : lexer) : token * lexer :=
  match it with
  | (pos, c) :: it' =>
    let l1 := lexer_advance l it' pos in
    match char_type d (lx_grammar l) c with
    | TWhiteSpace =>
      if negb (ttype_eqb (lx_token_type l1) TWhiteSpace) then lexer_token d l1 TWhiteSpace c
      else lexer_loop d it' (lexer_push l1 c)
    | TGrammar => lexer_token d l1 TGrammar c
    | TSyntax =>
      if negb (ttype_eqb (lx_token_type l1) TSyntax) then lexer_token d l1 TSyntax c
      else lexer_loop d it' (lexer_push l1 c)
    | TIdentifier =>
      if negb (ttype_eqb (lx_token_type l1) TIdentifier) then lexer_token d l1 TIdentifier c
      else lexer_loop d it' (lexer_push l1 c)
    end
  | [] =>
    let l1 := mk_lexer true [] (lx_grammar l) (lx_length_bytes l) (S (lx_start_character l))
                (lx_length_bytes l) (lx_token_type l) (lx_token_string l) (lx_token_start_byte l)
                (lx_token_start_character l) (lx_token_start_grapheme l) in
    lexer_token d l1 TIdentifier 32%N
  end.

(** lexer.rs 224-263 [next] *)
Definition lexer_next (d : icu) (l : lexer) : option token * lexer :=
  if lx_end_reached l then (None, l)
  else let (t, l') := lexer_loop d (lx_iter l) l in (Some t, l').

(** Collecting an iterator ([for token in lexer]); fuel bounds the number of calls of [next]. *)
Fixpoint lexer_collect (d : icu) (fuel : nat) (l : lexer) : outcome lexer_error (list token) :=
  match fuel with
  | O => NoFuel
  | S fuel' =>
    match lexer_next d l with
    | (None, _) => Ok []
    | (Some t, l') => let! ts := lexer_collect d fuel' l' in Ok (t :: ts)
    end
  end.

(** All tokens of a string: [LexerIterator::try_new(string, grammar, icu)?.collect()]. *)
Definition tokenise (d : icu) (s grammar : ustr) : outcome lexer_error (list token) :=
  let! l := lexer_try_new d s grammar in lexer_collect d (S (List.length s)) l.
