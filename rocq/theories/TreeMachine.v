(** A one-token-per-step machine building an abstract syntax tree; proof device. [TreeRefine] shows
    that the parser of [TreeModel] behaves exactly like it. Tokens are referred to by index. *)
From Verif Require Import Base BaseFacts LexerModel TreeModel TreeArena.

(** Parameter of a command pattern. *)
Inductive cparam := CId (tok : nat) | CHash (tok : nat).

Inductive item :=
| IText (toks : list nat)
| IHash (tok : nat)
| IPat (id : nat) (kw : option (nat * list (nat * nat)))
| ICmd (ps : list cparam).

Definition named := (nat * list item)%type.
Definition ast := (list item * option (list named))%type.

Definition ident (tok : nat) : rose := Leaf NIdentifier [tok].
Definition sel_tree (x : nat * nat) : rose := Branch NSelector [ident (fst x); ident (snd x)].
Definition param_tree (p : cparam) : rose := match p with CId t => ident t | CHash t => Leaf NNumberSign [t] end.
Definition item_tree (x : item) : rose :=
  match x with
  | IText toks => Leaf NText toks
  | IHash t => Leaf NNumberSign [t]
  | IPat id None => Branch NPattern [ident id]
  | IPat id (Some (k, sels)) => Branch NPattern (ident id :: ident k :: map sel_tree sels)
  | ICmd ps => Branch NCommand (map param_tree ps)
  end.
Definition trees (l : list item) : list rose := map item_tree l.
Definition string_tree (l : list item) : rose := Branch NString (trees l).
Definition named_tree (x : named) : rose := Branch NNamedString [ident (fst x); string_tree (snd x)].
Definition ast_tree (a : ast) : rose :=
  Branch NRoot (string_tree (fst a) ::
    match snd a with None => [] | Some l => [Branch NNamedGroup (map named_tree l)] end).

(** Where a string is being read: the main string, or the substring of a named string (main string, finished
    named strings in reverse, its identifier). *)
Inductive actx := CMain | CSub (main : list item) (rnamed : list named) (id : nat).

(** Lists prefixed with [r] are in reverse order. *)
Inductive astate :=
| AText (c : actx) (ri : list item)
| AEsc (c : actx) (ri : list item)                                  (* after a backtick *)
| AOpen (c : actx) (ri : list item)                                 (* after an opening brace *)
| APat (c : actx) (ri : list item) (id : nat)
| AKey (c : actx) (ri : list item) (id kw : nat) (rs : list (nat * nat))
| ASel1 (c : actx) (ri : list item) (id kw : nat) (rs : list (nat * nat)) (a : nat)
| ASel2 (c : actx) (ri : list item) (id kw : nat) (rs : list (nat * nat)) (a : nat)
| ACmd (c : actx) (ri : list item) (rp : list cparam)
| ACmdEsc
| ALit
| ALitEsc
| AGroup (main : list item) (rn : list named)
| AName0 (main : list item) (rn : list named)
| ANameId (main : list item) (rn : list named) (id : nat) (t : token)  (* white space must follow *)
| AName1 (main : list item) (rn : list named) (id : nat)
| ADeadOpen (t : token)                                             (* named string starting with a brace *)
| ADeadEsc
| ADead.                                                            (* text started, state still NamedString *)

Record am := mk_am { am_state : astate; am_pats : list ustr; am_nams : list ustr }.

Definition cstate (c : actx) : pstate := match c with CMain => PString | CSub _ _ _ => PSubString end.
Definition cnest (c : actx) : list pstate := match c with CMain => [] | CSub _ _ _ => [PNamedString; PNamedGroup] end.
Definition cfs (c : actx) : list frame :=
  match c with
  | CMain => [(NRoot, [])]
  | CSub main rn id => [(NNamedString, [ident id]); (NNamedGroup, map named_tree (rev rn)); (NRoot, [string_tree main])]
  end.

Definition bad {A} (st : pstate) (t : token) : tout A := Err (InvalidToken st (t_start_grapheme t) (t_string t)).

(** Text continues the preceding text item. *)
Definition add_text (ri : list item) (tok : nat) : list item :=
  match ri with IText toks :: r => IText (toks ++ [tok]) :: r | _ => IText [tok] :: ri end.

Definition gram (t : token) (x : ustr) : bool := is_type t TGrammar && is_str t x.

Definition astep (m : am) (i : nat) (t : token) : tout am :=
  let go a := Ok (mk_am a (am_pats m) (am_nams m)) in
  match am_state m with
  | AText c ri =>
    if is_type t TGrammar then
      if is_str t s_back then go (AEsc c ri)
      else if is_str t s_open then go (AOpen c ri)
      else if is_str t s_hash then
        match c with
        | CMain => go (AGroup (rev ri) [])
        | CSub _ _ _ =>
          match ri with
          | IHash _ :: _ => Err (MultiNumberSign (t_start_grapheme t))
          | _ => go (AText c (IHash i :: ri))
          end
        end
      else
        match c with
        | CMain => bad PString t
        | CSub main rn id =>
          if is_str t s_close then go (AGroup main ((id, rev ri) :: rn)) else bad PSubString t
        end
    else go (AText c (add_text ri i))
  | AEsc c ri => go (AText c (add_text ri i))
  | AOpen c ri =>
    if is_type t TIdentifier then
      if umem (t_string t) (am_pats m) then Err (UniquePattern (t_string t))
      else Ok (mk_am (APat c ri i) (t_string t :: am_pats m) (am_nams m))
    else if is_type t TGrammar then
      if is_str t s_back then go ALit
      else if is_str t s_hash then go (ACmd c ri [])
      else bad (cstate c) t
    else bad (cstate c) t
  | APat c ri id =>
    if is_type t TIdentifier then go (AKey c ri id i [])
    else if is_type t TWhiteSpace then go (APat c ri id)
    else if gram t s_close then go (AText c (IPat id None :: ri))
    else bad PPattern t
  | AKey c ri id kw rs =>
    if is_type t TIdentifier then go (ASel1 c ri id kw rs i)
    else if is_type t TWhiteSpace then go (AKey c ri id kw rs)
    else if is_type t TGrammar then
      if is_str t s_close then go (AText c (IPat id (Some (kw, rev rs)) :: ri)) else go (AKey c ri id kw rs)
    else bad PKeyword t
  | ASel1 c ri id kw rs a => if is_str t s_hash then go (ASel2 c ri id kw rs a) else bad PKeyword t
  | ASel2 c ri id kw rs a => if is_type t TIdentifier then go (AKey c ri id kw ((a, i) :: rs)) else bad PKeyword t
  | ACmd c ri rp =>
    if is_type t TIdentifier then go (ACmd c ri (CId i :: rp))
    else if is_type t TGrammar then
      if is_str t s_back then go ACmdEsc
      else if is_str t s_close then
        match rp with
        | [] => bad PCommand t
        | CHash _ :: _ => Panic
        | _ => go (AText c (ICmd (rev rp) :: ri))
        end
      else if is_str t s_hash then
        match rp with
        | CHash _ :: _ => Panic
        | [_] => go (ACmd c ri (CHash i :: rp))
        | _ => bad PCommand t
        end
      else bad PCommand t
    else if is_type t TWhiteSpace then go (ACmd c ri rp)
    else bad PCommand t
  | ACmdEsc => go ALit
  | ALit => if gram t s_back then go ALitEsc else go ALit
  | ALitEsc => go ALit
  | AGroup main rn =>
    if is_type t TGrammar then if is_str t s_open then go (AName0 main rn) else bad PNamedGroup t
    else if is_type t TWhiteSpace then go (AGroup main rn)
    else bad PNamedGroup t
  | AName0 main rn =>
    if is_type t TIdentifier then
      if umem (t_string t) (am_nams m) then Err (UniqueNamed (t_string t))
      else Ok (mk_am (ANameId main rn i t) (am_pats m) (t_string t :: am_nams m))
    else bad PNamedString t
  | ANameId main rn id tid => if is_type t TWhiteSpace then go (AName1 main rn id) else bad PNamedString tid
  | AName1 main rn id =>
    if is_type t TIdentifier then go (AText (CSub main rn id) [IText [i]])
    else if is_type t TGrammar then
      if is_str t s_hash then go (AText (CSub main rn id) [IHash i])
      else if is_str t s_open then go (ADeadOpen t)
      else if is_str t s_back then go ADeadEsc
      else bad PNamedString t
    else if is_type t TSyntax then go ADead
    else go (AName1 main rn id)
  | ADeadOpen t0 => bad PNamedString t0
  | ADeadEsc => go ADead
  | ADead =>
    if is_type t TGrammar && negb (is_str t s_hash) && negb (is_str t s_open) && negb (is_str t s_back)
    then bad PNamedString t else Panic
  end.

Fixpoint arun (m : am) (i : nat) (ts : list token) : tout am :=
  match ts with
  | [] => Ok m
  | t :: r => let! m' := astep m i t in arun m' (S i) r
  end.

Definition afinish (m : am) : tout ast :=
  match am_state m with
  | AText CMain ri => Ok (rev ri, None)
  | AGroup main rn => Ok (main, Some (rev rn))
  | _ => Err EndedAbruptly
  end.

Definition am_init : am := mk_am (AText CMain []) [] [].
Definition aparse (ts : list token) : tout ast := let! m := arun am_init 0 ts in afinish m.

(** What the parser returns for an abstract syntax tree. *)
Definition lengths_of (ts : list token) : lengths :=
  fold_left (fun l t => mk_lengths (l_bytes l + t_length_bytes t) (l_characters l + t_length_characters t)
       (l_graphemes l + t_length_graphemes t) (S (l_tokens l))) ts (mk_lengths 0 0 0 0).
Definition has_gram (ts : list token) : bool := existsb (fun t => is_type t TGrammar) ts.
Definition tree_of (ts : list token) (a : ast) : tree :=
  mk_tree ts (has_gram ts) (lengths_of ts) (arena [] (ast_tree a)).
