(** Model of crates/localiser/src/tree.rs. *)
From Verif Require Import Base LexerModel.

(** tree.rs 51-62 *)
Inductive ntype :=
| NRoot | NNamedGroup | NNamedString | NString | NText | NNumberSign | NCommand | NPattern
| NIdentifier | NSelector.

Definition ntype_eqb (a b : ntype) : bool :=
  match a, b with
  | NRoot, NRoot | NNamedGroup, NNamedGroup | NNamedString, NNamedString | NString, NString
  | NText, NText | NNumberSign, NNumberSign | NCommand, NCommand | NPattern, NPattern
  | NIdentifier, NIdentifier | NSelector, NSelector => true
  | _, _ => false
  end.

(** tree.rs 66-77 *)
Definition allow_children (t : ntype) : bool :=
  match t with
  | NRoot | NString | NNamedGroup | NNamedString | NSelector | NPattern | NCommand => true
  | _ => false
  end.

(** tree.rs 80-85 *)
Definition allow_tokens (t : ntype) : bool :=
  match t with NText | NNumberSign | NIdentifier => true | _ => false end.

(** tree.rs 106-111 *)
Record node := mk_node {
  n_type : ntype;
  n_parent : option nat;
  n_children : option (list nat);
  n_tokens : option (list nat)
}.

(** tree.rs 115-120 *)
Record lengths := mk_lengths { l_bytes : nat; l_characters : nat; l_graphemes : nat; l_tokens : nat }.

(** tree.rs 123-128 *)
Record tree := mk_tree {
  tr_tokens : list token;
  tr_has_grammar : bool;
  tr_lengths : lengths;
  tr_nodes : list node
}.

(** tree.rs 905-915 *)
Inductive pstate :=
| PNamedGroup | PNamedString | PString | PSubString | PLiteralText | PPattern | PLiteral | PCommand | PKeyword.

(** localiser/src/error.rs 45-52 *)
Inductive tree_error :=
| TreeLexer (e : lexer_error)
| EndedAbruptly
| InvalidToken (st : pstate) (position : nat) (tok : ustr)
| UniquePattern (identifier : ustr)
| MultiNumberSign (position : nat)
| UniqueNamed (identifier : ustr).

(** The local variables of [try_new] (tree.rs 137-164) including [ParserStates] (934-938).
    [ps_nested] is the stack [nested_states] with the top first. *)
Record pst := mk_pst {
  ps_tokens : list token;
  ps_lengths : lengths;
  ps_grammar : bool;
  ps_nodes : list node;
  ps_current : option nat;
  ps_state : pstate;
  ps_nested : list pstate;
  ps_named : amap nat;
  ps_patterns : amap nat
}.

Definition tout := outcome tree_error.

Definition set_nodes (s : pst) (n : list node) : pst :=
  mk_pst (ps_tokens s) (ps_lengths s) (ps_grammar s) n (ps_current s) (ps_state s) (ps_nested s) (ps_named s) (ps_patterns s).
Definition set_current (s : pst) (c : option nat) : pst :=
  mk_pst (ps_tokens s) (ps_lengths s) (ps_grammar s) (ps_nodes s) c (ps_state s) (ps_nested s) (ps_named s) (ps_patterns s).
Definition set_state (s : pst) (x : pstate) : pst :=
  mk_pst (ps_tokens s) (ps_lengths s) (ps_grammar s) (ps_nodes s) (ps_current s) x (ps_nested s) (ps_named s) (ps_patterns s).
Definition set_nested (s : pst) (x : list pstate) : pst :=
  mk_pst (ps_tokens s) (ps_lengths s) (ps_grammar s) (ps_nodes s) (ps_current s) (ps_state s) x (ps_named s) (ps_patterns s).
Definition set_named (s : pst) (x : amap nat) : pst :=
  mk_pst (ps_tokens s) (ps_lengths s) (ps_grammar s) (ps_nodes s) (ps_current s) (ps_state s) (ps_nested s) x (ps_patterns s).
Definition set_patterns (s : pst) (x : amap nat) : pst :=
  mk_pst (ps_tokens s) (ps_lengths s) (ps_grammar s) (ps_nodes s) (ps_current s) (ps_state s) (ps_nested s) (ps_named s) x.
Definition set_grammar (s : pst) (b : bool) : pst :=
  mk_pst (ps_tokens s) (ps_lengths s) b (ps_nodes s) (ps_current s) (ps_state s) (ps_nested s) (ps_named s) (ps_patterns s).

Definition push_nested (s : pst) (x : pstate) : pst := set_nested s (x :: ps_nested s).

(** tree.rs 742-748 *)
Definition push_token (s : pst) (t : token) : pst :=
  let l := ps_lengths s in
  mk_pst (ps_tokens s ++ [t])
    (mk_lengths (l_bytes l + t_length_bytes t) (l_characters l + t_length_characters t)
       (l_graphemes l + t_length_graphemes t) (S (l_tokens l)))
    (ps_grammar s) (ps_nodes s) (ps_current s) (ps_state s) (ps_nested s) (ps_named s) (ps_patterns s).

(** [nodes[i]], [nodes.get(i).unwrap()] *)
Definition node_at (nodes : list node) (i : nat) : tout node := unwrap (nth_error nodes i).

(** [nodes[i].children.as_ref().unwrap()] *)
Definition children_at (nodes : list node) (i : nat) : tout (list nat) :=
  let! n := node_at nodes i in unwrap (n_children n).

Definition current_of (s : pst) : tout nat := unwrap (ps_current s).

(** tree.rs 750-778 [insert] *)
Definition insert (nodes : list node) (idx : nat) (ty : ntype) : tout (list node * nat) :=
  let n := mk_node ty (Some idx) (if allow_children ty then Some [] else None)
             (if allow_tokens ty then Some [] else None) in
  let index := List.length nodes in
  let nodes1 := nodes ++ [n] in
  let! p := node_at nodes1 idx in
  let! cs := unwrap (n_children p) in
  Ok (lset nodes1 idx (mk_node (n_type p) (n_parent p) (Some (cs ++ [index])) (n_tokens p)), index).

(** tree.rs 782-788 *)
Definition move_to_container (s : pst) : tout pst :=
  let! i := current_of s in
  let! n := node_at (ps_nodes s) i in
  if allow_children (n_type n) then Ok s else Ok (set_current s (n_parent n)).

(** tree.rs 792-799 *)
Definition create_node (s : pst) (ty : ntype) : tout pst :=
  let! s1 := move_to_container s in
  let! i := current_of s1 in
  let! (nodes, idx) := insert (ps_nodes s1) i ty in
  Ok (set_current (set_nodes s1 nodes) (Some idx)).

(** [nodes.get_mut(i).unwrap().tokens.as_mut().unwrap().push(token)] *)
Definition push_node_token (s : pst) (i : nat) (tok : nat) : tout pst :=
  let! n := node_at (ps_nodes s) i in
  let! ts := unwrap (n_tokens n) in
  Ok (set_nodes s (lset (ps_nodes s) i (mk_node (n_type n) (n_parent n) (n_children n) (Some (ts ++ [tok]))))).

(** tree.rs 803-822 *)
Definition create_node_add_token (s : pst) (ty : ntype) (tok : nat) : tout pst :=
  let! s1 := create_node s ty in
  let! i := current_of s1 in
  push_node_token s1 i tok.

(** tree.rs 827-839 *)
Definition add_token (s : pst) (ty : ntype) (tok : nat) : tout pst :=
  let! i := current_of s in
  let! n := node_at (ps_nodes s) i in
  if ntype_eqb (n_type n) ty then push_node_token s i tok else create_node_add_token s ty tok.

(** tree.rs 842-848 *)
Definition end_nested_state (s : pst) : tout pst :=
  let s1 := match ps_nested s with
            | x :: r => set_nested (set_state s x) r
            | [] => set_state s PString
            end in
  let! i := current_of s1 in
  let! n := node_at (ps_nodes s1) i in
  Ok (set_current s1 (n_parent n)).

Definition is_str (t : token) (x : ustr) : bool := ueqb (t_string t) x.
Definition is_type (t : token) (ty : ttype) : bool := ttype_eqb (t_type t) ty.

Definition s_back : ustr := us "`".
Definition s_open : ustr := us "{".
Definition s_close : ustr := us "}".
Definition s_hash : ustr := us "#".

Definition invalid {A} (s : pst) (t : token) : tout A :=
  Err (InvalidToken (ps_state s) (t_start_grapheme t) (t_string t)).

(** tree.rs 851-900 [pattern_start]; [tok] is the index and [t] the token at that index. *)
Definition pattern_start (s : pst) (tok : nat) (t : token) : tout pst :=
  if is_type t TIdentifier then
    let! s1 := create_node s NPattern in
    if mhas (t_string t) (ps_patterns s1) then Err (UniquePattern (t_string t))
    else
      let! i := current_of s1 in
      let s2 := set_patterns s1 (minsert (t_string t) i (ps_patterns s1)) in
      let! s3 := create_node_add_token s2 NIdentifier tok in
      let! s4 := move_to_container s3 in
      Ok (set_state (push_nested s4 (ps_state s4)) PPattern)
  else if is_type t TGrammar then
    if is_str t s_back then
      let! s1 := create_node s NText in
      Ok (set_state (push_nested (push_nested s1 (ps_state s1)) PLiteral) PLiteralText)
    else if is_str t s_hash then
      let! s1 := create_node s NCommand in
      Ok (set_state (push_nested s1 (ps_state s1)) PCommand)
    else invalid s t
  else invalid s t.

(** [let Some((next, token)) = lexer.next() else { return Err(EndedAbruptly) }; push_token(..)]:
    index of the new token, the token, the new state and the remaining tokens. *)
Definition next_token (s : pst) (rest : list token) : tout (nat * token * pst * list token) :=
  match rest with
  | [] => Err EndedAbruptly
  | t :: rest' => Ok (List.length (ps_tokens s), t, push_token s t, rest')
  end.

(** One iteration of the loop, tree.rs 168-685, after [push_token] at 182: [s] already contains the
    current token [t] with index [cur]; [rest] are the tokens not yet taken from the lexer. Result: the
    new state and the tokens left. The lexer is run eagerly here; in the code it is a lazy iterator
    that cannot fail. *)

(** 184-227 *)
Definition step_string (s : pst) (cur : nat) (t : token) (rest : list token) : tout (pst * list token) :=
  if is_type t TGrammar then
    if is_str t s_back then
      let! (nx, t', s1, rest') := next_token s rest in
      let! s2 := add_token s1 NText nx in Ok (s2, rest')
    else if is_str t s_open then
      let! (nx, t', s1, rest') := next_token s rest in
      let! s2 := pattern_start s1 nx t' in Ok (s2, rest')
    else if is_str t s_hash then
      let! s1 := create_node (set_current s (Some 0)) NNamedGroup in
      Ok (set_state s1 PNamedGroup, rest)
    else invalid s t
  else
    let! s1 := add_token s NText cur in Ok (s1, rest).

(** 228-296 *)
Definition step_substring (s : pst) (cur : nat) (t : token) (rest : list token) : tout (pst * list token) :=
  if is_type t TGrammar then
    if is_str t s_hash then
      let! i := current_of s in
      let! n := node_at (ps_nodes s) i in
      let! parent := unwrap (n_parent n) in
      let! children := children_at (ps_nodes s) parent in
      let! multi := match last_opt children with
                    | Some l => let! ln := node_at (ps_nodes s) l in Ok (ntype_eqb (n_type ln) NNumberSign)
                    | None => Ok false
                    end in
      if multi then Err (MultiNumberSign (t_start_grapheme t))
      else let! s1 := create_node_add_token s NNumberSign cur in Ok (s1, rest)
    else if is_str t s_back then
      let! (nx, t', s1, rest') := next_token s rest in
      let! s2 := add_token s1 NText nx in Ok (s2, rest')
    else if is_str t s_open then
      let! (nx, t', s1, rest') := next_token s rest in
      let! s2 := pattern_start s1 nx t' in Ok (s2, rest')
    else if is_str t s_close then
      let! s1 := move_to_container s in
      let! s2 := end_nested_state s1 in
      let! i := current_of s2 in
      let! children := children_at (ps_nodes s2) i in
      if negb (Nat.eqb (List.length children) 2) then invalid s2 t
      else let! s3 := end_nested_state s2 in Ok (s3, rest)
    else invalid s t
  else
    let! s1 := add_token s NText cur in Ok (s1, rest).

(** 297-332 *)
Definition step_pattern (s : pst) (cur : nat) (t : token) (rest : list token) : tout (pst * list token) :=
  if is_type t TIdentifier then
    let! s1 := create_node_add_token s NIdentifier cur in
    let! s2 := move_to_container s1 in
    Ok (set_state s2 PKeyword, rest)
  else if is_type t TWhiteSpace then Ok (s, rest)
  else if is_type t TGrammar then
    if negb (is_str t s_close) then invalid s t
    else let! s1 := end_nested_state s in Ok (s1, rest)
  else invalid s t.

(** 333-379 *)
Definition step_keyword (s : pst) (cur : nat) (t : token) (rest : list token) : tout (pst * list token) :=
  if is_type t TIdentifier then
    let! s1 := create_node s NSelector in
    let! s2 := add_token s1 NIdentifier cur in
    let! s3 := move_to_container s2 in
    let! (_, t1, s4, rest1) := next_token s3 rest in
    if negb (is_str t1 s_hash) then invalid s4 t1
    else
      let! (cur2, t2, s5, rest2) := next_token s4 rest1 in
      if negb (is_type t2 TIdentifier) then invalid s5 t2
      else
        let! s6 := add_token s5 NIdentifier cur2 in
        let! s7 := move_to_container s6 in
        let! i := current_of s7 in
        let! n := node_at (ps_nodes s7) i in
        Ok (set_current s7 (n_parent n), rest2)
  else if is_type t TWhiteSpace then Ok (s, rest)
  else if is_type t TGrammar then
    if is_str t s_close then let! s1 := end_nested_state s in Ok (s1, rest)
    else Ok (s, rest)
  else invalid s t.

(** 380-402. Line 393 compares the *current* token (again) with a backtick, not the next one; the
    [else] branch at 396-398 is kept although the condition is the one just tested. *)
Definition step_literal_text (s : pst) (cur : nat) (t : token) (rest : list token) : tout (pst * list token) :=
  if is_type t TGrammar && is_str t s_back then
    let! (nx, t', s1, rest') := next_token s rest in
    if is_str t s_back then
      let! s2 := add_token s1 NText nx in Ok (s2, rest')
    else
      let! s2 := end_nested_state s1 in Ok (s2, rest')
  else
    let! s1 := add_token s NText cur in Ok (s1, rest).

(** 403-419 *)
Definition step_literal (s : pst) (cur : nat) (t : token) (rest : list token) : tout (pst * list token) :=
  if is_type t TGrammar && is_str t s_close then
    let! s1 := end_nested_state s in Ok (s1, rest)
  else invalid s t.

(** 420-492 *)
Definition step_command (s : pst) (cur : nat) (t : token) (rest : list token) : tout (pst * list token) :=
  if is_type t TIdentifier then
    let! s1 := create_node_add_token s NIdentifier cur in
    let! s2 := move_to_container s1 in Ok (s2, rest)
  else if is_type t TGrammar then
    if is_str t s_close then
      let! i := current_of s in
      let! children := children_at (ps_nodes s) i in
      if Nat.eqb (List.length children) 0 then invalid s t
      else let! s1 := end_nested_state s in Ok (s1, rest)
    else if is_str t s_back then
      let! (nx, t', s1, rest') := next_token s rest in
      let! s2 := create_node_add_token s1 NText nx in
      Ok (set_state (push_nested s2 PCommand) PLiteralText, rest')
    else if is_str t s_hash then
      let! i := current_of s in
      let! children := children_at (ps_nodes s) i in
      if negb (Nat.eqb (List.length children) 1) then invalid s t
      else let! s1 := create_node_add_token s NNumberSign cur in Ok (s1, rest)
    else invalid s t
  else if is_type t TWhiteSpace then Ok (s, rest)
  else invalid s t.

(** 493-657 *)
Definition step_named_string (s : pst) (cur : nat) (t : token) (rest : list token) : tout (pst * list token) :=
  if is_type t TIdentifier then
    let! i := current_of s in
    let! children := children_at (ps_nodes s) i in
    let len := List.length children in
    if Nat.eqb len 0 then
      if mhas (t_string t) (ps_named s) then Err (UniqueNamed (t_string t))
      else
        let s1 := set_named s (minsert (t_string t) cur (ps_named s)) in
        let! s2 := create_node_add_token s1 NIdentifier cur in
        let! s3 := move_to_container s2 in
        let! (_, t', s4, rest') := next_token s3 rest in
        if is_type t' TWhiteSpace then Ok (s4, rest')
        else invalid s4 t   (* 539-543: the outer [current] is back in scope, so the identifier token is reported *)
    else if Nat.eqb len 1 then
      let! s1 := create_node s NString in
      let! s2 := create_node_add_token (push_nested s1 PNamedString) NText cur in
      Ok (set_state s2 PSubString, rest)
    else invalid s t
  else if is_type t TGrammar then
    if is_str t s_hash then
      let! i := current_of s in
      let! children := children_at (ps_nodes s) i in
      if negb (Nat.eqb (List.length children) 1) then invalid s t
      else
        let! s1 := create_node s NString in
        let! s2 := create_node_add_token (push_nested s1 PNamedString) NNumberSign cur in
        Ok (set_state s2 PSubString, rest)
    else if is_str t s_open then
      let! i := current_of s in
      let! children := children_at (ps_nodes s) i in
      if negb (Nat.eqb (List.length children) 1) then invalid s t
      else
        let! (_, t', s1, rest') := next_token s rest in
        let! s2 := pattern_start s1 cur t in   (* 586: [&current], the opening brace itself *)
        Ok (s2, rest')
    else if is_str t s_back then
      let! i := current_of s in
      let! children := children_at (ps_nodes s) i in
      if negb (Nat.eqb (List.length children) 1) then invalid s t
      else
        let! (nx, t', s1, rest') := next_token s rest in
        let! s2 := create_node s1 NString in
        let! s3 := create_node_add_token (push_nested s2 PNamedString) NText nx in
        Ok (s3, rest')                          (* 592-614: [parser.state] is not changed *)
    else invalid s t
  else if is_type t TSyntax then
    let! i := current_of s in
    let! children := children_at (ps_nodes s) i in
    if negb (Nat.eqb (List.length children) 1) then invalid s t
    else
      let! s1 := create_node s NString in
      let! s2 := create_node_add_token (push_nested s1 PNamedString) NText cur in
      Ok (s2, rest)                             (* 622-639: [parser.state] is not changed *)
  else
    (* TokenType::WhiteSpace, 640-649; the final [else] at 650 is unreachable *)
    let! i := current_of s in
    let! children := children_at (ps_nodes s) i in
    if negb (Nat.eqb (List.length children) 1) then invalid s t
    else Ok (s, rest).

(** 658-684 *)
Definition step_named_group (s : pst) (cur : nat) (t : token) (rest : list token) : tout (pst * list token) :=
  if is_type t TGrammar then
    if negb (is_str t s_open) then invalid s t
    else
      let! s1 := create_node s NNamedString in
      Ok (set_state (push_nested s1 PNamedGroup) PNamedString, rest)
  else if is_type t TWhiteSpace then Ok (s, rest)
  else invalid s t.

(** 168-685: one iteration, including 169-171 and 182. *)
Definition tree_step (s0 : pst) (t : token) (rest : list token) : tout (pst * list token) :=
  let cur := List.length (ps_tokens s0) in
  let s := push_token (if is_type t TGrammar then set_grammar s0 true else s0) t in
  match ps_state s with
  | PString => step_string s cur t rest
  | PSubString => step_substring s cur t rest
  | PPattern => step_pattern s cur t rest
  | PKeyword => step_keyword s cur t rest
  | PLiteralText => step_literal_text s cur t rest
  | PLiteral => step_literal s cur t rest
  | PCommand => step_command s cur t rest
  | PNamedString => step_named_string s cur t rest
  | PNamedGroup => step_named_group s cur t rest
  end.

(** 687-695 *)
Definition tree_finish (s : pst) : tout tree :=
  match ps_nested s with
  | _ :: _ => Err EndedAbruptly
  | [] => Ok (mk_tree (ps_tokens s) (ps_grammar s) (ps_lengths s) (ps_nodes s))
  end.

Fixpoint tree_loop (fuel : nat) (s : pst) (ts : list token) : tout tree :=
  match fuel with
  | O => NoFuel
  | S fuel' =>
    match ts with
    | [] => tree_finish s
    | t :: rest => let! (s', rest') := tree_step s t rest in tree_loop fuel' s' rest'
    end
  end.

(** 136-164: root node and main string node. *)
Definition root_node : node := mk_node NRoot None (Some [1]) None.
Definition main_node : node := mk_node NString (Some 0) (Some []) None.
Definition tree_init : pst :=
  mk_pst [] (mk_lengths 0 0 0 0) false [root_node; main_node] (Some 1) PString [] [] [].

(** The parser on a token list. *)
Definition parse_tokens (ts : list token) : tout tree := tree_loop (S (List.length ts)) tree_init ts.

(** tree.rs 131-696 [Tree::try_new] *)
Definition tree_try_new (d : icu) (s grammar : ustr) : tout tree :=
  let! ts := map_err TreeLexer (tokenise d s grammar) in parse_tokens ts.

(** The initial arena is what 148-155 build: push the root and [insert] the main string below it. *)
Example tree_init_nodes :
  insert [mk_node NRoot None (Some []) None] 0 NString = Ok ([root_node; main_node], 1).
Proof. reflexivity. Qed.

(** Accessors, tree.rs 712-738. They index without checks, hence [Panic]. *)
Definition tree_node_type (t : tree) (i : nat) : outcome tree_error ntype :=
  let! n := node_at (tr_nodes t) i in Ok (n_type n).
Definition tree_children (t : tree) (i : nat) : outcome tree_error (list nat) := children_at (tr_nodes t) i.
Definition tree_first (t : tree) (i : nat) : outcome tree_error (option nat) :=
  let! c := tree_children t i in Ok (nth_error c 0).
Definition tree_last (t : tree) (i : nat) : outcome tree_error (option nat) :=
  let! c := tree_children t i in Ok (last_opt c).
Definition tree_tokens (t : tree) (i : nat) : outcome tree_error (option (list nat)) :=
  let! n := node_at (tr_nodes t) i in Ok (n_tokens n).
Definition tree_token (t : tree) (i : nat) : outcome tree_error token := unwrap (nth_error (tr_tokens t) i).
