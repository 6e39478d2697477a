(** Specification of the pattern strings accepted by the parser and of the trees it builds, independent of the
    parser: a concrete syntax with its token sequence, the abstract content, and what a node arena denotes. *)
From Verif Require Import Base LexerModel LexerSpec TreeModel.

(** ** Concrete syntax (docs `pattern strings.asciidoc` 9-49, tree.rs comments) *)

(** After the keyword of a placeholder: white space, a selector [a#b], or stray grammar characters other than
    the closing brace, which tree.rs 368-371 skips. *)
Inductive kpart := KWs (w : ustr) | KJunk (g : ustr) | KSel (a : ustr) (ty : ttype) (b : ustr).

(** Inside a command: white space, identifiers, and the marker of a delayed command. *)
Inductive cpart := QWs (w : ustr) | QId (w : ustr) | QHash.

Inductive piece :=
| PText (x : segment)                                             (* a token that is not grammar *)
| PEsc (x : segment)                                              (* backtick and any token *)
| PHash                                                           (* number sign *)
| PPat (id : ustr) (ws : list ustr) (kw : option (ustr * list kpart)) (* {id ws} or {id ws kw ...} *)
| PCmd (qs : list cpart).                                         (* {# ...} *)

(** Between named strings: white space; a named string [{id w sub}], [w] may be split into several tokens. *)
Inductive gpart := GWs (w : ustr) | GNamed (id w : ustr) (ws : list ustr) (sub : list piece).

Record cst := mk_cst { c_main : list piece; c_group : option (list gpart) }.

Definition g_ (s : ustr) : segment := (TGrammar, s).

Definition kprint (k : kpart) : list segment :=
  match k with
  | KWs w => [(TWhiteSpace, w)]
  | KJunk g => [g_ g]
  | KSel a ty b => [(TIdentifier, a); (ty, us "#"); (TIdentifier, b)]
  end.
Definition qprint (q : cpart) : list segment :=
  match q with QWs w => [(TWhiteSpace, w)] | QId w => [(TIdentifier, w)] | QHash => [g_ (us "#")] end.
Definition wprint (ws : list ustr) : list segment := map (fun w => (TWhiteSpace, w)) ws.
Definition pprint (p : piece) : list segment :=
  match p with
  | PText x => [x]
  | PEsc x => [g_ (us "`"); x]
  | PHash => [g_ (us "#")]
  | PPat id ws kw =>
      g_ (us "{") :: (TIdentifier, id) :: wprint ws ++
      match kw with None => [] | Some (k, l) => (TIdentifier, k) :: flat_map kprint l end ++ [g_ (us "}")]
  | PCmd qs => g_ (us "{") :: g_ (us "#") :: flat_map qprint qs ++ [g_ (us "}")]
  end.
Definition pieces_print (l : list piece) : list segment := flat_map pprint l.
Definition gprint (x : gpart) : list segment :=
  match x with
  | GWs w => [(TWhiteSpace, w)]
  | GNamed id w ws sub =>
      g_ (us "{") :: (TIdentifier, id) :: (TWhiteSpace, w) :: wprint ws ++ pieces_print sub ++ [g_ (us "}")]
  end.
Definition cprint (c : cst) : list segment :=
  pieces_print (c_main c) ++
  match c_group c with None => [] | Some l => g_ (us "#") :: flat_map gprint l end.

(** ** Abstract content: texts per token, identifiers as strings *)
Inductive sparam := SId (w : ustr) | SDelay.
Inductive sitem :=
| SText (w : ustr)
| SHash
| SPat (id : ustr) (kw : option (ustr * list (ustr * ustr)))
| SCmd (ps : list sparam).
Definition sast := (list sitem * option (list (ustr * list sitem)))%type.

Definition ksel (k : kpart) : list (ustr * ustr) := match k with KSel a _ b => [(a, b)] | _ => [] end.
Definition qpar (q : cpart) : list sparam := match q with QWs _ => [] | QId w => [SId w] | QHash => [SDelay] end.
Definition pcontent (p : piece) : sitem :=
  match p with
  | PText x | PEsc x => SText (snd x)
  | PHash => SHash
  | PPat id _ None => SPat id None
  | PPat id _ (Some (k, l)) => SPat id (Some (k, flat_map ksel l))
  | PCmd qs => SCmd (flat_map qpar qs)
  end.
Definition gcontent (x : gpart) : list (ustr * list sitem) :=
  match x with GWs _ => [] | GNamed id _ _ sub => [(id, map pcontent sub)] end.
Definition ccontent (c : cst) : sast :=
  (map pcontent (c_main c), option_map (flat_map gcontent) (c_group c)).

(** ** Well-formedness *)
Definition kwf (k : kpart) : Prop := match k with KJunk g => g <> us "}" | _ => True end.

(** A command starts with its name; the delay marker only directly follows the name (white space aside) and must
    itself be followed by a parameter. *)
Definition command_ok (ps : list sparam) : Prop :=
  exists name args, Forall (fun p => p <> SDelay) args /\
    (ps = SId name :: args \/ (ps = SId name :: SDelay :: args /\ args <> [])).

Definition command_prefix (ps : list sparam) : Prop :=
  ps = [] \/ command_ok ps \/ exists name, ps = [SId name; SDelay].

Definition pwf (p : piece) : Prop :=
  match p with
  | PText x => fst x <> TGrammar
  | PEsc _ | PHash => True
  | PPat _ _ None => True
  | PPat _ _ (Some (_, l)) => Forall kwf l
  | PCmd qs => command_ok (flat_map qpar qs)
  end.

Definition is_hash (p : piece) : bool := match p with PHash => true | _ => false end.
Inductive no_hash_pair : list piece -> Prop :=
| nhp_nil : no_hash_pair []
| nhp_one p : no_hash_pair [p]
| nhp_cons p q l : (is_hash p && is_hash q)%bool = false -> no_hash_pair (q :: l) -> no_hash_pair (p :: q :: l).

(** Substrings start with an identifier token or a number sign, and have no two adjacent number signs. *)
Definition sub_ok (l : list piece) : Prop :=
  Forall pwf l /\ no_hash_pair l /\
  match l with PText (TIdentifier, _) :: _ => True | PHash :: _ => True | _ => False end.
Definition main_ok (l : list piece) : Prop := Forall pwf l /\ Forall (fun p => is_hash p = false) l.
Definition gwf (x : gpart) : Prop := match x with GWs _ => True | GNamed _ _ _ sub => sub_ok sub end.

Definition spats (l : list sitem) : list ustr :=
  flat_map (fun x => match x with SPat id _ => [id] | _ => [] end) l.
Definition group_of (a : sast) : list (ustr * list sitem) := match snd a with None => [] | Some l => l end.
Definition placeholder_names (a : sast) : list ustr := spats (fst a) ++ flat_map (fun x => spats (snd x)) (group_of a).
Definition string_names (a : sast) : list ustr := map fst (group_of a).

Definition cwf (c : cst) : Prop :=
  main_ok (c_main c) /\ match c_group c with None => True | Some l => Forall gwf l end /\
  NoDup (placeholder_names (ccontent c)) /\ NoDup (string_names (ccontent c)).

(** ** What a node arena denotes *)
Definition leaf_is (tr : tree) (i : nat) (ty : ntype) (ws : list ustr) : Prop :=
  exists n toks, nth_error (tr_nodes tr) i = Some n /\ n_type n = ty /\ n_children n = None /\
    n_tokens n = Some toks /\
    Forall2 (fun j w => exists t, nth_error (tr_tokens tr) j = Some t /\ t_string t = w) toks ws.
Definition branch_is (tr : tree) (i : nat) (ty : ntype) (cs : list nat) : Prop :=
  exists n, nth_error (tr_nodes tr) i = Some n /\ n_type n = ty /\ n_children n = Some cs /\ n_tokens n = None.

Definition ident_is (tr : tree) (i : nat) (w : ustr) : Prop := leaf_is tr i NIdentifier [w].
Definition selector_is (tr : tree) (i : nat) (x : ustr * ustr) : Prop :=
  exists a b, branch_is tr i NSelector [a; b] /\ ident_is tr a (fst x) /\ ident_is tr b (snd x).
Definition param_is (tr : tree) (i : nat) (p : sparam) : Prop :=
  match p with SId w => ident_is tr i w | SDelay => leaf_is tr i NNumberSign [us "#"] end.

(** A child of a string node and the content it stands for; adjacent texts share a node. *)
Inductive item_is (tr : tree) (i : nat) : list sitem -> Prop :=
| it_text ws : ws <> [] -> leaf_is tr i NText ws -> item_is tr i (map SText ws)
| it_hash : leaf_is tr i NNumberSign [us "#"] -> item_is tr i [SHash]
| it_pat id a : branch_is tr i NPattern [a] -> ident_is tr a id -> item_is tr i [SPat id None]
| it_kw id k sels a b cs : branch_is tr i NPattern (a :: b :: cs) -> ident_is tr a id -> ident_is tr b k ->
    Forall2 (selector_is tr) cs sels -> item_is tr i [SPat id (Some (k, sels))]
| it_cmd ps cs : branch_is tr i NCommand cs -> Forall2 (param_is tr) cs ps -> item_is tr i [SCmd ps].

Definition string_is (tr : tree) (i : nat) (l : list sitem) : Prop :=
  exists cs ls, branch_is tr i NString cs /\ Forall2 (item_is tr) cs ls /\ List.concat ls = l.
Definition named_is (tr : tree) (i : nat) (x : ustr * list sitem) : Prop :=
  exists a b, branch_is tr i NNamedString [a; b] /\ ident_is tr a (fst x) /\ string_is tr b (snd x).
Definition tree_is (tr : tree) (a : sast) : Prop :=
  match snd a with
  | None => branch_is tr 0 NRoot [1] /\ string_is tr 1 (fst a)
  | Some l => exists g cs, branch_is tr 0 NRoot [1; g] /\ string_is tr 1 (fst a) /\
                branch_is tr g NNamedGroup cs /\ Forall2 (named_is tr) cs l
  end.

(** ** Well-formed arenas (C07) *)
Definition container (ty : ntype) : Prop :=
  match ty with NRoot | NNamedGroup | NNamedString | NString | NCommand | NPattern | NSelector => True | _ => False end.

Record wf_arena (tr : tree) : Prop := {
  wf_root : exists n, nth_error (tr_nodes tr) 0 = Some n /\ n_type n = NRoot /\ n_parent n = None;
  wf_main : exists n, nth_error (tr_nodes tr) 1 = Some n /\ n_type n = NString /\ n_parent n = Some 0;
  wf_kind : forall i n, nth_error (tr_nodes tr) i = Some n ->
    (container (n_type n) -> n_tokens n = None /\ exists cs, n_children n = Some cs) /\
    (~ container (n_type n) -> n_children n = None /\ exists ts, n_tokens n = Some ts /\ ts <> [] /\
       forall j, In j ts -> j < List.length (tr_tokens tr));
  wf_children : forall i n cs c, nth_error (tr_nodes tr) i = Some n -> n_children n = Some cs -> In c cs ->
    i < c /\ exists m, nth_error (tr_nodes tr) c = Some m /\ n_parent m = Some i;
  wf_nodup : forall i n cs, nth_error (tr_nodes tr) i = Some n -> n_children n = Some cs -> NoDup cs;
  wf_parent : forall c m, nth_error (tr_nodes tr) c = Some m -> 0 < c ->
    exists p n cs, n_parent m = Some p /\ nth_error (tr_nodes tr) p = Some n /\ n_children n = Some cs /\ In c cs
}.

(** ** Unfinished strings *)

(** Token sequences that end in the middle of a string, outside of patterns: in the main string, or in the
    substring of a named string; with the placeholder names and string names met so far. *)
Inductive open_main : list segment -> list ustr -> list ustr -> Prop :=
| om ps : main_ok ps -> open_main (pieces_print ps) (spats (map pcontent ps)) [].

Inductive open_group : list segment -> list ustr -> list ustr -> Prop :=
| og ps gl : main_ok ps -> Forall gwf gl ->
    open_group (pieces_print ps ++ g_ (us "#") :: flat_map gprint gl)
      (spats (map pcontent ps) ++ flat_map (fun x => spats (snd x)) (flat_map gcontent gl))
      (map fst (flat_map gcontent gl)).

Definition header (id w : ustr) (ws : list ustr) : list segment :=
  g_ (us "{") :: (TIdentifier, id) :: (TWhiteSpace, w) :: wprint ws.

Inductive open_sub : list segment -> list ustr -> list ustr -> Prop :=
| os B P N id w ws sub : open_group B P N -> sub_ok sub ->
    open_sub (B ++ header id w ws ++ pieces_print sub) (P ++ spats (map pcontent sub)) (N ++ [id]).

Definition open_string (B : list segment) (P N : list ustr) : Prop :=
  (open_main B P N \/ open_sub B P N) /\ NoDup P /\ NoDup N.

(** ** Token sequences on which tree.rs panics *)
Inductive panicking : list segment -> Prop :=
| panic_command B P N qs name x rest : open_string B P N ->       (* {#name#} or {#name## *)
    flat_map qpar qs = [SId name; SDelay] -> x = g_ (us "}") \/ x = g_ (us "#") ->
    panicking (B ++ g_ (us "{") :: g_ (us "#") :: flat_map qprint qs ++ x :: rest)
| panic_named B P N id w ws y x rest : open_group B P N -> NoDup P -> NoDup (N ++ [id]) ->
    ((exists z, y = [(TSyntax, z)]) \/ (exists z, y = [g_ (us "`"); z])) ->
    (fst x = TGrammar -> snd x = us "#" \/ snd x = us "{" \/ snd x = us "`") ->
    panicking (B ++ header id w ws ++ y ++ x :: rest).

(** ** Sequences ending inside a pattern, an escape, a literal or a named string *)
Inductive unterminated : list segment -> Prop :=
| un_piece B P N p inner tail : open_string B P N -> pwf p -> NoDup (P ++ spats [pcontent p]) ->
    pprint p = inner ++ tail -> inner <> [] -> tail <> [] -> unterminated (B ++ inner)
| un_name B P N id w ws inner tail : open_group B P N -> NoDup P -> NoDup (N ++ [id]) ->
    header id w ws = inner ++ tail -> inner <> [] -> unterminated (B ++ inner)
| un_sub B P N : open_sub B P N -> NoDup P -> NoDup N -> unterminated B
| un_literal B P N rest : open_string B P N ->
    unterminated (B ++ g_ (us "{") :: g_ (us "`") :: rest)
| un_command_literal B P N qs y rest : open_string B P N -> command_prefix (flat_map qpar qs) ->
    unterminated (B ++ g_ (us "{") :: g_ (us "#") :: flat_map qprint qs ++ g_ (us "`") :: y :: rest).
