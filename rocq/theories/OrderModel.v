(** Building a formatter where the maps of options and selectors are gone through in any order. [FormatterModel] takes the
    order of insertion; Rust's [HashMap] goes through its entries in an order that differs from map to map and from run to
    run. Only the loops of [part_pattern] (formatter.rs 1076-1088, 1100-1166, 1173-1194, 1210-1231, 1247-1255) go through a
    map; everything else is as in [FormatterModel]. *)
From Verif Require Import Base LexerModel TreeModel ValueModel CommandModel IsoModel FormatterModel.

Section Order.
  (** The sequence in which the map made for the pattern node with this index is gone through. *)
  Variable order : nat -> amap ustr -> amap ustr.

  (** formatter.rs 1173-1205 / 1210-1242. *)
  Definition plural_part_in (i : nat) (kw ph : ustr) (c : complex) (known : list ustr) (strings : amap ustr) (b : bst)
    : fout (ppart * bst) :=
    let! other := plural_checks kw ph known (order i strings) false in
    if negb other then Err (FSelectorOther kw ph)
    else Ok (PtComplex ph c (List.length (snd b)), (fst b, snd b ++ [strings])).

  (** formatter.rs 1037-1266 [part_pattern]. *)
  Definition part_pattern_in (fe : fmtenv) (locale : ustr) (known : list ustr) (tr : tree) (i : nat) (b : bst)
    : fout (ppart * bst) :=
    let! cs := ft (tree_children tr i) in
    match cs with
    | [] => Err (FNoChildren NPattern)
    | p :: r =>
        let! ty := ft (tree_node_type tr p) in
        if negb (ntype_eqb ty NIdentifier) then Err (FNodeNotFound NIdentifier) else
        let! ph := first_token tr p in
        match r with
        | [] => Ok (PtString ph, b)
        | k :: _ =>
            let! tyk := ft (tree_node_type tr k) in
            if negb (ntype_eqb tyk NIdentifier) then Err (FNodeNotFound NIdentifier) else
            let! kw := first_token tr k in
            if ueqb kw (us "decimal") then
              let! strings := pattern_selectors tr i in
              let! (sign, group) := decimal_options ph (order i strings) None None in
              Ok (PtDecimal ph sign group, b)
            else if ueqb kw (us "date_time") then
              let! strings := pattern_selectors tr i in
              let! (ld, lt, cal) := date_time_options fe locale ph (order i strings) None None None in
              Ok (PtDateTime ph ld lt cal, b)
            else if ueqb kw (us "ordinal") then
              let! strings := pattern_selectors tr i in plural_part_in i kw ph KOrdinal known strings b
            else if ueqb kw (us "plural") then
              let! strings := pattern_selectors tr i in plural_part_in i kw ph KPlural known strings b
            else if ueqb kw (us "select") then
              let! strings := pattern_selectors tr i in
              let! _ := select_checks ph known (order i strings) in
              Ok (PtComplex ph KSelect (List.length (snd b)), (fst b, snd b ++ [strings]))
            else Err (FInvalidKeyword kw ph)
        end
    end.

  (** formatter.rs 125-152 and 164-180. *)
  Definition part_child_in (fe : fmtenv) (reg : cregistry) (locale : ustr) (known : list ustr) (main : bool) (tr : tree)
    (i : nat) (b : bst) : fout (ppart * bst) :=
    let! ty := ft (tree_node_type tr i) in
    if ntype_eqb ty NText then let! s := node_text tr i in Ok (PtText s, b)
    else if ntype_eqb ty NNumberSign && negb main
    then Ok (PtNumberSign (List.length (fst b)), (fst b ++ [[]], snd b))
    else if ntype_eqb ty NPattern then part_pattern_in fe locale known tr i b
    else if ntype_eqb ty NCommand then let! p := part_command reg tr i in Ok (p, b)
    else Err (FInvalidNode NString).

  Fixpoint string_parts_in (fe : fmtenv) (reg : cregistry) (locale : ustr) (known : list ustr) (main : bool) (tr : tree)
    (cs : list nat) (b : bst) : fout (list ppart * bst) :=
    match cs with
    | [] => Ok ([], b)
    | c :: r =>
        let! (p, b1) := part_child_in fe reg locale known main tr c b in
        let! (ps, b2) := string_parts_in fe reg locale known main tr r b1 in
        Ok (p :: ps, b2)
    end.

  (** formatter.rs 105-155. *)
  Fixpoint named_strings_in (fe : fmtenv) (reg : cregistry) (locale : ustr) (tr : tree) (ns : list nat)
    (patterns : amap (list ppart)) (b : bst) : fout (amap (list ppart) * bst) :=
    match ns with
    | [] => Ok (patterns, b)
    | n :: r =>
        let! o := ft (tree_first tr n) in
        let! first := unwrap o in
        let! id := first_token tr first in
        if mhas id patterns then Err (FNamedStringIdentifier id) else
        let! o' := ft (tree_last tr n) in
        let! last := unwrap o' in
        let! cs := ft (tree_children tr last) in
        let! (parts, b1) := string_parts_in fe reg locale (mkeys patterns) false tr cs b in
        named_strings_in fe reg locale tr r (minsert id parts patterns) b1
    end.

  (** formatter.rs 75-187. *)
  Definition formatter_of_tree_in (fe : fmtenv) (reg : cregistry) (tag locale : ustr) (tr : tree) : fout formatter :=
    if negb (tr_has_grammar tr) then Err FNoGrammar else
    let! ty := ft (tree_node_type tr 0) in
    if negb (ntype_eqb ty NRoot) then Err FInvalidRoot else
    let! root := ft (tree_children tr 0) in
    let patterns := [(us "_", [])] in
    let! (patterns1, b1) := (match root with
                             | _ :: g :: _ =>
                                 let! ns := ft (tree_children tr g) in
                                 named_strings_in fe reg locale tr ns patterns ([], [])
                             | _ => Ok (patterns, ([], []))
                             end) in
    let! m := unwrap (nth_error root 0) in
    let! cs := ft (tree_children tr m) in
    let! (parts, b2) := string_parts_in fe reg locale (mkeys patterns1) true tr cs b1 in
    Ok (mk_formatter tag locale (minsert (us "_") parts patterns1) (fst b2) (snd b2)).

  (** formatter.rs 56-187 [Formatter::try_new]. *)
  Definition formatter_try_new_in (d : icu) (grammar : ustr) (fe : fmtenv) (reg : cregistry) (tag locale s : ustr)
    : fout formatter :=
    let! tr := ft (tree_try_new d s grammar) in formatter_of_tree_in fe reg tag locale tr.
End Order.
