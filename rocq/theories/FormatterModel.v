(** Model of crates/localiser/src/formatter.rs (except the ISO readers, see [IsoModel]). *)
From Verif Require Import Base LexerModel TreeModel ValueModel CommandModel IsoModel.

(** ** External code: ICU4X formatting *)

(** [SignDisplay], [GroupingStrategy], [length::Date] / [length::Time], [PluralCategory] of ICU4X. *)
Inductive sign_opt := SgAuto | SgNever | SgAlways | SgExceptZero | SgNegative.
Inductive group_opt := GrAuto | GrNever | GrAlways | GrMin2.
Inductive len_opt := LnFull | LnLong | LnMedium | LnShort.
Inductive category := CatZero | CatOne | CatTwo | CatFew | CatMany | CatOther.

(** Everything the formatter asks of ICU4X, as a parameter. A locale is given by its string. [None] stands for an error
    of ICU4X (or [NoIcuProvider]): constructing a formatter or plural rules can fail (formatter.rs 674-858), formatting a
    date can fail, parsing a locale can fail, an [f64] may not be representable. *)
Record fmtenv := mk_fmtenv {
  fe_unsigned : N -> decimal;                                        (* FixedDecimal::from(u128) *)
  fe_integer : Z -> decimal;                                         (* FixedDecimal::from(i128) *)
  fe_float : N -> option decimal;                                    (* FixedDecimal::try_from_f64 *)
  fe_sign : sign_opt -> decimal -> decimal;                          (* apply_sign_display *)
  fe_decimal : ustr -> option group_opt -> option (decimal -> ustr); (* fixed_decimal_formatter, format *)
  fe_cardinal : ustr -> option (decimal -> category);                (* plural_rules_cardinal, category_for *)
  fe_ordinal : ustr -> option (decimal -> category);                 (* plural_rules_ordinal, category_for *)
  fe_datetime : ustr -> len_opt -> len_opt -> option (date -> time -> option ustr);
  fe_date : ustr -> len_opt -> option (date -> option ustr);
  fe_time : ustr -> len_opt -> option (time -> ustr);
  fe_valid_date : Z -> N -> N -> bool;                               (* Date::try_new_iso_date *)
  fe_locale : ustr -> option ustr                                    (* str::parse::<Locale>, shown again *)
}.

(** error.rs 769-806 [FormatterError]; the errors wrapping an ICU4X error are one constructor [FIcu], except those of
    the ISO readers. Variants never constructed by formatter.rs are left out. *)
Inductive formatter_error :=
| FTree (e : tree_error)
| FIso (e : iso_error)
| FIcu
| FCommand (e : command_error)
| FNoGrammar
| FInvalidRoot
| FNodeNotFound (t : ntype)
| FInvalidNode (t : ntype)
| FPatternNamed (s : ustr)
| FInvalidOptionValue (value option keyword : ustr)
| FInvalidKeyword (keyword placeholder : ustr)
| FSelectorNamed (named selector placeholder : ustr)
| FSelectorOther (keyword placeholder : ustr)
| FNoChildren (t : ntype)
| FInvalidOption (value keyword placeholder : ustr)
| FInvalidSelector (selector keyword placeholder : ustr)
| FNumberSignString (i : nat)
| FSelectorsIndex (i : nat)
| FSelectorsIndexNamed (s : ustr) (i : nat)
| FPlaceholderValue (kind placeholder : ustr)
| FInvalidValue (kind : ustr)
| FNamedStringIdentifier (s : ustr)
| FNeverReached.

Definition fout := outcome formatter_error.

(** ** Data *)

(** formatter.rs 1436-1440 [ComplexType] *)
Inductive complex := KPlural | KOrdinal | KSelect.

(** formatter.rs 1442-1465 [PatternPart] *)
Inductive ppart :=
| PtText (s : ustr)
| PtNumberSign (i : nat)
| PtString (placeholder : ustr)
| PtDecimal (placeholder : ustr) (sign : option sign_opt) (group : option group_opt)
| PtDateTime (placeholder : ustr) (ldate ltime : option len_opt) (calendar : option ustr)
| PtComplex (placeholder : ustr) (c : complex) (selectors : nat)
| PtCommand (strings : list pvalue).

(** formatter.rs 45-51 [Formatter]; the language tag and its ICU locale are strings. *)
Record formatter := mk_formatter {
  fm_tag : ustr;
  fm_locale : ustr;
  fm_patterns : amap (list ppart);
  fm_numbers : list ustr;
  fm_selectors : list (amap ustr)
}.

(** ** Option tables *)

(** formatter.rs 1374-1387 *)
Definition sign_display (s : ustr) : fout sign_opt :=
  if ueqb s (us "auto") then Ok SgAuto
  else if ueqb s (us "never") then Ok SgNever
  else if ueqb s (us "always") then Ok SgAlways
  else if ueqb s (us "except_zero") then Ok SgExceptZero
  else if ueqb s (us "negative") then Ok SgNegative
  else Err (FInvalidOptionValue s (us "sign") (us "decimal")).

(** formatter.rs 1389-1401 *)
Definition decimal_grouping_display (s : ustr) : fout group_opt :=
  if ueqb s (us "auto") then Ok GrAuto
  else if ueqb s (us "never") then Ok GrNever
  else if ueqb s (us "always") then Ok GrAlways
  else if ueqb s (us "min2") then Ok GrMin2
  else Err (FInvalidOptionValue s (us "group") (us "decimal")).

(** formatter.rs 1403-1429 [date_length] and [time_length], which differ in the error only. *)
Definition length_option (what : ustr) (s : ustr) : fout len_opt :=
  if ueqb s (us "full") then Ok LnFull
  else if ueqb s (us "long") then Ok LnLong
  else if ueqb s (us "medium") then Ok LnMedium
  else if ueqb s (us "short") then Ok LnShort
  else Err (FInvalidOptionValue s what (us "date_time")).
Definition date_length : ustr -> fout len_opt := length_option (us "date").
Definition time_length : ustr -> fout len_opt := length_option (us "time").

(** formatter.rs 1363-1372 *)
Definition plural_category (c : category) : ustr :=
  match c with
  | CatZero => us "zero" | CatOne => us "one" | CatTwo => us "two" | CatFew => us "few"
  | CatMany => us "many" | CatOther => us "other"
  end.

(** formatter.rs 81-92 *)
Definition valid_plurals : list ustr := [us "zero"; us "one"; us "two"; us "few"; us "many"; us "other"].
Definition calendars : list ustr :=
  [us "gregorian"; us "buddhist"; us "japanese"; us "ethiopian"; us "indian"; us "coptic"; us "iso"].

(** ** Calendar of a locale, formatter.rs 1118-1156 *)

Fixpoint is_prefix (p s : ustr) : bool :=
  match p, s with
  | [], _ => true
  | a :: p', b :: s' => N.eqb a b && is_prefix p' s'
  | _ :: _, [] => false
  end.
(** [str::find] of a string: what is before the first occurrence, and the rest starting with it. *)
Fixpoint find_str (p s : ustr) : option (ustr * ustr) :=
  if is_prefix p s then Some ([], s)
  else match s with
       | [] => None
       | c :: r => match find_str p r with Some (a, b) => Some (c :: a, b) | None => None end
       end.
(** [str::replace], for a non-empty pattern; fuel = length of the string. *)
Fixpoint replace_all (fuel : nat) (old new s : ustr) : ustr :=
  match fuel with
  | O => s
  | S f => match find_str old s with
           | None => s
           | Some (a, b) => a ++ new ++ replace_all f old new (skipn (List.length old) b)
           end
  end.
(** The old calendar extension: from the position found, up to and including the fourth hyphen, or up to the end. *)
Fixpoint upto_hyphens (n : nat) (s : ustr) : ustr * bool :=
  match s with
  | [] => ([], false)
  | c :: r =>
      if N.eqb c (ch "-") then
        match n with
        | O => ([c], true)
        | S n' => let (x, b) := upto_hyphens n' r in (c :: x, b)
        end
      else let (x, b) := upto_hyphens n r in (c :: x, b)
  end.
Definition calendar_locale (locale cal : ustr) : ustr :=
  let new := us "-u-ca-" ++ cal in
  match find_str (us "-u-ca-") locale with
  | None => locale ++ new
  | Some (_, rest) =>
      let (old, more) := upto_hyphens 3 rest in
      replace_all (List.length locale) old (if more then new ++ us "-" else new) locale
  end.

(** ** Building a formatter *)

Definition ft {A} (x : outcome tree_error A) : fout A := map_err FTree x.

(** [tree.token(&tree.tokens(i).unwrap()[0])], formatter.rs 113 etc. *)
Definition first_token (tr : tree) (i : nat) : fout ustr :=
  let! o := ft (tree_tokens tr i) in
  let! toks := unwrap o in
  let! j := unwrap (nth_error toks 0) in
  let! t := ft (tree_token tr j) in
  Ok (t_string t).

(** formatter.rs 1029-1032 and 1307-1310: the strings of all tokens of a node. *)
Fixpoint tokens_text (tr : tree) (toks : list nat) : fout ustr :=
  match toks with
  | [] => Ok []
  | j :: r => let! t := ft (tree_token tr j) in let! s := tokens_text tr r in Ok (t_string t ++ s)
  end.
Definition node_text (tr : tree) (i : nat) : fout ustr :=
  let! o := ft (tree_tokens tr i) in let! toks := unwrap o in tokens_text tr toks.

(** formatter.rs 1330-1361 [pattern_selectors]. Line 1350 takes the *first* child again where the second is meant. *)
Fixpoint selector_pairs (tr : tree) (cs : list nat) (pairs : amap ustr) : fout (amap ustr) :=
  match cs with
  | [] => Ok pairs
  | c :: r =>
      let! ty := ft (tree_node_type tr c) in
      if negb (ntype_eqb ty NSelector) then Err (FNodeNotFound NSelector) else
      let! o := ft (tree_first tr c) in
      let! first := unwrap o in
      let! ty1 := ft (tree_node_type tr first) in
      if negb (ntype_eqb ty1 NIdentifier) then Err (FNodeNotFound NIdentifier) else
      let! first_tok := first_token tr first in
      let! o' := ft (tree_first tr c) in
      let! last := unwrap o' in
      let! ty2 := ft (tree_node_type tr last) in
      if negb (ntype_eqb ty2 NIdentifier) then Err (FNodeNotFound NIdentifier) else
      let! last_tok := first_token tr last in
      selector_pairs tr r (minsert first_tok last_tok pairs)
  end.
Definition pattern_selectors (tr : tree) (i : nat) : fout (amap ustr) :=
  let! cs := ft (tree_children tr i) in selector_pairs tr (skipn 2 cs) [].

(** formatter.rs 1076-1088: the options of [decimal]. The iteration order of the [HashMap] is taken to be the order of
    insertion; it decides only which of several errors is reported. *)
Fixpoint decimal_options (ph : ustr) (l : amap ustr) (sign : option sign_opt) (group : option group_opt)
  : fout (option sign_opt * option group_opt) :=
  match l with
  | [] => Ok (sign, group)
  | (k, v) :: r =>
      if ueqb k (us "sign") then let! x := sign_display v in decimal_options ph r (Some x) group
      else if ueqb k (us "group") then let! x := decimal_grouping_display v in decimal_options ph r sign (Some x)
      else Err (FInvalidOption v (us "decimal") ph)
  end.

(** formatter.rs 1100-1166: the options of [date_time]. *)
Fixpoint date_time_options (fe : fmtenv) (locale ph : ustr) (l : amap ustr) (ld lt : option len_opt) (cal : option ustr)
  : fout (option len_opt * option len_opt * option ustr) :=
  match l with
  | [] => Ok (ld, lt, cal)
  | (k, v) :: r =>
      if ueqb k (us "date") then let! x := date_length v in date_time_options fe locale ph r (Some x) lt cal
      else if ueqb k (us "time") then let! x := time_length v in date_time_options fe locale ph r ld (Some x) cal
      else if ueqb k (us "calendar") then
        if negb (umem v calendars) then Err (FInvalidOption v (us "ordinal") ph) else
        let! c := ok_or (fe_locale fe (calendar_locale locale v)) FIcu in
        date_time_options fe locale ph r ld lt (Some c)
      else Err (FInvalidOption v (us "date-time") ph)
  end.

(** formatter.rs 1173-1194 / 1210-1231: the selectors of [ordinal] and [plural]; [known] are the keys of [patterns].
    Returns whether the selector [other] is present. *)
Fixpoint plural_checks (kw ph : ustr) (known : list ustr) (l : amap ustr) (other : bool) : fout bool :=
  match l with
  | [] => Ok other
  | (sel, named) :: r =>
      if negb (umem sel valid_plurals) then Err (FInvalidSelector sel kw ph)
      else if negb (umem named known) then Err (FSelectorNamed named sel ph)
      else plural_checks kw ph known r (other || ueqb sel (us "other"))
  end.
(** formatter.rs 1247-1255: the selectors of [select]. *)
Fixpoint select_checks (ph : ustr) (known : list ustr) (l : amap ustr) : fout unit :=
  match l with
  | [] => Ok tt
  | (sel, named) :: r =>
      if negb (umem named known) then Err (FSelectorNamed named sel ph) else select_checks ph known r
  end.

(** State of the construction that outlives a string: [numbers] and [selectors]; [patterns] is passed separately. *)
Definition bst := (list ustr * list (amap ustr))%type.

Definition plural_part (kw ph : ustr) (c : complex) (known : list ustr) (strings : amap ustr) (b : bst)
  : fout (ppart * bst) :=
  let! other := plural_checks kw ph known strings false in
  if negb other then Err (FSelectorOther kw ph)
  else Ok (PtComplex ph c (List.length (snd b)), (fst b, snd b ++ [strings])).

(** formatter.rs 1037-1266 [part_pattern]; the part to push is returned. *)
Definition part_pattern (fe : fmtenv) (locale : ustr) (known : list ustr) (tr : tree) (i : nat) (b : bst)
  : fout (ppart * bst) :=
  let! cs := ft (tree_children tr i) in
  match cs with
  | [] => Err (FNoChildren NPattern)
  | p :: r =>
      let! ty := ft (tree_node_type tr p) in
      if negb (ntype_eqb ty NIdentifier) then Err (FNodeNotFound NIdentifier) else
      let! ph := first_token tr p in
      match r with
      | [] => Ok (PtString ph, b)
      | k :: _ =>
          let! tyk := ft (tree_node_type tr k) in
          if negb (ntype_eqb tyk NIdentifier) then Err (FNodeNotFound NIdentifier) else
          let! kw := first_token tr k in
          if ueqb kw (us "decimal") then
            let! strings := pattern_selectors tr i in
            let! (sign, group) := decimal_options ph strings None None in
            Ok (PtDecimal ph sign group, b)
          else if ueqb kw (us "date_time") then
            let! strings := pattern_selectors tr i in
            let! (ld, lt, cal) := date_time_options fe locale ph strings None None None in
            Ok (PtDateTime ph ld lt cal, b)
          else if ueqb kw (us "ordinal") then
            let! strings := pattern_selectors tr i in plural_part kw ph KOrdinal known strings b
          else if ueqb kw (us "plural") then
            let! strings := pattern_selectors tr i in plural_part kw ph KPlural known strings b
          else if ueqb kw (us "select") then
            let! strings := pattern_selectors tr i in
            let! _ := select_checks ph known strings in
            Ok (PtComplex ph KSelect (List.length (snd b)), (fst b, snd b ++ [strings]))
          else Err (FInvalidKeyword kw ph)
      end
  end.

(** formatter.rs 1299-1315: the parameters of a command. *)
Fixpoint command_parameters (tr : tree) (cs : list nat) : fout (list pvalue) :=
  match cs with
  | [] => Ok []
  | c :: r =>
      let! ty := ft (tree_node_type tr c) in
      if ntype_eqb ty NIdentifier then
        let! s := first_token tr c in let! l := command_parameters tr r in Ok (VString s :: l)
      else if ntype_eqb ty NText then
        let! s := node_text tr c in let! l := command_parameters tr r in Ok (VString s :: l)
      else Err (FInvalidNode NCommand)
  end.

(** formatter.rs 1269-1328 [part_command] *)
Definition part_command (reg : cregistry) (tr : tree) (i : nat) : fout ppart :=
  let! cs := ft (tree_children tr i) in
  match cs with
  | [] => Err (FNoChildren NPattern)
  | c :: r =>
      let! ty := ft (tree_node_type tr c) in
      if negb (ntype_eqb ty NIdentifier) then Err (FNodeNotFound NIdentifier) else
      let! name := first_token tr c in
      let! (delay, rest) := (match r with
                             | [] => Ok (false, [])
                             | x :: r' => let! tx := ft (tree_node_type tr x) in
                                          Ok (if ntype_eqb tx NNumberSign then (true, r') else (false, r))
                             end) in
      let! ps := command_parameters tr rest in
      if delay : bool then Ok (PtCommand (VString name :: ps))
      else
        let! f := map_err FCommand (creg_command reg name) in
        let! s := map_err FCommand (f (VString name :: ps)) in
        Ok (PtText s)
  end.

(** One child of a string node, formatter.rs 125-152 (named strings) and 164-180 (main string, [main = true], where a
    number sign is an error). *)
Definition part_child (fe : fmtenv) (reg : cregistry) (locale : ustr) (known : list ustr) (main : bool) (tr : tree)
  (i : nat) (b : bst) : fout (ppart * bst) :=
  let! ty := ft (tree_node_type tr i) in
  if ntype_eqb ty NText then let! s := node_text tr i in Ok (PtText s, b)
  else if ntype_eqb ty NNumberSign && negb main
  then Ok (PtNumberSign (List.length (fst b)), (fst b ++ [[]], snd b))
  else if ntype_eqb ty NPattern then part_pattern fe locale known tr i b
  else if ntype_eqb ty NCommand then let! p := part_command reg tr i in Ok (p, b)
  else Err (FInvalidNode NString).

Fixpoint string_parts (fe : fmtenv) (reg : cregistry) (locale : ustr) (known : list ustr) (main : bool) (tr : tree)
  (cs : list nat) (b : bst) : fout (list ppart * bst) :=
  match cs with
  | [] => Ok ([], b)
  | c :: r =>
      let! (p, b1) := part_child fe reg locale known main tr c b in
      let! (ps, b2) := string_parts fe reg locale known main tr r b1 in
      Ok (p :: ps, b2)
  end.

(** formatter.rs 105-155: the named strings. *)
Fixpoint named_strings (fe : fmtenv) (reg : cregistry) (locale : ustr) (tr : tree) (ns : list nat)
  (patterns : amap (list ppart)) (b : bst) : fout (amap (list ppart) * bst) :=
  match ns with
  | [] => Ok (patterns, b)
  | n :: r =>
      let! o := ft (tree_first tr n) in
      let! first := unwrap o in
      let! id := first_token tr first in
      if mhas id patterns then Err (FNamedStringIdentifier id) else
      let! o' := ft (tree_last tr n) in
      let! last := unwrap o' in
      let! cs := ft (tree_children tr last) in
      let! (parts, b1) := string_parts fe reg locale (mkeys patterns) false tr cs b in
      named_strings fe reg locale tr r (minsert id parts patterns) b1
  end.

(** formatter.rs 75-187: the rest of [try_new], for a parsed tree. [tag] is the language tag and [locale] what
    [icu_language] gives for it. *)
Definition formatter_of_tree (fe : fmtenv) (reg : cregistry) (tag locale : ustr) (tr : tree) : fout formatter :=
  if negb (tr_has_grammar tr) then Err FNoGrammar else
  let! ty := ft (tree_node_type tr 0) in
  if negb (ntype_eqb ty NRoot) then Err FInvalidRoot else
  let! root := ft (tree_children tr 0) in
  let patterns := [(us "_", [])] in
  let! (patterns1, b1) := (match root with
                           | _ :: g :: _ =>
                               let! ns := ft (tree_children tr g) in
                               named_strings fe reg locale tr ns patterns ([], [])
                           | _ => Ok (patterns, ([], []))
                           end) in
  let! m := unwrap (nth_error root 0) in
  let! cs := ft (tree_children tr m) in
  let! (parts, b2) := string_parts fe reg locale (mkeys patterns1) true tr cs b1 in
  Ok (mk_formatter tag locale (minsert (us "_") parts patterns1) (fst b2) (snd b2)).

(** formatter.rs 56-187 [Formatter::try_new]; [grammar] is the grammar of the localiser (localiser.rs 145). *)
Definition formatter_try_new (d : icu) (grammar : ustr) (fe : fmtenv) (reg : cregistry) (tag locale s : ustr)
  : fout formatter :=
  let! tr := ft (tree_try_new d s grammar) in formatter_of_tree fe reg tag locale tr.

(** ** Formatting *)

(** [numbers] is the only mutable part; it keeps its contents when formatting fails. *)
Definition nums := list ustr.
Definition fst_out (A : Type) := (nums * fout A)%type.

(** formatter.rs 248-253: the text of a string value. *)
Definition text_of (kind : ustr) (v : pvalue) : fout ustr := ok_or (value_text v) (FInvalidValue kind).

(** The number of a value: formatter.rs 277-312 and 405-443. *)
Definition number_of (fe : fmtenv) (kind : ustr) (v : pvalue) : fout decimal :=
  match v with
  | VDecimal d => Ok d
  | VUnsigned n => Ok (fe_unsigned fe n)
  | VInteger z => Ok (fe_integer fe z)
  | VFloat bits => ok_or (fe_float fe bits) FIcu
  | _ => Err (FInvalidValue kind)
  end.

(** formatter.rs 255-315 [PatternDecimal] *)
Definition format_decimal (fe : fmtenv) (locale : ustr) (sign : option sign_opt) (group : option group_opt) (v : pvalue)
  : fout ustr :=
  let! fdf := ok_or (fe_decimal fe locale group) FIcu in
  let! d := number_of fe (us "PatternDecimal") v in
  Ok (fdf (match sign with Some s => fe_sign fe s d | None => d end)).

(** formatter.rs 316-390 [PatternDateTime] *)
Definition format_date_time (fe : fmtenv) (locale : ustr) (ld lt : option len_opt) (cal : option ustr) (v : pvalue)
  : fout ustr :=
  let ld' := match ld with Some x => x | None => LnMedium end in
  let lt' := match lt with Some x => x | None => LnMedium end in
  let loc := match cal with Some c => c | None => locale end in
  let go_time t := let! f := ok_or (fe_time fe loc lt') FIcu in Ok (f t) in
  let go_date d := let! f := ok_or (fe_date fe loc ld') FIcu in ok_or (f d) FIcu in
  let go_both d t := let! f := ok_or (fe_datetime fe loc ld' lt') FIcu in ok_or (f d t) FIcu in
  match v with
  | VDateTime d t => go_both d t
  | VDate d => go_date d
  | VTime t => go_time t
  | VString s =>
      match split_on (ch "T") s with
      | [a; b] =>
          match a with
          | [] => let! t := map_err FIso (decompose_iso_time b) in go_time t
          | _ => let! d := map_err FIso (decompose_iso_date (fe_valid_date fe) a) in
                 let! t := map_err FIso (decompose_iso_time b) in go_both d t
          end
      | a :: _ => let! d := map_err FIso (decompose_iso_date (fe_valid_date fe) a) in go_date d
      | [] => Panic                                                                    (* not possible *)
      end
  | _ => Err (FInvalidValue (us "PatternDateTime"))
  end.

(** formatter.rs 539-573 [Command]: parameters that are names of values are replaced. *)
Fixpoint delayed_parameters (vals : amap pvalue) (l : list pvalue) : fout (list pvalue) :=
  match l with
  | [] => Ok []
  | VString s :: r =>
      let! ps := delayed_parameters vals r in
      Ok ((match mget s vals with Some v => v | None => VString s end) :: ps)
  | _ :: _ => Err FNeverReached
  end.
Definition format_command (reg : cregistry) (vals : amap pvalue) (strings : list pvalue) : fout ustr :=
  match strings with
  | [] => Panic
  | VString name :: r =>
      let! ps := delayed_parameters vals r in
      let! f := map_err FCommand (creg_command reg name) in
      map_err FCommand (f (VString name :: ps))
  | _ :: _ => Err FNeverReached
  end.

(** formatter.rs 662-672 [update_number_part], for all number signs of a pattern (613-631). *)
Fixpoint update_numbers (parts : list ppart) (x : ustr) (ns : nums) : fst_out unit :=
  match parts with
  | [] => (ns, Ok tt)
  | PtNumberSign i :: r =>
      if i <? List.length ns then update_numbers r x (lset ns i x) else (ns, Err (FNumberSignString i))
  | _ :: r => update_numbers r x ns
  end.

Section Format.
  Variables (fe : fmtenv) (reg : cregistry) (fm : formatter) (vals : amap pvalue).

  (** formatter.rs 581-637 [find_number_sign]; [rec] is [format_pattern]. *)
  Definition find_number_sign (rec : ustr -> nums -> fst_out ustr) (d : decimal) (rules : decimal -> category)
    (idx : nat) (ns : nums) : fst_out ustr :=
    match fe_decimal fe (fm_locale fm) None with
    | None => (ns, Err FIcu)
    | Some fdf =>
        let number := fdf d in
        let cat := plural_category (rules d) in
        match nth_error (fm_selectors fm) idx with
        | None => (ns, Err (FSelectorsIndex idx))
        | Some sels =>
            match mget cat sels with
            | None => (ns, Err (FSelectorsIndexNamed cat idx))
            | Some named =>
                match mget named (fm_patterns fm) with
                | None => (ns, Err (FPatternNamed named))
                | Some parts =>
                    match update_numbers parts number ns with
                    | (ns1, Ok _) => rec named ns1
                    | (ns1, Err e) => (ns1, Err e)
                    | (ns1, _) => (ns1, Panic)
                    end
                end
            end
        end
    end.

  (** formatter.rs 639-660 [select] *)
  Definition format_select (rec : ustr -> nums -> fst_out ustr) (v : ustr) (idx : nat) (ns : nums) : fst_out ustr :=
    match nth_error (fm_selectors fm) idx with
    | None => (ns, Err (FSelectorsIndex idx))
    | Some sels =>
        match mget v sels with
        | None => (ns, Err (FSelectorsIndexNamed v idx))
        | Some named => rec named ns
        end
    end.

  (** formatter.rs 391-529 [PatternComplex] *)
  Definition format_complex (rec : ustr -> nums -> fst_out ustr) (c : complex) (v : pvalue) (idx : nat) (ns : nums)
    : fst_out ustr :=
    match c with
    | KPlural =>
        match fe_cardinal fe (fm_locale fm) with
        | None => (ns, Err FIcu)
        | Some rules =>
            match number_of fe (us "PatternPlural") v with
            | Ok d => find_number_sign rec d rules idx ns
            | Err e => (ns, Err e)
            | Panic => (ns, Panic)
            | NoFuel => (ns, NoFuel)
            end
        end
    | KOrdinal =>
        match fe_ordinal fe (fm_locale fm) with
        | None => (ns, Err FIcu)
        | Some rules =>
            match v with
            | VUnsigned n => find_number_sign rec (fe_unsigned fe n) rules idx ns
            | _ => (ns, Err (FInvalidValue (us "PatternOrdinal")))
            end
        end
    | KSelect =>
        match value_text v with
        | Some s => format_select rec s idx ns
        | None => (ns, Err (FInvalidValue (us "PatternSelect")))
        end
    end.

  (** A placeholder's value, or the error of formatter.rs 242-247 etc. *)
  Definition value_of (kind ph : ustr) : fout pvalue := ok_or (mget ph vals) (FPlaceholderValue kind ph).

  (** The body of the loop of [format_pattern], formatter.rs 226-575. *)
  Definition format_part (rec : ustr -> nums -> fst_out ustr) (p : ppart) (ns : nums) : fst_out ustr :=
    match p with
    | PtText s => (ns, Ok s)
    | PtString ph =>
        (ns, let! v := value_of (us "PatternString") ph in text_of (us "PatternString") v)
    | PtDecimal ph sign group =>
        (ns, let! v := value_of (us "PatternDecimal") ph in format_decimal fe (fm_locale fm) sign group v)
    | PtDateTime ph ld lt cal =>
        (ns, let! v := value_of (us "PatternDateTime") ph in format_date_time fe (fm_locale fm) ld lt cal v)
    | PtComplex ph c idx =>
        match mget ph vals with
        | None => (ns, Err (FPlaceholderValue (us "PatternComplex") ph))
        | Some v => format_complex rec c v idx ns
        end
    | PtNumberSign i => (ns, ok_or (nth_error ns i) (FNumberSignString i))
    | PtCommand strings => (ns, format_command reg vals strings)
    end.

  (** The loop of [format_pattern]. [patterns] does not change while formatting, so looking a part up by index
      (201-208, 223-225) is going through the list. *)
  Fixpoint format_parts (rec : ustr -> nums -> fst_out ustr) (parts : list ppart) (ns : nums) : fst_out ustr :=
    match parts with
    | [] => (ns, Ok [])
    | p :: r =>
        match format_part rec p ns with
        | (ns1, Ok s) =>
            match format_parts rec r ns1 with
            | (ns2, Ok s') => (ns2, Ok (s ++ s'))
            | other => other
            end
        | other => other
        end
    end.

  (** formatter.rs 210-578 [format_pattern]; fuel bounds the depth of the recursion. *)
  Fixpoint format_pattern (fuel : nat) (named : ustr) (ns : nums) : fst_out ustr :=
    match fuel with
    | O => (ns, NoFuel)
    | S f =>
        match mget named (fm_patterns fm) with
        | None => (ns, Err (FPatternNamed named))
        | Some parts => format_parts (format_pattern f) parts ns
        end
    end.
End Format.

Definition set_numbers (fm : formatter) (ns : nums) : formatter :=
  mk_formatter (fm_tag fm) (fm_locale fm) (fm_patterns fm) ns (fm_selectors fm).

(** formatter.rs 190-197 [format]: the text and the formatter afterwards; the language tag returned is [fm_tag]. *)
Definition format (fuel : nat) (fe : fmtenv) (reg : cregistry) (fm : formatter) (vals : amap pvalue)
  : formatter * fout ustr :=
  let (ns, r) := format_pattern fe reg fm vals fuel (us "_") (fm_numbers fm) in (set_numbers fm ns, r).
