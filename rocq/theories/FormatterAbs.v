(** The formatter as a function of the abstract content of a pattern string; proof device. [FormatterRefine] shows that
    building a formatter from a tree with content [a] and formatting with it behave exactly like the functions here.
    There are no node indices, number slots or selector indices: all number signs of one named string always hold the
    same text, so the state is one text per named string. *)
From Verif Require Import Base BaseFacts LexerModel TreeModel TreeSpec ValueModel CommandModel IsoModel FormatterModel.

(** The selector map as [pattern_selectors] builds it: every selector is mapped to itself. *)
Definition pairs_from (m : amap ustr) (sels : list (ustr * ustr)) : amap ustr :=
  fold_left (fun acc x => minsert (fst x) (fst x) acc) sels m.
Definition pairs (sels : list (ustr * ustr)) : amap ustr := pairs_from [] sels.

Definition cmd_args (ps : list sparam) : fout (list pvalue) :=
  fold_right (fun p acc =>
    match p with
    | SId w => let! l := acc in Ok (VString w :: l)
    | SDelay => Err (FInvalidNode NCommand)
    end) (Ok []) ps.

(** The name, whether delayed, and the arguments of a command. *)
Definition cmd_parts (ps : list sparam) : fout (ustr * bool * list pvalue) :=
  match ps with
  | [] => Err (FNoChildren NPattern)
  | SDelay :: _ => Err (FNodeNotFound NIdentifier)
  | SId name :: SDelay :: r => let! l := cmd_args r in Ok (name, true, l)
  | SId name :: r => let! l := cmd_args r in Ok (name, false, l)
  end.

Definition run_command (reg : cregistry) (name : ustr) (l : list pvalue) : fout ustr :=
  let! f := map_err FCommand (creg_command reg name) in map_err FCommand (f (VString name :: l)).

Section Abs.
  Variables (fe : fmtenv) (reg : cregistry) (locale : ustr).

  (** ** Construction *)
  Definition kw_check (known : list ustr) (ph kw : ustr) (strings : amap ustr) : fout unit :=
    if ueqb kw (us "decimal") then let! _ := decimal_options ph strings None None in Ok tt
    else if ueqb kw (us "date_time") then let! _ := date_time_options fe locale ph strings None None None in Ok tt
    else if ueqb kw (us "ordinal") || ueqb kw (us "plural") then
      let! other := plural_checks kw ph known strings false in
      if negb other then Err (FSelectorOther kw ph) else Ok tt
    else if ueqb kw (us "select") then select_checks ph known strings
    else Err (FInvalidKeyword kw ph).

  Definition item_check (known : list ustr) (main : bool) (x : sitem) : fout unit :=
    match x with
    | SText _ => Ok tt
    | SHash => if main then Err (FInvalidNode NString) else Ok tt
    | SPat _ None => Ok tt
    | SPat ph (Some (kw, sels)) => kw_check known ph kw (pairs sels)
    | SCmd ps =>
        let! (name, delay, l) := cmd_parts ps in
        if delay : bool then Ok tt else let! _ := run_command reg name l in Ok tt
    end.
  Fixpoint items_check (known : list ustr) (main : bool) (l : list sitem) : fout unit :=
    match l with
    | [] => Ok tt
    | x :: r => let! _ := item_check known main x in items_check known main r
    end.
  Fixpoint group_check (known : list ustr) (l : list (ustr * list sitem)) : fout (list ustr) :=
    match l with
    | [] => Ok known
    | (id, x) :: r =>
        if umem id known then Err (FNamedStringIdentifier id) else
        let! _ := items_check known false x in group_check (known ++ [id]) r
    end.
  Definition content_check (a : sast) : fout unit :=
    let! known := group_check [us "_"] (group_of a) in items_check known true (fst a).

  (** ** Formatting *)

  (** All strings of the content by name, the main string as [_]. *)
  Definition strings_of (a : sast) : amap (list sitem) := (us "_", fst a) :: group_of a.

  (** The number text of each named string. *)
  Definition numst := ustr -> ustr.
  Definition upd (st : numst) (k v : ustr) : numst := fun x => if ueqb x k then v else st x.
  Definition aout := (numst * fout ustr)%type.

  Variable vals : amap pvalue.

  Definition avalue (kind ph : ustr) : fout pvalue := ok_or (mget ph vals) (FPlaceholderValue kind ph).

  Definition anumber (rec : ustr -> numst -> aout) (strs : amap (list sitem)) (sels : list (ustr * ustr)) (d : decimal)
    (rules : decimal -> category) (st : numst) : aout :=
    match fe_decimal fe locale None with
    | None => (st, Err FIcu)
    | Some fdf =>
        let cat := plural_category (rules d) in
        match mget cat (pairs sels) with
        | None => (st, Err (FSelectorsIndexNamed cat 0))
        | Some named =>
            match mget named strs with
            | None => (st, Err (FPatternNamed named))
            | Some _ => rec named (upd st named (fdf d))
            end
        end
    end.

  Definition akw (rec : ustr -> numst -> aout) (strs : amap (list sitem)) (ph kw : ustr) (sels : list (ustr * ustr))
    (st : numst) : aout :=
    if ueqb kw (us "decimal") then
      (st, let! v := avalue (us "PatternDecimal") ph in
           let! (sign, group) := decimal_options ph (pairs sels) None None in
           format_decimal fe locale sign group v)
    else if ueqb kw (us "date_time") then
      (st, let! v := avalue (us "PatternDateTime") ph in
           let! (ld, lt, cal) := date_time_options fe locale ph (pairs sels) None None None in
           format_date_time fe locale ld lt cal v)
    else
      match mget ph vals with
      | None => (st, Err (FPlaceholderValue (us "PatternComplex") ph))
      | Some v =>
          if ueqb kw (us "ordinal") then
            match fe_ordinal fe locale with
            | None => (st, Err FIcu)
            | Some rules =>
                match v with
                | VUnsigned n => anumber rec strs sels (fe_unsigned fe n) rules st
                | _ => (st, Err (FInvalidValue (us "PatternOrdinal")))
                end
            end
          else if ueqb kw (us "plural") then
            match fe_cardinal fe locale with
            | None => (st, Err FIcu)
            | Some rules =>
                match number_of fe (us "PatternPlural") v with
                | Ok d => anumber rec strs sels d rules st
                | Err e => (st, Err e)
                | Panic => (st, Panic)
                | NoFuel => (st, NoFuel)
                end
            end
          else
            match value_text v with
            | None => (st, Err (FInvalidValue (us "PatternSelect")))
            | Some s =>
                match mget s (pairs sels) with
                | None => (st, Err (FSelectorsIndexNamed s 0))
                | Some named => rec named st
                end
            end
      end.

  (** One item of the string called [self]. *)
  Definition aitem (rec : ustr -> numst -> aout) (strs : amap (list sitem)) (self : ustr) (x : sitem) (st : numst)
    : aout :=
    match x with
    | SText w => (st, Ok w)
    | SHash => (st, Ok (st self))
    | SPat ph None => (st, let! v := avalue (us "PatternString") ph in text_of (us "PatternString") v)
    | SPat ph (Some (kw, sels)) => akw rec strs ph kw sels st
    | SCmd ps =>
        (st, let! (name, delay, l) := cmd_parts ps in
             if delay : bool then format_command reg vals (VString name :: l) else run_command reg name l)
    end.

  Fixpoint aitems (rec : ustr -> numst -> aout) (strs : amap (list sitem)) (self : ustr) (l : list sitem) (st : numst)
    : aout :=
    match l with
    | [] => (st, Ok [])
    | x :: r =>
        match aitem rec strs self x st with
        | (st1, Ok s) =>
            match aitems rec strs self r st1 with
            | (st2, Ok s') => (st2, Ok (s ++ s'))
            | other => other
            end
        | other => other
        end
    end.

  Fixpoint astring (fuel : nat) (strs : amap (list sitem)) (named : ustr) (st : numst) : aout :=
    match fuel with
    | O => (st, NoFuel)
    | S f =>
        match mget named strs with
        | None => (st, Err (FPatternNamed named))
        | Some l => aitems (astring f strs) strs named l st
        end
    end.
End Abs.

(** Errors without the internal index of the selector map. *)
Definition erase (e : formatter_error) : formatter_error :=
  match e with FSelectorsIndexNamed s _ => FSelectorsIndexNamed s 0 | _ => e end.
