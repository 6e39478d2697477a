(** The formatter with commands that have effects. A user defined command is a Rust function (command.rs 35-37: [fn(Vec<
    PlaceholderValue>) -> Result<String, CommandError>]), which may read and change what is outside of it. [CommandModel]
    takes a command as a function of its parameters; here it also gets and returns a state of the world [W], so that it
    matters when and how often commands are called. Only functions on the way to a command are modelled again; for all
    others see [FormatterModel]. *)
From Verif Require Import Base LexerModel TreeModel ValueModel CommandModel IsoModel FormatterModel.

Section Calls.
  Context {W : Type}.
  Definition wcommand := list pvalue -> W -> W * cout ustr.
  (** command.rs 35-37 [CommandRegistry] *)
  Definition wregistry := amap wcommand.
  Definition wout (A : Type) := (W * fout A)%type.
  (** The operator [?] of Rust. *)
  Definition wbind {A B} (x : wout A) (f : A -> W -> wout B) : wout B :=
    match x with
    | (w, Ok a) => f a w
    | (w, Err e) => (w, Err e)
    | (w, Panic) => (w, Panic)
    | (w, NoFuel) => (w, NoFuel)
    end.
  (** command.rs 133-143 [command], and the call of the function found (formatter.rs 555-572, 1321-1327). *)
  Definition call (reg : wregistry) (name : ustr) (ps : list pvalue) (w : W) : wout ustr :=
    match mget name reg with
    | None => (w, Err (FCommand (NotFound name)))
    | Some f => let (w', r) := f (VString name :: ps) w in (w', map_err FCommand r)
    end.

  (** formatter.rs 1269-1317 of [part_command]: the name, whether delayed, and the parameters. *)
  Definition read_command (tr : tree) (i : nat) : fout (ustr * bool * list pvalue) :=
    let! cs := ft (tree_children tr i) in
    match cs with
    | [] => Err (FNoChildren NPattern)
    | c :: r =>
        let! ty := ft (tree_node_type tr c) in
        if negb (ntype_eqb ty NIdentifier) then Err (FNodeNotFound NIdentifier) else
        let! name := first_token tr c in
        let! (delay, rest) := (match r with
                               | [] => Ok (false, [])
                               | x :: r' => let! tx := ft (tree_node_type tr x) in
                                            Ok (if ntype_eqb tx NNumberSign then (true, r') else (false, r))
                               end) in
        let! ps := command_parameters tr rest in
        Ok (name, delay : bool, ps)
    end.
  (** formatter.rs 1269-1328 [part_command] *)
  Definition wpart_command (reg : wregistry) (tr : tree) (i : nat) (w : W) : wout ppart :=
    wbind (w, read_command tr i) (fun x w =>
      let '(name, delay, ps) := x in
      if delay : bool then (w, Ok (PtCommand (VString name :: ps)))
      else wbind (call reg name ps w) (fun s w => (w, Ok (PtText s)))).

  (** formatter.rs 125-152 and 164-180 *)
  Definition wpart_child (fe : fmtenv) (reg : wregistry) (locale : ustr) (known : list ustr) (main : bool) (tr : tree)
    (i : nat) (b : bst) (w : W) : wout (ppart * bst) :=
    wbind (w, ft (tree_node_type tr i)) (fun ty w =>
      if ntype_eqb ty NText then wbind (w, node_text tr i) (fun s w => (w, Ok (PtText s, b)))
      else if ntype_eqb ty NNumberSign && negb main
      then (w, Ok (PtNumberSign (List.length (fst b)), (fst b ++ [[]], snd b)))
      else if ntype_eqb ty NPattern then (w, part_pattern fe locale known tr i b)
      else if ntype_eqb ty NCommand then wbind (wpart_command reg tr i w) (fun p w => (w, Ok (p, b)))
      else (w, Err (FInvalidNode NString))).
  Fixpoint wstring_parts (fe : fmtenv) (reg : wregistry) (locale : ustr) (known : list ustr) (main : bool) (tr : tree)
    (cs : list nat) (b : bst) (w : W) : wout (list ppart * bst) :=
    match cs with
    | [] => (w, Ok ([], b))
    | c :: r =>
        wbind (wpart_child fe reg locale known main tr c b w) (fun x w =>
          wbind (wstring_parts fe reg locale known main tr r (snd x) w) (fun y w => (w, Ok (fst x :: fst y, snd y))))
    end.

  (** formatter.rs 105-155: the named strings. *)
  Fixpoint wnamed_strings (fe : fmtenv) (reg : wregistry) (locale : ustr) (tr : tree) (ns : list nat)
    (patterns : amap (list ppart)) (b : bst) (w : W) : wout (amap (list ppart) * bst) :=
    match ns with
    | [] => (w, Ok (patterns, b))
    | n :: r =>
        wbind (w, let! o := ft (tree_first tr n) in let! first := unwrap o in first_token tr first) (fun id w =>
        if mhas id patterns then (w, Err (FNamedStringIdentifier id)) else
        wbind (w, let! o' := ft (tree_last tr n) in let! last := unwrap o' in ft (tree_children tr last)) (fun cs w =>
        wbind (wstring_parts fe reg locale (mkeys patterns) false tr cs b w) (fun x w =>
        wnamed_strings fe reg locale tr r (minsert id (fst x) patterns) (snd x) w)))
    end.

  (** formatter.rs 75-187: the rest of [try_new], for a parsed tree. *)
  Definition wformatter_of_tree (fe : fmtenv) (reg : wregistry) (tag locale : ustr) (tr : tree) (w : W) : wout formatter :=
    if negb (tr_has_grammar tr) then (w, Err FNoGrammar) else
    wbind (w, ft (tree_node_type tr 0)) (fun ty w =>
    if negb (ntype_eqb ty NRoot) then (w, Err FInvalidRoot) else
    wbind (w, ft (tree_children tr 0)) (fun root w =>
    let patterns := [(us "_", [])] in
    wbind (match root with
           | _ :: g :: _ => wbind (w, ft (tree_children tr g)) (fun ns w => wnamed_strings fe reg locale tr ns patterns ([], []) w)
           | _ => (w, Ok (patterns, ([], [])))
           end) (fun x w =>
    wbind (w, let! m := unwrap (nth_error root 0) in ft (tree_children tr m)) (fun cs w =>
    wbind (wstring_parts fe reg locale (mkeys (fst x)) true tr cs (snd x) w) (fun y w =>
    (w, Ok (mk_formatter tag locale (minsert (us "_") (fst y) (fst x)) (fst (snd y)) (snd (snd y))))))))).
  (** formatter.rs 56-187 [Formatter::try_new] *)
  Definition wformatter_try_new (d : icu) (grammar : ustr) (fe : fmtenv) (reg : wregistry) (tag locale s : ustr) (w : W)
    : wout formatter :=
    wbind (w, ft (tree_try_new d s grammar)) (fun tr w => wformatter_of_tree fe reg tag locale tr w).

  (** ** Formatting *)
  (** formatter.rs 539-573 [Command] *)
  Definition wformat_command (reg : wregistry) (vals : amap pvalue) (strings : list pvalue) (w : W) : wout ustr :=
    match strings with
    | [] => (w, Panic)
    | VString name :: r => wbind (w, delayed_parameters vals r) (fun ps w => call reg name ps w)
    | _ :: _ => (w, Err FNeverReached)
    end.

  Section Format.
    Variables (fe : fmtenv) (reg : wregistry) (fm : formatter) (vals : amap pvalue).
    (** The numbers and the world are threaded together. *)
    Definition nwout := ((nums * W) * fout ustr)%type.

    (** formatter.rs 581-637 [find_number_sign] *)
    Definition wfind_number_sign (rec : ustr -> nums -> W -> nwout) (d : decimal) (rules : decimal -> category)
      (idx : nat) (ns : nums) (w : W) : nwout :=
      match fe_decimal fe (fm_locale fm) None with
      | None => ((ns, w), Err FIcu)
      | Some fdf =>
          let number := fdf d in
          let cat := plural_category (rules d) in
          match nth_error (fm_selectors fm) idx with
          | None => ((ns, w), Err (FSelectorsIndex idx))
          | Some sels =>
              match mget cat sels with
              | None => ((ns, w), Err (FSelectorsIndexNamed cat idx))
              | Some named =>
                  match mget named (fm_patterns fm) with
                  | None => ((ns, w), Err (FPatternNamed named))
                  | Some parts =>
                      match update_numbers parts number ns with
                      | (ns1, Ok _) => rec named ns1 w
                      | (ns1, Err e) => ((ns1, w), Err e)
                      | (ns1, _) => ((ns1, w), Panic)
                      end
                  end
              end
          end
      end.
    (** formatter.rs 639-660 [select] *)
    Definition wformat_select (rec : ustr -> nums -> W -> nwout) (v : ustr) (idx : nat) (ns : nums) (w : W) : nwout :=
      match nth_error (fm_selectors fm) idx with
      | None => ((ns, w), Err (FSelectorsIndex idx))
      | Some sels =>
          match mget v sels with
          | None => ((ns, w), Err (FSelectorsIndexNamed v idx))
          | Some named => rec named ns w
          end
      end.
    (** formatter.rs 391-529 [PatternComplex] *)
    Definition wformat_complex (rec : ustr -> nums -> W -> nwout) (c : complex) (v : pvalue) (idx : nat) (ns : nums) (w : W)
      : nwout :=
      match c with
      | KPlural =>
          match fe_cardinal fe (fm_locale fm) with
          | None => ((ns, w), Err FIcu)
          | Some rules =>
              match number_of fe (us "PatternPlural") v with
              | Ok d => wfind_number_sign rec d rules idx ns w
              | Err e => ((ns, w), Err e)
              | Panic => ((ns, w), Panic)
              | NoFuel => ((ns, w), NoFuel)
              end
          end
      | KOrdinal =>
          match fe_ordinal fe (fm_locale fm) with
          | None => ((ns, w), Err FIcu)
          | Some rules =>
              match v with
              | VUnsigned n => wfind_number_sign rec (fe_unsigned fe n) rules idx ns w
              | _ => ((ns, w), Err (FInvalidValue (us "PatternOrdinal")))
              end
          end
      | KSelect =>
          match value_text v with
          | Some s => wformat_select rec s idx ns w
          | None => ((ns, w), Err (FInvalidValue (us "PatternSelect")))
          end
      end.
    (** formatter.rs 226-575: the body of the loop. Parts without a branch or a command are formatted as before. *)
    Definition wformat_part (rec : ustr -> nums -> W -> nwout) (p : ppart) (ns : nums) (w : W) : nwout :=
      match p with
      | PtComplex ph c idx =>
          match mget ph vals with
          | None => ((ns, w), Err (FPlaceholderValue (us "PatternComplex") ph))
          | Some v => wformat_complex rec c v idx ns w
          end
      | PtCommand strings => let (w', r) := wformat_command reg vals strings w in ((ns, w'), r)
      | _ => let (ns', r) := format_part fe [] fm vals (fun _ ns => (ns, NoFuel)) p ns in ((ns', w), r)
      end.
    Fixpoint wformat_parts (rec : ustr -> nums -> W -> nwout) (parts : list ppart) (ns : nums) (w : W) : nwout :=
      match parts with
      | [] => ((ns, w), Ok [])
      | p :: r =>
          match wformat_part rec p ns w with
          | ((ns1, w1), Ok s) =>
              match wformat_parts rec r ns1 w1 with
              | (x, Ok s') => (x, Ok (s ++ s'))
              | other => other
              end
          | other => other
          end
      end.
    (** formatter.rs 210-578 [format_pattern] *)
    Fixpoint wformat_pattern (fuel : nat) (named : ustr) (ns : nums) (w : W) : nwout :=
      match fuel with
      | O => ((ns, w), NoFuel)
      | S f =>
          match mget named (fm_patterns fm) with
          | None => ((ns, w), Err (FPatternNamed named))
          | Some parts => wformat_parts (wformat_pattern f) parts ns w
          end
      end.
  End Format.

  (** formatter.rs 190-197 [format]: the world, the formatter afterwards, and the text. *)
  Definition wformat (fuel : nat) (fe : fmtenv) (reg : wregistry) (fm : formatter) (vals : amap pvalue) (w : W)
    : W * (formatter * fout ustr) :=
    let '((ns, w'), r) := wformat_pattern fe reg fm vals fuel (us "_") (fm_numbers fm) w in (w', (set_numbers fm ns, r)).
End Calls.
Arguments wcommand : clear implicits.
Arguments wregistry : clear implicits.
Arguments wout : clear implicits.

(** A command without effects as one with effects. *)
Definition without_effect {W} (f : command) : wcommand W := fun ps w => (w, f ps).
Definition without_effects {W} (reg : cregistry) : wregistry W := map (fun x => (fst x, without_effect (snd x))) reg.
