(** What a text is made of (C95): the words of its pattern string and texts that are supplied for its places, taken as they
    are. Independent of the formatter. *)
From Verif Require Import Base LexerModel TreeSpec ValueModel CommandModel IsoModel FormatterModel FormatterSpec TwinSpec.

(** Where a supplied text comes from: the value of a placeholder, the answer of a command (with or without delay) to the words
    after its name, the numeral of a number, the text of a date or time. *)
Inductive source :=
| FromValue (ph : ustr)
| FromCommand (delayed : bool) (name : ustr) (args : list ustr)
| FromNumber (d : decimal)
| FromMoment (m : moment).

(** A text in which the supplied parts are left open. *)
Inductive chunk := Word (w : ustr) | Supplied (s : source).
Definition filled (x : source -> ustr) (l : list chunk) : ustr :=
  List.concat (map (fun c => match c with Word w => w | Supplied s => x s end) l).
Definition item_of (a : sast) (x : sitem) : Prop := exists name body, In (name, body) (all_strings a) /\ In x body.
(** The pattern string has a place for it. *)
Definition own_chunk (a : sast) (c : chunk) : Prop :=
  match c with
  | Word w => item_of a (SText w)
  | Supplied (FromValue ph) => item_of a (SPat ph None)
  | Supplied (FromCommand false name args) => item_of a (SCmd (SId name :: map SId args))
  | Supplied (FromCommand true name args) => item_of a (SCmd (SId name :: SDelay :: map SId args))
  | Supplied (FromNumber _) => exists ph kw sels, item_of a (SPat ph (Some (kw, sels))) /\ In kw [us "decimal"; us "plural"; us "ordinal"]
  | Supplied (FromMoment _) => exists ph, item_of a (SPat ph (Some (us "date_time", [])))
  end.
Definition own_chunks (a : sast) (l : list chunk) : Prop := forall c, In c l -> own_chunk a c.

(** What a setting supplies, nothing where there is nothing. *)
Definition supplied (S : setting) (s : source) : ustr :=
  match s with
  | FromValue ph => match mget ph (se_values S) with Some v => match text_value v with Some t => t | None => [] end | None => [] end
  | FromCommand delayed name args =>
      match mget name (se_commands S) with
      | Some f => match f (VString name :: map (if delayed then parameter (se_values S) else VString) args) with Ok t => t | _ => [] end
      | None => []
      end
  | FromNumber d => match fe_decimal (se_env S) (se_locale S) None with Some f => f d | None => [] end
  | FromMoment (MDate d) =>
      match fe_date (se_env S) (se_locale S) LnMedium with Some f => match f d with Some t => t | None => [] end | None => [] end
  | FromMoment (MTime t) => match fe_time (se_env S) (se_locale S) LnMedium with Some f => f t | None => [] end
  | FromMoment (MBoth d t) =>
      match fe_datetime (se_env S) (se_locale S) LnMedium LnMedium with Some f => match f d t with Some t => t | None => [] end | None => [] end
  end.

(** Both supply a text or both do not. *)
Definition both_or_none (was is : ustr -> Prop) : Prop := (exists t, is t) <-> (exists t, was t).

(** Two settings in which the same choices are made in a pattern string: the same locale, the same numbers and plural categories,
    the same values for the placeholders that have a keyword; and where the one supplies a text so does the other, in general a
    different one. *)
Record same_choices (a : sast) (S0 S : setting) : Prop := {
  sc_locale : se_locale S = se_locale S0;
  sc_unsigned : fe_unsigned (se_env S) = fe_unsigned (se_env S0);
  sc_integer : fe_integer (se_env S) = fe_integer (se_env S0);
  sc_float : fe_float (se_env S) = fe_float (se_env S0);
  sc_valid : fe_valid_date (se_env S) = fe_valid_date (se_env S0);
  sc_cardinal : fe_cardinal (se_env S) (se_locale S) = fe_cardinal (se_env S0) (se_locale S0);
  sc_ordinal : fe_ordinal (se_env S) (se_locale S) = fe_ordinal (se_env S0) (se_locale S0);
  sc_keyword : forall ph kw, item_of a (SPat ph (Some kw)) -> mget ph (se_values S) = mget ph (se_values S0);
  sc_value : forall ph, item_of a (SPat ph None) -> both_or_none (shows_text (se_values S0) ph) (shows_text (se_values S) ph);
  sc_command : forall name args, item_of a (SCmd (SId name :: map SId args)) ->
    both_or_none (answers (se_commands S0) name (map VString args)) (answers (se_commands S) name (map VString args));
  sc_delayed : forall name args, item_of a (SCmd (SId name :: SDelay :: map SId args)) ->
    both_or_none (answers (se_commands S0) name (map (parameter (se_values S0)) args)) (answers (se_commands S) name (map (parameter (se_values S)) args));
  sc_number : fe_decimal (se_env S0) (se_locale S0) None = None <-> fe_decimal (se_env S) (se_locale S) None = None;
  sc_moment : forall m, both_or_none (shown (se_env S0) (se_locale S0) m) (shown (se_env S) (se_locale S) m)
}.
