(** What the errors of building and using a formatter say about the pattern string and the values: the sentences of
    error.rs 1765-1851 ([Display] of [FormatterError]) read as propositions, independent of formatter.rs. *)
From Verif Require Import Base LexerModel LexerSpec TreeModel TreeSpec ValueModel CommandModel IsoModel FormatterModel FormatterSpec.

(** [x] stands in the content [a], where the strings called [known] can be referred to: in the main string all, in a named
    string those before it. *)
Inductive located (a : sast) : list ustr -> sitem -> Prop :=
| in_main x : In x (fst a) -> located a (us "_" :: map fst (group_of a)) x
| in_named pre name body post x : group_of a = pre ++ (name, body) :: post -> In x body ->
    located a (us "_" :: map fst pre) x.

Definition keywords : list ustr := [us "decimal"; us "date_time"; us "plural"; us "ordinal"; us "select"].
Definition categories : list ustr := [us "zero"; us "one"; us "two"; us "few"; us "many"; us "other"].

(** The options of the two keywords that have them and their values (docs `pattern strings.asciidoc`). *)
Definition options_of (kw : ustr) : list (ustr * list ustr) :=
  if ueqb kw (us "decimal") then
    [(us "sign", [us "auto"; us "never"; us "always"; us "except_zero"; us "negative"]);
     (us "group", [us "auto"; us "never"; us "always"; us "min2"])]
  else if ueqb kw (us "date_time") then
    [(us "date", [us "full"; us "long"; us "medium"; us "short"]);
     (us "time", [us "full"; us "long"; us "medium"; us "short"]);
     (us "calendar", [us "gregorian"; us "buddhist"; us "japanese"; us "ethiopian"; us "indian"; us "coptic"; us "iso"])]
  else [].

(** The command [name] with these arguments fails with [e]: it is not in the registry, or its function says so. *)
Definition command_fails (reg : cregistry) (name : ustr) (args : list pvalue) (e : command_error) : Prop :=
  (mget name reg = None /\ e = NotFound name) \/ exists f, mget name reg = Some f /\ f (VString name :: args) = Err e.

(** ** Errors of building *)

(** What each error says. *)
Definition says (reg : cregistry) (a : sast) (e : formatter_error) : Prop :=
  match e with
  | FInvalidKeyword kw ph => exists known sels, located a known (SPat ph (Some (kw, sels))) /\ ~ In kw keywords
  | FInvalidOption o kw ph => exists known sels, located a known (SPat ph (Some (kw, sels))) /\
      In o (map fst sels) /\ ~ In o (map fst (options_of kw))
  | FInvalidOptionValue v o kw => exists known ph sels values, located a known (SPat ph (Some (kw, sels))) /\
      In (o, v) sels /\ In (o, values) (options_of kw) /\ ~ In v values
  | FInvalidSelector sel kw ph => exists known sels, located a known (SPat ph (Some (kw, sels))) /\
      (kw = us "plural" \/ kw = us "ordinal") /\ In sel (map fst sels) /\ ~ In sel categories
  | FSelectorNamed named sel ph => exists known kw sels, located a known (SPat ph (Some (kw, sels))) /\
      In (sel, named) sels /\ ~ In named known
  | FSelectorOther kw ph => exists known sels, located a known (SPat ph (Some (kw, sels))) /\
      (kw = us "plural" \/ kw = us "ordinal") /\ ~ In (us "other") (map fst sels)
  | FNamedStringIdentifier id => id = us "_" /\ In id (map fst (group_of a))
  | FCommand ce => exists known name args, located a known (SCmd (SId name :: map SId args)) /\
      command_fails reg name (map VString args) ce
  | _ => False
  end.

(** What the errors really amount to: an option is compared with its own name instead of its value, the string looked for
    is the one called like the selector, and the keyword given for options of [date_time] is another one. *)
Definition reports (reg : cregistry) (a : sast) (e : formatter_error) : Prop :=
  match e with
  | FSelectorNamed named sel ph => named = sel /\ exists known kw sels, located a known (SPat ph (Some (kw, sels))) /\
      In kw [us "plural"; us "ordinal"; us "select"] /\ In sel (map fst sels) /\ ~ In sel known
  | FInvalidOptionValue v o kw => v = o /\ exists known ph sels, located a known (SPat ph (Some (kw, sels))) /\
      In o (map fst sels) /\ In o (map fst (options_of kw))
  | FInvalidOption o kw ph =>
      (kw = us "decimal" /\ says reg a e) \/
      exists known sels, located a known (SPat ph (Some (us "date_time", sels))) /\ In o (map fst sels) /\
        ((kw = us "date-time" /\ ~ In o (map fst (options_of (us "date_time")))) \/ (kw = us "ordinal" /\ o = us "calendar"))
  | _ => says reg a e
  end.

(** The errors whose sentence is true. *)
Definition sound_error (e : formatter_error) : Prop :=
  match e with
  | FSelectorNamed _ _ _ | FInvalidOptionValue _ _ _ => False
  | FInvalidOption _ kw _ => kw = us "decimal"
  | _ => True
  end.

(** ** Errors of formatting *)
Definition is_text (v : pvalue) : Prop :=
  match v with VString _ | VTagged _ _ | VLocalised _ _ => True | _ => False end.
Definition is_number (v : pvalue) : Prop :=
  match v with VDecimal _ | VUnsigned _ | VInteger _ | VFloat _ => True | _ => False end.
Definition is_unsigned (v : pvalue) : Prop := match v with VUnsigned _ => True | _ => False end.
Definition is_date_time (v : pvalue) : Prop :=
  match v with VDateTime _ _ | VDate _ | VTime _ | VString _ => True | _ => False end.

(** The part of a pattern a placeholder becomes, by its keyword: formatter.rs 1442-1465 [PatternPart], 1436-1440. *)
Definition part_kind (k : option ustr) : ustr :=
  match k with
  | None => us "PatternString"
  | Some kw => if ueqb kw (us "decimal") then us "PatternDecimal" else if ueqb kw (us "date_time") then us "PatternDateTime"
               else us "PatternComplex"
  end.
(** The part named in complaints about the type of a value, and the values it accepts. *)
Definition value_kind (k : option ustr) (kind : ustr) (ok : pvalue -> Prop) : Prop :=
  match k with
  | None => kind = us "PatternString" /\ ok = is_text
  | Some kw =>
      (kw = us "decimal" /\ kind = us "PatternDecimal" /\ ok = is_number) \/
      (kw = us "date_time" /\ kind = us "PatternDateTime" /\ ok = is_date_time) \/
      (kw = us "plural" /\ kind = us "PatternPlural" /\ ok = is_number) \/
      (kw = us "ordinal" /\ kind = us "PatternOrdinal" /\ ok = is_unsigned) \/
      (kw = us "select" /\ kind = us "PatternSelect" /\ ok = is_text)
  end.
Definition keyword_of (k : option (ustr * list (ustr * ustr))) : option ustr := option_map fst k.

(** What the value selects: the text, or the plural category of the number. *)
Inductive selected (fe : fmtenv) (locale : ustr) : ustr -> pvalue -> ustr -> Prop :=
| sel_text v s : text_value v = Some s -> selected fe locale (us "select") v s
| sel_plural v dec rules : number_value fe v dec -> fe_cardinal fe locale = Some rules ->
    selected fe locale (us "plural") v (category_name (rules dec))
| sel_ordinal n rules : fe_ordinal fe locale = Some rules ->
    selected fe locale (us "ordinal") (VUnsigned n) (category_name (rules (fe_unsigned fe n))).

(** The functions of ICU4X that formatting relies on all work. *)
Definition icu_works (fe : fmtenv) (locale : ustr) : Prop :=
  (forall g, fe_decimal fe locale g <> None) /\ fe_cardinal fe locale <> None /\ fe_ordinal fe locale <> None /\
  (forall b, fe_float fe b <> None) /\
  (forall l, exists f, fe_date fe locale l = Some f /\ forall x, f x <> None) /\ (forall l, fe_time fe locale l <> None) /\
  (forall l m, exists f, fe_datetime fe locale l m = Some f /\ forall x y, f x y <> None).

(** The value of a delayed command's parameter: that of the placeholder of this name, or else the word itself. *)
Definition word_value (vals : amap pvalue) (w : ustr) : pvalue := match mget w vals with Some v => v | None => VString w end.

Definition format_says (fe : fmtenv) (reg : cregistry) (locale : ustr) (vals : amap pvalue) (a : sast) (e : formatter_error)
  : Prop :=
  match e with
  | FPlaceholderValue kind ph => exists known k, located a known (SPat ph k) /\ mget ph vals = None /\
      kind = part_kind (keyword_of k)
  | FInvalidValue kind => exists known ph k v ok, located a known (SPat ph k) /\ mget ph vals = Some v /\
      value_kind (keyword_of k) kind ok /\ ~ ok v
  | FSelectorsIndexNamed s _ => exists known ph kw sels v, located a known (SPat ph (Some (kw, sels))) /\ mget ph vals = Some v /\
      selected fe locale kw v s /\ ~ In s (map fst sels)
  | FIso e => exists known ph sels s, located a known (SPat ph (Some (us "date_time", sels))) /\ mget ph vals = Some (VString s) /\
      exists part, (decompose_iso_date (fe_valid_date fe) part = Err e \/ decompose_iso_time part = Err e) /\
        In part (split_on (ch "T") s)
  | FIcu => ~ icu_works fe locale
  | FCommand ce => exists known name args, located a known (SCmd (SId name :: SDelay :: map SId args)) /\
      command_fails reg name (map (word_value vals) args) ce
  | _ => False
  end.
