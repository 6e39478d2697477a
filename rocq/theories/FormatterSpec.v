(** What formatting a pattern string is meant to give, as a relation on its content; independent of the formatter.
    Taken from docs `pattern strings.asciidoc` and the property list. *)
From Verif Require Import Base LexerModel TreeSpec IcuExample DocSpec ValueModel CommandModel IsoModel FormatterModel.

(** The text of a value: strings of all kinds have one. *)
Definition text_value (v : pvalue) : option ustr := match v with VString s | VTagged s _ | VLocalised s _ => Some s | _ => None end.
(** The names of the plural categories (Unicode CLDR) *)
Definition category_name (c : category) : ustr :=
  match c with CatZero => us "zero" | CatOne => us "one" | CatTwo => us "two" | CatFew => us "few" | CatMany => us "many" | CatOther => us "other" end.

Section Spec.
  (** ICU4X, commands, locale, values, and the named strings of the pattern string. *)
  Variables (fe : fmtenv) (reg : cregistry) (locale : ustr) (vals : amap pvalue) (strs : amap (list sitem)).
  (** Which branch the selectors give for a key: [choose sels key branch]. *)
  Variable choose_select : list (ustr * ustr) -> ustr -> ustr -> Prop.
  Variable choose_plural : list (ustr * ustr) -> ustr -> ustr -> Prop.

  (** The number a value stands for. *)
  Inductive number_value : pvalue -> decimal -> Prop :=
  | nv_decimal d : number_value (VDecimal d) d
  | nv_unsigned n : number_value (VUnsigned n) (fe_unsigned fe n)
  | nv_integer z : number_value (VInteger z) (fe_integer fe z)
  | nv_float b d : fe_float fe b = Some d -> number_value (VFloat b) d.

  (** What a value for a date_time placeholder stands for: a date, a time, or both. A string is split at its [T]. *)
  Inductive moment := MDate (d : date) | MTime (t : time) | MBoth (d : date) (t : time).
  Definition no_T (s : ustr) : Prop := ~ In (ch "T") s.
  Inductive moment_value : pvalue -> moment -> Prop :=
  | mv_date d : moment_value (VDate d) (MDate d)
  | mv_time t : moment_value (VTime t) (MTime t)
  | mv_both d t : moment_value (VDateTime d t) (MBoth d t)
  | mv_string_date s d : no_T s -> decompose_iso_date (fe_valid_date fe) s = Ok d -> moment_value (VString s) (MDate d)
  | mv_string_time b t : no_T b -> decompose_iso_time b = Ok t -> moment_value (VString (ch "T" :: b)) (MTime t)
  | mv_string_both a b d t : a <> [] -> no_T a -> no_T b -> decompose_iso_date (fe_valid_date fe) a = Ok d ->
      decompose_iso_time b = Ok t -> moment_value (VString (a ++ ch "T" :: b)) (MBoth d t)
  (** More than one [T]: everything from the first one on is ignored. *)
  | mv_string_many a b d : no_T a -> ~ no_T b -> decompose_iso_date (fe_valid_date fe) a = Ok d ->
      moment_value (VString (a ++ ch "T" :: b)) (MDate d).
  Definition shown (m : moment) (s : ustr) : Prop :=
    match m with
    | MDate d => exists f, fe_date fe locale LnMedium = Some f /\ f d = Some s
    | MTime t => exists f, fe_time fe locale LnMedium = Some f /\ f t = s
    | MBoth d t => exists f, fe_datetime fe locale LnMedium LnMedium = Some f /\ f d t = Some s
    end.

  (** A parameter of a delayed command that is the name of a value stands for the value. *)
  Definition parameter (w : ustr) : pvalue := match mget w vals with Some v => v | None => VString w end.

  (** [renders n l t]: the items [l] give the text [t]; [n] is the number that [#] stands for, if any. *)
  Inductive renders (n : option ustr) : list sitem -> ustr -> Prop :=
  | rn_nil : renders n [] []
  | rn_cons x l s t : rend n x s -> renders n l t -> renders n (x :: l) (s ++ t)
  with rend (n : option ustr) : sitem -> ustr -> Prop :=
  | rn_text w : rend n (SText w) w
  | rn_hash s : n = Some s -> rend n SHash s
  | rn_place ph v s : mget ph vals = Some v -> text_value v = Some s -> rend n (SPat ph None) s
  | rn_decimal ph v dec f : mget ph vals = Some v -> number_value v dec -> fe_decimal fe locale None = Some f ->
      rend n (SPat ph (Some (us "decimal", []))) (f dec)
  | rn_date_time ph v m s : mget ph vals = Some v -> moment_value v m -> shown m s ->
      rend n (SPat ph (Some (us "date_time", []))) s
  | rn_select ph sels v key branch body t : mget ph vals = Some v -> text_value v = Some key ->
      choose_select sels key branch -> mget branch strs = Some body -> renders None body t ->
      rend n (SPat ph (Some (us "select", sels))) t
  | rn_plural ph sels v dec rules f branch body t : mget ph vals = Some v -> number_value v dec ->
      fe_cardinal fe locale = Some rules -> fe_decimal fe locale None = Some f ->
      choose_plural sels (category_name (rules dec)) branch -> mget branch strs = Some body ->
      renders (Some (f dec)) body t ->
      rend n (SPat ph (Some (us "plural", sels))) t
  | rn_ordinal ph sels k rules f branch body t : mget ph vals = Some (VUnsigned k) ->
      fe_ordinal fe locale = Some rules -> fe_decimal fe locale None = Some f ->
      choose_plural sels (category_name (rules (fe_unsigned fe k))) branch -> mget branch strs = Some body ->
      renders (Some (f (fe_unsigned fe k))) body t ->
      rend n (SPat ph (Some (us "ordinal", sels))) t
  | rn_command name args f t : mget name reg = Some f -> f (VString name :: map VString args) = Ok t ->
      rend n (SCmd (SId name :: map SId args)) t
  | rn_delayed name args f t : mget name reg = Some f -> f (VString name :: map parameter args) = Ok t ->
      rend n (SCmd (SId name :: SDelay :: map SId args)) t.
End Spec.

(** The documented choice: the branch of the selector that equals the key; for plurals the branch of [other] if the
    category has no selector of its own. *)
Definition documented_select (sels : list (ustr * ustr)) (key branch : ustr) : Prop := In (key, branch) sels.
Definition documented_plural (sels : list (ustr * ustr)) (key branch : ustr) : Prop :=
  In (key, branch) sels \/ (~ In key (map fst sels) /\ In (us "other", branch) sels).

(** The implemented choice: the selector itself is taken as the name of the branch. *)
Definition by_selector (sels : list (ustr * ustr)) (key branch : ustr) : Prop :=
  In key (map fst sels) /\ branch = key.

(** All strings of a content by name, the main string being [_]. *)
Definition all_strings (a : sast) : amap (list sitem) := (us "_", fst a) :: group_of a.

(** The documented rendering of a whole pattern string. *)
Definition documented_text (fe : fmtenv) (reg : cregistry) (locale : ustr) (vals : amap pvalue) (a : sast) (t : ustr)
  : Prop := renders fe reg locale vals (all_strings a) documented_select documented_plural None (fst a) t.
Definition implemented_text (fe : fmtenv) (reg : cregistry) (locale : ustr) (vals : amap pvalue) (a : sast) (t : ustr)
  : Prop := renders fe reg locale vals (all_strings a) by_selector by_selector None (fst a) t.

Definition is_select (x : sitem) (ph : ustr) (sels : list (ustr * ustr)) : Prop := x = SPat ph (Some (us "select", sels)).

(** No number sign in a string that is the branch of a select placeholder. *)
Definition hash_in_plurals_only (a : sast) : Prop :=
  forall name body x ph sels sel branch, In (name, body) (all_strings a) -> In x body -> is_select x ph sels ->
    In (sel, branch) sels -> forall target, In (sel, target) (all_strings a) -> ~ In SHash target.

(** Every selector has the branch of the same name. *)
Definition own_branches (a : sast) : Prop :=
  forall name body ph kw sels sel branch, In (name, body) (all_strings a) ->
    In (SPat ph (Some (kw, sels))) body -> In (sel, branch) sels -> sel = branch.

(** ** Formatting with a formatter *)

(** The outcome of a format call: a text, an error or a panic. *)
Definition gives (fe : fmtenv) (reg : cregistry) (fm : formatter) (vals : amap pvalue) (r : fout ustr) : Prop :=
  exists fuel, snd (format fuel fe reg fm vals) = r /\ r <> NoFuel.
Definition diverges (fe : fmtenv) (reg : cregistry) (fm : formatter) (vals : amap pvalue) : Prop :=
  forall fuel, snd (format fuel fe reg fm vals) = NoFuel.

(** The states a formatter can be in after any calls of [format] with any values, successful or not. *)
Inductive after_formatting (fe : fmtenv) (reg : cregistry) (fm : formatter) : formatter -> Prop :=
| af_fresh : after_formatting fe reg fm fm
| af_call fm1 vals fuel : after_formatting fe reg fm fm1 ->
    after_formatting fe reg fm (fst (format fuel fe reg fm1 vals)).

(** [a] is the content of the pattern string [s]: the tokens of [s] are those of a concrete syntax with content [a]. *)
Definition content_of (d : icu) (grammar s : ustr) (a : sast) : Prop :=
  exists c, cwf c /\ LexerSpec.segmentation d grammar s (cprint c) /\ a = ccontent c.

(** A select placeholder somewhere in [a] has a selector [_] and the value [_]. *)
Definition selects_main (vals : amap pvalue) (a : sast) : Prop :=
  exists name body ph sels v, In (name, body) (all_strings a) /\ In (SPat ph (Some (us "select", sels))) body /\
    In (us "_") (map fst sels) /\ mget ph vals = Some v /\ text_value v = Some (us "_").

(** ** Plain strings: text, escapes and placeholders without a keyword *)
Definition plain (s : dstr) : Prop :=
  Forall (fun x => match fst x with DEsc _ => True | DPlace _ None => True | _ => False end) (ds_rest s).

(** The text a placeholder stands for, or the error naming it. *)
Definition place_text (vals : amap pvalue) (id : ustr) : fout ustr :=
  match mget id vals with
  | None => Err (FPlaceholderValue (us "PatternString") id)
  | Some v => match text_value v with Some s => Ok s | None => Err (FInvalidValue (us "PatternString")) end
  end.
Definition syn_text (vals : amap pvalue) (x : dsyn) : fout ustr :=
  match x with DEsc c => Ok [c] | DPlace id _ => place_text vals id | _ => Ok [] end.
Fixpoint rest_text (vals : amap pvalue) (l : list (dsyn * ustr)) : fout ustr :=
  match l with
  | [] => Ok []
  | (x, w) :: r => let! s := syn_text vals x in let! t := rest_text vals r in Ok (s ++ w ++ t)
  end.
Definition plain_text (vals : amap pvalue) (s : dstr) : fout ustr :=
  let! t := rest_text vals (ds_rest s) in Ok (ds_text s ++ t).

(** A backtick before every grammar character. *)
Definition escape (w : ustr) : ustr :=
  flat_map (fun c => if existsb (N.eqb c) l10n_grammar then [ch "`"; c] else [c]) w.

(** ** Contents a formatter can be built from *)
Definition keyword_ok (known : list ustr) (kw : ustr) (sels : list (ustr * ustr)) : Prop :=
  ((kw = us "decimal" \/ kw = us "date_time") /\ sels = []) \/
  ((kw = us "plural" \/ kw = us "ordinal") /\ In (us "other") (map fst sels) /\
     forall sel, In sel (map fst sels) -> (exists c, sel = category_name c) /\ In sel known) \/
  (kw = us "select" /\ forall sel, In sel (map fst sels) -> In sel known).
Definition item_ok (reg : cregistry) (known : list ustr) (x : sitem) : Prop :=
  match x with
  | SPat _ (Some (kw, sels)) => keyword_ok known kw sels
  | SCmd ps => (exists name args, ps = SId name :: SDelay :: map SId args) \/
      exists name args f t, ps = SId name :: map SId args /\ mget name reg = Some f /\ f (VString name :: map VString args) = Ok t
  | _ => True
  end.
(** The names known in a string: the main string's name and those of the named strings before it. *)
Definition buildable (reg : cregistry) (a : sast) : Prop :=
  NoDup (us "_" :: map fst (group_of a)) /\ ~ In SHash (fst a) /\
  Forall (item_ok reg (us "_" :: map fst (group_of a))) (fst a) /\
  forall pre name body post, group_of a = pre ++ (name, body) :: post -> Forall (item_ok reg (us "_" :: map fst pre)) body.

(** The plural categories that occur have selectors of their own. *)
Definition categories_covered (fe : fmtenv) (locale : ustr) (vals : amap pvalue) (a : sast) : Prop :=
  forall name body ph sels v dec rules, In (name, body) (all_strings a) -> mget ph vals = Some v -> number_value fe v dec ->
    (In (SPat ph (Some (us "plural", sels))) body /\ fe_cardinal fe locale = Some rules) \/
    (In (SPat ph (Some (us "ordinal", sels))) body /\ fe_ordinal fe locale = Some rules) ->
    In (category_name (rules dec)) (map fst sels).
