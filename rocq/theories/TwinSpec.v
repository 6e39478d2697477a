(** What a text depends on (C93): a value only through what is shown of it, and names and locales only through values.
    Two pattern strings, with their values, locales and formatting environments, are twins if their items correspond, and
    what corresponds shows the same. Independent of the formatter. *)
From Verif Require Import Base LexerModel TreeSpec ValueModel CommandModel IsoModel FormatterModel FormatterSpec.

(** What is shown of the value of a placeholder. *)
Section Shown.
  Variables (fe : fmtenv) (locale : ustr) (vals : amap pvalue).
  Definition shows_text (ph t : ustr) : Prop := exists v, mget ph vals = Some v /\ text_value v = Some t.
  Definition shows_number (ph t : ustr) : Prop := exists v dec f,
    mget ph vals = Some v /\ number_value fe v dec /\ fe_decimal fe locale None = Some f /\ t = f dec.
  Definition shows_moment (ph t : ustr) : Prop := exists v m, mget ph vals = Some v /\ moment_value fe v m /\ shown fe locale m t.
  (** Number and plural category. *)
  Definition shows_cardinal (ph t c : ustr) : Prop := exists v dec f rules,
    mget ph vals = Some v /\ number_value fe v dec /\ fe_decimal fe locale None = Some f /\ t = f dec /\
    fe_cardinal fe locale = Some rules /\ c = category_name (rules dec).
  Definition shows_ordinal (ph t c : ustr) : Prop := exists k f rules,
    mget ph vals = Some (VUnsigned k) /\ fe_decimal fe locale None = Some f /\ t = f (fe_unsigned fe k) /\
    fe_ordinal fe locale = Some rules /\ c = category_name (rules (fe_unsigned fe k)).
End Shown.
Definition answers (reg : cregistry) (name : ustr) (ps : list pvalue) (t : ustr) : Prop :=
  exists f, mget name reg = Some f /\ f (VString name :: ps) = Ok t.

(** A setting in which a pattern string is formatted. *)
Record setting := mk_setting { se_env : fmtenv; se_commands : cregistry; se_locale : ustr; se_values : amap pvalue }.

Section Twins.
  Variables (S S' : setting).
  (** Which names of strings correspond. *)
  Variable N : ustr -> ustr -> Prop.
  Notation text S := (shows_text (se_values S)).
  Notation number S := (shows_number (se_env S) (se_locale S) (se_values S)).
  Notation moment S := (shows_moment (se_env S) (se_locale S) (se_values S)).
  Notation cardinal S := (shows_cardinal (se_env S) (se_locale S) (se_values S)).
  Notation ordinal S := (shows_ordinal (se_env S) (se_locale S) (se_values S)).

  Definition same_selectors (sels sels' : list (ustr * ustr)) : Prop := Forall2 N (map fst sels) (map fst sels').
  Inductive twin : sitem -> sitem -> Prop :=
  | tw_text w : twin (SText w) (SText w)
  | tw_hash : twin SHash SHash
  | tw_place ph ph' : (forall t, text S ph t <-> text S' ph' t) -> twin (SPat ph None) (SPat ph' None)
  | tw_decimal ph ph' : (forall t, number S ph t <-> number S' ph' t) ->
      twin (SPat ph (Some (us "decimal", []))) (SPat ph' (Some (us "decimal", [])))
  | tw_date_time ph ph' : (forall t, moment S ph t <-> moment S' ph' t) ->
      twin (SPat ph (Some (us "date_time", []))) (SPat ph' (Some (us "date_time", [])))
  | tw_select ph ph' sels sels' : same_selectors sels sels' -> (forall k k', N k k' -> (text S ph k <-> text S' ph' k')) ->
      twin (SPat ph (Some (us "select", sels))) (SPat ph' (Some (us "select", sels')))
  | tw_plural ph ph' sels sels' : same_selectors sels sels' -> (forall t k k', N k k' -> (cardinal S ph t k <-> cardinal S' ph' t k')) ->
      twin (SPat ph (Some (us "plural", sels))) (SPat ph' (Some (us "plural", sels')))
  | tw_ordinal ph ph' sels sels' : same_selectors sels sels' -> (forall t k k', N k k' -> (ordinal S ph t k <-> ordinal S' ph' t k')) ->
      twin (SPat ph (Some (us "ordinal", sels))) (SPat ph' (Some (us "ordinal", sels')))
  | tw_command name name' args args' :
      (forall t, answers (se_commands S) name (map VString args) t <-> answers (se_commands S') name' (map VString args') t) ->
      twin (SCmd (SId name :: map SId args)) (SCmd (SId name' :: map SId args'))
  | tw_delayed name name' args args' :
      (forall t, answers (se_commands S) name (map (parameter (se_values S)) args) t <->
                 answers (se_commands S') name' (map (parameter (se_values S')) args') t) ->
      twin (SCmd (SId name :: SDelay :: map SId args)) (SCmd (SId name' :: SDelay :: map SId args')).

  (** The strings correspond one to one. *)
  Definition twins (a a' : sast) : Prop :=
    (forall k x y, N k x -> N k y -> x = y) /\ (forall k x y, N x k -> N y k -> x = y) /\
    Forall2 (fun x y => N (fst x) (fst y) /\ Forall2 twin (snd x) (snd y)) (all_strings a) (all_strings a').
End Twins.

(** A string without numbers and dates. *)
Definition wordy (a : sast) : Prop := forall name body ph kw sels, In (name, body) (all_strings a) -> In (SPat ph (Some (kw, sels))) body -> kw = us "select".

(** Other names for the values: placeholders and parameters of delayed commands. *)
Definition rename_item (f : ustr -> ustr) (x : sitem) : sitem :=
  match x with
  | SPat ph kw => SPat (f ph) kw
  | SCmd (SId name :: SDelay :: ps) => SCmd (SId name :: SDelay :: map (fun p => match p with SId w => SId (f w) | SDelay => SDelay end) ps)
  | _ => x
  end.
Definition rename (f : ustr -> ustr) (a : sast) : sast :=
  (map (rename_item f) (fst a), option_map (map (fun x => (fst x, map (rename_item f) (snd x)))) (snd a)).
