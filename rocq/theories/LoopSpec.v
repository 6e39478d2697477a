(** When formatting does not come to an end (C109). *)
From Verif Require Import Base TreeSpec ValueModel CommandModel IsoModel FormatterModel FormatterSpec.

Section Loop.
  Variables (fe : fmtenv) (reg : cregistry) (locale : ustr) (vals : amap pvalue) (a : sast).
  (** A placeholder that now stands for the named string [m], in which [#] stands for the number. *)
  Inductive stands_for : sitem -> ustr -> option ustr -> Prop :=
  | sf_select ph sels v key : mget ph vals = Some v -> text_value v = Some key -> In key (map fst sels) ->
      stands_for (SPat ph (Some (us "select", sels))) key None
  | sf_plural ph sels v dec rules f : mget ph vals = Some v -> number_value fe v dec ->
      fe_cardinal fe locale = Some rules -> fe_decimal fe locale None = Some f -> In (category_name (rules dec)) (map fst sels) ->
      stands_for (SPat ph (Some (us "plural", sels))) (category_name (rules dec)) (Some (f dec))
  | sf_ordinal ph sels k rules f : mget ph vals = Some (VUnsigned k) ->
      fe_ordinal fe locale = Some rules -> fe_decimal fe locale None = Some f -> In (category_name (rules (fe_unsigned fe k))) (map fst sels) ->
      stands_for (SPat ph (Some (us "ordinal", sels))) (category_name (rules (fe_unsigned fe k))) (Some (f (fe_unsigned fe k))).
  (** Formatting the items comes back to the main string: all before has a text, and then there is a placeholder that stands for the
      main string, or for a string that comes back to it. *)
  Inductive leads_back (n : option ustr) : list sitem -> Prop :=
  | lb_main l1 x l2 t u : renders fe reg locale vals (all_strings a) by_selector by_selector n l1 t ->
      stands_for x (us "_") u -> leads_back n (l1 ++ x :: l2)
  | lb_in l1 x l2 t m u body : renders fe reg locale vals (all_strings a) by_selector by_selector n l1 t ->
      stands_for x m u -> mget m (all_strings a) = Some body -> leads_back u body -> leads_back n (l1 ++ x :: l2).
End Loop.
