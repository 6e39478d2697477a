(** When and how often commands are called (C92). A command with a delay marker is called each time its text is needed, any
    other command once, when the formatter is made. Stated on the content of a pattern string, independent of the formatter. *)
From Verif Require Import Base LexerModel TreeSpec DocSpec ValueModel CommandModel IsoModel FormatterModel FormatterSpec CallsModel.

(** A call: the name of the command and the parameters after it. *)
Definition ccall := (ustr * list pvalue)%type.

(** The commands without delay marker of some items, in their order. *)
Definition item_calls (x : sitem) : list ccall :=
  match x with
  | SCmd (SId name :: r) =>
      match r with
      | SDelay :: _ => []
      | _ => [(name, map (fun p => match p with SId w => VString w | SDelay => VString [] end) r)]
      end
  | _ => []
  end.
Definition items_calls (l : list sitem) : list ccall := flat_map item_calls l.
(** Those of a pattern string: the named strings come first. *)
Definition build_calls (a : sast) : list ccall := flat_map (fun x => items_calls (snd x)) (group_of a) ++ items_calls (fst a).

Section Effects.
  Context {W : Type}.
  Variable reg : wregistry W.
  (** The calls are made one after the other, each successfully, from one state of the world to another. *)
  Inductive made : list ccall -> W -> W -> Prop :=
  | md_nil w : made [] w w
  | md_call name ps f t r w w1 w2 : mget name reg = Some f -> f (VString name :: ps) w = (w1, Ok t) -> made r w1 w2 ->
      made ((name, ps) :: r) w w2.
  (** Calls of which the last may have failed. *)
  Inductive attempted : list ccall -> W -> W -> Prop :=
  | at_made r w w' : made r w w' -> attempted r w w'
  | at_fail r name ps f o w w1 w2 : made r w w1 -> mget name reg = Some f -> f (VString name :: ps) w1 = (w2, o) ->
      attempted (r ++ [(name, ps)]) w w2.
End Effects.

(** What formatting shows. *)
Section Shown.
  Variables (fe : fmtenv) (locale : ustr) (vals : amap pvalue) (strs : amap (list sitem)).
  (** The string in which the text of a placeholder stands. *)
  Inductive goes_to : sitem -> list sitem -> Prop :=
  | gt_select ph sels v key body : mget ph vals = Some v -> text_value v = Some key -> In key (map fst sels) ->
      mget key strs = Some body -> goes_to (SPat ph (Some (us "select", sels))) body
  | gt_plural ph sels v dec rules body : mget ph vals = Some v -> number_value fe v dec -> fe_cardinal fe locale = Some rules ->
      In (category_name (rules dec)) (map fst sels) -> mget (category_name (rules dec)) strs = Some body ->
      goes_to (SPat ph (Some (us "plural", sels))) body
  | gt_ordinal ph sels k rules body : mget ph vals = Some (VUnsigned k) -> fe_ordinal fe locale = Some rules ->
      In (category_name (rules (fe_unsigned fe k))) (map fst sels) -> mget (category_name (rules (fe_unsigned fe k))) strs = Some body ->
      goes_to (SPat ph (Some (us "ordinal", sels))) body.
  (** Items that show no other string and no delayed command. *)
  Definition simple (x : sitem) : Prop :=
    match x with
    | SText _ | SHash | SPat _ None => True
    | SPat _ (Some (kw, _)) => kw = us "decimal" \/ kw = us "date_time"
    | SCmd ps => ~ exists name r, ps = SId name :: SDelay :: r
    end.
  (** [shows l calls]: the delayed commands shown by the items, from left to right. *)
  Inductive shows : list sitem -> list ccall -> Prop :=
  | sh_nil : shows [] []
  | sh_simple x l cs : simple x -> shows l cs -> shows (x :: l) cs
  | sh_branch x body l cs cs' : goes_to x body -> shows body cs -> shows l cs' -> shows (x :: l) (cs ++ cs')
  | sh_delayed name args l cs : shows l cs ->
      shows (SCmd (SId name :: SDelay :: map SId args) :: l) ((name, map (parameter vals) args) :: cs).
  (** [shows_first l calls]: the same, up to some point. *)
  Inductive shows_first : list sitem -> list ccall -> Prop :=
  | sf_stop l : shows_first l []
  | sf_simple x l cs : simple x -> shows_first l cs -> shows_first (x :: l) cs
  | sf_inside x body l cs : goes_to x body -> shows_first body cs -> shows_first (x :: l) cs
  | sf_branch x body l cs cs' : goes_to x body -> shows body cs -> shows_first l cs' -> shows_first (x :: l) (cs ++ cs')
  | sf_delayed name args l cs : shows_first l cs ->
      shows_first (SCmd (SId name :: SDelay :: map SId args) :: l) ((name, map (parameter vals) args) :: cs).
End Shown.

(** The states of a formatter after any calls of [format] with any values in any state of the world. *)
Inductive wafter {W} (fe : fmtenv) (reg : wregistry W) (fm : formatter) : formatter -> Prop :=
| wa_fresh : wafter fe reg fm fm
| wa_call fm1 vals fuel w : wafter fe reg fm fm1 -> wafter fe reg fm (fst (snd (wformat fuel fe reg fm1 vals w))).

(** A delayed command of this name stands somewhere in the pattern string. *)
Definition delays (a : sast) (name : ustr) : Prop := exists n body r, In (n, body) (all_strings a) /\ In (SCmd (SId name :: SDelay :: r)) body.
