(** How long a formatted text can get. Sizes are numbers of characters. *)
From Verif Require Import Base LexerModel TreeSpec IcuExample DocSpec ValueModel CommandModel IsoModel FormatterModel FormatterSpec.

(** The text given by the caller: names and strings of the values. *)
Definition value_size (v : pvalue) : nat := match text_value v with Some s => List.length s | None => 0 end.
Definition values_size (vals : amap pvalue) : nat :=
  list_sum (map (fun x => List.length (fst x) + value_size (snd x)) vals).

(** An item that stands for one of the named strings. *)
Definition branching (x : sitem) : Prop :=
  exists ph kw sels, x = SPat ph (Some (kw, sels)) /\ (kw = us "select" \/ kw = us "plural" \/ kw = us "ordinal").

(** No item but the branching ones gives more than [m] characters, and no number does. *)
Definition pieces_within (fe : fmtenv) (reg : cregistry) (locale : ustr) (vals : amap pvalue) (a : sast) (m : nat) : Prop :=
  (forall name body x s, In (name, body) (all_strings a) -> In x body -> ~ branching x -> x <> SHash ->
     rend fe reg locale vals (all_strings a) by_selector by_selector None x s -> List.length s <= m) /\
  (forall ph v dec f, mget ph vals = Some v -> number_value fe v dec -> fe_decimal fe locale None = Some f ->
     List.length (f dec) <= m).

(** No string has more than [w] items. *)
Definition items_within (a : sast) (w : nat) : Prop :=
  forall name body, In (name, body) (all_strings a) -> List.length body <= w.

(** Strings nested in strings to depth [h] at most: a named string of depth 0 has no branching item. *)
Inductive nested (a : sast) : nat -> list sitem -> Prop :=
| ne_flat l : Forall (fun x => ~ branching x) l -> nested a 0 l
| ne_deep h l : (forall ph kw sels sel body, In (SPat ph (Some (kw, sels))) l -> In sel (map fst sels) ->
    In (sel, body) (all_strings a) -> nested a h body) -> nested a (S h) l.
