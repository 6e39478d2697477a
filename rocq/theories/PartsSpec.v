(** Pattern strings put together from parts that share their named strings. *)
From Verif Require Import Base LexerModel LexerSpec IcuExample TreeSpec DocSpec ValueModel CommandModel FormatterModel FormatterSpec OnlySpec.

(** Two documented strings one after the other; text at the joint is one text. *)
Fixpoint glue (l : list (dsyn * ustr)) (b : dstr) : list (dsyn * ustr) :=
  match l with
  | [] => ds_rest b
  | [(x, w)] => (x, w ++ ds_text b) :: ds_rest b
  | p :: r => p :: glue r b
  end.
Definition dcat (a b : dstr) : dstr :=
  match ds_rest a with
  | [] => mk_dstr (ds_text a ++ ds_text b) (ds_rest b)
  | l => mk_dstr (ds_text a) (glue l b)
  end.

(** What the localiser makes of a pattern string: the string itself without grammar characters, otherwise a result of
    its formatter, whatever the formatter has formatted before. *)
Definition formatted (d : icu) (fe : fmtenv) (reg : cregistry) (tag locale : ustr) (s : ustr) (vals : amap pvalue) (r : fout ustr) : Prop :=
  (~ has_grammar s /\ r = Ok s) \/
  exists fm fm', formatter_try_new d l10n_grammar fe reg tag locale s = Ok fm /\ after_formatting fe reg fm fm' /\
    gives fe reg fm' vals r.

(** One result after another: the first failure, or both texts. *)
Definition after (x y : fout ustr) : fout ustr :=
  match x with
  | Ok s => match y with Ok t => Ok (s ++ t) | z => z end
  | z => z
  end.

(** The localiser can make something of the string. *)
Definition ready (d : icu) (fe : fmtenv) (reg : cregistry) (tag locale : ustr) (s : ustr) : Prop :=
  ~ has_grammar s \/ exists fm, formatter_try_new d l10n_grammar fe reg tag locale s = Ok fm.
