(** Pattern strings written as documented, and readings without undocumented elements. *)
From Verif Require Import Base LexerModel LexerSpec IcuExample TreeSpec DocSpec ValueModel CommandModel FormatterModel.

(** A string written according to the documented syntax (docs `pattern strings.asciidoc` 9-49), no name used twice. *)
Definition documented (d : icu) (s : ustr) : Prop :=
  exists e, doc_wf d e /\ unique_names e /\ dprint e = s.

(** A reading of a string: a concrete syntax whose tokens are the tokens of the string. *)
Definition reading (d : icu) (s : ustr) (c : cst) : Prop :=
  cwf c /\ segmentation d l10n_grammar s (cprint c).

(** After a keyword: white space and a selector in turn. *)
Fixpoint ktidy (l : list kpart) : Prop :=
  match l with
  | [] => True
  | KWs _ :: KSel _ _ _ :: r => ktidy r
  | _ => False
  end.

(** Parameters: white space and an identifier in turn. *)
Fixpoint atidy (l : list cpart) : Prop :=
  match l with
  | [] => True
  | QWs _ :: QId _ :: r => atidy r
  | _ => False
  end.
Definition qtidy (l : list cpart) : Prop :=
  match l with
  | QId _ :: QHash :: r => atidy r
  | QId _ :: QWs _ :: QHash :: r => atidy r
  | QId _ :: r => atidy r
  | _ => False
  end.

(** Only grammar characters are escaped, no white space before a closing brace, no stray characters. *)
Definition ptidy (p : piece) : Prop :=
  match p with
  | PText _ | PHash => True
  | PEsc x => fst x = TGrammar
  | PPat _ ws None => ws = []
  | PPat _ _ (Some (_, l)) => ktidy l
  | PCmd qs => qtidy qs
  end.
Definition gtidy (x : gpart) : Prop := match x with GWs _ => True | GNamed _ _ _ sub => Forall ptidy sub end.
Definition is_named (x : gpart) : Prop := match x with GWs _ => False | GNamed _ _ _ _ => True end.

(** The number sign is followed by at least one named string. *)
Definition tidy (c : cst) : Prop :=
  Forall ptidy (c_main c) /\
  match c_group c with None => True | Some l => Exists is_named l /\ Forall gtidy l end.

(** The same content: texts may be divided differently, and an empty group is no group. *)
Definition same_content (a b : sast) : Prop :=
  join (fst a) = join (fst b) /\
  map (fun x => (fst x, join (snd x))) (group_of a) = map (fun x => (fst x, join (snd x))) (group_of b).

(** ** Formatters *)

(** The results of successive calls of `format` of one formatter; each call has its own values (and fuel). *)
Fixpoint results (fe : fmtenv) (reg : cregistry) (fm : formatter) (calls : list (nat * amap pvalue)) : list (fout ustr) :=
  match calls with
  | [] => []
  | (fuel, vals) :: r => snd (format fuel fe reg fm vals) :: results fe reg (fst (format fuel fe reg fm vals)) r
  end.

(** The same text or the same error; only the internal index of a selector map may differ. *)
Definition alike (x y : fout ustr) : Prop :=
  x = y \/ exists s i j, x = Err (FSelectorsIndexNamed s i) /\ y = Err (FSelectorsIndexNamed s j).

Definition has_grammar (s : ustr) : Prop := exists c, In c s /\ In c l10n_grammar.
