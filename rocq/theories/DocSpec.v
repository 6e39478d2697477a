(** The documented syntax of pattern strings (docs `pattern strings.asciidoc` 9-49) as characters, without
    literal text. Independent of lexer and parser. *)
From Verif Require Import Base LexerModel LexerSpec TreeSpec IcuExample.

(** The four grammar characters are pattern syntax and not white space; true of the Unicode data. *)
Definition icu_ok (d : icu) : Prop :=
  forall c, In c l10n_grammar -> white_space d c = false /\ syntax d c = true.

(** docs: [literal], [`#`], [placeholder], [command]. A keyword comes with the white space before it, a selector
    and a parameter too; a delay marker comes with the (possibly empty) white space before it. *)
Inductive dsyn :=
| DEsc (c : uchar)
| DHash
| DPlace (id : ustr) (kw : option (ustr * ustr * list (ustr * (ustr * ustr))))
| DCmd (name : ustr) (delay : option ustr) (params : list (ustr * ustr)).

(** docs: [string = text* , [ syntax , text* ]*] *)
Record dstr := mk_dstr { ds_text : ustr; ds_rest : list (dsyn * ustr) }.

(** docs: [named_string = `{` , branch , PWS+ , string , `}` , PWS*] *)
Record dnamed := mk_dnamed { dn_id : ustr; dn_ws : ustr; dn_str : dstr; dn_after : ustr }.

(** docs: [entire], [named_group = `#` , PWS* , named_string+] *)
Record doc := mk_doc { d_main : dstr; d_group : option (ustr * list dnamed) }.

(** ** The characters *)
Definition selprint (x : ustr * (ustr * ustr)) : ustr := fst x ++ fst (snd x) ++ us "#" ++ snd (snd x).
Definition synprint (x : dsyn) : ustr :=
  match x with
  | DEsc c => us "`" ++ [c]
  | DHash => us "#"
  | DPlace id None => us "{" ++ id ++ us "}"
  | DPlace id (Some (w, k, sels)) => us "{" ++ id ++ w ++ k ++ flat_map selprint sels ++ us "}"
  | DCmd name delay ps =>
      us "{" ++ us "#" ++ name ++ match delay with None => [] | Some w => w ++ us "#" end ++
      flat_map (fun p => fst p ++ snd p) ps ++ us "}"
  end.
Definition strprint (s : dstr) : ustr := ds_text s ++ flat_map (fun x => synprint (fst x) ++ snd x) (ds_rest s).
Definition namedprint (x : dnamed) : ustr :=
  us "{" ++ dn_id x ++ dn_ws x ++ strprint (dn_str x) ++ us "}" ++ dn_after x.
Definition dprint (e : doc) : ustr :=
  strprint (d_main e) ++
  match d_group e with None => [] | Some (w, l) => us "#" ++ w ++ flat_map namedprint l end.

(** ** Character classes of the parts *)
Definition is_text (w : ustr) : Prop := Forall (fun c => ~ In c l10n_grammar) w.
Definition is_ident (d : icu) (w : ustr) : Prop :=
  w <> [] /\ Forall (fun c => white_space d c = false /\ syntax d c = false) w.
Definition is_ws (d : icu) (w : ustr) : Prop := Forall (fun c => white_space d c = true) w.
Definition is_ws1 (d : icu) (w : ustr) : Prop := w <> [] /\ is_ws d w.

Definition syn_wf (d : icu) (x : dsyn) : Prop :=
  match x with
  | DEsc c => In c l10n_grammar
  | DHash => True
  | DPlace id None => is_ident d id
  | DPlace id (Some (w, k, sels)) =>
      is_ident d id /\ is_ws1 d w /\ is_ident d k /\
      Forall (fun x => is_ws1 d (fst x) /\ is_ident d (fst (snd x)) /\ is_ident d (snd (snd x))) sels
  | DCmd name delay ps =>
      is_ident d name /\ match delay with None => True | Some w => is_ws d w /\ ps <> [] end /\
      Forall (fun p => is_ws1 d (fst p) /\ is_ident d (snd p)) ps
  end.
Definition str_wf (d : icu) (s : dstr) : Prop :=
  is_text (ds_text s) /\ Forall (fun x => syn_wf d (fst x) /\ is_text (snd x)) (ds_rest s).

(** The white space after the name of a named string is taken as long as possible. *)
Definition named_wf (d : icu) (x : dnamed) : Prop :=
  is_ident d (dn_id x) /\ is_ws1 d (dn_ws x) /\ str_wf d (dn_str x) /\ is_ws d (dn_after x) /\
  match ds_text (dn_str x) with [] => True | c :: _ => white_space d c = false end.

(** No number sign in the main string. *)
Definition main_wf (d : icu) (s : dstr) : Prop :=
  str_wf d s /\ Forall (fun x => fst x <> DHash) (ds_rest s).
Definition doc_wf (d : icu) (e : doc) : Prop :=
  main_wf d (d_main e) /\
  match d_group e with None => True | Some (w, l) => is_ws d w /\ l <> [] /\ Forall (named_wf d) l end.

(** ** Content *)
Definition syn_content (x : dsyn) : sitem :=
  match x with
  | DEsc c => SText [c]
  | DHash => SHash
  | DPlace id None => SPat id None
  | DPlace id (Some (_, k, sels)) => SPat id (Some (k, map snd sels))
  | DCmd name delay ps =>
      SCmd (SId name :: match delay with None => [] | Some _ => [SDelay] end ++ map (fun p => SId (snd p)) ps)
  end.
Definition str_content (s : dstr) : list sitem :=
  SText (ds_text s) :: flat_map (fun x => [syn_content (fst x); SText (snd x)]) (ds_rest s).
Definition named_content (x : dnamed) : ustr * list sitem := (dn_id x, str_content (dn_str x)).
Definition doc_content (e : doc) : sast :=
  (str_content (d_main e), option_map (fun g => map named_content (snd g)) (d_group e)).

(** Texts joined: equality of contents up to the division of text into pieces. *)
Fixpoint join (l : list sitem) : list sitem :=
  match l with
  | [] => []
  | SText w :: r =>
      match join r with
      | SText w' :: r' => SText (w ++ w') :: r'
      | r' => match w with [] => r' | _ => SText w :: r' end
      end
  | x :: r => x :: join r
  end.
Definition joined (a : sast) : sast :=
  (join (fst a), option_map (map (fun x => (fst x, join (snd x)))) (snd a)).

(** ** Restrictions of the implementation *)

(** A named string starts with an identifier character or a number sign. *)
Definition starts_plain (d : icu) (s : dstr) : Prop :=
  match ds_text s with
  | c :: _ => white_space d c = false /\ syntax d c = false
  | [] => match ds_rest s with (DHash, _) :: _ => True | _ => False end
  end.

(** No number sign directly follows a number sign. *)
Fixpoint hash_apart (l : list (dsyn * ustr)) : Prop :=
  match l with
  | (DHash, []) :: ((DHash, _) :: _) => False
  | _ :: r => hash_apart r
  | [] => True
  end.

Definition unique_names (e : doc) : Prop :=
  NoDup (placeholder_names (doc_content e)) /\ NoDup (string_names (doc_content e)).

Definition supported (d : icu) (e : doc) : Prop :=
  match d_group e with
  | None => True
  | Some (_, l) => Forall (fun x => starts_plain d (dn_str x) /\ hash_apart (ds_rest (dn_str x))) l
  end.
