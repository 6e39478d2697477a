(** What the texts of the errors have to say: the implementations of [Display]. *)
From Verif Require Import Base LexerModel TreeModel L10nData ErrorModel ErrorSpec.

Definition contains (w x : ustr) : Prop := exists a b, w = a ++ x ++ b.

(** A numeral: digits with the value of the number, without a needless zero in front. *)
Definition digit (c : uchar) (d : nat) : Prop := d < 10 /\ c = (48 + N.of_nat d)%N.
Inductive digits : ustr -> nat -> Prop :=
| digits_none : digits [] 0
| digits_more w c n d : digits w n -> digit c d -> digits (w ++ [c]) (10 * n + d).
Definition numeral (w : ustr) (n : nat) : Prop :=
  digits w n /\ w <> [] /\ (forall v, w = ch "0" :: v -> v = []).

(** The names of the node types and of the states of the parser in the source *)
Definition node_name (t : ntype) : ustr :=
  us match t with
  | NRoot => "Root" | NNamedGroup => "NamedGroup" | NNamedString => "NamedString" | NString => "String" | NText => "Text"
  | NNumberSign => "NumberSign" | NCommand => "Command" | NPattern => "Pattern" | NIdentifier => "Identifier" | NSelector => "Selector"
  end%string.
Definition state_name (s : TreeModel.pstate) : ustr :=
  us match s with
  | PCommand => "Command" | PKeyword => "Keyword" | PLiteral => "Literal" | PLiteralText => "LiteralText" | PNamedGroup => "NamedGroup"
  | PNamedString => "NamedString" | PPattern => "Pattern" | PString => "String" | PSubString => "SubString"
  end%string.

(** ** The parts of a text *)
(** It begins with the names of the type and of the variant. *)
Definition headed (e : error) (w : ustr) : Prop :=
  exists rest, w = fst (error_name e) ++ us "::" ++ snd (error_name e) ++ us ": " ++ rest.
(** It is a sentence. *)
Definition ended (w : ustr) : Prop := exists a, w = a ++ us ".".
(** It calls the value by the noun: "component ‘c’", "‘c’ node", "position 3". *)
Definition named (w noun v : ustr) : Prop := contains w (noun ++ u8 " ‘" ++ v ++ u8 "’").
Definition named_after (w v noun : ustr) : Prop := contains w (u8 "‘" ++ v ++ u8 "’ " ++ noun).
Definition numbered (w noun : ustr) (n : nat) : Prop := exists v before c after, numeral v n /\ w = before ++ noun ++ us " " ++ v ++ c :: after /\
  (c = ch " " \/ c = ch ".").
Definition quoted_number (w noun : ustr) (n : nat) : Prop := exists v, numeral v n /\ named w noun v.

(** The error the error is due to: an error of another library, one of this library, or one of any type. *)
Inductive cause := Foreign (text : ustr) | Own (e : error) | Boxed (k : custom).
Definition cause_of (e : error) : option cause :=
  match e with
  | XIcu (IeProperties w) | XIcu (IeSegmenter w) | XIcu (IeData w) => Some (Foreign w)
  | XRegistry (ReLanguageIdentifier w) => Some (Foreign w)
  | XProvider (PeLanguageTagRegistry e) => Some (Own (XRegistry e))
  | XProvider (PeCustom k) => Some (Boxed k)
  | XSqlite3 (QeIo w) | XSqlite3 (QeSqlite3 w) => Some (Foreign w)
  | XSqlite3 (QeSchemaInvalid e) => Some (Own (XSchema e))
  | XSchema (SeSqlite3 w) => Some (Foreign w)
  | XTree (TreeLexer e) => Some (Own (XLexer e))
  | XCommand (CeCustom k) => Some (Boxed k)
  | XLocaliser (LeRegistry e) => Some (Own (XRegistry e))
  | XLocaliser (LeFormatter e) => Some (Own (XFormatter e))
  | XLocaliser (LeProvider e) => Some (Own (XProvider e))
  | XFormatter (FeLocaliser e) => Some (Own (XLocaliser e))
  | XFormatter (FeTree e) => Some (Own (XTree e))
  | XFormatter (FeLocale w) | XFormatter (FeCalendar w) | XFormatter (FeParseInt w) | XFormatter (FeDecimal w)
  | XFormatter (FeDateTime w) | XFormatter (FePluralRules w) | XFormatter (FeFixedDecimal w) => Some (Foreign w)
  | XFormatter (FeCommand e) => Some (Own (XCommand e))
  | _ => None
  end.
Definition cause_text (k : cause) : ustr := match k with Foreign w => w | Own e => error_text e | Boxed k => cu_text k end.
(** Its text ends with the text of its cause in brackets. *)
Definition shows_cause (e : error) (w : ustr) : Prop :=
  forall k, cause_of e = Some k -> exists head, w = head ++ us "[" ++ cause_text k ++ us "].".
(** The causes, one behind the other *)
Inductive due_to : error -> cause -> Prop :=
| due_direct e k : cause_of e = Some k -> due_to e k
| due_further e e' k : cause_of e = Some (Own e') -> due_to e' k -> due_to e k.

(** The text says what the fields of the error say. *)
Definition facts (e : error) (w : ustr) : Prop :=
  match e with
  | XIcu IeGrapheme => contains w (u8 "‘GraphemeClusterSegmenter’")
  | XIcu IeSyntax => contains w (u8 "‘Pattern_Syntax’")
  | XIcu IeWhiteSpace => contains w (u8 "‘Pattern_White_Space’")
  | XProvider (PeComponentNotFound c) | XProvider (PeDefaultLanguage c) | XProvider (PeInvalidDefaultLanguage c) => named w (us "component") c
  | XProvider (PeDefaultLanguageCount c l) => named w (us "component") c /\ named w (us "language tag") l
  | XSqlite3 (QeNotDirectory p) | XSqlite3 (QeNotExists p) => named w (us "path") p
  | XSqlite3 (QeNoSqlite3Files p) => named w (us "found in") p
  | XSchema (SeMissingTable t) => named w (us "missing table") t
  | XSchema (SeVersion p v) => named w (us "file") p /\ named w (us "schema version must be") v
  | XSchema (SeMissingVersion p) => named w (us "file") p
  | XSchema (SeMissingColumn t c) => named w (us "table") t /\ named w (us "missing column") c
  | XSchema (SeColumnProperty t c p) => named w (us "column") c /\ named w (us "table") t /\ named w (us "missing property") p
  | XSchema (SeColumnDefault t c d) => named w (us "column") c /\ named w (us "table") t /\ named w (us "default value of") d
  | XSchema (SeColumnMismatch t c) => named w (us "column") c /\ named w (us "table") t
  | XTree (InvalidToken st n tok) => named w (us "state") (state_name st) /\ named w (us "token") tok /\ numbered w (us "position") n
  | XTree (UniquePattern i) => contains w (us "Pattern") /\ named w (us "identifier") i
  | XTree (UniqueNamed i) => contains w (us "Named substring") /\ named w (us "identifier") i
  | XTree (MultiNumberSign n) => numbered w (us "position") n
  | XCommand (CeAlreadyExists c) | XCommand (CeNotFound c) => named w (us "command") c
  | XCommand (CeParameterMissing c n) | XCommand (CeInvalidType c n) => named w (us "command") c /\ numbered w (us "parameter number") n
  | XLocaliser (LeStringNotFound c i t fb) => named w (us "component") c /\ named w (us "identifier") i /\ named w (us "language tag") t /\
      contains w (us "Fallback was used: " ++ us (if fb then "True" else "False") ++ us ".")
  | XLocaliser (LeCacheEntry c i) => named w (us "component") c /\ named w (us "identifier") i
  | XFormatter (FeRetrieveChildren t | FeFirstChild t | FeRetrieveNodeData t | FeRetrieveNodeToken t | FeLastChild t | FeInvalidNode t
      | FeNoChildren t) => named_after w (node_name t) (us "node")
  | XFormatter (FeNodeNotFound t) => named w (us "node") (node_name t)
  | XFormatter (FePatternNamed i) => named w (us "named string") i
  | XFormatter (FePatternPart i n) => named w (us "named string") i /\ quoted_number w (us "part") n
  | XFormatter (FeInvalidOptionValue v o k) => named w (us "value") v /\ named w (us "option") o /\ named w (us "keyword") k
  | XFormatter (FeInvalidKeyword k p) => named w (us "Invalid keyword") k /\ named w (us "placeholder") p
  | XFormatter (FeSelectorNamed n s p) => named w (us "named string identifier") n /\ named w (us "selector") s /\ named w (us "placeholder") p
  | XFormatter (FeSelectorOther k p) => named w (us "keyword") k /\ named w (us "placeholder") p
  | XFormatter (FeInvalidOption o k p) => named w (us "Invalid option") o /\ named w (us "keyword") k /\ named w (us "placeholder") p
  | XFormatter (FeInvalidSelector s k p) => named w (us "Invalid selector") s /\ named w (us "keyword") k /\ named w (us "placeholder") p
  | XFormatter (FeNumberSignString n) => numbered w (us "NumberSign index") n
  | XFormatter (FeSelectorsIndex n) => numbered w (us "index") n
  | XFormatter (FeSelectorsIndexNamed i n) => named w (us "named string") i /\ numbered w (us "selectors index") n
  | XFormatter (FePlaceholderValue x p) => named w (us "pattern part") x /\ named w (us "placeholder") p
  | XFormatter (FeInvalidValue x) => named w (us "pattern part") x
  | XFormatter (FeNamedStringIdentifier i) => named w (us "named string identifier") i
  | _ => True
  end.

(** The text tells what the error is. *)
Definition tells (e : error) (w : ustr) : Prop := headed e w /\ ended w /\ shows_cause e w /\ facts e w.

(** The errors whose text does not begin with their names: without names, or with another name. *)
Definition headless (e : error) : Prop :=
  match e with
  | XIcu (IeGrapheme | IeSyntax | IeWhiteSpace) => True
  | XSchema (SeMissingTable _ | SeMissingColumn _ _ | SeColumnProperty _ _ _ | SeColumnDefault _ _ _ | SeColumnMismatch _ _) => True
  | XTree (TreeLexer _) => True
  | _ => False
  end.
(** The errors whose text does not call their fields by their nouns: two mix them up, in one there is a line break between. *)
Definition mixed_up (e : error) : Prop :=
  match e with
  | XSchema (SeColumnMismatch _ _) | XLocaliser (LeCacheEntry _ _) | XFormatter (FePatternPart _ _) => True
  | _ => False
  end.
