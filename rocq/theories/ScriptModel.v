(** Model of crates/localiser/src/script.rs and crates/utility/src/script.rs: the data of scripts; and of the functions of
    crates/localiser/src/localiser.rs that use it. *)
From Verif Require Import Base.

(** utility script.rs 4-10 [Direction] *)
Inductive direction := TopToBottom | BottomToTop | LeftToRight | RightToLeft.
(** utility script.rs 24-34 [ScriptDirection] *)
Inductive script_direction :=
| TopToBottomLeftToRight | TopToBottomRightToLeft | BottomToTopLeftToRight | BottomToTopRightToLeft
| LeftToRightTopToBottom | LeftToRightBottomToTop | RightToLeftTopToBottom | RightToLeftBottomToTop.
(** utility script.rs 37-64 *)
Definition directions (d : script_direction) : direction * direction :=
  match d with
  | TopToBottomLeftToRight => (TopToBottom, LeftToRight)
  | TopToBottomRightToLeft => (TopToBottom, RightToLeft)
  | BottomToTopLeftToRight => (BottomToTop, LeftToRight)
  | BottomToTopRightToLeft => (BottomToTop, RightToLeft)
  | LeftToRightTopToBottom => (LeftToRight, TopToBottom)
  | LeftToRightBottomToTop => (LeftToRight, BottomToTop)
  | RightToLeftTopToBottom => (RightToLeft, TopToBottom)
  | RightToLeftBottomToTop => (RightToLeft, BottomToTop)
  end.
(** utility script.rs 66-77 *)
Definition line (d : script_direction) : direction :=
  match d with
  | TopToBottomLeftToRight => TopToBottom | TopToBottomRightToLeft => TopToBottom
  | BottomToTopLeftToRight => BottomToTop | BottomToTopRightToLeft => BottomToTop
  | LeftToRightTopToBottom => LeftToRight | LeftToRightBottomToTop => LeftToRight
  | RightToLeftTopToBottom => RightToLeft | RightToLeftBottomToTop => RightToLeft
  end.
(** utility script.rs 79-90 *)
Definition grapheme (d : script_direction) : direction :=
  match d with
  | TopToBottomLeftToRight => LeftToRight | TopToBottomRightToLeft => RightToLeft
  | BottomToTopLeftToRight => LeftToRight | BottomToTopRightToLeft => RightToLeft
  | LeftToRightTopToBottom => TopToBottom | LeftToRightBottomToTop => BottomToTop
  | RightToLeftTopToBottom => TopToBottom | RightToLeftBottomToTop => BottomToTop
  end.
(** utility script.rs 107-116 [Category] and 133-138 [ScriptData] *)
Inductive script_category := Logographic | Alphabetic | Abugida | Abjad | Syllabic | Ideographic | Special.
Record sdata := mk_sdata { sd_category : script_category; sd_directions : list script_direction; sd_historic : bool }.

(** localiser script.rs 14-1586: what [new] inserts, in order. *)
Definition script_entries : list (ustr * sdata) :=
  [(us "Adlm", mk_sdata Alphabetic [TopToBottomRightToLeft] false);
   (us "Aghb", mk_sdata Alphabetic [TopToBottomLeftToRight] true);
   (us "Ahom", mk_sdata Abugida [TopToBottomLeftToRight] true);
   (us "Arab", mk_sdata Abjad [TopToBottomRightToLeft] false);
   (us "Armi", mk_sdata Abjad [TopToBottomRightToLeft] true);
   (us "Armn", mk_sdata Alphabetic [TopToBottomRightToLeft] false);
   (us "Avst", mk_sdata Alphabetic [TopToBottomRightToLeft] true);
   (us "Bali", mk_sdata Abugida [TopToBottomLeftToRight] false);
   (us "Bamu", mk_sdata Syllabic [TopToBottomLeftToRight] false);
   (us "Bass", mk_sdata Alphabetic [TopToBottomLeftToRight] true);
   (us "Batk", mk_sdata Abugida [TopToBottomLeftToRight] false);
   (us "Beng", mk_sdata Abugida [TopToBottomLeftToRight] false);
   (us "Bhks", mk_sdata Abugida [TopToBottomLeftToRight] true);
   (us "Bopo", mk_sdata Alphabetic [TopToBottomLeftToRight; TopToBottomRightToLeft] false);
   (us "Brah", mk_sdata Abugida [TopToBottomLeftToRight] true);
   (us "Brai", mk_sdata Alphabetic [TopToBottomLeftToRight] false);
   (us "Bugi", mk_sdata Abugida [TopToBottomLeftToRight] false);
   (us "Buhd", mk_sdata Abugida [TopToBottomLeftToRight] false);
   (us "Cakm", mk_sdata Abugida [TopToBottomLeftToRight] false);
   (us "Cans", mk_sdata Abugida [TopToBottomLeftToRight] false);
   (us "Cari", mk_sdata Alphabetic [TopToBottomLeftToRight; TopToBottomRightToLeft] true);
   (us "Cham", mk_sdata Abugida [TopToBottomLeftToRight] false);
   (us "Cher", mk_sdata Syllabic [TopToBottomLeftToRight] false);
   (us "Chrs", mk_sdata Abjad [TopToBottomRightToLeft] true);
   (us "Copt", mk_sdata Alphabetic [TopToBottomLeftToRight] true);
   (us "Cpmn", mk_sdata Syllabic [TopToBottomLeftToRight] true);
   (us "Cprt", mk_sdata Syllabic [TopToBottomRightToLeft] true);
   (us "Cyrl", mk_sdata Alphabetic [TopToBottomLeftToRight] false);
   (us "Cyrs", mk_sdata Alphabetic [TopToBottomLeftToRight] false);
   (us "Deva", mk_sdata Abugida [TopToBottomLeftToRight] false);
   (us "Diak", mk_sdata Abugida [TopToBottomLeftToRight] true);
   (us "Dogr", mk_sdata Abugida [TopToBottomLeftToRight] true);
   (us "Dsrt", mk_sdata Alphabetic [TopToBottomLeftToRight] false);
   (us "Dupl", mk_sdata Special [TopToBottomLeftToRight] false);
   (us "Egyp", mk_sdata Logographic [TopToBottomLeftToRight; TopToBottomRightToLeft] true);
   (us "Elba", mk_sdata Alphabetic [TopToBottomLeftToRight] true);
   (us "Elym", mk_sdata Abjad [TopToBottomRightToLeft] true);
   (us "Ethi", mk_sdata Abugida [TopToBottomLeftToRight] true);
   (us "Gara", mk_sdata Alphabetic [TopToBottomRightToLeft] false);
   (us "Geok", mk_sdata Alphabetic [TopToBottomLeftToRight] false);
   (us "Geor", mk_sdata Alphabetic [TopToBottomLeftToRight] false);
   (us "Glag", mk_sdata Alphabetic [TopToBottomLeftToRight] true);
   (us "Gong", mk_sdata Abugida [TopToBottomLeftToRight] false);
   (us "Gonm", mk_sdata Abugida [TopToBottomLeftToRight] false);
   (us "Goth", mk_sdata Alphabetic [TopToBottomLeftToRight] true);
   (us "Gran", mk_sdata Abugida [TopToBottomLeftToRight] false);
   (us "Grek", mk_sdata Alphabetic [TopToBottomLeftToRight; TopToBottomRightToLeft] false);
   (us "Gujr", mk_sdata Abugida [TopToBottomLeftToRight] false);
   (us "Gukn", mk_sdata Abugida [TopToBottomLeftToRight] false);
   (us "Guru", mk_sdata Abugida [TopToBottomLeftToRight] false);
   (us "Hanb", mk_sdata Logographic [TopToBottomLeftToRight; TopToBottomRightToLeft; RightToLeftTopToBottom; LeftToRightTopToBottom] false);
   (us "Hang", mk_sdata Alphabetic [RightToLeftTopToBottom; TopToBottomLeftToRight; LeftToRightTopToBottom] false);
   (us "Hani", mk_sdata Logographic [RightToLeftTopToBottom; TopToBottomLeftToRight] false);
   (us "Hano", mk_sdata Abugida [BottomToTopLeftToRight; BottomToTopRightToLeft; TopToBottomLeftToRight] false);
   (us "Hans", mk_sdata Logographic [RightToLeftTopToBottom; TopToBottomLeftToRight] false);
   (us "Hant", mk_sdata Logographic [RightToLeftTopToBottom; TopToBottomLeftToRight] false);
   (us "Hatr", mk_sdata Abjad [TopToBottomRightToLeft] true);
   (us "Hebr", mk_sdata Abjad [TopToBottomRightToLeft] false);
   (us "Hira", mk_sdata Syllabic [RightToLeftTopToBottom; TopToBottomLeftToRight] false);
   (us "Hluw", mk_sdata Logographic [TopToBottomLeftToRight; TopToBottomRightToLeft; LeftToRightTopToBottom] true);
   (us "Hmng", mk_sdata Syllabic [TopToBottomLeftToRight] false);
   (us "Hmnp", mk_sdata Syllabic [TopToBottomLeftToRight] false);
   (us "Hikt", mk_sdata Syllabic [RightToLeftTopToBottom; TopToBottomLeftToRight] false);
   (us "Hung", mk_sdata Alphabetic [TopToBottomRightToLeft] true);
   (us "Ital", mk_sdata Alphabetic [TopToBottomRightToLeft; TopToBottomLeftToRight] true);
   (us "Jamo", mk_sdata Alphabetic [RightToLeftTopToBottom; TopToBottomLeftToRight] false);
   (us "Java", mk_sdata Abugida [TopToBottomLeftToRight] false);
   (us "Jpan", mk_sdata Syllabic [RightToLeftTopToBottom; TopToBottomLeftToRight] false);
   (us "Kali", mk_sdata Alphabetic [TopToBottomLeftToRight] false);
   (us "Kana", mk_sdata Syllabic [RightToLeftTopToBottom; TopToBottomLeftToRight] false);
   (us "Kawi", mk_sdata Abugida [TopToBottomLeftToRight] true);
   (us "Khar", mk_sdata Abugida [TopToBottomRightToLeft] true);
   (us "Khmr", mk_sdata Abugida [TopToBottomLeftToRight] false);
   (us "Khoj", mk_sdata Abugida [TopToBottomRightToLeft] true);
   (us "Kits", mk_sdata Logographic [RightToLeftTopToBottom] true);
   (us "Knda", mk_sdata Abugida [TopToBottomRightToLeft] true);
   (us "Kore", mk_sdata Alphabetic [RightToLeftTopToBottom; TopToBottomLeftToRight; LeftToRightTopToBottom] false);
   (us "Krai", mk_sdata Abugida [TopToBottomLeftToRight] false);
   (us "Kthi", mk_sdata Abugida [TopToBottomRightToLeft] true);
   (us "Lana", mk_sdata Abugida [TopToBottomLeftToRight] false);
   (us "Laoo", mk_sdata Abugida [TopToBottomLeftToRight] false);
   (us "Latf", mk_sdata Alphabetic [TopToBottomLeftToRight] false);
   (us "Latg", mk_sdata Alphabetic [TopToBottomLeftToRight] false);
   (us "Latn", mk_sdata Alphabetic [TopToBottomLeftToRight] false);
   (us "Lepc", mk_sdata Abugida [TopToBottomLeftToRight] false);
   (us "Limb", mk_sdata Abugida [TopToBottomLeftToRight] false);
   (us "Lina", mk_sdata Syllabic [TopToBottomLeftToRight] true);
   (us "Linb", mk_sdata Syllabic [TopToBottomLeftToRight] true);
   (us "Lisu", mk_sdata Alphabetic [TopToBottomLeftToRight] false);
   (us "Lyci", mk_sdata Alphabetic [TopToBottomLeftToRight] true);
   (us "Lydi", mk_sdata Alphabetic [TopToBottomRightToLeft] true);
   (us "Mahj", mk_sdata Abugida [TopToBottomLeftToRight] true);
   (us "Maka", mk_sdata Abugida [TopToBottomLeftToRight] true);
   (us "Mand", mk_sdata Alphabetic [TopToBottomRightToLeft] false);
   (us "Mani", mk_sdata Abjad [TopToBottomRightToLeft] true);
   (us "Marc", mk_sdata Abugida [TopToBottomLeftToRight] true);
   (us "Medf", mk_sdata Alphabetic [TopToBottomLeftToRight] false);
   (us "Mend", mk_sdata Syllabic [TopToBottomRightToLeft] false);
   (us "Merc", mk_sdata Abugida [TopToBottomRightToLeft] true);
   (us "Mero", mk_sdata Abugida [TopToBottomRightToLeft] true);
   (us "Mlym", mk_sdata Abugida [TopToBottomLeftToRight] false);
   (us "Modi", mk_sdata Abugida [TopToBottomLeftToRight] true);
   (us "Mong", mk_sdata Alphabetic [LeftToRightTopToBottom; TopToBottomLeftToRight] false);
   (us "Mroo", mk_sdata Alphabetic [TopToBottomLeftToRight] false);
   (us "Mtei", mk_sdata Abugida [TopToBottomLeftToRight] false);
   (us "Mult", mk_sdata Abugida [TopToBottomLeftToRight] true);
   (us "Mymr", mk_sdata Abugida [TopToBottomLeftToRight] false);
   (us "Nagm", mk_sdata Alphabetic [TopToBottomLeftToRight] false);
   (us "Nand", mk_sdata Abugida [TopToBottomLeftToRight] true);
   (us "Narb", mk_sdata Abjad [TopToBottomRightToLeft] true);
   (us "Nbat", mk_sdata Abjad [TopToBottomRightToLeft] true);
   (us "Newa", mk_sdata Abugida [TopToBottomLeftToRight] true);
   (us "Nkoo", mk_sdata Alphabetic [TopToBottomRightToLeft] false);
   (us "Nshu", mk_sdata Syllabic [RightToLeftTopToBottom] true);
   (us "Ogam", mk_sdata Alphabetic [BottomToTopLeftToRight; TopToBottomLeftToRight] true);
   (us "Olck", mk_sdata Alphabetic [TopToBottomLeftToRight] false);
   (us "Onao", mk_sdata Alphabetic [TopToBottomLeftToRight] false);
   (us "Orkh", mk_sdata Alphabetic [TopToBottomRightToLeft] true);
   (us "Orya", mk_sdata Abugida [TopToBottomLeftToRight] false);
   (us "Osge", mk_sdata Alphabetic [TopToBottomLeftToRight] false);
   (us "Osma", mk_sdata Alphabetic [TopToBottomLeftToRight] true);
   (us "Ougr", mk_sdata Alphabetic [LeftToRightTopToBottom; TopToBottomRightToLeft] true);
   (us "Palm", mk_sdata Abjad [TopToBottomRightToLeft] true);
   (us "Pauc", mk_sdata Alphabetic [TopToBottomLeftToRight] true);
   (us "Perm", mk_sdata Alphabetic [TopToBottomLeftToRight] true);
   (us "Phag", mk_sdata Alphabetic [LeftToRightTopToBottom] true);
   (us "Phli", mk_sdata Abjad [TopToBottomRightToLeft] true);
   (us "Phlp", mk_sdata Abjad [TopToBottomRightToLeft] true);
   (us "Phlv", mk_sdata Abjad [TopToBottomRightToLeft] true);
   (us "Phnx", mk_sdata Abjad [TopToBottomRightToLeft] true);
   (us "Plrd", mk_sdata Abugida [TopToBottomLeftToRight] false);
   (us "Prti", mk_sdata Abjad [TopToBottomRightToLeft] true);
   (us "Rjng", mk_sdata Abugida [TopToBottomLeftToRight] false);
   (us "Rohg", mk_sdata Alphabetic [TopToBottomRightToLeft] false);
   (us "Runr", mk_sdata Alphabetic [TopToBottomLeftToRight; TopToBottomRightToLeft] true);
   (us "Samr", mk_sdata Abjad [TopToBottomRightToLeft] true);
   (us "Sarb", mk_sdata Abjad [TopToBottomRightToLeft] true);
   (us "Saur", mk_sdata Abugida [TopToBottomLeftToRight] false);
   (us "Sgnw", mk_sdata Logographic [TopToBottomLeftToRight; LeftToRightTopToBottom] false);
   (us "Shaw", mk_sdata Alphabetic [TopToBottomLeftToRight] false);
   (us "Shrd", mk_sdata Abugida [TopToBottomLeftToRight] false);
   (us "Sidd", mk_sdata Abugida [TopToBottomLeftToRight] true);
   (us "Shrd", mk_sdata Abugida [TopToBottomLeftToRight] false);
   (us "Sind", mk_sdata Abugida [TopToBottomLeftToRight] false);
   (us "Sinh", mk_sdata Abugida [TopToBottomLeftToRight] false);
   (us "Sogd", mk_sdata Abjad [LeftToRightTopToBottom; TopToBottomRightToLeft] true);
   (us "Sogo", mk_sdata Abjad [LeftToRightTopToBottom; TopToBottomRightToLeft] true);
   (us "Sora", mk_sdata Alphabetic [TopToBottomLeftToRight] false);
   (us "Soyo", mk_sdata Abugida [TopToBottomLeftToRight] true);
   (us "Sund", mk_sdata Abugida [TopToBottomLeftToRight] false);
   (us "Sunu", mk_sdata Alphabetic [TopToBottomLeftToRight] false);
   (us "Sylo", mk_sdata Abugida [TopToBottomLeftToRight] false);
   (us "Syrc", mk_sdata Abjad [TopToBottomRightToLeft] false);
   (us "Syre", mk_sdata Abjad [TopToBottomRightToLeft] false);
   (us "Syrj", mk_sdata Abjad [TopToBottomRightToLeft] false);
   (us "Syrn", mk_sdata Abjad [TopToBottomRightToLeft] false);
   (us "Tagb", mk_sdata Abugida [TopToBottomLeftToRight] false);
   (us "Takr", mk_sdata Abugida [TopToBottomLeftToRight] false);
   (us "Tale", mk_sdata Abugida [TopToBottomLeftToRight] false);
   (us "Talu", mk_sdata Abugida [TopToBottomLeftToRight] false);
   (us "Taml", mk_sdata Abugida [TopToBottomLeftToRight] false);
   (us "Tang", mk_sdata Logographic [RightToLeftTopToBottom; TopToBottomLeftToRight] true);
   (us "Tavt", mk_sdata Abugida [TopToBottomLeftToRight] false);
   (us "Tayo", mk_sdata Abugida [RightToLeftTopToBottom; TopToBottomLeftToRight] true);
   (us "Telu", mk_sdata Abugida [TopToBottomLeftToRight] false);
   (us "Tfng", mk_sdata Abjad [RightToLeftBottomToTop; RightToLeftTopToBottom; BottomToTopRightToLeft; TopToBottomRightToLeft; TopToBottomLeftToRight] false);
   (us "Tglg", mk_sdata Abugida [TopToBottomLeftToRight] false);
   (us "Thaa", mk_sdata Abugida [TopToBottomRightToLeft] false);
   (us "Thai", mk_sdata Abugida [TopToBottomLeftToRight] false);
   (us "Tibt", mk_sdata Abugida [TopToBottomLeftToRight] false);
   (us "Tirh", mk_sdata Abugida [TopToBottomLeftToRight] false);
   (us "Tnsa", mk_sdata Alphabetic [TopToBottomLeftToRight] false);
   (us "Todr", mk_sdata Alphabetic [TopToBottomRightToLeft] false);
   (us "Toto", mk_sdata Alphabetic [TopToBottomLeftToRight] false);
   (us "Tutg", mk_sdata Abugida [TopToBottomLeftToRight] false);
   (us "Ugar", mk_sdata Abjad [TopToBottomLeftToRight] true);
   (us "Vaii", mk_sdata Syllabic [TopToBottomLeftToRight] false);
   (us "Vith", mk_sdata Alphabetic [TopToBottomLeftToRight] true);
   (us "Wara", mk_sdata Alphabetic [TopToBottomLeftToRight] false);
   (us "Wcho", mk_sdata Alphabetic [TopToBottomLeftToRight] false);
   (us "Xpeo", mk_sdata Syllabic [TopToBottomLeftToRight] true);
   (us "Xsux", mk_sdata Logographic [TopToBottomLeftToRight] true);
   (us "Yezi", mk_sdata Abjad [TopToBottomRightToLeft] false);
   (us "Yezi", mk_sdata Syllabic [TopToBottomRightToLeft] false);
   (us "Zand", mk_sdata Abugida [TopToBottomLeftToRight] true)].
(** localiser script.rs 12-1587 [new]: a later insertion replaces an earlier one. *)
Definition script_provider : amap sdata := fold_left (fun m e => minsert (fst e) (snd e) m) script_entries [].
(** localiser script.rs 1590-1592 [get] *)
Definition script_get (script : ustr) : option sdata := mget script script_provider.

(** External code of icu_locid and icu_locid_transform: [LanguageIdentifier::try_from_bytes] ([Locale] with feature
    [icu_extended]), of which only the script subtag matters, and [LocaleExpander::maximize]: [None] is [Unmodified], otherwise
    the script subtag afterwards. *)
Record scriptenv := mk_scriptenv { se_parse : ustr -> option (option ustr); se_expand : ustr -> option (option ustr) }.

(** localiser.rs 1314-1352 [get_script_data] *)
Definition get_script_data (E : scriptenv) (tag : ustr) : outcome Empty_set (option sdata) :=
  match se_parse E tag with
  | None => Panic                                                                        (* unwrap, 1321 and 1336 *)
  | Some (Some script) => Ok (script_get script)
  | Some None =>
      match se_expand E tag with
      | None => Ok None
      | Some (Some script) => Ok (script_get script)
      | Some None => Panic                                                               (* unwrap, 1327 and 1345 *)
      end
  end.

(** localiser.rs 40-52, 129-158, 495-518, 915-933: the parts of the localiser that have to do with scripts: the language tag
    and the script data kept with it. [try_new] and [defaults] are given tags of the registry. *)
Record sstate := mk_sstate { ss_tag : ustr; ss_data : option sdata }.
Definition ss_set (E : scriptenv) (tag : ustr) : outcome Empty_set sstate :=
  let! d := get_script_data E tag in Ok (mk_sstate tag d).
(** [defaults], for the sequence of the tags it is called with; [None] leaves the tag as it is. *)
Fixpoint ss_run (E : scriptenv) (st : sstate) (tags : list (option ustr)) : outcome Empty_set sstate :=
  match tags with
  | [] => Ok st
  | None :: r => ss_run E st r
  | Some t :: r => let! st' := ss_set E t in ss_run E st' r
  end.
Definition ss_new (E : scriptenv) (tag : ustr) (tags : list (option ustr)) : outcome Empty_set sstate :=
  let! st := ss_set E tag in ss_run E st tags.
