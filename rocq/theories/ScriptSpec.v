(** Scripts, independent of the data of the localiser: ISO 15924 and Unicode 16. *)
From Verif Require Import Base ScriptModel.

(** The words of a text of four-letter words. *)
Fixpoint words4 (fuel : nat) (s : ustr) : list ustr :=
  match fuel, s with
  | S f, a :: b :: c :: d :: r => [a; b; c; d] :: words4 f (tl r)
  | _, _ => []
  end.
Definition codes (s : string) : list ustr := words4 (String.length s) (us s).

(** The codes of ISO 15924, without those for private use. *)
Definition iso_15924 : list ustr :=
   codes "Adlm Afak Aghb Ahom Arab Aran Armi Armn Avst Bali Bamu Bass Batk Beng Bhks Blis" ++ 
   codes "Bopo Brah Brai Bugi Buhd Cakm Cans Cari Cham Cher Chis Chrs Cirt Copt Cpmn Cprt" ++ 
   codes "Cyrl Cyrs Deva Diak Dogr Dsrt Dupl Egyd Egyh Egyp Elba Elym Ethi Gara Geok Geor" ++ 
   codes "Glag Gong Gonm Goth Gran Grek Gujr Gukh Guru Hanb Hang Hani Hano Hans Hant Hatr" ++ 
   codes "Hebr Hira Hluw Hmng Hmnp Hntl Hrkt Hung Inds Ital Jamo Java Jpan Jurc Kali Kana" ++ 
   codes "Kawi Khar Khmr Khoj Kitl Kits Knda Kore Kpel Krai Kthi Lana Laoo Latf Latg Latn" ++ 
   codes "Leke Lepc Limb Lina Linb Lisu Loma Lyci Lydi Mahj Maka Mand Mani Marc Maya Medf" ++ 
   codes "Mend Merc Mero Mlym Modi Mong Moon Mroo Mtei Mult Mymr Nagm Nand Narb Nbat Newa" ++ 
   codes "Nkdb Nkgb Nkoo Nshu Ogam Olck Onao Orkh Orya Osge Osma Ougr Palm Pauc Pcun Pelm" ++ 
   codes "Perm Phag Phli Phlp Phlv Phnx Piqd Plrd Prti Psin Ranj Rjng Rohg Roro Runr Samr" ++ 
   codes "Sara Sarb Saur Seal Sgnw Shaw Shrd Shui Sidd Sidt Sind Sinh Sogd Sogo Sora Soyo" ++ 
   codes "Sund Sunu Sylo Syrc Syre Syrj Syrn Tagb Takr Tale Talu Taml Tang Tavt Tayo Telu" ++ 
   codes "Teng Tfng Tglg Thaa Thai Tibt Tirh Tnsa Todr Tols Toto Tutg Ugar Vaii Visp Vith" ++ 
   codes "Wara Wcho Wole Xpeo Xsux Yezi Yiii Zanb Zinh Zmth Zsye Zsym Zxxx Zyyy Zzzz".
(** The scripts of the characters of Unicode 16. *)
Definition unicode_scripts : list ustr :=
   codes "Adlm Aghb Ahom Arab Armi Armn Avst Bali Bamu Bass Batk Beng Bhks Bopo Brah Brai" ++ 
   codes "Bugi Buhd Cakm Cans Cari Cham Cher Chrs Copt Cpmn Cprt Cyrl Deva Diak Dogr Dsrt" ++ 
   codes "Dupl Egyp Elba Elym Ethi Gara Geor Glag Gong Gonm Goth Gran Grek Gujr Gukh Guru" ++ 
   codes "Hang Hani Hano Hatr Hebr Hira Hluw Hmng Hmnp Hung Ital Java Kali Kana Kawi Khar" ++ 
   codes "Khmr Khoj Kits Knda Krai Kthi Lana Laoo Latn Lepc Limb Lina Linb Lisu Lyci Lydi" ++ 
   codes "Mahj Maka Mand Mani Marc Medf Mend Merc Mero Mlym Modi Mong Mroo Mtei Mult Mymr" ++ 
   codes "Nagm Nand Narb Nbat Newa Nkoo Nshu Ogam Olck Onao Orkh Orya Osge Osma Ougr Palm" ++ 
   codes "Pauc Perm Phag Phli Phlp Phnx Plrd Prti Rjng Rohg Runr Samr Sarb Saur Sgnw Shaw" ++ 
   codes "Shrd Sidd Sind Sinh Sogd Sogo Sora Soyo Sund Sunu Sylo Syrc Tagb Takr Tale Talu" ++ 
   codes "Taml Tang Tavt Telu Tfng Tglg Thaa Thai Tibt Tirh Tnsa Todr Toto Tutg Ugar Vaii" ++ 
   codes "Vith Wara Wcho Xpeo Xsux Yezi Yiii Zanb".
(** Those of which the letters have the bidirectional class R or AL. *)
Definition right_to_left : list ustr :=
   codes "Adlm Arab Armi Avst Chrs Cprt Elym Gara Hatr Hebr Hung Khar Lydi Mand Mani Mend" ++ 
   codes "Merc Mero Narb Nbat Nkoo Orkh Ougr Palm Phli Phlp Phnx Prti Rohg Samr Sarb Sogd Sogo" ++ 
   codes "Syrc Thaa Todr Yezi".

(** The script of a language tag: that of the tag, or the likely one. *)
Definition script_of (E : scriptenv) (tag script : ustr) : Prop :=
  se_parse E tag = Some (Some script) \/ (se_parse E tag = Some None /\ se_expand E tag = Some (Some script)).
(** The data of a script: the last one given. *)
Definition data_of (script : ustr) (d : sdata) : Prop :=
  exists before after, script_entries = before ++ (script, d) :: after /\ ~ In script (map fst after).

(** What icu_locid does: the tag can be read, and expanding it gives a script. *)
Definition script_env_ok (E : scriptenv) (tag : ustr) : Prop :=
  se_parse E tag <> None /\ (se_parse E tag = Some None -> se_expand E tag <> Some None).

(** Directions: lines of the first direction, letters in the second. *)
Definition vertical (d : direction) : Prop := d = TopToBottom \/ d = BottomToTop.
(** Letters may go from right to left in lines going down. *)
Definition written_rtl (d : sdata) : Prop := exists x, In x (sd_directions d) /\ directions x = (TopToBottom, RightToLeft).
Definition written_ltr (d : sdata) : Prop := exists x, In x (sd_directions d) /\ directions x = (TopToBottom, LeftToRight).
(** The scripts of which the data is wrong about it: Armenian, Khojki, Kannada and Kaithi go from left to right. *)
Definition wrong_direction : list ustr := codes "Armn Khoj Knda Kthi".
(** The scripts without data, and the codes with data that do not exist. *)
Definition without_data : list ustr := codes "Gukh Yiii Zanb".
Definition no_codes : list ustr := codes "Gukn Hikt Zand".
