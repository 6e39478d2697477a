(** A concrete formatting environment for examples and refutations: English-like plural rules, decimal digits, dates
    written year-month-day. No positive theorem is restricted to it. *)
From Verif Require Import Base LexerModel IcuExample TreeModel ValueModel CommandModel IsoModel FormatterModel.

Fixpoint digits (fuel : nat) (n : N) : ustr :=
  match fuel with
  | O => []
  | S f => if (n <? 10)%N then [(48 + n)%N] else digits f (n / 10)%N ++ [(48 + n mod 10)%N]
  end.
Definition show_N (n : N) : ustr := digits (S (N.size_nat n)) n.
Definition show_decimal (d : decimal) : ustr :=
  (if (dec_sign d <? 0)%Z then us "-" else []) ++ show_N (dec_coef d) ++
  (if (dec_exp d =? 0)%Z then [] else us "e" ++ (if (dec_exp d <? 0)%Z then us "-" else []) ++ show_N (Z.abs_N (dec_exp d))).
Definition english_cardinal (d : decimal) : category := if (dec_coef d =? 1)%N then CatOne else CatOther.
Definition english_ordinal (d : decimal) : category :=
  let n := dec_coef d in
  if ((n mod 10 =? 1) && negb (n mod 100 =? 11))%N then CatOne
  else if ((n mod 10 =? 2) && negb (n mod 100 =? 12))%N then CatTwo
  else if ((n mod 10 =? 3) && negb (n mod 100 =? 13))%N then CatFew else CatOther.

Definition days (y : Z) (m : N) : N :=
  match m with
  | 4 | 6 | 9 | 11 => 30
  | 2 => if (((y mod 4 =? 0) && negb (y mod 100 =? 0)) || (y mod 400 =? 0))%Z%bool then 29 else 28
  | _ => 31
  end%N.
Definition valid_iso (y : Z) (m d : N) : bool := ((1 <=? m) && (m <=? 12) && (1 <=? d) && (d <=? days y m))%N%bool.

Definition show_date (d : date) : ustr :=
  (if (dt_year d <? 0)%Z then us "-" else []) ++ show_N (Z.abs_N (dt_year d)) ++ us "/" ++ show_N (dt_month d) ++ us "/" ++ show_N (dt_day d).
Definition show_time (t : time) : ustr := show_N (tm_hour t) ++ us ":" ++ show_N (tm_minute t) ++ us ":" ++ show_N (tm_second t).

Definition env_ex : fmtenv := mk_fmtenv
  (fun n => mk_decimal 1 n 0) (fun z => mk_decimal (if (z <? 0)%Z then -1 else 1) (Z.abs_N z) 0) (fun _ => None)
  (fun _ d => d) (fun _ _ => Some show_decimal) (fun _ => Some english_cardinal) (fun _ => Some english_ordinal)
  (fun _ _ _ => Some (fun d t => Some (show_date d ++ us " " ++ show_time t))) (fun _ _ => Some (fun d => Some (show_date d)))
  (fun _ _ => Some show_time) valid_iso (fun l => Some l).

Definition reg_ex : cregistry := [(us "english_a_or_an", english_a_or_an); (us "file_path", file_path)].

Definition build_ex (s : ustr) : fout formatter := formatter_try_new icu_ex l10n_grammar env_ex reg_ex (us "en") (us "en") s.
Definition text_ex (s : ustr) (vals : amap pvalue) : fout ustr :=
  let! fm := build_ex s in snd (format 8 env_ex reg_ex fm vals).
