(** Model of the ISO date and time readers, crates/localiser/src/formatter.rs 860-1017. *)
From Verif Require Import Base ValueModel.

(** [str::get(..n)] together with the rest: the string cut after exactly [n] bytes, [None] if the string is shorter or
    the position is inside a character. *)
Fixpoint cut_bytes (n : nat) (s : ustr) : option (ustr * ustr) :=
  match n, s with
  | O, _ => Some ([], s)
  | _, [] => None
  | _, c :: r =>
      if clen c <=? n then
        match cut_bytes (n - clen c) r with Some (a, b) => Some (c :: a, b) | None => None end
      else None
  end.

(** [str::trim_start_matches(c)] *)
Fixpoint trim_start (c : uchar) (s : ustr) : ustr :=
  match s with x :: r => if N.eqb x c then trim_start c r else s | [] => [] end.

(** [str::split(c)]: always at least one part. *)
Fixpoint split_on (c : uchar) (s : ustr) : list ustr :=
  match s with
  | [] => [[]]
  | x :: r => if N.eqb x c then [] :: split_on c r
              else match split_on c r with p :: ps => (x :: p) :: ps | [] => [[x]] end
  end.

(** [match s.find(c) { None => s, Some(pos) => &s[..pos] }] *)
Fixpoint before (c : uchar) (s : ustr) : ustr :=
  match s with x :: r => if N.eqb x c then [] else x :: before c r | [] => [] end.

(** A decimal digit. *)
Definition digit (c : uchar) : option N :=
  if ((ch "0" <=? c) && (c <=? ch "9"))%N then Some (c - ch "0")%N else None.

(** The value of a sequence of digits, most significant first; [None] on any other character. *)
Fixpoint digits_value (acc : N) (s : ustr) : option N :=
  match s with
  | [] => Some acc
  | c :: r => match digit c with Some d => digits_value (acc * 10 + d)%N r | None => None end
  end.

(** [u8::from_str], [u32::from_str] (bound = greatest value): an optional plus sign and at least one digit. The
    standard library detects overflow while it accumulates, with the same outcome. *)
Definition parse_unsigned (max : N) (s : ustr) : option N :=
  let body := match s with c :: r => if N.eqb c (ch "+") then r else s | [] => [] end in
  match body with
  | [] => None
  | _ => match digits_value 0 body with Some n => if (n <=? max)%N then Some n else None | None => None end
  end.

(** [i32::from_str]: an optional sign and at least one digit. *)
Definition parse_i32 (s : ustr) : option Z :=
  match s with
  | c :: r =>
      if N.eqb c (ch "-") then
        match r with
        | [] => None
        | _ => match digits_value 0 r with
               | Some n => if (n <=? 2147483648)%N then Some (- Z.of_N n)%Z else None
               | None => None
               end
        end
      else match parse_unsigned 2147483647 s with Some n => Some (Z.of_N n) | None => None end
  | [] => None
  end.

Definition parse_u8 : ustr -> option N := parse_unsigned 255.

(** Errors of the readers: [FormatterError::ParseInt] and [FormatterError::Calendar]. *)
Inductive iso_error := IsoParseInt | IsoCalendar.
Definition iout := outcome iso_error.

(** [Date::try_new_iso_date] is external: [valid y m d] says whether it accepts the date. *)
Definition new_date (valid : Z -> N -> N -> bool) (y : Z) (m d : N) : iout date :=
  if valid y m d then Ok (mk_date y m d) else Err IsoCalendar.

(** formatter.rs 892-947 [decompose_iso_date] *)
Definition decompose_iso_date (valid : Z -> N -> N -> bool) (s : ustr) : iout date :=
  let no_plus := trim_start (ch "+") s in
  match no_plus with
  | [] => new_date valid 0 1 1
  | _ =>
      match split_on (ch "-") no_plus with
      | [] => Panic                                                                     (* not possible *)
      | [p] =>                                                                          (* 908-923 *)
          match cut_bytes 4 p with
          | None => new_date valid 0 1 1
          | Some (ys, r) =>
              let! y := ok_or (parse_i32 ys) IsoParseInt in
              match cut_bytes 2 r with
              | None => new_date valid y 1 1
              | Some (ms, r') =>
                  let! m := ok_or (parse_u8 ms) IsoParseInt in
                  match cut_bytes 2 r' with
                  | None => new_date valid y m 1
                  | Some (ds, _) => let! d := ok_or (parse_u8 ds) IsoParseInt in new_date valid y m d
                  end
              end
          end
      | p0 :: rest =>                                                                   (* 924-944 *)
          let! (ystr, r) := (match p0 with
                             | [] => match rest with p1 :: r => Ok (ch "-" :: p1, r) | [] => Panic end
                             | _ => Ok (p0, rest)
                             end) in
          let! y := ok_or (parse_i32 ystr) IsoParseInt in
          match r with
          | [] => new_date valid y 1 1
          | ms :: r' =>
              let! m := ok_or (parse_u8 ms) IsoParseInt in
              match r' with
              | [] => new_date valid y m 1
              | ds :: _ => let! d := ok_or (parse_u8 ds) IsoParseInt in new_date valid y m d
              end
          end
      end
  end.

(** [IsoHour::from_str], [IsoMinute::from_str], [IsoSecond::from_str] (8 bits) and [NanoSecond::from_str] (32 bits) of
    icu_calendar 1.5 types.rs: an integer of at most the bits of its type, not above the greatest allowed value. Both
    failures are a [CalendarError]. *)
Definition parse_unit (bits max : N) (s : ustr) : iout N :=
  match parse_unsigned (2 ^ bits - 1) s with
  | Some n => if (n <=? max)%N then Ok n else Err IsoCalendar
  | None => Err IsoCalendar
  end.
Definition parse_hour : ustr -> iout N := parse_unit 8 24.
Definition parse_minute : ustr -> iout N := parse_unit 8 60.
Definition parse_second : ustr -> iout N := parse_unit 8 61.
Definition parse_nano : ustr -> iout N := parse_unit 32 999999999.

(** formatter.rs 969-1017 [decompose_iso_time]. The slices [&trimmed[2..]] etc. cannot panic because [get(..2)]
    succeeded; [cut_bytes] gives both. *)
Definition decompose_iso_time (s : ustr) : iout time :=
  let trimmed := before (ch "-") (before (ch "+") (trim_start (ch "T") s)) in
  match cut_bytes 2 trimmed with
  | None => Ok (mk_time 0 0 0 0)
  | Some (hs, r) =>
      let! h := parse_hour hs in
      match cut_bytes 2 (trim_start (ch ":") r) with
      | None => Ok (mk_time h 0 0 0)
      | Some (ms, r') =>
          let! m := parse_minute ms in
          match cut_bytes 2 (trim_start (ch ":") r') with
          | None => Ok (mk_time h m 0 0)
          | Some (ss, r'') =>
              let! sec := parse_second ss in
              let! n := parse_nano (trim_start (ch ".") r'') in
              Ok (mk_time h m sec n)
          end
      end
  end.
