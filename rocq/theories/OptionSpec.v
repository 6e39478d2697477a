(** What the options of [decimal] and [date_time] placeholders mean, independent of the formatter: docs `pattern
    strings.asciidoc`, sections decimal and date_time, and Unicode Technical Standard 35 for the calendar of a locale. *)
From Verif Require Import Base LexerModel ValueModel IsoModel FormatterModel FormatterSpec.

(** ** Tables *)
Definition sign_table : list (ustr * sign_opt) :=
  [(us "auto", SgAuto); (us "never", SgNever); (us "always", SgAlways); (us "except_zero", SgExceptZero); (us "negative", SgNegative)].
Definition group_table : list (ustr * group_opt) :=
  [(us "auto", GrAuto); (us "never", GrNever); (us "always", GrAlways); (us "min2", GrMin2)].
Definition length_table : list (ustr * len_opt) :=
  [(us "full", LnFull); (us "long", LnLong); (us "medium", LnMedium); (us "short", LnShort)].
Definition calendar_names : list ustr :=
  [us "gregorian"; us "buddhist"; us "japanese"; us "ethiopian"; us "indian"; us "coptic"; us "iso"].

(** The options [m] set the option called [k] to [x], or do not mention it. *)
Definition option_is {A} (table : list (ustr * A)) (m : amap ustr) (k : ustr) (x : option A) : Prop :=
  match mget k m with
  | None => x = None
  | Some v => exists y, x = Some y /\ In (v, y) table
  end.
Definition only_options (m : amap ustr) (ks : list ustr) : Prop := forall k, In k (mkeys m) -> In k ks.

(** ** Calendars *)
(** The locale with the calendar: the value of [ca] in the Unicode extension, one subtag, exchanged. A locale is
    here what is before the extension, the keys with their values before [ca], [ca] itself if present, and the rest. *)
Definition calendar_key : ustr := us "-u-ca-".
Definition occurs (p s : ustr) : Prop := exists a b, s = a ++ p ++ b.

(** A locale taken apart: everything before the Unicode extension, its keywords (key and value, the value being subtags), and
    other extensions after it. *)
Definition keyword_print (k : ustr * ustr) : ustr := us "-" ++ fst k ++ us "-" ++ snd k.
Definition locale_print (before : ustr) (kws : list (ustr * ustr)) (after : ustr) : ustr :=
  before ++ (match kws with [] => [] | _ => us "-u" ++ flat_map keyword_print kws end) ++ after.
(** The keywords with the calendar set. *)
Definition set_calendar (kws : list (ustr * ustr)) (cal : ustr) : list (ustr * ustr) :=
  if existsb (fun k => ueqb (fst k) (us "ca")) kws
  then map (fun k => if ueqb (fst k) (us "ca") then (us "ca", cal) else k) kws
  else kws ++ [(us "ca", cal)].

(** ** Effect *)
(** The text of a moment with the lengths of date and time in a locale. *)
Definition shown_with (fe : fmtenv) (locale : ustr) (ld lt : len_opt) (m : moment) (s : ustr) : Prop :=
  match m with
  | MDate d => exists f, fe_date fe locale ld = Some f /\ f d = Some s
  | MTime t => exists f, fe_time fe locale lt = Some f /\ f t = s
  | MBoth d t => exists f, fe_datetime fe locale ld lt = Some f /\ f d t = Some s
  end.
(** Medium where nothing is said. *)
Definition or_medium (x : option len_opt) : len_opt := match x with Some l => l | None => LnMedium end.

(** The text of a decimal placeholder with the options [m] for the value [v]. *)
Definition decimal_text (fe : fmtenv) (locale : ustr) (m : amap ustr) (v : pvalue) (w : ustr) : Prop :=
  exists sign group f d, option_is sign_table m (us "sign") sign /\ option_is group_table m (us "group") group /\
    fe_decimal fe locale group = Some f /\ number_value fe v d /\
    w = f (match sign with Some s => fe_sign fe s d | None => d end).
(** The text of a date_time placeholder with the options [m] for the value [v]; [with_calendar] is the locale with a calendar. *)
Definition date_time_text (fe : fmtenv) (with_calendar : ustr -> ustr -> ustr) (locale : ustr) (m : amap ustr) (v : pvalue) (w : ustr) : Prop :=
  exists ld lt loc x, option_is length_table m (us "date") ld /\ option_is length_table m (us "time") lt /\
    match mget (us "calendar") m with
    | None => loc = locale
    | Some c => In c calendar_names /\ fe_locale fe (with_calendar locale c) = Some loc
    end /\
    moment_value fe v x /\ shown_with fe loc (or_medium ld) (or_medium lt) x w.
