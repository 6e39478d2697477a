(** Placeholder values and localisation data, crates/utility/src/types.rs and tagged_string.rs. *)
From Verif Require Import Base.

(** [fixed_decimal::FixedDecimal], an external type: sign, coefficient and exponent of ten. The functions working on it
    are parameters ([fmtenv] in [FormatterModel]). *)
Record decimal := mk_decimal { dec_sign : Z; dec_coef : N; dec_exp : Z }.

(** [icu_calendar::Date<Iso>] as year, month, day; [icu_calendar::types::Time] as hour, minute, second, nanosecond. *)
Record date := mk_date { dt_year : Z; dt_month : N; dt_day : N }.
Record time := mk_time { tm_hour : N; tm_minute : N; tm_second : N; tm_nano : N }.

(** types.rs 54-66 [PlaceholderValue], types.rs 26-31 [LocalisationData]. An [f64] is represented by its bit pattern,
    language tags by their string, a reference counted string by the string. [TaggedString] (tagged_string.rs 39-43)
    is the pair of its string and tag. *)
Inductive pvalue :=
| VString (s : ustr)
| VInteger (z : Z)
| VUnsigned (n : N)
| VFloat (bits : N)
| VTagged (s tag : ustr)
| VLocalised (s tag : ustr)
| VData (d : ldata)
| VDecimal (d : decimal)
| VDateTime (d : date) (t : time)
| VDate (d : date)
| VTime (t : time)
with ldata := LData (component identifier : ustr) (values : option (list (ustr * pvalue))).

Definition ld_component (d : ldata) : ustr := match d with LData c _ _ => c end.
Definition ld_identifier (d : ldata) : ustr := match d with LData _ i _ => i end.
Definition ld_values (d : ldata) : option (amap pvalue) := match d with LData _ _ v => v end.

(** The text of a value, for the variants that are strings (formatter.rs 248-253 and 500-535). *)
Definition value_text (v : pvalue) : option ustr :=
  match v with VString s | VTagged s _ | VLocalised s _ => Some s | _ => None end.
