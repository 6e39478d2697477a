(** Properties C61 and C62: the options of [decimal] and [date_time] placeholders. No pattern string reaches them, because of what
    [C44_options_always_rejected] says; the theorems are about the functions that read the options and use them. *)
From Verif Require Import Base BaseFacts LexerModel ValueModel CommandModel IsoModel FormatterModel FormatterSpec FormatterProofs FmtExample OptionSpec OptionProofs.

(** A formatter for one part. *)
Definition one_part (tag locale : ustr) (p : ppart) : formatter := mk_formatter tag locale [(us "_", [p])] [] [].
Lemma one_part_format fe reg tag locale p vals w : (forall i, p <> PtNumberSign i) -> (forall ph c i, p <> PtComplex ph c i) ->
  gives fe reg (one_part tag locale p) vals (Ok w) <-> snd (format_part fe reg (one_part tag locale p) vals (fun _ ns => (ns, Ok [])) p []) = Ok w.
Proof.
  intros H1 H2. assert (Hrec : forall rec, format_part fe reg (one_part tag locale p) vals rec p [] = format_part fe reg (one_part tag locale p) vals (fun _ ns => (ns, Ok [])) p []).
  { intros rec. destruct p; try reflexivity. destruct (H2 placeholder c selectors). reflexivity. }
  unfold gives, format. split.
  - intros ([|fuel] & H & _); [cbn in H; discriminate H|]. cbn [one_part fm_patterns fm_numbers format_pattern] in H. change (mget (us "_") [(us "_", [p])]) with (Some [p]) in H.
    cbn [format_parts] in H. fold (one_part tag locale p) in H. rewrite Hrec in H. destruct (format_part _ _ _ _ _ p []) as (ns & [s|e| |]); cbn in *; rewrite ?app_nil_r in H; congruence.
  - intros H. exists 1. split; [|discriminate]. cbn [one_part fm_patterns fm_numbers format_pattern]. change (mget (us "_") [(us "_", [p])]) with (Some [p]).
    cbn [format_parts]. fold (one_part tag locale p). rewrite Hrec. destruct (format_part _ _ _ _ _ p []) as (ns & [s|e| |]); cbn in *; rewrite ?app_nil_r; congruence.
Qed.

(** ** C61: the options mean what is documented. [m] are the options as written, each at most once. *)
Theorem C61_decimal : forall fe reg tag locale ph m vals w, NoDup (mkeys m) ->
  (exists sign group, decimal_options ph m None None = Ok (sign, group) /\ gives fe reg (one_part tag locale (PtDecimal ph sign group)) vals (Ok w)) <->
  only_options m [us "sign"; us "group"] /\ exists v, mget ph vals = Some v /\ decimal_text fe locale m v w.
Proof.
  intros fe reg tag locale ph m vals w Hn. split.
  - intros (sign & group & H1 & H2). apply one_part_format in H2; [|discriminate ..]. cbn [format_part snd one_part fm_locale] in H2. apply bind_Ok in H2 as (v & Hv & H2). unfold value_of in Hv. apply ok_or_ok in Hv.
    apply format_decimal_ok in H2 as (f & d & Hf & Hd & ->). apply (decimal_options_ok ph m Hn) in H1 as (A1 & A2 & A3). split; [exact A1|]. exists v. split; [exact Hv|].
    exists sign, group, f, d. auto.
  - intros (A1 & v & Hv & sign & group & f & d & A2 & A3 & Hf & Hd & ->). exists sign, group. split; [now apply (decimal_options_ok ph m Hn)|].
    apply one_part_format; [discriminate ..|]. cbn [format_part snd one_part fm_locale]. unfold value_of. rewrite Hv. cbn [ok_or bind]. apply format_decimal_ok. eauto.
Qed.
Print Assumptions C61_decimal.
Theorem C61_date_time : forall fe reg tag locale ph m vals w, NoDup (mkeys m) ->
  (exists ld lt cal, date_time_options fe locale ph m None None None = Ok (ld, lt, cal) /\
    gives fe reg (one_part tag locale (PtDateTime ph ld lt cal)) vals (Ok w)) <->
  only_options m [us "date"; us "time"; us "calendar"] /\ exists v, mget ph vals = Some v /\ date_time_text fe calendar_locale locale m v w.
Proof.
  intros fe reg tag locale ph m vals w Hn. split.
  - intros (ld & lt & cal & H1 & H2). apply one_part_format in H2; [|discriminate ..]. cbn [format_part snd one_part fm_locale] in H2. apply bind_Ok in H2 as (v & Hv & H2). unfold value_of in Hv. apply ok_or_ok in Hv.
    apply format_date_time_ok in H2 as (x & Hx & Hw). apply (date_time_options_ok fe locale ph m Hn) in H1 as (A1 & A2 & A3 & A4). split; [exact A1|]. exists v. split; [exact Hv|].
    exists ld, lt, (match cal with Some l => l | None => locale end), x. split; [exact A2|]. split; [exact A3|]. split; [|auto].
    unfold calendar_from in A4. destruct (mget (us "calendar") m) as [c|]; [|now rewrite A4]. destruct A4 as (A4 & l & A5 & ->). auto.
  - intros (A1 & v & Hv & ld & lt & loc & x & A2 & A3 & A4 & Hx & Hw). exists ld, lt, (match mget (us "calendar") m with Some _ => Some loc | None => None end). split.
    + apply (date_time_options_ok fe locale ph m Hn). split; [exact A1|]. split; [exact A2|]. split; [exact A3|]. unfold calendar_from. destruct (mget (us "calendar") m) as [c|]; [|reflexivity].
      destruct A4 as (A4 & A5). split; [exact A4|]. eauto.
    + apply one_part_format; [discriminate ..|]. cbn [format_part snd one_part fm_locale]. unfold value_of. rewrite Hv. cbn [ok_or bind]. apply format_date_time_ok. exists x. split; [exact Hx|].
      destruct (mget (us "calendar") m) as [c|]; [exact Hw|]. now subst loc.
Qed.
Print Assumptions C61_date_time.
Example C61_example :
  decimal_options (us "n") [(us "group", us "min2"); (us "sign", us "except_zero")] None None = Ok (Some SgExceptZero, Some GrMin2) /\
  only_options [(us "group", us "min2"); (us "sign", us "except_zero")] [us "sign"; us "group"] /\
  decimal_options (us "n") [(us "sign", us "plus")] None None = Err (FInvalidOptionValue (us "plus") (us "sign") (us "decimal")) /\
  date_time_options env_ex (us "en") (us "d") [(us "calendar", us "coptic"); (us "date", us "long")] None None None = Ok (Some LnLong, None, Some (us "en-u-ca-coptic")) /\
  snd (format 1 env_ex [] (one_part (us "en") (us "en") (PtDecimal (us "n") (Some SgAlways) None)) [(us "n", VUnsigned 5)]) = Ok (us "5").
Proof. split; [|split; [|split; [|split]]]; try (vm_compute; reflexivity). intros k H. cbn in H |- *. intuition. Qed.

(** ** C62: the option [calendar] sets the calendar of the locale. *)
(** False if the calendar is not the first keyword, or has two subtags, or if there is another extension after it. *)
Theorem C62_calendar_refuted : exists before kws after before' kws' after' kws'' cal,
  calendar_locale (locale_print before kws after) cal <> locale_print before (set_calendar kws cal) after /\
  calendar_locale (locale_print before' kws' after') cal <> locale_print before' (set_calendar kws' cal) after' /\
  calendar_locale (locale_print before kws'' []) cal <> locale_print before (set_calendar kws'' cal) [] /\
  calendar_locale (us "ar-u-nu-latn-ca-islamic") cal = us "ar-u-nu-latn-ca-islamic-u-ca-coptic" /\
  calendar_locale (us "ar-u-ca-islamic-civil") cal = us "ar-u-ca-coptic-civil" /\
  calendar_locale (us "ar-x-a") cal = us "ar-x-a-u-ca-coptic".
Proof.
  exists (us "ar"), [(us "nu", us "latn"); (us "ca", us "islamic")], [], (us "ar"), [], (us "-x-a"), [(us "ca", us "islamic-civil")], (us "coptic").
  repeat split; vm_compute; try reflexivity; discriminate.
Qed.
Print Assumptions C62_calendar_refuted.
(** True if the calendar is the first keyword and one subtag, or if there is no Unicode extension and nothing after it. *)
Lemma flat_start kws after : (after = [] \/ exists r, after = ch "-" :: r) -> (flat_map keyword_print kws ++ after = [] \/ exists r, flat_map keyword_print kws ++ after = ch "-" :: r).
Proof. intros H. destruct kws as [|(k, v) kws]; [exact H|]. right. cbn [flat_map]. unfold keyword_print at 1. eexists. reflexivity. Qed.
Theorem C62_calendar_partial : forall before cal,
  (~ occurs (us "-u-ca-") before -> calendar_locale (locale_print before [] []) cal = locale_print before (set_calendar [] cal) []) /\
  forall x kws after, ~ occurs (us "-u-ca-") (before ++ us "-u-ca") -> ~ In (ch "-") x -> ~ In (us "ca") (map fst kws) ->
    ~ occurs (us "-u-ca-") (flat_map keyword_print kws ++ after) -> (after = [] \/ exists r, after = ch "-" :: r) ->
    calendar_locale (locale_print before ((us "ca", x) :: kws) after) cal = locale_print before (set_calendar ((us "ca", x) :: kws) cal) after.
Proof.
  intros before cal. split.
  - intros H. unfold locale_print, set_calendar. cbn [existsb app flat_map keyword_print fst snd]. rewrite !app_nil_r. rewrite (calendar_absent _ _ H). reflexivity.
  - intros x kws after H1 Hx Hk Hr Ha. pose proof (calendar_present before x (flat_map keyword_print kws ++ after) cal H1 Hx Hr (flat_start kws after Ha)) as K.
    assert (Hs : set_calendar ((us "ca", x) :: kws) cal = (us "ca", cal) :: kws).
    { unfold set_calendar. cbn [existsb fst map]. change (ueqb (us "ca") (us "ca")) with true. cbn [orb]. f_equal. clear -Hk. induction kws as [|(k, v) kws IH]; [reflexivity|]. cbn [map fst In] in Hk |- *.
      destruct (ueqb_spec k (us "ca")) as [->|_]; [tauto|]. f_equal. apply IH. tauto. }
    rewrite Hs. unfold locale_print. cbn [flat_map]. unfold keyword_print at 1 3. cbn [fst snd].
    change (before ++ calendar_key ++ x ++ flat_map keyword_print kws ++ after) with (before ++ (us "-u" ++ us "-" ++ us "ca" ++ us "-") ++ x ++ flat_map keyword_print kws ++ after) in K.
    change (before ++ calendar_key ++ cal ++ flat_map keyword_print kws ++ after) with (before ++ (us "-u" ++ us "-" ++ us "ca" ++ us "-") ++ cal ++ flat_map keyword_print kws ++ after) in K.
    rewrite <- !app_assoc in K. rewrite <- !app_assoc. cbn [fst snd]. exact K.
Qed.
Print Assumptions C62_calendar_partial.
Example C62_example : locale_print (us "th-TH") [(us "ca", us "buddhist"); (us "nu", us "thai")] (us "-x-a") = us "th-TH-u-ca-buddhist-nu-thai-x-a" /\
  calendar_locale (us "th-TH-u-ca-buddhist-nu-thai-x-a") (us "coptic") = us "th-TH-u-ca-coptic-nu-thai-x-a" /\
  locale_print (us "th-TH") (set_calendar [(us "ca", us "buddhist"); (us "nu", us "thai")] (us "coptic")) (us "-x-a") = us "th-TH-u-ca-coptic-nu-thai-x-a".
Proof. repeat split; vm_compute; reflexivity. Qed.
