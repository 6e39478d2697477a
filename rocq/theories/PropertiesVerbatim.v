(** C95: a text is made of the words of its pattern string and of the texts supplied for its places; what is supplied is taken as
    it is (crates/localiser/src/formatter.rs). *)
From Verif Require Import Base BaseFacts LexerModel LexerSpec IcuExample TreeModel TreeSpec DocSpec DocCheck ValueModel CommandModel IsoModel FormatterModel FormatterSpec
  FmtExample ErrorProofs TwinSpec VerbatimSpec VerbatimProofs.

(** For a pattern string and the choices made in it there is one text with open places, made of its words and places, which is
    filled with whatever the values, the commands and ICU4X supply. Nothing supplied is ever read as part of a pattern, changes
    what else is shown, or makes formatting fail. If [o] is [None], formatting fails whatever is supplied. *)
Theorem C95_made : forall d g S0 tag s a fm0 fuel, content_of d g s a ->
  formatter_try_new d g (se_env S0) (se_commands S0) tag (se_locale S0) s = Ok fm0 ->
  exists o : option (list chunk), (forall l, o = Some l -> own_chunks a l) /\ forall S fm t, same_choices a S0 S ->
    formatter_try_new d g (se_env S) (se_commands S) tag (se_locale S) s = Ok fm ->
    snd (format fuel (se_env S) (se_commands S) fm (se_values S)) = Ok t <-> exists l, o = Some l /\ t = filled (supplied S) l.
Proof. exact text_open. Qed.
Print Assumptions C95_made.

(** Likewise after any other uses of the formatter, if no number sign is in a branch of a select. *)
Theorem C95_after : forall d g S0 tag s a fm0 fuel, content_of d g s a -> hash_in_plurals_only a ->
  formatter_try_new d g (se_env S0) (se_commands S0) tag (se_locale S0) s = Ok fm0 ->
  exists o : option (list chunk), (forall l, o = Some l -> own_chunks a l) /\ forall S fm fm1 t, same_choices a S0 S ->
    formatter_try_new d g (se_env S) (se_commands S) tag (se_locale S) s = Ok fm -> after_formatting (se_env S) (se_commands S) fm fm1 ->
    snd (format fuel (se_env S) (se_commands S) fm1 (se_values S)) = Ok t <-> exists l, o = Some l /\ t = filled (supplied S) l.
Proof. exact text_open_after. Qed.
Print Assumptions C95_after.

(** One formatter, other values for placeholders that are only shown. *)
Theorem C95_values : forall d g fe reg tag locale s a fm vals fuel, content_of d g s a -> formatter_try_new d g fe reg tag locale s = Ok fm ->
  exists o : option (list chunk), (forall l, o = Some l -> own_chunks a l) /\ forall vals' t,
    (forall ph kw, item_of a (SPat ph (Some kw)) -> mget ph vals' = mget ph vals) ->
    (forall name args w, item_of a (SCmd (SId name :: SDelay :: map SId args)) -> In w args -> mget w vals' = mget w vals) ->
    (forall ph, item_of a (SPat ph None) -> (exists u, shows_text vals' ph u) <-> (exists u, shows_text vals ph u)) ->
    snd (format fuel fe reg fm vals') = Ok t <-> exists l, o = Some l /\ t = filled (supplied (mk_setting fe reg locale vals')) l.
Proof.
  intros d g fe reg tag locale s a fm vals fuel Ha Hf.
  destruct (text_open d g (mk_setting fe reg locale vals) tag s a fm fuel Ha Hf) as (o & Ho & H). exists o. split; [exact Ho|].
  intros vals' t H1 H2 H3. exact (H (mk_setting fe reg locale vals') fm t (values_choices a fe reg locale vals vals' H1 H2 H3) Hf).
Qed.
Print Assumptions C95_values.

(** What holds of each character of the words and of the texts supplied holds of each character of the text: if values are freed of
    some characters before they are given to the formatter, then the text has none that the pattern string itself has not. *)
Theorem C95_clean : forall (P : N -> Prop) d g S tag s a fm fuel t, content_of d g s a ->
  formatter_try_new d g (se_env S) (se_commands S) tag (se_locale S) s = Ok fm ->
  (forall c, own_chunk a c -> Forall P (filled (supplied S) [c])) ->
  snd (format fuel (se_env S) (se_commands S) fm (se_values S)) = Ok t -> Forall P t.
Proof. exact text_clean. Qed.
Print Assumptions C95_clean.

(** Values that look like patterns are shown as they are, in the same places. *)
Definition s_made : ustr := us "{who} has {#english_a_or_an# w} {n plural one#one other#other}#{one # x}{other # of {what}}".
Definition a_made : sast :=
  ([SPat (us "who") None; SText (us " "); SText (us "has"); SText (us " "); SCmd [SId (us "english_a_or_an"); SDelay; SId (us "w")]; SText (us " ");
    SPat (us "n") (Some (us "plural", [(us "one", us "one"); (us "other", us "other")]))],
   Some [(us "one", [SHash; SText (us " "); SText (us "x")]); (us "other", [SHash; SText (us " "); SText (us "of"); SText (us " "); SPat (us "what") None])]).
Definition vals_of (who what : ustr) : amap pvalue :=
  [(us "who", VString who); (us "w", VString (us "apple")); (us "n", VUnsigned 5); (us "what", VString what)].
Definition made : list chunk :=
  [Supplied (FromValue (us "who")); Word (us " "); Word (us "has"); Word (us " "); Supplied (FromCommand true (us "english_a_or_an") [us "w"]); Word (us " ");
   Supplied (FromNumber (fe_unsigned env_ex 5)); Word (us " "); Word (us "of"); Word (us " "); Supplied (FromValue (us "what"))].
Ltac cases_in := repeat match goal with H : _ \/ _ |- _ => destruct H as [H|H] | H : (_, _) = (_, _) |- _ => injection H as <- <- | H : False |- _ => destruct H end.
Example C95_example :
  content_of icu_ex l10n_grammar s_made a_made /\
  same_choices a_made (mk_setting env_ex reg_ex (us "en") (vals_of (us "Kim") (us "them")))
    (mk_setting env_ex reg_ex (us "en") (vals_of (us "{n plural one#one}") (us "#{who}`"))) /\
  own_chunks a_made made /\
  text_ex s_made (vals_of (us "Kim") (us "them")) = Ok (us "Kim has an 5 of them") /\
  filled (supplied (mk_setting env_ex reg_ex (us "en") (vals_of (us "Kim") (us "them")))) made = us "Kim has an 5 of them" /\
  text_ex s_made (vals_of (us "{n plural one#one}") (us "#{who}`")) = Ok (us "{n plural one#one} has an 5 of #{who}`") /\
  filled (supplied (mk_setting env_ex reg_ex (us "en") (vals_of (us "{n plural one#one}") (us "#{who}`")))) made = us "{n plural one#one} has an 5 of #{who}`".
Proof.
  split; [apply (ref_content_iff icu_ex); [intros c _; split; reflexivity|discriminate|vm_compute; reflexivity]|]. split; [|split; [|repeat split; vm_compute; reflexivity]].
  - apply values_choices.
    + intros ph kw (name & body & Hin & Hx). cbn [all_strings group_of a_made fst snd In] in Hin. cases_in; cbn [In] in Hx; cases_in; try discriminate Hx. injection Hx as <- _. reflexivity.
    + intros n args w (name & body & Hin & Hx) Hw. cbn [all_strings group_of a_made fst snd In] in Hin. cases_in; cbn [In] in Hx; cases_in; try discriminate Hx.
      injection Hx as _ Hx. destruct args as [|v [|v' args]]; try discriminate Hx. injection Hx as <-. destruct Hw as [<-|[]]. reflexivity.
    + intros ph (name & body & Hin & Hx). cbn [all_strings group_of a_made fst snd In] in Hin.
      cases_in; cbn [In] in Hx; cases_in; try discriminate Hx; injection Hx as <-; split; intros _; eexists; eexists; (split; [vm_compute; reflexivity|reflexivity]).
  - intros c Hc. unfold made in Hc. cbn [In] in Hc.
    assert (Hm : forall x, In x (fst a_made) -> item_of a_made x) by (intros x Hx; exists (us "_"), (fst a_made); split; [now left|exact Hx]).
    assert (Ho : forall x, In x [SHash; SText (us " "); SText (us "of"); SText (us " "); SPat (us "what") None] -> item_of a_made x)
      by (intros x Hx; exists (us "other"), [SHash; SText (us " "); SText (us "of"); SText (us " "); SPat (us "what") None]; split; [right; right; now left|exact Hx]).
    cases_in; subst c; cbn [own_chunk]; try (apply Hm; unfold a_made; cbn [fst In]; tauto); try (apply Ho; cbn [In]; tauto).
    exists (us "n"), (us "plural"), [(us "one", us "one"); (us "other", us "other")]. split; [apply Hm; unfold a_made; cbn [fst In]; tauto|cbn [In]; tauto].
Qed.

(** A value with a keyword chooses; it is not shown, and another value makes another text. *)
Example C95_choice_example :
  text_ex (us "{who select he#he she#she}#{he sent}{she sends}") [(us "who", VString (us "he"))] = Ok (us "sent") /\
  text_ex (us "{who select he#he she#she}#{he sent}{she sends}") [(us "who", VString (us "she"))] = Ok (us "sends").
Proof. split; vm_compute; reflexivity. Qed.
