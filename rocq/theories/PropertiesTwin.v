(** C93: a text depends on values only through what is shown of them, and on names and locales only through values
    (crates/localiser/src/formatter.rs). *)
From Verif Require Import Base BaseFacts LexerModel LexerSpec IcuExample TreeModel TreeSpec DocSpec DocCheck ValueModel CommandModel IsoModel FormatterModel FormatterSpec
  FmtExample ErrorProofs TwinSpec TwinProofs.

(** Pattern strings that are twins have the same text, in whatever locales, formatting environments and commands. *)
Theorem C93_same : forall d d' g g' S S' N tag tag' s s' a a' fm fm' fuel t, content_of d g s a -> content_of d' g' s' a' ->
  formatter_try_new d g (se_env S) (se_commands S) tag (se_locale S) s = Ok fm ->
  formatter_try_new d' g' (se_env S') (se_commands S') tag' (se_locale S') s' = Ok fm' -> twins S S' N a a' ->
  snd (format fuel (se_env S) (se_commands S) fm (se_values S)) = Ok t <-> snd (format fuel (se_env S') (se_commands S') fm' (se_values S')) = Ok t.
Proof. exact twins_same. Qed.
Print Assumptions C93_same.

(** Likewise after any other uses of the two formatters, if no number sign is in a branch of a select. *)
Theorem C93_after : forall d d' g g' S S' N tag tag' s s' a a' fm fm' fm1 fm1' fuel t, content_of d g s a -> content_of d' g' s' a' ->
  formatter_try_new d g (se_env S) (se_commands S) tag (se_locale S) s = Ok fm ->
  formatter_try_new d' g' (se_env S') (se_commands S') tag' (se_locale S') s' = Ok fm' -> twins S S' N a a' -> hash_in_plurals_only a ->
  after_formatting (se_env S) (se_commands S) fm fm1 -> after_formatting (se_env S') (se_commands S') fm' fm1' ->
  snd (format fuel (se_env S) (se_commands S) fm1 (se_values S)) = Ok t <-> snd (format fuel (se_env S') (se_commands S') fm1' (se_values S')) = Ok t.
Proof. exact twins_after. Qed.
Print Assumptions C93_after.

(** A pattern string without numbers and dates has the same text in every locale, whatever ICU4X does there. *)
Theorem C93_wordy : forall d g fe fe' reg tag tag' locale locale' s a fm fm' vals fuel t, content_of d g s a -> wordy a ->
  formatter_try_new d g fe reg tag locale s = Ok fm -> formatter_try_new d g fe' reg tag' locale' s = Ok fm' ->
  snd (format fuel fe reg fm vals) = Ok t <-> snd (format fuel fe' reg fm' vals) = Ok t.
Proof.
  intros d g fe fe' reg tag tag' locale locale' s a fm fm' vals fuel t Ha Hw Hf Hf'.
  exact (twins_same d d g g (mk_setting fe reg locale vals) (mk_setting fe' reg locale' vals) eq tag tag' s s a a fm fm' fuel t Ha Ha Hf Hf'
    (wordy_twins _ _ _ _ _ _ _ _ _ _ _ _ Ha Hf Hw)).
Qed.
Print Assumptions C93_wordy.

(** The names of the values do not matter: a pattern string with other placeholders has the same text with the values under
    their new names, also if two names become one, which then had the same value. *)
Theorem C93_names : forall d g fe reg tag locale f s s' a fm fm' vals vals' fuel t, content_of d g s a -> content_of d g s' (rename f a) ->
  formatter_try_new d g fe reg tag locale s = Ok fm -> formatter_try_new d g fe reg tag locale s' = Ok fm' ->
  (forall name body ph kw, In (name, body) (all_strings a) -> In (SPat ph kw) body -> mget (f ph) vals' = mget ph vals) ->
  (forall name body n args w, In (name, body) (all_strings a) -> In (SCmd (SId n :: SDelay :: map SId args)) body -> In w args ->
     parameter vals' (f w) = parameter vals w) ->
  snd (format fuel fe reg fm vals) = Ok t <-> snd (format fuel fe reg fm' vals') = Ok t.
Proof.
  intros d g fe reg tag locale f s s' a fm fm' vals vals' fuel t Ha Ha' Hf Hf' Hp Hd.
  exact (twins_same d d g g (mk_setting fe reg locale vals) (mk_setting fe reg locale vals') eq tag tag s s' a _ fm fm' fuel t Ha Ha' Hf Hf'
    (rename_twins _ _ _ _ _ _ _ _ _ _ _ _ Ha Hf Hp Hd)).
Qed.
Print Assumptions C93_names.

(** Twins: other placeholders, other names of strings, and values of other types. *)
Definition s_en : ustr := us "{n plural one#one other#other} {who select he#he she#she}#{one # item}{other # items}{he sent}{she sends}".
Definition s_fr : ustr := us "{k plural one#one other#other} {x select il#il elle#elle}#{one # item}{other # items}{il sent}{elle sends}".
Definition a_twin (n who he she : ustr) : sast :=
  ([SPat n (Some (us "plural", [(us "one", us "one"); (us "other", us "other")])); SText (us " "); SPat who (Some (us "select", [(he, he); (she, she)]))],
   Some [(us "one", [SHash; SText (us " "); SText (us "item")]); (us "other", [SHash; SText (us " "); SText (us "items")]); (he, [SText (us "sent")]); (she, [SText (us "sends")])]).
Definition vals_en : amap pvalue := [(us "n", VUnsigned 5); (us "who", VString (us "he"))].
Definition vals_fr : amap pvalue := [(us "k", VInteger 5); (us "x", VTagged (us "il") (us "fr"))].
Definition names_ex (k k' : ustr) : Prop :=
  In (k, k') [(us "_", us "_"); (us "one", us "one"); (us "other", us "other"); (us "he", us "il"); (us "she", us "elle")].
Ltac say := apply (ref_content_iff icu_ex); [intros c _; split; reflexivity|discriminate|vm_compute; reflexivity].
Ltac casesN := repeat match goal with H : _ \/ _ |- _ => destruct H as [H|H] | H : (_, _) = (_, _) |- _ => injection H as <- <- | H : False |- _ => destruct H end.
Example C93_example :
  content_of icu_ex l10n_grammar s_en (a_twin (us "n") (us "who") (us "he") (us "she")) /\
  content_of icu_ex l10n_grammar s_fr (a_twin (us "k") (us "x") (us "il") (us "elle")) /\
  twins (mk_setting env_ex reg_ex (us "en") vals_en) (mk_setting env_ex reg_ex (us "fr") vals_fr) names_ex
    (a_twin (us "n") (us "who") (us "he") (us "she")) (a_twin (us "k") (us "x") (us "il") (us "elle")) /\
  text_ex s_en vals_en = Ok (us "5 items sent") /\ text_ex s_fr vals_fr = Ok (us "5 items sent").
Proof.
  split; [say|]. split; [say|]. split; [|split; vm_compute; reflexivity].
  assert (Hx : forall k k', names_ex k k' -> shows_text vals_en (us "who") k <-> shows_text vals_fr (us "x") k').
  { intros k k' H. unfold names_ex in H. cbn [In] in H. unfold shows_text. casesN; split; intros (v & [= <-] & E); try discriminate E; eexists; split; reflexivity. }
  assert (Hn : forall t k k', names_ex k k' -> shows_cardinal env_ex (us "en") vals_en (us "n") t k <-> shows_cardinal env_ex (us "fr") vals_fr (us "k") t k').
  { intros t k k' H. unfold names_ex in H. cbn [In] in H. unfold shows_cardinal. casesN; split; intros (v & dec & f & r & Ev & Hv & Ef & Et & Er & E);
      vm_compute in Ev; injection Ev as <-; inversion Hv; subst; injection Ef as <-; injection Er as <-; vm_compute in E; try discriminate E;
      (eexists _, _, _, _; split; [reflexivity|]; split; [constructor|]; split; [reflexivity|]; split; [reflexivity|]; split; [reflexivity|]; vm_compute; reflexivity). }
  split; [intros k x y; unfold names_ex; cbn [In]; intros H1 H2; 
    repeat destruct H1 as [H1|H1]; try (destruct H1; fail); repeat destruct H2 as [H2|H2]; try (destruct H2; fail);
    injection H1 as E1 E2; injection H2 as E3 E4; subst; first [reflexivity|discriminate]|].
  split; [intros k x y; unfold names_ex; cbn [In]; intros H1 H2; 
    repeat destruct H1 as [H1|H1]; try (destruct H1; fail); repeat destruct H2 as [H2|H2]; try (destruct H2; fail);
    injection H1 as E1 E2; injection H2 as E3 E4; subst; first [reflexivity|discriminate]|].
  unfold all_strings, a_twin, group_of. cbn [fst snd].
  repeat (apply Forall2_cons || apply Forall2_nil); (split; [cbn [fst]; unfold names_ex; cbn [In]; tauto|]); cbn [fst snd];
    repeat (apply Forall2_cons || apply Forall2_nil); try apply tw_text; try apply tw_hash.
  - apply tw_plural; [|exact Hn]. unfold same_selectors, names_ex. cbn [map fst]. repeat constructor; cbn [In]; tauto.
  - apply tw_select; [|exact Hx]. unfold same_selectors, names_ex. cbn [map fst]. repeat constructor; cbn [In]; tauto.
Qed.

(** Without numbers and dates the locale does not matter; with them it does. *)
Definition env_fr : fmtenv := mk_fmtenv (fe_unsigned env_ex) (fe_integer env_ex) (fe_float env_ex)
  (fe_sign env_ex) (fun l o => if ueqb l (us "fr") then Some (fun x => us "nr " ++ show_decimal x) else fe_decimal env_ex l o) (fe_cardinal env_ex) (fe_ordinal env_ex)
  (fe_datetime env_ex) (fe_date env_ex) (fe_time env_ex) (fe_valid_date env_ex) (fe_locale env_ex).
Definition text_in (fe : fmtenv) (locale s : ustr) (vals : amap pvalue) : fout ustr :=
  let! fm := formatter_try_new icu_ex l10n_grammar fe reg_ex locale locale s in snd (format 8 fe reg_ex fm vals).
Definition s_word : ustr := us "{#english_a_or_an# w} {w} {who select he#he she#she}#{he sent}{she sends}".
Definition a_word : sast :=
  ([SCmd [SId (us "english_a_or_an"); SDelay; SId (us "w")]; SText (us " "); SPat (us "w") None; SText (us " "); SPat (us "who") (Some (us "select", [(us "he", us "he"); (us "she", us "she")]))],
   Some [(us "he", [SText (us "sent")]); (us "she", [SText (us "sends")])]).
Definition vals_word : amap pvalue := [(us "w", VString (us "apple")); (us "who", VString (us "she"))].
Example C93_wordy_example :
  content_of icu_ex l10n_grammar s_word a_word /\ wordy a_word /\
  text_in env_ex (us "en") s_word vals_word = Ok (us "an apple sends") /\ text_in env_fr (us "fr") s_word vals_word = Ok (us "an apple sends") /\
  text_in env_ex (us "en") (us "{n decimal}") [(us "n", VUnsigned 5)] = Ok (us "5") /\
  text_in env_fr (us "fr") (us "{n decimal}") [(us "n", VUnsigned 5)] = Ok (us "nr 5").
Proof.
  split; [say|]. split; [|repeat split; vm_compute; reflexivity].
  intros name body ph kw sels Hin Hx. cbn [all_strings group_of a_word fst snd In] in Hin. casesN; cbn [In] in Hx; casesN; try discriminate Hx; now injection Hx.
Qed.

(** Other names, here one for two values that are equal; the parameter of the delayed command is renamed as well. *)
Definition f_ex (w : ustr) : ustr := if ueqb w (us "noun") then us "w" else if ueqb w (us "thing") then us "w" else w.
Definition s_noun : ustr := us "{#english_a_or_an# noun} {thing} {who select he#he she#she}#{he sent}{she sends}".
Definition a_noun : sast :=
  ([SCmd [SId (us "english_a_or_an"); SDelay; SId (us "noun")]; SText (us " "); SPat (us "thing") None; SText (us " "); SPat (us "who") (Some (us "select", [(us "he", us "he"); (us "she", us "she")]))],
   Some [(us "he", [SText (us "sent")]); (us "she", [SText (us "sends")])]).
Definition vals_noun : amap pvalue := [(us "noun", VString (us "apple")); (us "thing", VString (us "apple")); (us "who", VString (us "she"))].
Example C93_names_example :
  content_of icu_ex l10n_grammar s_noun a_noun /\ rename f_ex a_noun = a_word /\ content_of icu_ex l10n_grammar s_word (rename f_ex a_noun) /\
  (forall w, In w [us "noun"; us "thing"; us "who"] -> mget (f_ex w) vals_word = mget w vals_noun /\ parameter vals_word (f_ex w) = parameter vals_noun w) /\
  text_ex s_noun vals_noun = Ok (us "an apple sends") /\ text_ex s_word vals_word = Ok (us "an apple sends").
Proof.
  split; [say|]. split; [vm_compute; reflexivity|]. split; [say|]. split; [|split; vm_compute; reflexivity].
  intros w [<-|[<-|[<-|[]]]]; split; vm_compute; reflexivity.
Qed.
