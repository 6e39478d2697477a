(** C92: commands are called when and as often as their text is needed (crates/localiser/src/formatter.rs, command.rs). *)
From Verif Require Import Base BaseFacts LexerModel LexerSpec IcuExample TreeModel TreeSpec DocSpec DocCheck ValueModel CommandModel IsoModel FormatterModel FormatterSpec
  FmtExample ErrorProofs CallsModel CallsSpec CallsProofs2.

(** Making a formatter calls the commands without delay marker, those of the named strings first, each once and in their
    order. If making it fails, it has called the first of them, of which the last may be the one that failed. *)
Theorem C92_build : forall W d g fe (reg : wregistry W) tag locale s a w w' r, content_of d g s a ->
  wformatter_try_new d g fe reg tag locale s w = (w', r) ->
  exists pre post, build_calls a = pre ++ post /\ attempted reg pre w w' /\ (forall fm, r = Ok fm -> post = [] /\ made reg pre w w').
Proof. intros W d g fe reg tag locale s a w w' r. apply build_makes. Qed.
Print Assumptions C92_build.

(** A string that is not a pattern string calls nothing. *)
Theorem C92_no_content : forall W d g fe (reg : wregistry W) tag locale s w, (forall a, ~ content_of d g s a) ->
  fst (wformatter_try_new d g fe reg tag locale s w) = w.
Proof.
  intros W d g fe reg tag locale s w H. destruct (wformatter_try_new d g fe reg tag locale s w) as [w' r] eqn:E.
  exact (no_content_no_calls _ _ _ _ _ _ _ _ _ _ H E).
Qed.
Print Assumptions C92_no_content.

(** Formatting calls the commands with a delay marker that are shown, each time they are shown, from left to right, with the
    values of now, and no other command. If formatting fails, it has called the first of them. *)
Theorem C92_format : forall W d g fe (reg : wregistry W) tag locale s a w0 w1 fm fm' vals fuel w w' fm'' r, content_of d g s a ->
  wformatter_try_new d g fe reg tag locale s w0 = (w1, Ok fm) -> wafter fe reg fm fm' -> wformat fuel fe reg fm' vals w = (w', (fm'', r)) ->
  exists calls, shows_first fe locale vals (all_strings a) (fst a) calls /\ attempted reg calls w w' /\
    (forall t, r = Ok t -> shows fe locale vals (all_strings a) (fst a) calls /\ made reg calls w w').
Proof. intros W d g fe reg tag locale s a w0 w1 fm fm' vals fuel w w' fm'' r. apply format_makes. Qed.
Print Assumptions C92_format.

(** Which commands are shown is determined by the pattern string and the values. *)
Theorem C92_unique : forall fe locale vals strs l cs cs', shows fe locale vals strs l cs -> shows fe locale vals strs l cs' -> cs = cs'.
Proof. intros fe locale vals strs l cs cs' H. now apply shows_fun. Qed.
Print Assumptions C92_unique.
Theorem C92_prefix : forall fe locale vals strs l cs cs', shows fe locale vals strs l cs -> shows_first fe locale vals strs l cs' -> exists r, cs = cs' ++ r.
Proof. intros fe locale vals strs l cs cs' H H'. exact (shows_prefix _ _ _ _ _ _ H' _ H). Qed.
Print Assumptions C92_prefix.

(** The text of a command without delay marker is constant: once a formatter is made, it does not matter what that command
    does or whether it is registered. *)
Theorem C92_constant : forall W d g fe (reg reg' : wregistry W) tag locale s a w0 w1 fm fm' vals fuel w, content_of d g s a ->
  wformatter_try_new d g fe reg tag locale s w0 = (w1, Ok fm) -> wafter fe reg fm fm' ->
  (forall name, delays a name -> mget name reg' = mget name reg) -> wformat fuel fe reg' fm' vals w = wformat fuel fe reg fm' vals w.
Proof. intros W d g fe reg reg' tag locale s a w0 w1 fm fm' vals fuel w. apply constant_text. Qed.
Print Assumptions C92_constant.

(** With commands that have no effects this is the formatter of [FormatterModel]. *)
Theorem C92_stateless : forall W d g fe reg tag locale s (w : W),
  wformatter_try_new d g fe (without_effects reg) tag locale s w = (w, formatter_try_new d g fe reg tag locale s) /\
  forall fm vals fuel, wformat fuel fe (without_effects reg) fm vals w = (w, format fuel fe reg fm vals).
Proof. intros W d g fe reg tag locale s w. split; [apply build_without|]. intros. apply format_without. Qed.
Print Assumptions C92_stateless.

(** A command that writes down how it is called and gives the number of its call; [no] fails. *)
Definition note : wcommand (list (list pvalue)) := fun ps w => (w ++ [ps], Ok (show_N (N.of_nat (List.length w)))).
Definition no_note : wcommand (list (list pvalue)) := fun ps w => (w ++ [ps], Err (NotFound (us "no"))).
Definition notes_ex : wregistry (list (list pvalue)) := [(us "note", note); (us "no", no_note)].
Definition wbuild_ex (s : ustr) := wformatter_try_new icu_ex l10n_grammar env_ex notes_ex (us "en") (us "en") s [].
(** Make a formatter, then format with each of the values. *)
Definition wtexts_ex (s : ustr) (l : list (amap pvalue)) : list (list pvalue) * list (fout ustr) :=
  match wbuild_ex s with
  | (w, Ok fm) =>
      let '(w', _, r) := fold_left (fun x vals => let '(w, fm, r) := x in
        let '(w', (fm', t)) := wformat 8 env_ex notes_ex fm vals w in (w', fm', r ++ [t])) l (w, fm, []) in (w', r)
  | (w, _) => (w, [])
  end.
Definition s_notes : ustr := us "{#note m}:{v select a#a b#b}{#note# v}#{a y{#note# v z}}{b x{#note n}}".
Definition a_notes : sast :=
  ([SCmd [SId (us "note"); SId (us "m")]; SText (us ":"); SPat (us "v") (Some (us "select", [(us "a", us "a"); (us "b", us "b")])); SCmd [SId (us "note"); SDelay; SId (us "v")]],
   Some [(us "a", [SText (us "y"); SCmd [SId (us "note"); SDelay; SId (us "v"); SId (us "z")]]); (us "b", [SText (us "x"); SCmd [SId (us "note"); SId (us "n")]])]).
Definition call_ex (ps : list pvalue) : list pvalue := VString (us "note") :: ps.

(** Two calls when the formatter is made, those of the named string first; two for the value [a], one for [b]; their texts
    stay, those of the others change. A failing command ends it. *)
Example C92_example :
  content_of icu_ex l10n_grammar s_notes a_notes /\
  build_calls a_notes = [(us "note", [VString (us "n")]); (us "note", [VString (us "m")])] /\
  shows env_ex (us "en") [(us "v", VString (us "a"))] (all_strings a_notes) (fst a_notes)
    [(us "note", [VString (us "a"); VString (us "z")]); (us "note", [VString (us "a")])] /\
  wtexts_ex s_notes [] = ([call_ex [VString (us "n")]; call_ex [VString (us "m")]], []) /\
  wtexts_ex s_notes [[(us "v", VString (us "a"))]; [(us "v", VString (us "b"))]; [(us "v", VString (us "c"))]] =
    ([call_ex [VString (us "n")]; call_ex [VString (us "m")]; call_ex [VString (us "a"); VString (us "z")]; call_ex [VString (us "a")]; call_ex [VString (us "b")]],
     [Ok (us "1:y23"); Ok (us "1:x04"); Err (FSelectorsIndexNamed (us "c") 0)]) /\
  wtexts_ex (us "{#note a}{#no b}{#note c}") [] = ([call_ex [VString (us "a")]; [VString (us "no"); VString (us "b")]], []) /\
  wtexts_ex (us "{#note# a}{#no# b}{#note# c}") [[]] = ([call_ex [VString (us "a")]; [VString (us "no"); VString (us "b")]], [Err (FCommand (NotFound (us "no")))]) /\
  wtexts_ex (us "{#note a}{b") [] = ([], []).
Proof.
  split; [apply (ref_content_iff icu_ex); [intros c _; split; reflexivity|discriminate|vm_compute; reflexivity]|].
  split; [vm_compute; reflexivity|].
  split.
  { change [(us "note", [VString (us "a"); VString (us "z")]); (us "note", [VString (us "a")])]
      with ([(us "note", map (parameter [(us "v", VString (us "a"))]) [us "v"; us "z"])] ++ [(us "note", map (parameter [(us "v", VString (us "a"))]) [us "v"])]).
    apply sh_simple; [intros (n & r & E); discriminate E|]. apply sh_simple; [exact Logic.I|].
    eapply sh_branch.
    - eapply gt_select; [reflexivity|reflexivity|left; reflexivity|vm_compute; reflexivity].
    - apply sh_simple; [exact Logic.I|]. apply (sh_delayed env_ex (us "en") _ _ _ [us "v"; us "z"] _ _ (sh_nil _ _ _ _)).
    - apply (sh_delayed env_ex (us "en") _ _ _ [us "v"] _ _ (sh_nil _ _ _ _)). }
  repeat split; vm_compute; reflexivity.
Qed.
