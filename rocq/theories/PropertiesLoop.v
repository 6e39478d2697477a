(** Property theorem C109 (crates/localiser/src/formatter.rs): when formatting does not come to an end. *)
From Verif Require Import Base BaseFacts LexerModel LexerSpec IcuExample TreeModel TreeSpec DocSpec DocCheck ErrorSpec ErrorProofs ValueModel CommandModel
  IsoModel FormatterModel FormatterSpec FormatterProofs4 FmtExample LoopSpec LoopProofs PropertiesFormatter.

(** ** C109: formatting does not end exactly when the main string comes to stand for itself, before anything fails. *)
Theorem C109_exactly : forall d g fe reg tag locale s a fm fm' vals, content_of d g s a -> hash_in_plurals_only a ->
  (forall name f args, mget name reg = Some f -> f args <> NoFuel) ->
  formatter_try_new d g fe reg tag locale s = Ok fm -> after_formatting fe reg fm fm' ->
  (diverges fe reg fm' vals <-> leads_back fe reg locale vals a None (fst a)).
Proof. intros d g fe reg tag locale s a fm fm' vals H1 H2 H3 H4 H5. exact (proj1 (loop_iff d g fe reg tag locale s a fm fm' vals H1 H2 H3 H4 H5)). Qed.
Print Assumptions C109_exactly.

(** There is nothing between: the recursion is at most as deep as there are named strings, or it has no end. *)
Theorem C109_depth : forall d g fe reg tag locale s a fm fm' vals fuel, content_of d g s a -> hash_in_plurals_only a ->
  (forall name f args, mget name reg = Some f -> f args <> NoFuel) ->
  formatter_try_new d g fe reg tag locale s = Ok fm -> after_formatting fe reg fm fm' -> List.length (group_of a) < fuel ->
  snd (format fuel fe reg fm' vals) <> NoFuel \/ diverges fe reg fm' vals.
Proof.
  intros d g fe reg tag locale s a fm fm' vals fuel H1 H2 H3 H4 H5 Hl.
  pose proof (proj2 (loop_iff d g fe reg tag locale s a fm fm' vals H1 H2 H3 H4 H5) fuel Hl) as H.
  destruct (snd (format fuel fe reg fm' vals)); [left; intros E; discriminate E| left; intros E; discriminate E| left; intros E; discriminate E|right; auto].
Qed.
Print Assumptions C109_depth.

(** The main string is reached again through the string [other], not through [one]; a value missing before it ends it. *)
Definition s_loop : ustr := us "{m}: {n plural one#one other#other}#{one 1}{x c}{other some {v select _#_ x#x}}".
Definition a_loop : sast :=
  ([SPat (us "m") None; SText (us ":"); SText (us " "); SPat (us "n") (Some (us "plural", [(us "one", us "one"); (us "other", us "other")]))],
   Some [(us "one", [SText (us "1")]); (us "x", [SText (us "c")]);
         (us "other", [SText (us "some"); SText (us " "); SPat (us "v") (Some (us "select", [(us "_", us "_"); (us "x", us "x")]))])]).
Definition loop_vals (n : N) (v : ustr) : amap pvalue := [(us "m", VString (us "M")); (us "n", VUnsigned n); (us "v", VString v)].
Example C109_example :
  content_of icu_ex l10n_grammar s_loop a_loop /\ hash_in_plurals_only a_loop /\
  leads_back env_ex reg_ex (us "en") (loop_vals 2 (us "_")) a_loop None (fst a_loop) /\
  text_ex s_loop (loop_vals 2 (us "_")) = NoFuel /\
  text_ex s_loop (loop_vals 1 (us "_")) = Ok (us "M: 1") /\
  text_ex s_loop (loop_vals 2 (us "x")) = Ok (us "M: some c") /\
  text_ex s_loop [(us "n", VUnsigned 2); (us "v", VString (us "_"))] = Err (FPlaceholderValue (us "PatternString") (us "m")).
Proof.
  split; [apply (ref_content_iff icu_ex); [intros c _; split; reflexivity|discriminate|vm_compute; reflexivity]|].
  split.
  { intros name body x ph sels sel branch H1 H2 H3 H4 target H5 H6. cbn in H5.
    repeat (destruct H5 as [H5|H5]; [injection H5 as E1 E2; subst target; cbn in H6; repeat (destruct H6 as [H6|H6]; [discriminate H6|]); exact H6|]). exact H5. }
  split.
  { eapply (lb_in _ _ _ _ _ _ [SPat (us "m") None; SText (us ":"); SText (us " ")] _ []).
    - eapply rn_cons; [eapply rn_place; reflexivity|]. repeat (eapply rn_cons; [apply rn_text|]). apply rn_nil.
    - eapply (sf_plural _ _ _ _ _ _ (mk_decimal 1 2 0)); [reflexivity|apply nv_unsigned|reflexivity|reflexivity|vm_compute; auto].
    - vm_compute. reflexivity.
    - eapply (lb_main _ _ _ _ _ _ [SText (us "some"); SText (us " ")] _ []).
      + repeat (eapply rn_cons; [apply rn_text|]). apply rn_nil.
      + eapply sf_select; [reflexivity|reflexivity|left; reflexivity]. }
  repeat split; vm_compute; reflexivity.
Qed.
