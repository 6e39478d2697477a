(** Property theorems C88: formatting part by part (crates/localiser/src/formatter.rs). *)
From Verif Require Import Base BaseFacts LexerModel LexerSpec IcuExample TreeModel TreeSpec DocSpec DocCheck ValueModel
  CommandModel IsoModel FormatterModel FormatterSpec FmtExample PropertiesFormatter OnlySpec PartsSpec PartsProofs.

(** The string of both parts. *)
Theorem C88_string : forall a b g, dprint (mk_doc (dcat a b) g) =
  strprint a ++ strprint b ++ match g with None => [] | Some (w, l) => us "#" ++ w ++ flat_map namedprint l end.
Proof. intros a b g. unfold dprint. cbn [d_main d_group]. rewrite dcat_print. now rewrite <- app_assoc. Qed.
Print Assumptions C88_string.

(** False in general: the number of a plural in the first part is shown by a select in the second part. *)
Definition part_a : dstr := mk_dstr [] [(DPlace (us "n") (Some (us " ", us "plural", [(us " ", (us "one", us "one")); (us " ", (us "other", us "other"))])), us " ")].
Definition part_b : dstr := mk_dstr [] [(DPlace (us "s") (Some (us " ", us "select", [(us " ", (us "one", us "one"))])), [])].
Definition part_g : option (ustr * list dnamed) :=
  Some ([], [mk_dnamed (us "one") (us " ") (mk_dstr (us "x ") [(DHash, us " y")]) []; mk_dnamed (us "other") (us " ") (mk_dstr (us "o") []) []]).
Definition part_vals : amap pvalue := [(us "n", VUnsigned 1); (us "s", VString (us "one"))].

Theorem C88_parts_refuted : let e := mk_doc (dcat part_a part_b) part_g in
  doc_wf icu_ex e /\ unique_names e /\ supported icu_ex e /\
  dprint e = us "{n plural one#one other#other} {s select one#one}#{one x # y}{other o}" /\
  formatted icu_ex env_ex reg_ex (us "en") (us "en") (dprint (mk_doc part_a part_g)) part_vals (Ok (us "x 1 y ")) /\
  formatted icu_ex env_ex reg_ex (us "en") (us "en") (dprint (mk_doc part_b part_g)) part_vals (Ok (us "x  y")) /\
  formatted icu_ex env_ex reg_ex (us "en") (us "en") (dprint e) part_vals (Ok (us "x 1 y x 1 y")).
Proof.
  assert (F : forall s t, snd (match formatter_try_new icu_ex l10n_grammar env_ex reg_ex (us "en") (us "en") s with
      Ok fm => format 3 env_ex reg_ex fm part_vals | _ => (mk_formatter [] [] [] [] [], Panic) end) = Ok t ->
      formatted icu_ex env_ex reg_ex (us "en") (us "en") s part_vals (Ok t)).
  { intros s t H. right. destruct (formatter_try_new icu_ex l10n_grammar env_ex reg_ex (us "en") (us "en") s) as [fm| | |]; try discriminate.
    exists fm, fm. split; [reflexivity|]. split; [constructor|]. exists 3. split; [exact H|discriminate]. }
  cbv zeta. split; [apply docb_ok; reflexivity|]. split; [apply uniqueb_ok; reflexivity|].
  split; [repeat constructor|]. split; [reflexivity|]. split; [|split]; apply F; vm_compute; reflexivity.
Qed.
Print Assumptions C88_parts_refuted.

(** True if no branch of a select has a number sign: the result is that of the first part followed by that of the second, the
    first error coming first. *)
Theorem C88_parts_partial : forall d fe reg tag locale a b g vals r r1 r2, icu_ok d ->
  let e := mk_doc (dcat a b) g in
  doc_wf d (mk_doc a g) -> doc_wf d (mk_doc b g) -> unique_names e -> supported d e ->
  hash_in_plurals_only (doc_content e) ->
  formatted d fe reg tag locale (dprint e) vals r -> formatted d fe reg tag locale (dprint (mk_doc a g)) vals r1 ->
  formatted d fe reg tag locale (dprint (mk_doc b g)) vals r2 -> alike r (after r1 r2).
Proof. intros d fe reg tag locale a b g vals r r1 r2 Hd e W1 W2 U S. exact (parts_formatted d fe reg tag locale Hd a b g W1 W2 U S vals r r1 r2). Qed.
Print Assumptions C88_parts_partial.

(** And if both parts have results, then so has the whole. *)
Theorem C88_result_partial : forall d fe reg tag locale a b g vals r1 r2, icu_ok d ->
  let e := mk_doc (dcat a b) g in
  doc_wf d (mk_doc a g) -> doc_wf d (mk_doc b g) -> unique_names e -> supported d e -> hash_in_plurals_only (doc_content e) ->
  formatted d fe reg tag locale (dprint (mk_doc a g)) vals r1 -> formatted d fe reg tag locale (dprint (mk_doc b g)) vals r2 ->
  exists r, formatted d fe reg tag locale (dprint e) vals r /\ alike r (after r1 r2).
Proof. intros d fe reg tag locale a b g vals r1 r2 Hd e W1 W2 U S. exact (parts_result d fe reg tag locale Hd a b g W1 W2 U S vals r1 r2). Qed.
Print Assumptions C88_result_partial.

(** The whole can be formatted if and only if both parts can. *)
Theorem C88_ready_partial : forall d fe reg tag locale a b g, icu_ok d -> let e := mk_doc (dcat a b) g in
  doc_wf d (mk_doc a g) -> doc_wf d (mk_doc b g) -> unique_names e -> supported d e ->
  (ready d fe reg tag locale (dprint e) <-> ready d fe reg tag locale (dprint (mk_doc a g)) /\ ready d fe reg tag locale (dprint (mk_doc b g))).
Proof. intros d fe reg tag locale a b g Hd e W1 W2 U S. exact (parts_ready d fe reg tag locale Hd a b g W1 W2 U S). Qed.
Print Assumptions C88_ready_partial.

Example C88_example :
  let g := Some ([], [mk_dnamed (us "one") (us " ") (mk_dstr (us "one dog") []) []; mk_dnamed (us "other") (us " ") (mk_dstr [] [(DHash, us " dogs")]) []]) in
  let a := mk_dstr (us "Hello ") [(DPlace (us "v") None, us ", see ")] in
  let b := mk_dstr (us "my ") [(DPlace (us "n") (Some (us " ", us "plural", [(us " ", (us "one", us "one")); (us " ", (us "other", us "other"))])), us ".")] in
  let vals := [(us "n", VUnsigned 3); (us "v", VString (us "you"))] in
  let e := mk_doc (dcat a b) g in
  dprint e = us "Hello {v}, see my {n plural one#one other#other}.#{one one dog}{other # dogs}" /\
  doc_wf icu_ex (mk_doc a g) /\ doc_wf icu_ex (mk_doc b g) /\ unique_names e /\ supported icu_ex e /\
  hash_in_plurals_only (doc_content e) /\ ~ selects_main vals (doc_content e) /\
  text_ex (dprint e) vals = after (text_ex (dprint (mk_doc a g)) vals) (text_ex (dprint (mk_doc b g)) vals) /\
  text_ex (dprint e) vals = Ok (us "Hello you, see my 3 dogs.").
Proof.
  cbv zeta. split; [reflexivity|]. split; [apply docb_ok; reflexivity|]. split; [apply docb_ok; reflexivity|]. split; [apply uniqueb_ok; reflexivity|].
  split; [repeat constructor|]. split; [|split; [|split; vm_compute; reflexivity]].
  - intros name body x ph sels sel branch H1 H2 H3. unfold is_select in H3. subst x. cbn in H1.
    repeat (destruct H1 as [[= <- <-]|H1]; [cbn in H2; repeat (destruct H2 as [H2|H2]; [try discriminate H2|]); try contradiction|]); try contradiction.
  - intros (name & body & ph & sels & v & H1 & H2 & _). cbn in H1.
    repeat (destruct H1 as [[= <- <-]|H1]; [cbn in H2; repeat (destruct H2 as [H2|H2]; [try discriminate H2|]); try contradiction|]); try contradiction.
Qed.

(** A placeholder that would select the main string, in a string that is not shown, does no harm. *)
Example C88_main_example :
  let g := Some ([], [mk_dnamed (us "one") (us " ") (mk_dstr (us "one ") [(DPlace (us "x") (Some (us " ", us "select", [(us " ", (us "_", us "_"))])), [])]) [];
                      mk_dnamed (us "other") (us " ") (mk_dstr [] [(DHash, us " dogs")]) []]) in
  let a := mk_dstr (us "Hello ") [(DPlace (us "v") None, us ", see ")] in
  let b := mk_dstr (us "my ") [(DPlace (us "n") (Some (us " ", us "plural", [(us " ", (us "one", us "one")); (us " ", (us "other", us "other"))])), us ".")] in
  let vals := [(us "n", VUnsigned 3); (us "v", VString (us "you")); (us "x", VString (us "_"))] in
  let e := mk_doc (dcat a b) g in
  dprint e = us "Hello {v}, see my {n plural one#one other#other}.#{one one {x select _#_}}{other # dogs}" /\
  doc_wf icu_ex (mk_doc a g) /\ doc_wf icu_ex (mk_doc b g) /\ unique_names e /\ supported icu_ex e /\
  hash_in_plurals_only (doc_content e) /\ selects_main vals (doc_content e) /\
  text_ex (dprint e) vals = after (text_ex (dprint (mk_doc a g)) vals) (text_ex (dprint (mk_doc b g)) vals) /\
  text_ex (dprint e) vals = Ok (us "Hello you, see my 3 dogs.").
Proof.
  cbv zeta. split; [reflexivity|]. split; [apply docb_ok; reflexivity|]. split; [apply docb_ok; reflexivity|]. split; [apply uniqueb_ok; reflexivity|].
  split; [repeat constructor|]. split; [|split; [|split; vm_compute; reflexivity]].
  - intros name body x ph sels sel branch H1 H2 H3 Hin target Ht. unfold is_select in H3. subst x. cbn in H1.
    repeat (destruct H1 as [[= <- <-]|H1]; [cbn in H2; repeat (destruct H2 as [H2|H2]; [try discriminate H2|]); try contradiction|]); try contradiction.
    injection H2 as <- <-. cbn in Hin. destruct Hin as [[= <- <-]|[]]. cbn in Ht.
    repeat (destruct Ht as [Ht|Ht]; [try (vm_compute in Ht; discriminate Ht)|]); try contradiction. injection Ht as <-. cbn. intros Hh.
    repeat (destruct Hh as [Hh|Hh]; [discriminate Hh|]). exact Hh.
  - exists (us "one"), [SText (us "one "); SPat (us "x") (Some (us "select", [(us "_", us "_")])); SText []], (us "x"), [(us "_", us "_")], (VString (us "_")).
    split; [right; left; reflexivity|]. split; [right; left; reflexivity|]. split; [left; reflexivity|]. split; vm_compute; reflexivity.
Qed.
