(** * Features (C72, C73) *)
From Coq Require Import String.
From Verif Require Import Base LexerModel TreeModel TreeSpec DocSpec IcuExample DocCheck ValueModel CommandModel IsoModel FormatterModel FormatterSpec.
From Verif Require Import FormatterProofs4 FmtExample PropertiesFormatter FeatureModel FeatureSpec FeatureProofs.
Open Scope string_scope.

(** ** C72: the documented features *)

(** None of four does what is documented: with the default features numbers cannot be formatted with the internal data; with
    [icu_blob] and [icu_fs] there is no blob or file system provider to choose; [icu_extended] does not change the type of
    languages. *)
Theorem C72_features_refuted :
  (exists req, build req /\ ~ default_documented req) /\ (exists req, build req /\ ~ blob_documented req) /\
  (exists req, build req /\ ~ fs_documented req) /\ (exists req, build req /\ ~ extended_documented req).
Proof.
  assert (R : forall c f l, In ((c, f), l) features -> build [(c, f)]) by (intros c f l H g [<-|[]]; exists l; exact H).
  assert (Q : forall f, enabled [f] f) by (intros f; apply en_requested; left; reflexivity).
  repeat split.
  - exists [("i18n", "default")]. split; [eapply R; cbn; tauto|]. intros H.
    assert (U := H (or_introl (Q _))). apply usable_iff in U as (_ & U). vm_compute in U. discriminate.
  - exists [("i18n", "icu_blob")]. split; [eapply R; cbn; tauto|]. intros H.
    assert (U := H (or_introl (Q _)) 0). apply usable_iff in U as (U & _). vm_compute in U. discriminate.
  - exists [("i18n", "icu_fs")]. split; [eapply R; cbn; tauto|]. intros H.
    assert (U := H (or_introl (Q _)) 0). apply usable_iff in U as (U & _). vm_compute in U. discriminate.
  - exists [("i18n_utility", "icu_extended")]. split; [eapply R; cbn; tauto|]. intros H.
    assert (U := H (Q _)). vm_compute in U. discriminate.
Qed.
Print Assumptions C72_features_refuted.

(** What holds in every build: only the internal data can be chosen, by the feature of the lexer; they are used for formatting
    if and only if the localiser's feature [icu_compiled_data] is enabled, which the default features do not do. *)
Theorem C72_features_implemented : forall req, build req ->
  (usable req Internal <-> enabled req ("i18n_localiser", "icu_compiled_data")) /\
  (constructor req Internal = true <-> enabled req ("i18n_lexer", "icu_compiled_data")) /\
  (forall p, ~ usable req (Blob p) /\ constructor req (Blob p) = false) /\ (forall p, ~ usable req (Fs p) /\ constructor req (Fs p) = false) /\
  language_type req = LanguageIdentifier.
Proof.
  intros req Hb. assert (Hbl : on req "i18n_lexer" "blob" = false) by (apply never_on; [exact Hb|vm_compute; reflexivity]).
  assert (Hfs : on req "i18n_lexer" "fs" = false) by (apply never_on; [exact Hb|vm_compute; reflexivity]).
  assert (Hex : on req "i18n_utility" "extend" = false) by (apply never_on; [exact Hb|vm_compute; reflexivity]).
  split; [split|split; [split|split; [|split]]].
  - intros U. apply usable_iff in U as (_ & U). apply on_iff, U.
  - intros H. apply usable_iff. split; [|apply on_iff, H]. cbn [constructor]. apply on_iff. revert H. apply implied; [exact Hb|].
    intros x Hx. vm_compute in Hx |- *. tauto.
  - intros H. apply on_iff, H.
  - intros H. apply on_iff, H.
  - intros p. split; [|exact Hbl]. intros U. apply usable_iff in U as (U & _). cbn [constructor] in U. congruence.
  - intros p. split; [|exact Hfs]. intros U. apply usable_iff in U as (U & _). cbn [constructor] in U. congruence.
  - unfold language_type. rewrite Hex. reflexivity.
Qed.
Print Assumptions C72_features_implemented.

(** What the loading of the data gives, for any features: with a source that is not compiled in, the error of the sanity check; with the
    data ICU4X can load, these; else the error of what cannot be loaded first. *)
Theorem C72_try_new : forall req I s,
  (constructor req s = false -> icu_try_new req I s = Err IeSyntax) /\
  (constructor req s = true ->
    (forall d, loads I s d -> icu_try_new req I s = Ok (mk_icu_provider s d)) /\
    ((forall d, ~ loads I s d) -> exists p, (s = Blob p \/ s = Fs p) /\
      ((load_segmenter I p = None /\ icu_try_new req I s = Err IeSegmenter) \/
       (load_segmenter I p <> None /\ icu_try_new req I s = Err IeProperties)))).
Proof.
  intros req I s. split; [intros Hc; unfold icu_try_new; destruct s; cbn [constructor] in Hc; rewrite Hc; reflexivity|].
  intros Hc. split.
  - intros d Hl. unfold icu_try_new. destruct s as [|p|p]; cbn [constructor] in Hc; rewrite Hc; cbn [loads] in Hl.
    + subst d. reflexivity.
    + destruct Hl as (H1 & H2 & H3). unfold load_all. rewrite H1, H2, H3. cbn. destruct d; reflexivity.
    + destruct Hl as (H1 & H2 & H3). unfold load_all. rewrite H1, H2, H3. cbn. destruct d; reflexivity.
  - intros Hn.
    assert (Hall : forall p, (forall g sy w, ~ (load_segmenter I p = Some g /\ load_syntax I p = Some sy /\ load_white_space I p = Some w)) ->
      (load_segmenter I p = None /\ load_all I p = Err IeSegmenter) \/ (load_segmenter I p <> None /\ load_all I p = Err IeProperties)).
    { intros p H. unfold load_all. destruct (load_segmenter I p) as [g|]; [right|left; split; reflexivity]. split; [discriminate|].
      destruct (load_syntax I p) as [sy|]; [|reflexivity]. destruct (load_white_space I p) as [w|]; [|reflexivity].
      destruct (H g sy w). repeat split. }
    destruct s as [|p|p]; cbn [constructor] in Hc; cbn [loads] in Hn; [destruct (Hn _ eq_refl)| |]; exists p;
      (split; [tauto|]); (destruct (Hall p ltac:(intros g sy w Hx; exact (Hn (mk_icu w sy g) Hx))) as [(H & E)|(H & E)]; [left|right]);
      (split; [exact H|]); unfold icu_try_new; rewrite Hc, E; reflexivity.
Qed.
Print Assumptions C72_try_new.

(** *** Example: were the feature [blob] of the lexer enabled, a file without the white space would be refused. *)
Example C72_try_new_example :
  let ok := fun _ : uchar => true in
  let I := mk_icu_data (fun _ => O) ok ok (fun _ => Some (fun _ => O)) (fun _ => Some ok) (fun p => match p with O => Some ok | _ => None end) in
  icu_try_new [("i18n_lexer", "blob")] I (Blob 0) = Ok (mk_icu_provider (Blob 0) (mk_icu ok ok (fun _ => O))) /\
  icu_try_new [("i18n_lexer", "blob")] I (Blob 1) = Err IeProperties /\ icu_try_new [] I Internal = Err IeSyntax.
Proof. vm_compute. repeat split. Qed.

(** The feature [icu_compiled_data] itself does what is documented. *)
Theorem C72_features_partial : forall req, build req -> compiled_documented req.
Proof.
  intros req Hb H. apply (C72_features_implemented req Hb). destruct H as [H|H]; [|exact H]. revert H. apply implied; [exact Hb|].
  intros x Hx. vm_compute in Hx |- *. tauto.
Qed.
Print Assumptions C72_features_partial.

(** In a build without it no string with a number, a date, a time or a plural in its main string can be formatted. *)
Theorem C72_no_numbers_partial : forall req fe d g reg tag locale s a fm fm' vals t x,
  build req -> ~ enabled req ("i18n_localiser", "icu_compiled_data") ->
  content_of d g s a -> hash_in_plurals_only a -> In x (fst a) -> needs_data x ->
  formatter_try_new d g (formatter_env req fe Internal) reg tag locale s = Ok fm -> after_formatting (formatter_env req fe Internal) reg fm fm' ->
  ~ gives (formatter_env req fe Internal) reg fm' vals (Ok t).
Proof.
  intros req fe d g reg tag locale s a fm fm' vals t x Hb Hn Hc Hh Hx Hd Hf Ha Hg.
  apply (format_iff d g _ reg tag locale s a fm fm' vals t Hc Hh Hf Ha) in Hg.
  assert (E : branch req Internal = false).
  { destruct (branch req Internal) eqn:E; [|reflexivity]. exfalso. apply Hn, on_iff, E. }
  revert Hg. unfold implemented_text. apply no_text with (x := x); try assumption; intros; unfold formatter_env; rewrite E; reflexivity.
Qed.
Print Assumptions C72_no_numbers_partial.

(** *** Example: the same string and value, with and without the feature. *)
Definition text_with (req : list cfeature) (s : ustr) (vals : amap pvalue) : fout ustr :=
  let fe := formatter_env req (fun _ => env_ex) Internal in
  let! fm := formatter_try_new icu_ex l10n_grammar fe reg_ex (us "en") (us "en") s in snd (format 20 fe reg_ex fm vals).
Example C72_example : let s := us "There are {n decimal} files." in let vals := [(us "n", VUnsigned 5)] in
  constructor [("i18n", "default")] Internal = true /\
  text_with [("i18n", "icu_compiled_data")] s vals = Ok (us "There are 5 files.") /\
  text_with [("i18n", "default")] s vals = Err FIcu /\
  text_with [("i18n", "default")] (us "No `{ file {f}.") [(us "f", VString (us "x"))] = Ok (us "No { file x.").
Proof. vm_compute. repeat split. Qed.

(** ** C73: shared pointers *)

(** If the feature [sync] is requested of the lexer only, the localiser passes [Rc] where the lexer expects [Arc]. *)
Theorem C73_pointers_refuted : exists req a b, build req /\ In (a, b) dependencies /\ with_code a /\ ~ agree req a b.
Proof.
  exists [("i18n_lexer", "sync")], "i18n_localiser", "i18n_lexer". split; [intros g [<-|[]]; eexists; cbn; tauto|].
  split; [cbn; tauto|]. split; [discriminate|]. vm_compute. discriminate.
Qed.
Print Assumptions C73_pointers_refuted.

(** All crates agree if and only if [sync] is enabled for the localiser or for none. *)
Theorem C73_pointers_partial : forall req, build req ->
  ((forall a b, In (a, b) dependencies -> with_code a -> agree req a b) <->
   enabled req ("i18n_localiser", "sync") \/ (forall c, with_code c -> ~ enabled req (c, "sync"))).
Proof.
  intros req Hb.
  assert (Hi : forall a b, In a ["i18n_localiser"; "i18n_provider_sqlite3"; "i18n_provider"; "i18n_lexer"] ->
    In (a, b) dependencies -> enabled req (a, "sync") -> enabled req (b, "sync")).
  { intros a b Ha Hd. apply implied; [exact Hb|]. cbn in Ha. cbn [dependencies In] in Hd.
    repeat (destruct Ha as [<-|Ha]; [repeat (destruct Hd as [Hd|Hd]; [inversion Hd; subst; intros x Hx; vm_compute in Hx |- *; tauto|]); destruct Hd|]).
    destruct Ha. }
  assert (Hag : forall a b, agree req a b <-> (enabled req (a, "sync") <-> enabled req (b, "sync"))).
  { intros a b. unfold agree, ref_count. rewrite <- !on_iff. destruct (on req a "sync"), (on req b "sync"); split; intros H; try reflexivity; try discriminate; try tauto.
    - destruct H as [H _]. specialize (H eq_refl). discriminate.
    - destruct H as [_ H]. specialize (H eq_refl). discriminate. }
  assert (Hd : forall c, enabled req (c, "sync") -> In c ["i18n"; "i18n_localiser"; "i18n_provider_sqlite3"; "i18n_provider"; "i18n_lexer"; "i18n_utility"; "icu_provider"]).
  { intros c He. inversion He as [f Hf E|g f l _ Hg Hf E].
    - destruct (Hb _ Hf) as (l & Hl). unfold features in Hl. cbn [In] in Hl.
      repeat (destruct Hl as [Hl|Hl]; [try discriminate Hl; inversion Hl; subst; cbn; tauto|]). destruct Hl.
    - unfold features in Hg. cbn [In] in Hg.
      repeat (destruct Hg as [Hg|Hg]; [inversion Hg; subst; cbn [In] in Hf;
        repeat (destruct Hf as [Hf|Hf]; [try discriminate Hf; inversion Hf; subst; cbn; tauto|]); destruct Hf|]). destruct Hg. }
  split.
  - intros H. destruct (on req "i18n_localiser" "sync") eqn:E; [left; apply on_iff, E|]. right.
    assert (Hl : ~ enabled req ("i18n_localiser", "sync")) by (intros X; apply on_iff in X; congruence).
    assert (Hx : forall b, In ("i18n_localiser", b) dependencies -> ~ enabled req (b, "sync")).
    { intros b Hin X. apply Hl. apply (proj1 (Hag "i18n_localiser" b) (H _ b Hin ltac:(discriminate))), X. }
    intros c Hc X. pose proof (Hd c X) as Hin. cbn [In] in Hin. destruct Hin as [<-|[<-|[<-|[<-|[<-|[<-|[<-|[]]]]]]]].
    + apply Hc. reflexivity.
    + exact (Hl X).
    + apply (Hx "i18n_provider_sqlite3"); [cbn; tauto|exact X].
    + apply (Hx "i18n_provider"); [cbn; tauto|exact X].
    + apply (Hx "i18n_lexer"); [cbn; tauto|exact X].
    + apply (Hx "i18n_utility"); [cbn; tauto|exact X].
    + apply (on_enablers req _ Hb) in X as (g & Hg & Hen). vm_compute in Hen.
      assert (Hlex : enabled req ("i18n_lexer", "sync")).
      { apply (on_enablers req _ Hb). exists g. split; [exact Hg|]. vm_compute. tauto. }
      apply (Hx "i18n_lexer"); [cbn; tauto|exact Hlex].
  - intros [H|H] a b Hin Ha; apply Hag.
    + assert (Hall : forall c, In c ["i18n_localiser"; "i18n_provider_sqlite3"; "i18n_provider"; "i18n_lexer"; "i18n_utility"] -> enabled req (c, "sync")).
      { intros c [<-|Hc]; [exact H|]. apply (Hi "i18n_localiser"); [cbn; tauto| |exact H]. cbn in Hc. cbn [dependencies In].
        repeat (destruct Hc as [<-|Hc]; [tauto|]). destruct Hc. }
      cbn [dependencies In] in Hin.
      repeat (destruct Hin as [Hin|Hin]; [inversion Hin; subst; first [exfalso; apply Ha; reflexivity | split; intros _; apply Hall; cbn; tauto]|]). destruct Hin.
    + cbn [dependencies In] in Hin. split; intros X; exfalso; [exact (H a Ha X)|]. apply (H b); [|exact X].
      repeat (destruct Hin as [Hin|Hin]; [inversion Hin; subst; discriminate|]). destruct Hin.
Qed.
Print Assumptions C73_pointers_partial.

(** Which pointer a crate uses: the one for threads exactly if [sync] is enabled for this crate. *)
Theorem C73_pointer_partial : forall req crate,
  (ref_count req crate = Arc <-> enabled req (crate, "sync")) /\ (ref_count req crate = Rc <-> ~ enabled req (crate, "sync")).
Proof.
  intros req crate. unfold ref_count. rewrite <- on_iff. destruct (on req crate "sync"); split; split; intros H; try reflexivity; try discriminate H;
    try (intros H'; discriminate H'). destruct (H eq_refl).
Qed.
Print Assumptions C73_pointer_partial.

Example C73_example : let req := [("i18n", "sync")] in build req /\ enabled req ("i18n_localiser", "sync") /\
  ref_count req "i18n_localiser" = Arc /\ ref_count req "i18n_lexer" = Arc /\ ref_count req "i18n_utility" = Arc /\
  ref_count [("i18n_lexer", "sync")] "i18n_localiser" = Rc.
Proof.
  split; [intros g [<-|[]]; eexists; cbn; tauto|]. split; [apply on_iff; vm_compute; reflexivity|]. vm_compute. repeat split.
Qed.
