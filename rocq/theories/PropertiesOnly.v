(** Property theorems C87: which strings are accepted beyond the documented ones (crates/localiser/src/tree.rs). *)
From Verif Require Import Base BaseFacts LexerModel LexerSpec LexerProofs IcuExample TreeModel TreeSpec TreeProofs4 DocSpec DocCheck ValueModel
  CommandModel IsoModel FormatterModel FormatterSpec FmtExample PropertiesTree PropertiesFormatter OnlySpec OnlyProofs OnlyProofs2 OnlyProofs3.

(** A string is accepted if and only if it has a reading, and it has at most one. *)
Theorem C87_one_reading : forall d s, s <> [] ->
  ((exists tr, tree_try_new d s l10n_grammar = Ok tr) <-> exists c, reading d s c) /\
  forall c c', reading d s c -> reading d s c' -> c = c'.
Proof.
  intros d s Hs. split; [|exact (reading_unique d s)]. rewrite tree_accept_iff. split.
  - intros (_ & _ & c & H1 & H2). exists c. now split.
  - intros (c & H1 & H2). split; [exact Hs|]. split; [discriminate|]. eauto.
Qed.
Print Assumptions C87_one_reading.

(** Different concrete syntaxes have different token sequences. *)
Theorem C87_printing_injective : forall c c', cwf c -> cwf c' -> cprint c = cprint c' -> c = c'.
Proof. exact cprint_inj. Qed.
Print Assumptions C87_printing_injective.

(** Accepted strings that are not written as documented: *)
Definition extras : list (ustr * cst) := [
  (us "{a }", mk_cst [PPat (us "a") [us " "] None] None);
  (us "`abc", mk_cst [PEsc (TIdentifier, us "abc")] None);
  (us "{a b }", mk_cst [PPat (us "a") [us " "] (Some (us "b", [KWs (us " ")]))] None);
  (us "{a b {#`}", mk_cst [PPat (us "a") [us " "] (Some (us "b", [KWs (us " "); KJunk (us "{"); KJunk (us "#"); KJunk (us "`")]))] None);
  (us "{a b c#d#e#f}", mk_cst [PPat (us "a") [us " "] (Some (us "b",
     [KWs (us " "); KSel (us "c") TGrammar (us "d"); KJunk (us "#"); KSel (us "e") TGrammar (us "f")]))] None);
  (us "{# a}", mk_cst [PCmd [QWs (us " "); QId (us "a")]] None);
  (us "{#a }", mk_cst [PCmd [QId (us "a"); QWs (us " ")]] None);
  (us "{#a#b}", mk_cst [PCmd [QId (us "a"); QHash; QId (us "b")]] None);
  (us "a#", mk_cst [PText (TIdentifier, us "a")] (Some []));
  (us "# ", mk_cst [] (Some [GWs (us " ")]))].

Lemma extras_read : forall s c, In (s, c) extras -> reading icu_ex s c.
Proof.
  intros s c H. split.
  - unfold extras in H. cbn [In] in H. repeat (destruct H as [[= <- <-]|H]; [|]); try contradiction;
      (split; [split; [repeat constructor; try discriminate|repeat constructor]|split; [repeat constructor|split; vm_compute; repeat constructor; intuition discriminate]]).
    all: try (exists (us "a"), []; split; [constructor|now left]).
    exists (us "a"), [SId (us "b")]. split; [repeat constructor; discriminate|]. right. split; [reflexivity|discriminate].
  - assert (E : forallb (fun x => (fix eqs (a b : list segment) := match a, b with
        | [], [] => true | (t, w) :: a, (t', w') :: b => (ttype_eqb t t' && ueqb w w' && eqs a b)%bool | _, _ => false end)
        (runs icu_ex l10n_grammar (fst x)) (cprint (snd x))) extras = true) by (vm_compute; reflexivity).
    rewrite forallb_forall in E. specialize (E _ H). cbn [fst snd] in E.
    assert (G : runs icu_ex l10n_grammar s = cprint c).
    { revert E. generalize (runs icu_ex l10n_grammar s), (cprint c). clear. intros a. induction a as [|[t w] a IH]; intros [|[t' w'] b]; try discriminate; [reflexivity|].
      intros E. apply andb_prop in E as (E & E3). apply andb_prop in E as (E1 & E2). f_equal; [|now apply IH]. f_equal; [destruct t, t'; cbn in E1; congruence|].
      now destruct (ueqb_spec w w'). }
    rewrite <- G. apply runs_segmentation.
Qed.

Theorem C87_documented_refuted : forall s, In s (map fst extras) -> (exists tr, parse s = Ok tr) /\ ~ documented icu_ex s.
Proof.
  intros s H. apply in_map_iff in H as ([s' c] & E & H). cbn in E. subst s'. pose proof (extras_read s c H) as Hr.
  assert (Hs : s <> []) by (unfold extras in H; cbn [In] in H; repeat (destruct H as [[= <- _]|H]; [discriminate|]); contradiction).
  split; [now apply (C87_one_reading icu_ex s Hs); exists c|].
  rewrite (documented_iff icu_ex icu_ex_ok eq_refl s c Hr Hs). clear Hr Hs. unfold extras in H. cbn [In] in H. unfold tidy.
  repeat (destruct H as [[= <- <-]|H]; [cbn; intros (T & G); try (inversion T as [|? ? Tp _]; subst; cbn in Tp; try contradiction; discriminate)|]); try contradiction.
  - destruct G as (G & _). inversion G.
  - destruct G as (G & _). inversion G as [? ? G'|? ? G']; subst; [destruct G'|inversion G'].
Qed.
Print Assumptions C87_documented_refuted.

(** These are all: an accepted string is documented if and only if in its reading only grammar characters are escaped,
    there is no white space before a closing brace and none after the opening [{#], there are no stray characters among
    the selectors, white space stands before every parameter, and a group has a named string. *)
Theorem C87_documented_iff_partial : forall d s c, icu_ok d -> white_space d (ch " ") = true -> s <> [] -> reading d s c ->
  (documented d s <-> tidy c).
Proof. intros d s c Hd Hsp Hs Hr. exact (documented_iff d Hd Hsp s c Hr Hs). Qed.
Print Assumptions C87_documented_iff_partial.

(** Every accepted string has a documented string with the same content, which formats to the same results in every
    sequence of calls; if nothing but text remains, that text is the result. *)
Theorem C87_normal_form_partial : forall d fe reg tag locale s tr, icu_ok d -> white_space d (ch " ") = true ->
  tree_try_new d s l10n_grammar = Ok tr ->
  exists c e, reading d s c /\ doc_wf d e /\ unique_names e /\ supported d e /\ same_content (doc_content e) (ccontent c) /\
    (has_grammar s -> has_grammar (dprint e) ->
      ((exists fm, formatter_try_new d l10n_grammar fe reg tag locale s = Ok fm) <->
       (exists fm, formatter_try_new d l10n_grammar fe reg tag locale (dprint e) = Ok fm)) /\
      forall fm fm' calls, formatter_try_new d l10n_grammar fe reg tag locale s = Ok fm ->
        formatter_try_new d l10n_grammar fe reg tag locale (dprint e) = Ok fm' ->
        Forall2 alike (results fe reg fm calls) (results fe reg fm' calls)) /\
    (~ has_grammar (dprint e) -> forall fm calls, formatter_try_new d l10n_grammar fe reg tag locale s = Ok fm ->
      Forall (fun x => 0 < fst x) calls -> Forall (fun x => x = Ok (dprint e)) (results fe reg fm calls)).
Proof.
  intros d fe reg tag locale s tr Hd Hsp H. destruct (accepted_reading d s tr H) as (c & Hc).
  destruct (normal_form d fe reg tag locale Hd Hsp s c Hc) as (e & He). exists c, e. split; [exact Hc|exact He].
Qed.
Print Assumptions C87_normal_form_partial.

Example C87_example :
  map (fun x => dprint (doc_of (snd x))) extras =
    [us "{a}"; us "abc"; us "{a b}"; us "{a b}"; us "{a b c#d e#f}"; us "{#a}"; us "{#a}"; us "{#a# b}"; us "a"; []] /\
  text_ex (us "x{v } `yz{n plural one#one other#other #}#{other # many}{one q}") [(us "v", VString (us "1")); (us "n", VUnsigned 2)] = Ok (us "x1 yz2 many") /\
  text_ex (us "x{v} yz{n plural one#one other#other}#{other # many}{one q}") [(us "v", VString (us "1")); (us "n", VUnsigned 2)] = Ok (us "x1 yz2 many").
Proof. split; [|split]; vm_compute; reflexivity. Qed.
