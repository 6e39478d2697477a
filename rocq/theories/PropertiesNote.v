(** C103: a localiser is a notebook (crates/localiser/src/localiser.rs). *)
From Verif Require Import Base BaseFacts LexerModel LexerSpec IcuExample TreeModel TreeSpec DocSpec DocCheck ValueModel CommandModel FormatterModel FormatterSpec FmtExample
  RegistryModel LocaliserModel LocaliserSpec LocaliserProofs PropertiesLocaliser GrowModel GrowSpec GrowProofs GrowProofs3 NoteSpec NoteProofs NoteProofs2.

(** For every script of registrations and calls, with no condition on the calls: the answers are those of the notebook, in which
    nothing is changed and which formats every string anew. Number signs are to stand in branches of plurals only (see C19). *)
Theorem C103_notebook : forall PE (E : lenv PE) fallback caching tag r h, icu_ok (le_icu E) -> provider_hash_ok E ->
  answers (snd (grun E (localiser_new E fallback caching tag, r) h)) = snd (note_run E (mk_holder fallback caching tag []) r h).
Proof. intros PE E fb ca tag r h Hi Hh. exact (proj1 (run_goes E Hi Hh h _ _ r (new_related (with_reg E r) fb ca tag))). Qed.
Print Assumptions C103_notebook.

(** The same of the memory: after a script the localiser has an entry for a language exactly if there is a page for it, and in it
    exactly the notes of the newest page. *)
Theorem C103_memory : forall PE (E : lenv PE) fallback caching tag r h, icu_ok (le_icu E) -> provider_hash_ok E ->
  let st := fst (fst (grun E (localiser_new E fallback caching tag, r) h)) in let b := nb_notes (fst (note_run E (mk_holder fallback caching tag []) r h)) in
  (forall t, (exists m, mget t (ls_cache st) = Some m) <-> In (Page t) b) /\
  (forall t name, cached st t name = None <-> noted t name b = None) /\
  (forall t name s t', cached st t name = Some (CLocalised s t') <-> noted t name b = Some (Text s t')) /\
  (forall t name, (exists fm, cached st t name = Some (CFormatter fm)) <-> exists s t', noted t name b = Some (Pattern s t')).
Proof.
  intros PE E fb ca tag r h Hi Hh st b. pose proof (rl_notes _ _ _ (proj2 (run_goes E Hi Hh h _ _ r (new_related (with_reg E r) fb ca tag)))) as [Hp Hn].
  change (localiser_new (with_reg E r) fb ca tag) with (localiser_new E fb ca tag) in Hp, Hn. fold st b in Hp, Hn. split; [|split; [|split]].
  - intros t. rewrite <- mhas_true, Hp. unfold has_page. rewrite existsb_exists. split.
    + intros ([t'|] & H & He); [|discriminate He]. apply ueqb_eq in He as ->. exact H.
    + intros H. exists (Page t). split; [exact H|apply ueqb_refl].
  - intros t name. specialize (Hn t name). fold (cached st t name) in Hn. destruct (cached st t name) as [[s t'|fm]|], (noted t name b) as [[s1 t1|s1 t1]|]; cbn [matches] in Hn; try contradiction; split; intros; congruence.
  - intros t name s t'. specialize (Hn t name). fold (cached st t name) in Hn. destruct (cached st t name) as [[s0 t0|fm]|], (noted t name b) as [[s1 t1|s1 t1]|]; cbn [matches] in Hn; try contradiction; try (split; intros; congruence).
    destruct Hn as (-> & ->). split; intros; congruence.
  - intros t name. specialize (Hn t name). fold (cached st t name) in Hn. destruct (cached st t name) as [[s0 t0|fm]|], (noted t name b) as [[s1 t1|s1 t1]|]; cbn [matches] in Hn; try contradiction.
    + split; [intros (? & H); discriminate H|intros (? & ? & H); discriminate H].
    + split; intros _; eauto.
    + split; [intros (? & H); discriminate H|intros (? & ? & H); discriminate H].
Qed.
Print Assumptions C103_memory.

(** Exactly when a call for one string has the answer of a localiser without a cache (C28 says when all calls have it). A literal
    string: if it is noted as a text that would be found again; or if it is not noted and there is a page to note it on, if it is to be
    noted. To be formatted: if the text noted is what formatting gives; or if the pattern noted gives what is given anew; or likewise. *)
Theorem C103_transparent : forall PE (E : lenv PE) fallback caching tag r h c i vals t f n, icu_ok (le_icu E) -> provider_hash_ok E ->
  let y := fst (grun E (localiser_new E fallback caching tag, r) h) in let E' := with_reg E (snd y) in
  let b := nb_notes (fst (note_run E (mk_holder fallback caching tag []) r h)) in
  (let x := CallLiteral c i t (Some f) (Some n) in snd (lstep E' (fst y) x) = uncached_result E' (fst y) x <-> literal_as_new E' b c i t f n) /\
  (let x := CallFormat c i vals t (Some f) (Some n) in snd (lstep E' (fst y) x) = uncached_result E' (fst y) x <-> format_as_new E' b c i vals t f n).
Proof.
  intros PE E fb ca tag r h c i vals t f n Hi Hh y E' b. pose proof (proj2 (run_goes E Hi Hh h _ _ r (new_related (with_reg E r) fb ca tag))) as Hr.
  change (localiser_new (with_reg E r) fb ca tag) with (localiser_new E fb ca tag) in Hr. fold y in Hr. fold E' in Hr.
  assert (Hu : related E' (mk_lstate [] (ls_fallback (fst y)) false (ls_tag (fst y)) (ls_script (fst y))) (mk_holder (ls_fallback (fst y)) false (ls_tag (fst y)) [])).
  { split; [reflexivity..|]. split; [reflexivity|]. intros t1 key. exact Logic.I. }
  split; cbn zeta; unfold uncached_result; rewrite (proj2 (step_goes E' Hi Hh _ _ _ Hr)), (proj2 (step_goes E' Hi Hh _ _ _ Hu)); cbn [without_caching note_step or_else nb_notes snd fst].
  - rewrite <- literal_anew. unfold anew_literal. split; [intros G; now injection G|intros G; now f_equal].
  - rewrite <- format_anew. unfold anew_format. split; [intros G; now injection G|intros G; now f_equal].
Qed.
Print Assumptions C103_transparent.

(** "Note" is found in English for someone who asks for French, of which nothing was known yet: a new English page is begun, and "Bye" is
    not on it. Then there is a French page, with a pattern; the pattern cannot be had as it is. With
    caching off the pattern is used all the same. *)
Example C103_example :
  let h := [Use (CallLiteralDefaults (us "app") (us "bye")); Use (CallLiteral (us "app") (us "note") (us "fr") None None);
            Use (CallFormat (us "app") (us "greet") bob (us "fr") None None); Use (CallLiteral (us "app") (us "greet") (us "fr") None None);
            Insert (us "other") (fun _ => Panic); Use (CallDefaults (Some (us "fr")) None (Some false)); Use (CallFormatDefaults (us "app") (us "greet") [(us "name", VString (us "Eve"))])] in
  let x := note_run loc_ex (mk_holder true true (us "en") []) (le_reg loc_ex) h in
  snd x = [Some (Ok (us "Bye", us "en")); Some (Ok (us "Note", us "en")); Some (Ok (us "Hello Bob!", us "en"));
           Some (Err (LCacheEntry (us "app") (us "greet"))); None; Some (Ok (us "Hello Eve!", us "en"))] /\
  fst x = mk_holder true false (us "fr")
    [Note (us "fr") (us "app/greet") (Pattern (us "Hello {name}!") (us "en")); Page (us "fr");
     Note (us "en") (us "app/note") (Text (us "Note") (us "en")); Page (us "en");
     Note (us "en") (us "app/bye") (Text (us "Bye") (us "en")); Page (us "en")] /\
  noted (us "en") (us "app/bye") (nb_notes (fst x)) = None /\ answers (snd (grun loc_ex (start_ex, le_reg loc_ex) h)) = snd x.
Proof. vm_compute. repeat split. Qed.
(** Somebody who has a French page asks for a string that is found in English, of which there is no page: the localiser panics. *)
Example C103_panic_example :
  let h := [Use (CallLiteral (us "app") (us "bye") (us "fr") None None); Use (CallLiteral (us "app") (us "note") (us "fr") None None)] in
  note_run loc_ex (mk_holder true true (us "en") []) (le_reg loc_ex) h =
    (mk_holder true true (us "en") [Note (us "fr") (us "app/bye") (Text (us "Au revoir") (us "fr")); Page (us "fr")], [Some (Ok (us "Au revoir", us "fr")); Some Panic]) /\
  icu_ok (le_icu loc_ex) /\ provider_hash_ok loc_ex.
Proof. split; [vm_compute; reflexivity|]. split; [exact icu_ex_ok|exact loc_ex_hash]. Qed.
Example C103_transparent_example :
  let b := [Note (us "fr") (us "app/bye") (Text (us "Au revoir") (us "fr")); Page (us "fr")] in
  literal_as_new loc_ex b (us "app") (us "bye") (us "fr") true true /\ ~ literal_as_new loc_ex b (us "app") (us "note") (us "fr") true true /\
  literal_as_new loc_ex b (us "app") (us "note") (us "fr") true false /\ format_as_new loc_ex b (us "app") (us "greet") bob (us "fr") true true.
Proof.
  intros b. split; [|split; [|split]].
  - vm_compute. apply fd_asked. reflexivity.
  - intros H. assert (Hn : noted (us "fr") (full_name (us "app") (us "note")) b = None) by (vm_compute; reflexivity). unfold literal_as_new in H. rewrite Hn in H. apply (H (us "Note") (us "en")).
    + apply (fd_default loc_ex _ _ _ _ _ _ (us "en")); vm_compute; reflexivity.
    + split; [reflexivity|]. split; [right; left; reflexivity|]. intros [G|[G|[]]]; discriminate G.
  - intros s t' _ (G & _). discriminate G.
  - intros s t' Hf Hn _. apply find_string_iff in Hf. vm_compute in Hf. injection Hf as <- <-. apply (Hn (ch "{")); vm_compute; auto 10.
Qed.
