(** Property C82: the built-in commands do what their documentation says. *)
From Verif Require Import Base BaseFacts ValueModel CommandModel.

(** ** english_a_or_an: "Select a or an for english words passed as parameter" (command.rs 202) *)
(** By spelling: the vowel letters, as capitals and not. *)
Definition vowel (c : uchar) : Prop := In c (us "aeiouAEIOU").
Definition article (w : ustr) (s : ustr) : Prop :=
  exists c r, w = c :: r /\ ((vowel c /\ s = us "an") \/ (~ vowel c /\ s = us "a")).
Definition word_of (w : ustr) : list pvalue := [VString (us "english_a_or_an"); VString w].

Theorem C82_article_refuted : exists w s, english_a_or_an (word_of w) = Ok s /\ ~ article w s.
Proof.
  exists (us "Apple"), (us "a"). split; [reflexivity|]. intros (c & r & E & [(_ & H)|(H & _)]); [discriminate H|].
  injection E as <- _. apply H. vm_compute. tauto.
Qed.
Print Assumptions C82_article_refuted.
(** It is so for every word that starts with anything but one of the five capitals. *)
Lemma existsb_in c l : existsb (N.eqb c) l = true <-> In c l.
Proof.
  rewrite existsb_exists. split; [intros (x & Hx & E); apply N.eqb_eq in E; now subst|]. intros H. exists c. split; [exact H|apply N.eqb_refl].
Qed.
Theorem C82_article_partial : forall w rest, w <> [] ->
  exists s, english_a_or_an (VString (us "english_a_or_an") :: VString w :: rest) = Ok s /\ ((forall c r, w = c :: r -> ~ In c (us "AEIOU")) <-> article w s).
Proof.
  intros [|c r] rest H; [contradiction|]. clear H. unfold english_a_or_an. cbn [command_parameter bind hd_error unwrap].
  assert (Hv : vowel c <-> In c (us "aeiou") \/ In c (us "AEIOU")). { unfold vowel. rewrite <- in_app_iff. change (us "aeiou" ++ us "AEIOU") with (us "aeiouAEIOU"). reflexivity. }
  destruct (existsb (N.eqb c) (us "aeiou")) eqn:E; eexists; (split; [reflexivity|]).
  - apply existsb_in in E. split.
    + intros _. exists c, r. split; [reflexivity|]. left. split; [apply Hv; left; exact E|reflexivity].
    + intros _ c' r' [= <- <-] H. revert E H. vm_compute. intuition (subst; discriminate).
  - assert (E' : ~ In c (us "aeiou")) by (intros H; apply existsb_in in H; congruence). split.
    + intros H. exists c, r. split; [reflexivity|]. right. split; [|reflexivity]. intros V. apply Hv in V. destruct V as [V|V]; [exact (E' V)|exact (H c r eq_refl V)].
    + intros (c0 & r0 & [= <- <-] & [(V & H)|(V & H)]) c' r' [= <- <-] H'; [discriminate H|]. apply V, Hv. right. exact H'.
Qed.
Print Assumptions C82_article_partial.
Example C82_article_example : english_a_or_an (word_of (us "owl")) = Ok (us "an") /\ english_a_or_an (word_of (us "Dog")) = Ok (us "a") /\
  english_a_or_an (word_of (us "Owl")) = Ok (us "a").
Proof. repeat split. Qed.

(** ** file_path: "Format a file path according to the OS being used" (command.rs 176) *)
(** The separator of the system, and the character that is a separator elsewhere (or as well). *)
Definition os_path (separator other : uchar) (path shown : ustr) : Prop :=
  shown = map (fun c => if N.eqb c other then separator else c) path.
Definition slash : uchar := ch "/".
Definition backslash : uchar := ch "\".

Theorem C82_file_path_refuted : exists p s, file_path [VString (us "file_path"); VString p] = Ok s /\ ~ os_path backslash slash p s /\ In slash s.
Proof. exists (us "tests/command.rs"), (us "tests/command.rs"). split; [reflexivity|]. split; [vm_compute; discriminate|vm_compute; tauto]. Qed.
Print Assumptions C82_file_path_refuted.
(** Right just if the path has no foreign separators; so where the slash is the only separator, which is then never to be replaced. *)
Theorem C82_file_path_partial : forall name p rest separator other, separator <> other ->
  exists s, file_path (VString name :: VString p :: rest) = Ok s /\ s = p /\ (os_path separator other p s <-> ~ In other p).
Proof.
  intros name p rest separator other Hne. exists p. split; [reflexivity|]. split; [reflexivity|]. unfold os_path. induction p as [|c p IH]; [cbn; tauto|]. cbn [map In]. split.
  - intros [= H1 H2] [->|H]; [rewrite N.eqb_refl in H1; congruence|]. apply IH in H2. contradiction.
  - intros H. f_equal; [|apply IH; tauto]. destruct (N.eqb_spec c other); [tauto|reflexivity].
Qed.
Print Assumptions C82_file_path_partial.
Example C82_file_path_example : file_path [VString (us "file_path"); VString (us "a/b")] = Ok (us "a/b") /\ os_path slash backslash (us "a/b") (us "a/b").
Proof. split; reflexivity. Qed.
