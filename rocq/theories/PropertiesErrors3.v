(** Property C75: the data of the errors and the placeholders of the strings that come with the library. *)
From Verif Require Import Base BaseFacts LexerModel LexerSpec TreeModel TreeSpec DocSpec ValueModel ProviderModel FormatterModel FormatterSpec LocaliserModel IcuExample L10nData ErrorModel ErrorSpec ErrorSpec2
  ErrorProofs ErrorProofs2 PropertiesErrors PropertiesErrors2.

Definition unmatched_b (r : prow) : bool :=
  existsb (ueqb (pr_identifier r)) [us "parameter_missing"; us "invalid_type"; us "invalid_keyword"; us "invalid_option"] ||
  (ueqb (pr_identifier r) (us "multi_number_sign") && ueqb (pr_tag r) (us "it")).
Lemma unmatched_iff r : unmatched_b r = true <-> unmatched r.
Proof.
  unfold unmatched_b, unmatched. rewrite orb_true_iff, existsb_exists, andb_true_iff. split.
  - intros [(x & Hx & E)|(E & E')]; [left; apply ueqb_eq in E; now rewrite E|right; split; now apply ueqb_eq].
  - intros [H|(-> & ->)]; [left; exists (pr_identifier r); split; [exact H|apply ueqb_refl]|right; split; apply ueqb_refl].
Qed.
(** The placeholders of the strings with the identifier are these names, but for those of [unmatched]. *)
Definition check (i : ustr) (ks : list ustr) : bool :=
  forallb (fun r => if ueqb (pr_identifier r) i then
    match ref_content (pr_string r) with
    | Some a => Bool.eqb (within_b (placeholder_names a) ks && within_b ks (placeholder_names a)) (negb (unmatched_b r))
    | None => true
    end else true) all_rows.
Definition data_keys (d : ldata) : list ustr := match d with LData _ _ (Some vs) => mkeys vs | LData _ _ None => [] end.
Lemma supplies_iff d ph : supplies d ph <-> In ph (data_keys d).
Proof.
  destruct d as [c i [vs|]]; cbn [data_keys]; [rewrite <- mget_keys|]; split.
  - intros (? & ? & ? & v & [= <- <- <-] & H). now exists v.
  - intros (v & H). now exists c, i, vs, v.
  - intros (? & ? & ? & ? & [=] & _).
  - intros [].
Qed.
Lemma within_in l m : (forall x, In x l -> In x m) -> within_b l m = true.
Proof. intros H. apply forallb_forall. intros x Hx. apply existsb_exists. exists x. split; [now apply H|apply ueqb_refl]. Qed.
Lemma strings_nonempty : forallb (fun r => match pr_string r with [] => false | _ => true end) all_rows = true.
Proof. vm_compute. reflexivity. Qed.
Lemma check_sound ic d f r : check (data_identifier d) (data_keys d) = true -> In f all_files -> file_row f r -> reads ic (pr_string r) ->
  pr_identifier r = data_identifier d -> (exists a, content_of ic localiser_grammar (pr_string r) a) -> (matches_string ic d (pr_string r) <-> ~ unmatched r).
Proof.
  intros Hc Hf Hr Hrd Hi (a & Ha). pose proof (all_rows_in f r Hf Hr) as Hin.
  pose proof (proj1 (forallb_forall _ _) strings_nonempty r Hin) as Hn. cbv beta in Hn.
  assert (Hs : pr_string r <> []) by (intros E; rewrite E in Hn; discriminate).
  pose proof (proj1 (forallb_forall _ _) Hc r Hin) as H. cbv beta in H. rewrite Hi, ueqb_refl in H.
  pose proof Ha as Hx. apply (ref_content_iff _ _ _ Hrd Hs) in Hx. rewrite Hx in H. apply Bool.eqb_prop in H.
  rewrite <- unmatched_iff, not_true_iff_false, <- negb_true_iff, <- H, andb_true_iff.
  assert (G : matches_string ic d (pr_string r) <-> (forall ph, In ph (placeholder_names a) <-> In ph (data_keys d))).
  { unfold matches_string. split; intros K ph; specialize (K ph); rewrite (has_placeholder_iff ic _ ph Hrd Hs), supplies_iff in *; unfold ref_placeholders in *; now rewrite Hx in *. }
  rewrite G. split.
  - intros K. split; apply within_in; intros x; apply K.
  - intros (K & K') ph. split; now apply within_b_iff.
Qed.
Ltac checked := solve [vm_compute; reflexivity].
Lemma own_checked e : check (data_identifier (error_data e)) (data_keys (error_data e)) = true.
Proof. destruct e as [e|e|e|e|e|e|e|e|e|e]; destruct e; checked. Qed.
Lemma message_checked e c i vs d : error_data e = LData c i (Some vs) -> mget (us "message") vs = Some (VData d) -> check (data_identifier d) (data_keys d) = true.
Proof.
  intros He. assert (Hk : forall x, mget (us "message") match error_data e with LData _ _ (Some vs) => vs | _ => [] end = Some (VData x) ->
    check (data_identifier x) (data_keys x) = true).
  { clear. intros x. destruct e as [e|e|e|e|e|e|e|e|e|e]; destruct e; intros H; vm_compute in H; try discriminate H; injection H as <-;
      first [checked | match goal with e : schema_err |- _ => destruct e; checked end]. }
  rewrite He in Hk. apply Hk.
Qed.

(** ** C75: the data of an error gives the values for the placeholders of its string, and no other. *)
(** False of five strings. *)
Theorem C75_placeholders_refuted :
  exists e d f r, brings e d /\ In f all_files /\ file_row f r /\ pr_identifier r = data_identifier d /\ pr_tag r = us "en-ZA" /\
    has_placeholder icu_ex (pr_string r) (us "identifier") /\ ~ supplies d (us "identifier") /\
    ~ has_placeholder icu_ex (pr_string r) (us "placeholder") /\ supplies d (us "placeholder").
Proof.
  destruct (find (fun r => ueqb (pr_identifier r) (us "invalid_keyword") && ueqb (pr_tag r) (us "en-ZA")) localiser_patterns) as [r|] eqn:E1; [|vm_compute in E1; discriminate E1].
  exists (XFormatter (FeInvalidKeyword (us "k") (us "p"))). eexists. exists localiser_file, r.
  split; [eapply brings_message; [reflexivity|vm_compute; reflexivity]|]. split; [cbn [In all_files]; auto|].
  split; [apply find_some in E1 as (H & _); exists localiser_db; auto|]. vm_compute in E1. injection E1 as <-. split; [vm_compute; reflexivity|]. split; [reflexivity|].
  assert (Hr : forall s, reads icu_ex s) by (intros s c _; split; reflexivity).
  split; [apply has_placeholder_iff; [apply Hr|discriminate|]; vm_compute; auto|].
  split; [intros H; apply supplies_iff in H; vm_compute in H; intuition discriminate|].
  split; [intros H; apply has_placeholder_iff in H; [|apply Hr|discriminate]; vm_compute in H; intuition discriminate|].
  apply supplies_iff. vm_compute. auto.
Qed.
Print Assumptions C75_placeholders_refuted.

(** What holds: it is so of exactly the other strings. *)
Theorem C75_placeholders_partial : forall ic e d f r, brings e d -> In f all_files -> file_row f r -> reads ic (pr_string r) ->
  pr_identifier r = data_identifier d -> (exists a, content_of ic localiser_grammar (pr_string r) a) ->
  (matches_string ic d (pr_string r) <-> ~ unmatched r).
Proof.
  intros ic e d f r Hb. apply check_sound. destruct Hb as [e|e c i vs d He Hm]; [apply own_checked|exact (message_checked e c i vs d He Hm)].
Qed.
Print Assumptions C75_placeholders_partial.

(** One message has no string at all; each other has one in English. The component is not looked at here (C55). *)
Definition has_string (i : ustr) : bool := existsb (fun r => ueqb (pr_identifier r) i && ueqb (pr_tag r) (us "en-ZA")) all_rows.
Lemma has_string_iff i : has_string i = true <-> exists f r, In f all_files /\ file_row f r /\ pr_identifier r = i /\ pr_tag r = us "en-ZA".
Proof.
  unfold has_string. rewrite existsb_exists. split.
  - intros (r & Hr & H). apply andb_prop in H as (H1 & H2). apply ueqb_eq in H1, H2. apply in_flat_map in Hr as (f & Hf & Hr).
    exists f, r. split; [exact Hf|]. split; [|auto]. destruct (en_db f) as [d|] eqn:Ed; [|destruct Hr]. now exists d.
  - intros (f & r & Hf & Hr & <- & Ht). exists r. split; [exact (all_rows_in f r Hf Hr)|]. now rewrite Ht, !ueqb_refl.
Qed.
Theorem C75_strings_partial : forall e d, brings e d ->
  ((exists f r, In f all_files /\ file_row f r /\ pr_identifier r = data_identifier d /\ pr_tag r = us "en-ZA") <->
   data_identifier d <> us "no_grammar_syntax").
Proof.
  intros e d Hb. rewrite <- has_string_iff. enough (H : has_string (data_identifier d) = negb (ueqb (data_identifier d) (us "no_grammar_syntax"))).
  { rewrite H, negb_true_iff. destruct (ueqb_spec (data_identifier d) (us "no_grammar_syntax")); intuition congruence. }
  destruct Hb as [e|e c i vs d He Hm].
  - destruct e as [e|e|e|e|e|e|e|e|e|e]; destruct e; checked.
  - assert (Hk : forall x, mget (us "message") match error_data e with LData _ _ (Some vs) => vs | _ => [] end = Some (VData x) ->
      has_string (data_identifier x) = negb (ueqb (data_identifier x) (us "no_grammar_syntax"))).
    { clear. intros x. destruct e as [e|e|e|e|e|e|e|e|e|e]; destruct e; intros H; vm_compute in H; try discriminate H; injection H as <-;
        first [checked | match goal with e : schema_err |- _ => destruct e; checked end]. }
    rewrite He in Hk. now apply Hk.
Qed.
Print Assumptions C75_strings_partial.

Example C75_example : brings (XLocaliser (LeCacheEntry (us "c") (us "i"))) (LData (us "i18n_localiser") (us "cache_entry")
    (Some [(us "component", VString (us "c")); (us "identifier", VString (us "i"))])) /\
  exists f r, In f all_files /\ file_row f r /\ pr_identifier r = us "cache_entry" /\ ~ unmatched r.
Proof.
  split; [eapply brings_message; [reflexivity|vm_compute; reflexivity]|].
  destruct (find (fun r => ueqb (pr_identifier r) (us "cache_entry")) localiser_patterns) as [r|] eqn:E; [|vm_compute in E; discriminate E].
  exists localiser_file, r. split; [cbn [In all_files]; auto|]. split; [apply find_some in E as (H & _); exists localiser_db; auto|].
  vm_compute in E. injection E as <-. split; [vm_compute; reflexivity|]. intros H. apply unmatched_iff in H. vm_compute in H. discriminate.
Qed.
