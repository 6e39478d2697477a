(** Proofs for C103: when the answer is that of an empty notebook. *)
From Verif Require Import Base BaseFacts LexerModel LexerSpec IcuExample TreeModel TreeRefine TreeSpec DocSpec ValueModel CommandModel IsoModel FormatterModel
  FormatterSpec FormatterProofs4 RegistryModel LocaliserModel LocaliserSpec LocaliserProofs
  GrowModel GrowSpec GrowProofs GrowProofs2 GrowProofs3 NoteSpec NoteProofs.
Local Opaque us.

Lemma page_iff t b : has_page t b = true <-> In (Page t) b.
Proof.
  unfold has_page. rewrite existsb_exists. split.
  - intros ([t'|] & H & He); [|discriminate He]. apply ueqb_eq in He as ->. exact H.
  - intros H. exists (Page t). split; [exact H|apply ueqb_refl].
Qed.

Section Anew.
  Context {PE : Type}.
  Variable E : lenv PE.
  Hypothesis Hicu : icu_ok (le_icu E).
  Lemma give_anew b n t name s t' : snd (give_text (PE := PE) b n t name s t') = Ok (s, t') <-> ~ no_place b n t t'.
  Proof.
    unfold give_text, no_place. rewrite <- !page_iff. destruct n; cbn [negb].
    - destruct (has_page t b); cbn [negb snd].
      + destruct (has_page t' b); cbn [snd]; split; intros H; [intros (_ & _ & G); now apply G|reflexivity|discriminate H|].
        exfalso. apply H. repeat split. discriminate.
      + split; [intros _ (_ & G & _); discriminate G|reflexivity].
    - split; [intros _ (G & _); discriminate G|reflexivity].
  Qed.
  Lemma find_no_entry c i t fb : find_string E c i t fb <> Err (LCacheEntry c i).
  Proof.
    unfold find_string. destruct (pv_string (le_provider E) c i t) as [[x|]|e| |]; cbn; try discriminate. destruct fb; cbn; [|discriminate].
    destruct (pv_default (le_provider E) c) as [d|e| |]; cbn; try discriminate. destruct (pv_string (le_provider E) c i d) as [[x|]|e| |]; cbn; discriminate.
  Qed.
  Lemma anew_literal_find c i t fb : anew_literal E c i t fb = find_string E c i t fb.
  Proof. unfold anew_literal, note_literal. cbn [noted]. now destruct (find_string E c i t fb) as [(s & t')|e| |]. Qed.
  Lemma literal_anew b c i t fb n : snd (note_literal E b c i t fb n) = anew_literal E c i t fb <-> literal_as_new E b c i t fb n.
  Proof.
    rewrite anew_literal_find. unfold note_literal, literal_as_new. destruct (noted t (full_name c i) b) as [[s t'|s t']|]; cbn [snd].
    - split; intros H; [now apply find_string_iff|now apply find_string_iff in H].
    - split; [intros H; now apply (find_no_entry c i t fb)|contradiction].
    - destruct (find_string E c i t fb) as [(s & t')|e| |] eqn:Ef; cbn [snd].
      + rewrite give_anew. split.
        * intros H s1 t1 Hf. apply find_string_iff in Hf. rewrite Ef in Hf. now injection Hf as <- <-.
        * intros H. apply (H s). now apply find_string_iff.
      + split; [|reflexivity]. intros _ s1 t1 Hf. apply find_string_iff in Hf. congruence.
      + split; [|reflexivity]. intros _ s1 t1 Hf. apply find_string_iff in Hf. congruence.
      + split; [|reflexivity]. intros _ s1 t1 Hf. apply find_string_iff in Hf. congruence.
  Qed.
  Lemma anew_format_ok c i vals t fb s t' : anew_format E c i vals t fb = Ok (s, t') <-> exists s', found E c i t fb s' t' /\ string_gives E vals s' t' s.
  Proof.
    unfold anew_format, note_format. cbn [noted]. split.
    - destruct (find_string E c i t fb) as [(s1 & t1)|e| |] eqn:Ef; cbn [snd]; try discriminate. destruct (plain_text s1) eqn:Ep.
      + cbn. intros [= <- <-]. exists s1. split; [now apply find_string_iff|]. apply sg_plain. now apply plain_text_iff.
      + cbn [snd]. unfold fresh, new_formatter. destruct (formatter_try_new _ _ _ _ _ _ s1) as [fm|e| |] eqn:Eb; try discriminate.
        destruct (snd (format _ _ _ fm vals)) as [w|e| |] eqn:Er; try discriminate. intros [= <- <-]. exists s1. split; [now apply find_string_iff|].
        apply (sg_format E vals s1 t1 fm w); [|exact Eb|exact Er]. intros G. apply plain_text_iff in G. congruence.
    - intros (s1 & Hf & Hg). apply find_string_iff in Hf. rewrite Hf. destruct Hg as [Hn|fm w Hn Hb Hr].
      + apply plain_text_iff in Hn. now rewrite Hn.
      + destruct (plain_text s1) eqn:Ep; [exfalso; apply Hn; now apply plain_text_iff|]. cbn [snd]. unfold fresh, new_formatter.
        change (us "{}`#") with localiser_grammar. rewrite Hb, Hr. reflexivity.
  Qed.
  Lemma format_anew b c i vals t fb n : snd (note_format E b c i vals t fb n) = anew_format E c i vals t fb <-> format_as_new E b c i vals t fb n.
  Proof.
    unfold note_format at 1, format_as_new. destruct (noted t (full_name c i) b) as [[s t'|s t']|]; cbn [snd].
    - rewrite <- anew_format_ok. split; congruence.
    - split; congruence.
    - unfold anew_format, note_format. cbn [noted]. destruct (find_string E c i t fb) as [(s & t')|e| |] eqn:Ef; cbn [snd].
      + destruct (plain_text s) eqn:Ep; cbn [snd].
        * change (snd (give_text (PE := PE) [] false t (full_name c i) s t')) with (Ok (E := localiser_error PE) (s, t')). rewrite give_anew. split.
          -- intros H s1 t1 Hf _. apply find_string_iff in Hf. rewrite Ef in Hf. now injection Hf as <- <-.
          -- intros H. apply (H s); [now apply find_string_iff|now apply plain_text_iff].
        * split; [|reflexivity]. intros _ s1 t1 Hf Hn. apply find_string_iff in Hf. rewrite Ef in Hf. injection Hf as <- <-. apply plain_text_iff in Hn. congruence.
      + split; [|reflexivity]. intros _ s1 t1 Hf. apply find_string_iff in Hf. congruence.
      + split; [|reflexivity]. intros _ s1 t1 Hf. apply find_string_iff in Hf. congruence.
      + split; [|reflexivity]. intros _ s1 t1 Hf. apply find_string_iff in Hf. congruence.
  Qed.
End Anew.
