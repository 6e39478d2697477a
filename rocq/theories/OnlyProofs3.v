(** Formatting an accepted string and its documented form. *)
From Verif Require Import Base BaseFacts LexerModel LexerSpec LexerProofs IcuExample TreeModel TreeSpec TreeMachine TreeProofs
  TreeProofs4 DocSpec DocProofs DocProofs2 ValueModel CommandModel IsoModel FormatterModel FormatterAbs FormatterRefine FormatterRefine2
  FormatterSim FormatterActs FormatterSpec FormatterProofs FormatterProofs2 FormatterProofs3 FormatterProofs4 FormatterProofs5
  OnlySpec OnlyProofs OnlyProofs2.
Local Opaque us l10n_grammar.

Section Same.
  Variables (fe : fmtenv) (reg : cregistry) (locale : ustr).
  Lemma same_joins a b : same_content a b -> joins (strings_of a) = joins (strings_of b).
  Proof. intros (H1 & H2). unfold strings_of, joins. cbn [map fst snd]. now rewrite H1, H2. Qed.
  Lemma same_astring vals f a b m st : same_content a b ->
    astring fe reg locale vals f (strings_of a) m st = astring fe reg locale vals f (strings_of b) m st.
  Proof. intros H. now rewrite <- (astring_joined fe reg locale vals f (strings_of a)), (same_joins _ _ H), astring_joined. Qed.
  Lemma same_check a b : same_content a b -> content_check fe reg locale a = content_check fe reg locale b.
  Proof.
    intros (H1 & H2). rewrite <- (content_check_joined fe reg locale a), <- (content_check_joined fe reg locale b). unfold content_check.
    rewrite !group_of_joined. unfold joins. rewrite H2. cbn [joined fst]. now rewrite H1.
  Qed.

  Fixpoint aresults (a : sast) (st : numst) (calls : list (nat * amap pvalue)) : list (fout ustr) :=
    match calls with
    | [] => []
    | (fuel, vals) :: r =>
        let x := astring fe reg locale vals fuel (strings_of a) (us "_") st in snd x :: aresults a (fst x) r
    end.
  Lemma same_aresults a b calls : same_content a b -> forall st, aresults a st calls = aresults b st calls.
  Proof.
    intros H. induction calls as [|[fuel vals] calls IH]; intros st; [reflexivity|]. cbn [aresults]. cbv zeta.
    now rewrite (same_astring vals fuel a b _ st H), IH.
  Qed.
  Lemma results_sim fm a calls : fm_rep fe reg locale fm a -> forall ns st, R fm ns st ->
    Forall2 same_out (results fe reg (set_numbers fm ns) calls) (aresults a st calls).
  Proof.
    intros Hrep. induction calls as [|[fuel vals] calls IH]; intros ns st HR; [constructor|]. cbn [results aresults]. cbv zeta.
    destruct (sim_pattern fe reg locale fm a vals Hrep fuel (us "_") ns st HR) as (HR' & Hs). rewrite format_set. cbn [fst snd].
    constructor; [exact Hs|]. now apply IH.
  Qed.
  Lemma results_start fm a calls : fm_rep fe reg locale fm a ->
    Forall2 same_out (results fe reg fm calls) (aresults a (fun _ => []) calls).
  Proof. intros H. rewrite <- (set_own fm) at 1. apply results_sim; [exact H|]. exact (R_init _ _ _ _ _ H). Qed.
  Lemma same_alike (x y z : fout ustr) : same_out x z -> same_out y z -> alike x y.
  Proof.
    unfold same_out. intros H1 H2. assert (H : map_err erase x = map_err erase y) by congruence. clear H1 H2 z. unfold alike.
    destruct x as [t|e| |], y as [t'|e'| |]; cbn in H; try discriminate; try (left; congruence).
    injection H as H. destruct e, e'; cbn in H; try discriminate H; try (left; congruence). right. injection H as ->. eauto.
  Qed.
  Lemma Forall2_alike l l' l'' : Forall2 same_out l l'' -> Forall2 same_out l' l'' -> Forall2 alike l l'.
  Proof.
    intros H. revert l'. induction H as [|x z l l'' Hx _ IH]; intros l' H'; inversion H' as [|y ? ? ? Hy Hl]; subst; constructor; eauto using same_alike.
  Qed.
  Lemma same_results a b fm fm' calls : fm_rep fe reg locale fm a -> fm_rep fe reg locale fm' b -> same_content a b ->
    Forall2 alike (results fe reg fm calls) (results fe reg fm' calls).
  Proof.
    intros H H' E. apply (Forall2_alike _ _ _ (results_start fm a calls H)). rewrite (same_aresults a b calls E). now apply results_start.
  Qed.

  (** A single text. *)
  Lemma text_results a fm w calls : fm_rep fe reg locale fm a -> same_content a ([SText w], None) -> Forall (fun x => 0 < fst x) calls ->
    Forall (fun x => x = Ok w) (results fe reg fm calls).
  Proof.
    intros Hrep E Hf. pose proof (results_start fm a calls Hrep) as H. rewrite (same_aresults a _ calls E) in H.
    assert (G : forall calls st, Forall (fun x => 0 < fst x) calls -> Forall (fun x => x = Ok w) (aresults ([SText w], None) st calls)).
    { clear. induction calls as [|[fuel vals] calls IH]; intros st H; [constructor|]. inversion H as [|? ? Hf Hl]; subst. cbn [fst] in Hf.
      cbn [aresults]. cbv zeta. destruct fuel as [|f]; [lia|]. cbn [astring strings_of mget fst]. rewrite ueqb_refl. cbn [aitems aitem fst snd].
      rewrite app_nil_r. constructor; [reflexivity|]. apply IH. exact Hl. }
    specialize (G calls (fun _ => []) Hf). revert G. induction H as [|x z l l' Hx _ IH]; intros G; [constructor|].
    inversion G as [|? ? -> G']; subst. constructor; [|auto]. now apply (same_ok x (Ok w) w Hx).
  Qed.
End Same.

Section Strings.
  Variables (d : icu) (fe : fmtenv) (reg : cregistry) (tag locale : ustr).
  Hypothesis Hd : icu_ok d.
  Hypothesis Hsp : white_space d (ch " ") = true.
  Notation build := (formatter_try_new d l10n_grammar fe reg tag locale).

  Lemma joined_same a b : joined a = joined b -> same_content a b.
  Proof.
    intros E. split; [now injection E|]. apply (f_equal group_of) in E. rewrite !group_of_joined in E. exact E.
  Qed.
  Lemma same_sym a b : same_content a b -> same_content b a.
  Proof. intros (H1 & H2). now split. Qed.
  Lemma same_trans a b c : same_content a b -> same_content b c -> same_content a c.
  Proof. intros (H1 & H2) (H3 & H4). split; congruence. Qed.

  Lemma no_grammar e : ~ has_grammar (dprint e) -> doc_content e = ([SText (dprint e)], None).
  Proof.
    intros H. destruct e as [[t r] g]. unfold doc_content, str_content. cbn [d_main d_group ds_text ds_rest].
    assert (Hr : r = []).
    { destruct r as [|[x w] r]; [reflexivity|]. exfalso. apply H. unfold dprint, strprint. cbn [d_main d_group ds_text ds_rest flat_map fst snd].
      assert (Hx : exists c, In c (synprint x) /\ In c l10n_grammar).
      { destruct x as [c| |id [[[w' k] sels]|]|name delay ps]; cbn [synprint]; rewrite ?us_back, ?us_hash, ?us_open; eexists; (split; [now left|]);
          auto using in_open, in_close, in_hash, in_back. }
      destruct Hx as (c & H1 & H2). exists c. split; [|exact H2]. apply in_or_app. left. apply in_or_app. right. apply in_or_app. left. apply in_or_app. now left. }
    subst r. destruct g as [[w l]|].
    - exfalso. apply H. exists 35%N. split; [|exact in_hash]. unfold dprint. cbn [d_main d_group]. apply in_or_app. right. rewrite us_hash. now left.
    - unfold dprint, strprint. cbn [d_main d_group ds_text ds_rest flat_map option_map]. now rewrite !app_nil_r.
  Qed.

  Theorem normal_form s c : reading d s c -> exists e,
    doc_wf d e /\ unique_names e /\ supported d e /\ same_content (doc_content e) (ccontent c) /\
    (has_grammar s -> has_grammar (dprint e) ->
      ((exists fm, build s = Ok fm) <-> (exists fm, build (dprint e) = Ok fm)) /\
      forall fm fm' calls, build s = Ok fm -> build (dprint e) = Ok fm' ->
        Forall2 alike (results fe reg fm calls) (results fe reg fm' calls)) /\
    (~ has_grammar (dprint e) -> forall fm calls, build s = Ok fm -> Forall (fun x => 0 < fst x) calls ->
        Forall (fun x => x = Ok (dprint e)) (results fe reg fm calls)).
  Proof.
    intros Hr. destruct (doc_of_spec d Hd Hsp s c Hr) as (H1 & H2 & H3 & H4 & _). exists (doc_of c). repeat (split; [assumption|]).
    assert (Ha : content_of d l10n_grammar s (ccontent c)) by (exists c; destruct Hr; auto).
    split.
    - intros Gs Ge. assert (Hne : dprint (doc_of c) <> []) by (destruct Ge as (x & Hx & _); intros E; rewrite E in Hx; destruct Hx).
      assert (Hns : s <> []) by (destruct Gs as (x & Hx & _); intros E; rewrite E in Hx; destruct Hx).
      destruct (doc_content_of d Hd (doc_of c) H1 H2 H3 Hne) as (b & Hb & Ej).
      assert (Es : same_content (ccontent c) b) by (apply same_sym; exact (same_trans _ _ _ (joined_same _ _ Ej) H4)).
      split.
      + rewrite (build_iff d fe reg tag locale Hd s _ Ha Hns), (build_iff d fe reg tag locale Hd _ b Hb Hne).
        rewrite <- !(content_check_iff fe reg locale). rewrite (same_check fe reg locale _ _ Es). unfold has_grammar in *. tauto.
      + intros fm fm' calls F F'. destruct (try_new_inv _ _ _ _ _ _ _ _ _ Ha F) as (_ & R1 & _).
        destruct (try_new_inv _ _ _ _ _ _ _ _ _ Hb F') as (_ & R2 & _). exact (same_results fe reg locale _ _ _ _ calls R1 R2 Es).
    - intros Ge fm calls F Hf. destruct (try_new_inv _ _ _ _ _ _ _ _ _ Ha F) as (_ & R1 & _).
      apply (text_results fe reg locale _ fm _ calls R1); [|exact Hf]. rewrite <- (no_grammar _ Ge). now apply same_sym.
  Qed.
End Strings.
