(** Formatting with a formatter for content [a] is the abstract evaluation of [a]. *)
From Verif Require Import Base BaseFacts LexerModel LexerSpec TreeModel TreeSpec ValueModel CommandModel IsoModel
  FormatterModel FormatterAbs FormatterRefine FormatterRefine2.
Local Opaque us.

Lemma update_numbers_ok x parts : forall ns, (forall i, In i (slots parts) -> i < List.length ns) ->
  exists ns', update_numbers parts x ns = (ns', Ok tt) /\ List.length ns' = List.length ns /\
    (forall i, In i (slots parts) -> nth_error ns' i = Some x) /\
    (forall i, ~ In i (slots parts) -> nth_error ns' i = nth_error ns i).
Proof.
  induction parts as [|p parts IH]; intros ns Hb.
  - exists ns. cbn. repeat split; auto. now intros i [].
  - destruct p; try (destruct (IH ns Hb) as (ns' & H1 & H2 & H3 & H4); exists ns'; now repeat split).
    cbn [update_numbers slots flat_map slot app] in *.
    assert (Hi : i < List.length ns) by (apply Hb; now left).
    apply Nat.ltb_lt in Hi as Hi'. rewrite Hi'.
    destruct (IH (lset ns i x)) as (ns' & H1 & H2 & H3 & H4).
    { intros j Hj. rewrite lset_length. apply Hb. now right. }
    exists ns'. split; [exact H1|]. rewrite lset_length in H2. split; [exact H2|]. split.
    + intros j [<-|Hj]; [|now apply H3].
      destruct (in_dec Nat.eq_dec i (slots parts)) as [Hin|Hin]; [now apply H3|].
      rewrite (H4 _ Hin). now apply lset_nth_eq.
    + intros j Hj. rewrite H4 by (intros H; apply Hj; now right). apply lset_nth_ne. intros ->. apply Hj. now left.
Qed.

Definition same_out {A} (x y : fout A) : Prop := map_err erase x = map_err erase y.

Section Sim.
  Variables (fe : fmtenv) (reg : cregistry) (locale : ustr) (fm : formatter) (a : sast) (vals : amap pvalue).
  Hypothesis Hrep : fm_rep fe reg locale fm a.

  Definition R (ns : nums) (st : numst) : Prop :=
    List.length ns = List.length (fm_numbers fm) /\
    forall k ps i, mget k (fm_patterns fm) = Some ps -> In i (slots ps) -> nth_error ns i = Some (st k).

  Definition sim (x : fst_out ustr) (y : aout) : Prop := R (fst x) (fst y) /\ same_out (snd x) (snd y).
  Definition sim_rec (rec : ustr -> nums -> fst_out ustr) (rec' : ustr -> numst -> aout) : Prop :=
    forall named ns st, R ns st -> sim (rec named ns) (rec' named st).

  Lemma R_update named ps x ns st : R ns st -> mget named (fm_patterns fm) = Some ps ->
    exists ns', update_numbers ps x ns = (ns', Ok tt) /\ R ns' (upd st named x).
  Proof.
    intros (Hl & HR) Hg. destruct (update_numbers_ok x ps ns) as (ns' & H1 & H2 & H3 & H4).
    { intros i Hi. rewrite Hl. eapply (fr_below _ _ _ _ _ Hrep); [apply mget_In, Hg|exact Hi]. }
    exists ns'. split; [exact H1|]. split; [congruence|]. intros k ps' i Hk Hi. unfold upd.
    destruct (ueqb_spec k named) as [->|Hne].
    - apply H3. congruence.
    - rewrite H4; [now apply (HR k ps')|]. intros Hi'. apply Hne.
      exact (fr_sep _ _ _ _ _ Hrep k named ps' ps i (mget_In _ _ _ Hk) (mget_In _ _ _ Hg) Hi Hi').
  Qed.

  Lemma sim_err ns st e e' : R ns st -> erase e = erase e' -> sim (ns, Err e) (st, Err e').
  Proof. intros H He. split; [exact H|]. unfold same_out; cbn. now rewrite He. Qed.
  Lemma sim_same ns st r : R ns st -> sim (ns, r) (st, r).
  Proof. intros H. split; [exact H|reflexivity]. Qed.

  Lemma sim_number rec rec' d rules idx sels ns st : sim_rec rec rec' -> R ns st ->
    nth_error (fm_selectors fm) idx = Some (pairs sels) ->
    sim (find_number_sign fe fm rec d rules idx ns) (anumber fe locale rec' (strings_of a) sels d rules st).
  Proof.
    intros Hrec HR Hidx. unfold find_number_sign, anumber. rewrite (fr_locale _ _ _ _ _ Hrep).
    destruct (fe_decimal fe locale None) as [fdf|]; [|now apply sim_same]. rewrite Hidx.
    destruct (mget (plural_category (rules d)) (pairs sels)) as [named|]; [|now apply sim_err].
    pose proof (pats_rep_get _ _ _ _ _ _ named (fr_pats _ _ _ _ _ Hrep)) as Hg.
    destruct (mget named (fm_patterns fm)) as [ps|] eqn:E, (mget named (strings_of a)) as [l|]; [|now destruct Hg|now destruct Hg|].
    - destruct (R_update named ps (fdf d) ns st HR E) as (ns' & -> & HR'). now apply Hrec.
    - now apply sim_same.
  Qed.

  Lemma kw_of_facts c : ueqb (kw_of c) (us "decimal") = false /\ ueqb (kw_of c) (us "date_time") = false /\
    ueqb (kw_of c) (us "ordinal") = match c with KOrdinal => true | _ => false end /\
    ueqb (kw_of c) (us "plural") = match c with KPlural => true | _ => false end.
  Proof. destruct c; repeat split; vm_compute; reflexivity. Qed.

  Lemma sim_complex rec rec' ph c idx sels v ns st : sim_rec rec rec' -> R ns st -> mget ph vals = Some v ->
    nth_error (fm_selectors fm) idx = Some (pairs sels) ->
    sim (format_complex fe fm rec c v idx ns) (akw fe locale vals rec' (strings_of a) ph (kw_of c) sels st).
  Proof.
    intros Hrec HR Hv Hidx. destruct (kw_of_facts c) as (F1 & F2 & F3 & F4).
    unfold akw. rewrite F1, F2, Hv, F3, F4. unfold format_complex.
    destruct c.
    - rewrite (fr_locale _ _ _ _ _ Hrep). destruct (fe_cardinal fe locale) as [rules|]; [|now apply sim_same].
      destruct (number_of fe (us "PatternPlural") v); try now apply sim_same.
      now apply sim_number.
    - rewrite (fr_locale _ _ _ _ _ Hrep). destruct (fe_ordinal fe locale) as [rules|]; [|now apply sim_same].
      destruct v; try now apply sim_same. now apply sim_number.
    - destruct (value_text v) as [s|]; [|now apply sim_same]. unfold format_select. rewrite Hidx.
      destruct (mget s (pairs sels)) as [named|]; [|now apply sim_err]. now apply Hrec.
  Qed.

  Lemma aitems_app rec' self l1 l2 st :
    aitems fe reg locale vals rec' (strings_of a) self (l1 ++ l2) st =
    match aitems fe reg locale vals rec' (strings_of a) self l1 st with
    | (st1, Ok s) =>
        match aitems fe reg locale vals rec' (strings_of a) self l2 st1 with
        | (st2, Ok s') => (st2, Ok (s ++ s'))
        | other => other
        end
    | other => other
    end.
  Proof.
    revert st. induction l1 as [|x l1 IH]; intros st; cbn [app aitems].
    - destruct (aitems fe reg locale vals rec' (strings_of a) self l2 st) as [st2 [s'| | |]]; reflexivity.
    - destruct (aitem fe reg locale vals rec' (strings_of a) self x st) as [st1 [s| | |]]; try reflexivity.
      rewrite IH. destruct (aitems fe reg locale vals rec' (strings_of a) self l1 st1) as [st2 [s'| | |]]; try reflexivity.
      destruct (aitems fe reg locale vals rec' (strings_of a) self l2 st2) as [st3 [s''| | |]]; try reflexivity.
      now rewrite app_assoc.
  Qed.
  Lemma aitems_one rec' self x st :
    aitems fe reg locale vals rec' (strings_of a) self [x] st = aitem fe reg locale vals rec' (strings_of a) self x st.
  Proof.
    cbn. destruct (aitem fe reg locale vals rec' (strings_of a) self x st) as [st1 [s| | |]]; try reflexivity.
    now rewrite app_nil_r.
  Qed.
  Lemma aitems_texts rec' self ws st :
    aitems fe reg locale vals rec' (strings_of a) self (map SText ws) st = (st, Ok (List.concat ws)).
  Proof. induction ws as [|w ws IH]; cbn; [reflexivity|]. now rewrite IH. Qed.

  Lemma sim_part rec rec' self p g ns st : sim_rec rec rec' -> R ns st ->
    part_rep fe reg locale (fm_selectors fm) p g ->
    (forall i, In i (slot p) -> nth_error ns i = Some (st self)) ->
    sim (format_part fe reg fm vals rec p ns) (aitems fe reg locale vals rec' (strings_of a) self g st).
  Proof.
    intros Hrec HR Hp Hsl. destruct Hp as [ws|i|ph|ph sels sign group Ho|ph sels ld lt cal Ho|ph c idx sels Hi
      |ps name l s Hc Hr|ps name l Hc]; [rewrite aitems_texts|rewrite aitems_one ..]; cbn [format_part aitem].
    - now apply sim_same.
    - rewrite (Hsl i) by now left. now apply sim_same.
    - now apply sim_same.
    - unfold akw. rewrite ueqb_refl, Ho. rewrite (fr_locale _ _ _ _ _ Hrep). now apply sim_same.
    - unfold akw. rewrite (proj2 (ueqb_neq (us "date_time") (us "decimal"))) by (vm_compute; discriminate).
      rewrite ueqb_refl, Ho. rewrite (fr_locale _ _ _ _ _ Hrep). now apply sim_same.
    - destruct (mget ph vals) as [v|] eqn:E.
      + now apply sim_complex.
      + destruct (kw_of_facts c) as (F1 & F2 & F3 & F4). unfold akw. rewrite F1, F2, E. now apply sim_same.
    - rewrite Hc. cbn [bind]. rewrite Hr. now apply sim_same.
    - rewrite Hc. cbn [bind]. now apply sim_same.
  Qed.

  Lemma sim_parts rec rec' self ps0 : sim_rec rec rec' -> mget self (fm_patterns fm) = Some ps0 ->
    forall ps l ns st, (forall i, In i (slots ps) -> In i (slots ps0)) -> R ns st ->
    parts_rep fe reg locale (fm_selectors fm) ps l ->
    sim (format_parts fe reg fm vals rec ps ns) (aitems fe reg locale vals rec' (strings_of a) self l st).
  Proof.
    intros Hrec Hself ps l ns st Hin HR Hp. revert ns st Hin HR.
    induction Hp as [|p g ps l Hp Hps IH]; intros ns st Hin HR.
    - cbn. now apply sim_same.
    - rewrite aitems_app. cbn [format_parts].
      assert (Hsl : forall i, In i (slot p) -> nth_error ns i = Some (st self)).
      { intros i Hi. apply (proj2 HR self ps0 i Hself). apply Hin. cbn [slots flat_map]. apply in_app_iff. now left. }
      pose proof (sim_part rec rec' self p g ns st Hrec HR Hp Hsl) as Hsim.
      destruct (format_part fe reg fm vals rec p ns) as [ns1 r1],
        (aitems fe reg locale vals rec' (strings_of a) self g st) as [st1 r1'].
      destruct Hsim as (HR1 & Hs1). cbn [fst snd] in HR1, Hs1.
      destruct r1, r1'; try discriminate Hs1; try (now split).
      injection Hs1 as <-.
      assert (Hin' : forall i, In i (slots ps) -> In i (slots ps0)).
      { intros i Hi. apply Hin. cbn [slots flat_map]. apply in_app_iff. now right. }
      specialize (IH ns1 st1 Hin' HR1).
      destruct (format_parts fe reg fm vals rec ps ns1) as [ns2 r2],
        (aitems fe reg locale vals rec' (strings_of a) self l st1) as [st2 r2'].
      destruct IH as (HR2 & Hs2). cbn [fst snd] in HR2, Hs2.
      destruct r2, r2'; try discriminate Hs2; try (now split).
      injection Hs2 as <-. now split.
  Qed.

  Theorem sim_pattern fuel : sim_rec (format_pattern fe reg fm vals fuel) (astring fe reg locale vals fuel (strings_of a)).
  Proof.
    induction fuel as [|f IH]; intros named ns st HR; cbn [format_pattern astring]; [now apply sim_same|].
    pose proof (pats_rep_get _ _ _ _ _ _ named (fr_pats _ _ _ _ _ Hrep)) as Hg.
    destruct (mget named (fm_patterns fm)) as [ps|] eqn:E, (mget named (strings_of a)) as [l|]; [|now destruct Hg|now destruct Hg|].
    - eapply sim_parts; eauto.
    - now apply sim_same.
  Qed.
End Sim.

Lemma R_init fe reg locale fm a : fm_rep fe reg locale fm a -> R fm (fm_numbers fm) (fun _ => []).
Proof.
  intros Hrep. split; [reflexivity|]. intros k ps i Hk Hi.
  pose proof (fr_below _ _ _ _ _ Hrep k ps i (mget_In _ _ _ Hk) Hi) as Hlt.
  destruct (fr_empty _ _ _ _ _ Hrep) as (n & Hn). rewrite Hn in *. rewrite repeat_length in Hlt.
  now rewrite nth_error_repeat.
Qed.
