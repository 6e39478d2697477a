(** Proofs for C95. *)
From Verif Require Import Base BaseFacts LexerModel TreeModel TreeSpec ValueModel CommandModel IsoModel FormatterModel FormatterSpec
  FormatterAbs FormatterRefine FormatterRefine2 FormatterSim FormatterProofs FormatterProofs3 FormatterProofs4 TwinSpec TwinProofs VerbatimSpec.

(** Where [was] tells a text, [is] tells the text [y], and otherwise neither tells one. *)
Definition now_says (was is : ustr -> Prop) (y : ustr) : Prop := (forall t, is t -> t = y) /\ ((exists t, is t) <-> (exists t, was t)).

(** The setting [S] supplies the texts [x] for the pattern string; otherwise it is like [S0]: the same locale, the same numbers
    and plural categories, and the same values for the placeholders that have a keyword. *)
Record supplies (a : sast) (x : source -> ustr) (S0 S : setting) : Prop := {
  su_locale : se_locale S = se_locale S0;
  su_unsigned : fe_unsigned (se_env S) = fe_unsigned (se_env S0);
  su_integer : fe_integer (se_env S) = fe_integer (se_env S0);
  su_float : fe_float (se_env S) = fe_float (se_env S0);
  su_valid : fe_valid_date (se_env S) = fe_valid_date (se_env S0);
  su_cardinal : fe_cardinal (se_env S) (se_locale S) = fe_cardinal (se_env S0) (se_locale S0);
  su_ordinal : fe_ordinal (se_env S) (se_locale S) = fe_ordinal (se_env S0) (se_locale S0);
  su_keyword : forall ph kw, item_of a (SPat ph (Some kw)) -> mget ph (se_values S) = mget ph (se_values S0);
  su_value : forall ph, item_of a (SPat ph None) -> now_says (shows_text (se_values S0) ph) (shows_text (se_values S) ph) (x (FromValue ph));
  su_command : forall name args, item_of a (SCmd (SId name :: map SId args)) ->
    now_says (answers (se_commands S0) name (map VString args)) (answers (se_commands S) name (map VString args)) (x (FromCommand false name args));
  su_delayed : forall name args, item_of a (SCmd (SId name :: SDelay :: map SId args)) ->
    now_says (answers (se_commands S0) name (map (parameter (se_values S0)) args)) (answers (se_commands S) name (map (parameter (se_values S)) args))
      (x (FromCommand true name args));
  su_number : forall d, now_says (fun t => exists f, fe_decimal (se_env S0) (se_locale S0) None = Some f /\ t = f d)
    (fun t => exists f, fe_decimal (se_env S) (se_locale S) None = Some f /\ t = f d) (x (FromNumber d));
  su_moment : forall m, now_says (shown (se_env S0) (se_locale S0) m) (shown (se_env S) (se_locale S) m) (x (FromMoment m))
}.

Lemma filled_app x l l' : filled x (l ++ l') = filled x l ++ filled x l'.
Proof. unfold filled. now rewrite map_app, concat_app. Qed.
Lemma filled_one x s : filled x [Supplied s] = x s.
Proof. unfold filled. cbn. apply app_nil_r. Qed.
Lemma filled_word x w : filled x [Word w] = w.
Proof. unfold filled. cbn. apply app_nil_r. Qed.
Lemma own_app a l l' : own_chunks a l -> own_chunks a l' -> own_chunks a (l ++ l').
Proof. intros H H' w Hw. apply in_app_iff in Hw as [Hw|Hw]; auto. Qed.
Lemma own_one a s : own_chunk a s -> own_chunks a [s].
Proof. now intros H c [<-|[]]. Qed.

Lemma number_same fe fe' v d : fe_unsigned fe = fe_unsigned fe' -> fe_integer fe = fe_integer fe' -> fe_float fe = fe_float fe' ->
  number_value fe v d -> number_value fe' v d.
Proof. intros E1 E2 E3 H. destruct H as [d|n|z|b d H]; [constructor|rewrite E1; constructor|rewrite E2; constructor|]. constructor. now rewrite <- E3. Qed.
Lemma moment_same fe fe' v m : fe_valid_date fe = fe_valid_date fe' -> moment_value fe v m -> moment_value fe' v m.
Proof.
  intros E H. destruct H.
  - apply mv_date.
  - apply mv_time.
  - apply mv_both.
  - apply mv_string_date; rewrite <- ?E; assumption.
  - apply mv_string_time; assumption.
  - apply mv_string_both; rewrite <- ?E; assumption.
  - apply mv_string_many; rewrite <- ?E; assumption.
Qed.

Section Open.
  Variables (a : sast) (S0 : setting).
  Notation strs := (all_strings a).
  Notation good := (supplies a).
  Definition open_state := ustr -> list chunk.
  Definition fills (x : source -> ustr) (T : open_state) (st : numst) : Prop := forall k, st k = filled x (T k).
  Definition sound_state (T : open_state) : Prop := forall k, own_chunks a (T k).
  Definition reads (o : option (open_state * list chunk)) (x : source -> ustr) (r : aout) : Prop :=
    match o with
    | Some (T, l) => exists st, r = (st, Ok (filled x l)) /\ fills x T st
    | None => forall st t, r <> (st, Ok t)
    end.
  Definition sound (o : option (open_state * list chunk)) : Prop := match o with Some (T, l) => sound_state T /\ own_chunks a l | None => True end.
  Definition uniform (T : open_state) (F : setting -> numst -> aout) : Prop :=
    exists o, sound o /\ forall x S st, good x S0 S -> fills x T st -> reads o x (F S st).

  Notation run S rec self := (aitem (se_env S) (se_commands S) (se_locale S) (se_values S) (rec S) strs self).

  (** One supplied text. *)
  Lemma one_uniform T (F : setting -> numst -> aout) (P : setting -> ustr -> Prop) s : own_chunk a (Supplied s) -> sound_state T ->
    (forall S st st1 t, F S st = (st1, Ok t) <-> st1 = st /\ P S t) ->
    (forall x S, good x S0 S -> now_says (P S0) (P S) (x s)) -> uniform T F.
  Proof.
    intros Hs HT HF HP. destruct (F S0 (fun _ => [])) as (st0 & r0) eqn:E0.
    assert (D : (exists t, P S0 t) \/ ~ exists t, P S0 t).
    { destruct r0 as [t| | |]; [left; exists t; now apply HF in E0|right..]; intros (t & Ht); specialize (proj2 (HF S0 (fun _ => []) _ t) (conj eq_refl Ht)); congruence. }
    destruct D as [D|D].
    - exists (Some (T, [Supplied s])). split; [split; [exact HT|now apply own_one]|]. intros x S st Hg Hst. destruct (HP x S Hg) as [H1 H2]. apply H2 in D as (t & Ht).
      exists st. split; [|exact Hst]. apply HF. split; [reflexivity|]. rewrite filled_one. now rewrite <- (H1 _ Ht).
    - exists None. split; [exact Logic.I|]. intros x S st Hg Hst st1 t E. apply HF in E as [_ Ht]. apply D. apply (HP x S Hg). eauto.
  Qed.
  Lemma none_uniform T (F : setting -> numst -> aout) : (forall x S st st1 t, good x S0 S -> F S st <> (st1, Ok t)) -> uniform T F.
  Proof. intros H. exists None. split; [exact Logic.I|]. intros x S st Hg _ st1 t. now apply (H x). Qed.

  Lemma has_number S x v d : good x S0 S -> number_value (se_env S0) v d <-> number_value (se_env S) v d.
  Proof. intros [_ E1 E2 E3 _ _ _ _ _ _ _ _ _]. split; apply number_same; auto. Qed.
  Lemma has_moment S x v m : good x S0 S -> moment_value (se_env S0) v m <-> moment_value (se_env S) v m.
  Proof. intros [_ _ _ _ E _ _ _ _ _ _ _ _]. split; apply moment_same; auto. Qed.

  Lemma number_dec v : (exists d, number_value (se_env S0) v d) \/ ~ exists d, number_value (se_env S0) v d.
  Proof.
    destruct (number_of (se_env S0) [] v) as [d| | |] eqn:E; [left; exists d; now apply (number_of_ok _ [])|right..];
      intros (d & H); apply (number_of_ok _ []) in H; congruence.
  Qed.
  Lemma number_once v d d' : number_value (se_env S0) v d -> number_value (se_env S0) v d' -> d = d'.
  Proof. intros H H'. apply (number_of_ok _ []) in H, H'. congruence. Qed.

  Section Item.
    Variables (rec : setting -> ustr -> numst -> aout) (T : open_state).
    Hypothesis Hrec : forall name T, sound_state T -> uniform T (fun S => rec S name).
    Hypothesis HT : sound_state T.
    Variable self : ustr.

    (** A branch for a number. *)
    Lemma branch_uniform (F : setting -> numst -> aout) (P : setting -> ustr -> ustr -> Prop) (sels : list (ustr * ustr)) (num : option (decimal * ustr)) :
      (forall d, own_chunk a (Supplied (FromNumber d))) ->
      (forall S st st1 t, F S st = (st1, Ok t) <-> exists u k body, P S u k /\ In k (map fst sels) /\ mget k strs = Some body /\ rec S k (upd st k u) = (st1, Ok t)) ->
      (forall x S u k, good x S0 S -> P S u k <-> exists d f, num = Some (d, k) /\ fe_decimal (se_env S) (se_locale S) None = Some f /\ u = f d) ->
      uniform T F.
    Proof.
      intros Hown HF HP. destruct num as [(d & k)|].
      2:{ apply none_uniform. intros x S st st1 t Hg E. apply HF in E as (u & k & body & Hu & _). apply (HP x S u k Hg) in Hu as (d & f & Hn & _). discriminate Hn. }
      destruct (umem k (map fst sels)) eqn:Hi.
      2:{ apply none_uniform. intros x S st st1 t Hg E. apply HF in E as (u & k1 & body & Hu & Hi' & _). apply (HP x S u k1 Hg) in Hu as (d1 & f & Hn & _).
          injection Hn as <- <-. apply umem_In in Hi'. congruence. }
      apply umem_In in Hi.
      destruct (mget k strs) as [body|] eqn:Eb.
      2:{ apply none_uniform. intros x S st st1 t Hg E. apply HF in E as (u & k1 & body & Hu & _ & Hb & _). apply (HP x S u k1 Hg) in Hu as (d1 & f & Hn & _).
          injection Hn as <- <-. congruence. }
      destruct (fe_decimal (se_env S0) (se_locale S0) None) as [f0|] eqn:Ef.
      2:{ apply none_uniform. intros x S st st1 t Hg E. apply HF in E as (u & k1 & body1 & Hu & _ & Hb & _). apply (HP x S u k1 Hg) in Hu as (d1 & f & Hn & Hf & ->).
          destruct (su_number _ _ _ _ Hg d1) as [_ [H _]]. destruct H as (t1 & f1 & H & _); [eauto|congruence]. }
      set (T1 := fun m => if ueqb m k then [Supplied (FromNumber d)] else T m).
      assert (HT1 : sound_state T1) by (intros m; unfold T1; destruct (ueqb m k); [apply own_one; apply Hown|apply HT]).
      destruct (Hrec k T1 HT1) as (o & Ho & Hr). exists o. split; [exact Ho|]. intros x S st Hg Hst.
      destruct (su_number _ _ _ _ Hg d) as [Hd1 [_ Hd2]]. destruct Hd2 as (t0 & f & Ef' & E0); [eauto|].
      assert (Hst1 : fills x T1 (upd st k (f d))).
      { intros m. unfold upd, T1. destruct (ueqb m k); [|apply Hst]. rewrite filled_one. apply Hd1. eauto. }
      specialize (Hr x S _ Hg Hst1). destruct o as [(T2 & l)|]; cbn [reads] in *.
      - destruct Hr as (st1 & E & Hf1). exists st1. split; [|exact Hf1]. apply HF. exists (f d), k, body. split; [apply (HP x S _ _ Hg); eauto|auto].
      - intros st1 t E. apply HF in E as (u & k1 & body1 & Hu & _ & Hb & E). apply (HP x S u k1 Hg) in Hu as (d1 & f1 & Hn & Hf & ->).
        injection Hn as <- <-. rewrite Ef' in Hf. injection Hf as <-. exact (Hr _ _ E).
    Qed.

    Lemma item_uniform y : shaped y -> item_of a y -> uniform T (fun S => run S rec self y).
    Proof.
      intros Hsh Hin.
      assert (Hnum : forall ph kw sels, item_of a (SPat ph (Some (kw, sels))) -> In kw [us "decimal"; us "plural"; us "ordinal"] -> forall d, own_chunk a (Supplied (FromNumber d)))
        by (intros ph kw sels H1 H2 d; exists ph, kw, sels; now split).
      destruct Hsh as [w| |ph|ph|ph|ph sels|ph sels|ph sels|name args|name args].
      - exists (Some (T, [Word w])). split; [split; [exact HT|]|].
        + apply own_one. exact Hin.
        + intros x S st Hg Hst. exists st. cbn [aitem]. now rewrite filled_word.
      - exists (Some (T, T self)). split; [split; [exact HT|apply HT]|]. intros x S st Hg Hst. exists st. cbn [aitem]. now rewrite (Hst self).
      - apply (one_uniform T _ (fun S => shows_text (se_values S) ph) (FromValue ph) Hin HT).
        + intros S st st1 t. apply place_ok.
        + intros x S Hg. exact (su_value _ _ _ _ Hg ph Hin).
      - destruct (mget ph (se_values S0)) as [v|] eqn:Ev.
        2:{ apply none_uniform. intros x S st st1 t Hg E. apply decimal_item in E as [_ (v & d & f & H & _)]. rewrite (su_keyword _ _ _ _ Hg ph _ Hin) in H. congruence. }
        destruct (number_dec v) as [(d & Hd)|Hd].
        2:{ apply none_uniform. intros x S st st1 t Hg E. apply decimal_item in E as [_ (v' & d & f & H & Hv & _)]. rewrite (su_keyword _ _ _ _ Hg ph _ Hin) in H.
            rewrite Ev in H. injection H as <-. apply Hd. exists d. now apply (has_number S x v d Hg). }
        apply (one_uniform T _ (fun S t => shows_number (se_env S) (se_locale S) (se_values S) ph t) (FromNumber d) (Hnum _ _ _ Hin (or_introl eq_refl) d) HT).
        + intros S st st1 t. apply decimal_item.
        + intros x S Hg. pose proof (su_keyword _ _ _ _ Hg ph _ Hin) as Hk. destruct (su_number _ _ _ _ Hg d) as [H1 H2]. split.
          * intros t (v' & d' & f & H & Hv & Hf & ->). rewrite Hk, Ev in H. injection H as <-. apply (has_number S x v d' Hg) in Hv. rewrite <- (number_once _ _ _ Hd Hv). apply H1. eauto.
          * split.
            -- intros (t & v' & d' & f & H & Hv & Hf & ->). destruct H2 as [H2 _]. destruct H2 as (t0 & f0 & Hf0 & ->); [exists (f d); eauto|].
               exists (f0 d), v, d, f0. auto.
            -- intros (t & v' & d' & f & H & Hv & Hf & ->). destruct H2 as [_ H2]. destruct H2 as (t0 & f0 & Hf0 & ->); [exists (f d); eauto|].
               exists (f0 d), v, d, f0. split; [congruence|]. split; [now apply (has_number S x v d Hg)|auto].
      - destruct (mget ph (se_values S0)) as [v|] eqn:Ev.
        2:{ apply none_uniform. intros x S st st1 t Hg E. apply date_time_item in E as [_ (v & d & H & _)]. rewrite (su_keyword _ _ _ _ Hg ph _ Hin) in H. congruence. }
        assert (D : (exists m t, moment_value (se_env S0) v m /\ shown (se_env S0) (se_locale S0) m t) \/
                    ~ exists m t, moment_value (se_env S0) v m /\ shown (se_env S0) (se_locale S0) m t).
        { destruct (format_date_time (se_env S0) (se_locale S0) None None None v) as [t| | |] eqn:E.
          - left. apply date_time_ok in E as (m & Hm). eauto.
          - right. intros (m & t & Hm). rewrite (proj2 (date_time_ok _ _ _ t) (ex_intro _ m Hm)) in E. discriminate E.
          - right. intros (m & t & Hm). rewrite (proj2 (date_time_ok _ _ _ t) (ex_intro _ m Hm)) in E. discriminate E.
          - right. intros (m & t & Hm). rewrite (proj2 (date_time_ok _ _ _ t) (ex_intro _ m Hm)) in E. discriminate E. }
        destruct D as [(m & t0 & Hm & Ht0)|D].
        + exists (Some (T, [Supplied (FromMoment m)])). split; [split; [exact HT|apply own_one; exists ph; exact Hin]|]. intros x S st Hg Hst. exists st. split; [|exact Hst].
          apply date_time_item. split; [reflexivity|]. rewrite filled_one. destruct (su_moment _ _ _ _ Hg m) as [H1 [_ H2]]. destruct H2 as (t & Ht); [eauto|].
          exists v, m. split; [rewrite (su_keyword _ _ _ _ Hg ph _ Hin); exact Ev|]. split; [now apply (has_moment S x v m Hg)|]. now rewrite <- (H1 _ Ht).
        + apply none_uniform. intros x S st st1 t Hg E. apply date_time_item in E as [_ (v' & m & H & Hm & Ht)]. rewrite (su_keyword _ _ _ _ Hg ph _ Hin), Ev in H. injection H as <-.
          destruct (su_moment _ _ _ _ Hg m) as [_ [H2 _]]. destruct H2 as (t0 & Ht0); [eauto|]. apply D. exists m, t0. split; [now apply (has_moment S x v m Hg)|exact Ht0].
      - destruct (mget ph (se_values S0)) as [v|] eqn:Ev.
        2:{ apply none_uniform. intros x S st st1 t Hg E. apply select_item in E as (k & (v & H & _) & _). rewrite (su_keyword _ _ _ _ Hg ph _ Hin) in H. congruence. }
        assert (Hno : (forall k, text_value v = Some k -> ~ In k (map fst sels)) -> uniform T (fun S => run S rec self (SPat ph (Some (us "select", sels))))).
        { intros Hk. apply none_uniform. intros x S st st1 t Hg E. apply select_item in E as (k & (v' & H & Hv) & Hi & _). rewrite (su_keyword _ _ _ _ Hg ph _ Hin), Ev in H.
          injection H as <-. exact (Hk k Hv Hi). }
        destruct (text_value v) as [k|] eqn:Ek; [|apply Hno; discriminate].
        destruct (umem k (map fst sels)) eqn:Em; [|apply Hno; intros k' [= <-] Hi; apply umem_In in Hi; congruence]. apply umem_In in Em.
        destruct (Hrec k T HT) as (o & Ho & Hr). exists o. split; [exact Ho|]. intros x S st Hg Hst. specialize (Hr x S st Hg Hst).
        assert (Hv : mget ph (se_values S) = Some v) by now rewrite (su_keyword _ _ _ _ Hg ph _ Hin).
        destruct o as [(T2 & l)|]; cbn [reads] in *.
        + destruct Hr as (st1 & E & Hf). exists st1. split; [|exact Hf]. apply select_item. exists k. split; [exists v; auto|auto].
        + intros st1 t E. apply select_item in E as (k' & (v' & H & Hk) & _ & E). rewrite Hv in H. injection H as <-. rewrite Ek in Hk. injection Hk as <-. exact (Hr _ _ E).
      - set (num := match mget ph (se_values S0) with
                    | Some v => match number_of (se_env S0) [] v, fe_cardinal (se_env S0) (se_locale S0) with Ok d, Some rules => Some (d, category_name (rules d)) | _, _ => None end
                    | None => None end).
        apply (branch_uniform _ (fun S u k => shows_cardinal (se_env S) (se_locale S) (se_values S) ph u k) sels num).
        + exact (Hnum _ _ _ Hin (or_intror (or_introl eq_refl))).
        + intros S st st1 t. apply plural_item.
        + intros x S u k Hg. unfold shows_cardinal. rewrite (su_keyword _ _ _ _ Hg ph _ Hin), (su_cardinal _ _ _ _ Hg). unfold num. split.
          * intros (v & d & f & rules & -> & Hd & Hf & -> & Hru & ->). apply (has_number S x v d Hg) in Hd. apply (number_of_ok _ []) in Hd. rewrite Hd, Hru. eauto.
          * intros (d & f & Hn & Hf & ->). destruct (mget ph (se_values S0)) as [v|]; [|discriminate Hn].
            destruct (number_of (se_env S0) [] v) as [d'| | |] eqn:Ed; try discriminate Hn. destruct (fe_cardinal (se_env S0) (se_locale S0)) as [rules|]; [|discriminate Hn].
            injection Hn as <- <-. apply number_of_ok in Ed. exists v, d', f, rules. split; [reflexivity|]. split; [now apply (has_number S x v d' Hg)|auto].
      - set (num := match mget ph (se_values S0) with
                    | Some (VUnsigned n) => match fe_ordinal (se_env S0) (se_locale S0) with Some rules => Some (fe_unsigned (se_env S0) n, category_name (rules (fe_unsigned (se_env S0) n))) | _ => None end
                    | _ => None end).
        apply (branch_uniform _ (fun S u k => shows_ordinal (se_env S) (se_locale S) (se_values S) ph u k) sels num).
        + exact (Hnum _ _ _ Hin (or_intror (or_intror (or_introl eq_refl)))).
        + intros S st st1 t. apply ordinal_item.
        + intros x S u k Hg. unfold shows_ordinal. rewrite (su_keyword _ _ _ _ Hg ph _ Hin), (su_ordinal _ _ _ _ Hg), (su_unsigned _ _ _ _ Hg). unfold num. split.
          * intros (n & f & rules & -> & Hf & -> & -> & ->). eauto.
          * intros (d & f & Hn & Hf & ->). destruct (mget ph (se_values S0)) as [[]|]; try discriminate Hn. destruct (fe_ordinal (se_env S0) (se_locale S0)) as [rules|]; [|discriminate Hn].
            injection Hn as <- <-. exists n, f, rules. auto.
      - apply (one_uniform T _ (fun S => answers (se_commands S) name (map VString args)) (FromCommand false name args) Hin HT).
        + intros S st st1 t. apply command_item.
        + intros x S Hg. exact (su_command _ _ _ _ Hg name args Hin).
      - apply (one_uniform T _ (fun S => answers (se_commands S) name (map (parameter (se_values S)) args)) (FromCommand true name args) Hin HT).
        + intros S st st1 t. apply delayed_item.
        + intros x S Hg. exact (su_delayed _ _ _ _ Hg name args Hin).
    Qed.
  End Item.

  Lemma items_uniform rec self (Hrec : forall name T, sound_state T -> uniform T (fun S => rec S name)) l :
    (forall y, In y l -> shaped y /\ item_of a y) -> forall T, sound_state T ->
    uniform T (fun S => aitems (se_env S) (se_commands S) (se_locale S) (se_values S) (rec S) strs self l).
  Proof.
    induction l as [|y l IH]; intros Hl T HT.
    - exists (Some (T, [])). split; [split; [exact HT|now intros w []]|]. intros x S st Hg Hst. exists st. now split.
    - destruct (Hl y (or_introl eq_refl)) as [Hy1 Hy2]. destruct (item_uniform rec T Hrec HT self y Hy1 Hy2) as (o & Ho & Hr).
      destruct o as [(T1 & c)|].
      + destruct Ho as [HT1 Hc]. destruct (IH (fun z Hz => Hl z (or_intror Hz)) T1 HT1) as (o2 & Ho2 & Hr2). destruct o2 as [(T2 & c2)|].
        * exists (Some (T2, c ++ c2)). split; [split; [apply Ho2|apply own_app; [exact Hc|apply Ho2]]|]. intros x S st Hg Hst.
          destruct (Hr x S st Hg Hst) as (st1 & E1 & Hst1). destruct (Hr2 x S st1 Hg Hst1) as (st2 & E2 & Hst2). exists st2. split; [|exact Hst2].
          cbn [aitems]. rewrite E1, E2. now rewrite filled_app.
        * exists None. split; [exact Logic.I|]. intros x S st Hg Hst. destruct (Hr x S st Hg Hst) as (st1 & E1 & Hst1). specialize (Hr2 x S st1 Hg Hst1). cbn [reads] in Hr2.
          intros st2 t. cbn [aitems]. rewrite E1. destruct (aitems _ _ _ _ _ _ _ _ _) as (st3 & [t3| | |]) eqn:E3; try discriminate. destruct (Hr2 _ _ eq_refl).
      + exists None. split; [exact Logic.I|]. intros x S st Hg Hst. specialize (Hr x S st Hg Hst). cbn [reads] in Hr.
        intros st2 t. cbn [aitems]. destruct (aitem _ _ _ _ _ _ _ _ _) as (st3 & [t3| | |]) eqn:E3; try discriminate. destruct (Hr _ _ eq_refl).
  Qed.
  Lemma string_uniform (Hs : forall y, item_of a y -> shaped y) fuel : forall name T, sound_state T ->
    uniform T (fun S => astring (se_env S) (se_commands S) (se_locale S) (se_values S) fuel strs name).
  Proof.
    induction fuel as [|f IH]; intros name T HT; cbn [astring].
    - apply none_uniform. discriminate.
    - destruct (mget name strs) as [l|] eqn:E; [|apply none_uniform; discriminate].
      apply (items_uniform _ name IH l); [|exact HT]. intros y Hy. assert (Hi : item_of a y) by (exists name, l; split; [now apply mget_In|exact Hy]). auto.
  Qed.
End Open.

(** ** What a setting supplies *)
Lemma value_supplied S ph t : shows_text (se_values S) ph t -> t = supplied S (FromValue ph).
Proof. intros (v & H & Ht). cbn. now rewrite H, Ht. Qed.
Lemma command_supplied S name args t : answers (se_commands S) name (map VString args) t -> t = supplied S (FromCommand false name args).
Proof. intros (f & H & Ht). cbn. now rewrite H, Ht. Qed.
Lemma delayed_supplied S name args t : answers (se_commands S) name (map (parameter (se_values S)) args) t -> t = supplied S (FromCommand true name args).
Proof. intros (f & H & Ht). cbn. now rewrite H, Ht. Qed.
Lemma moment_supplied S m t : shown (se_env S) (se_locale S) m t -> t = supplied S (FromMoment m).
Proof. destruct m; cbn; intros (f & -> & H); now rewrite H. Qed.
Lemma supplies_choices a S0 S : same_choices a S0 S -> supplies a (supplied S) S0 S.
Proof.
  intros [H1 H2 H3 H4 H5 H6 H7 H8 H9 H10 H11 H12 H13]. constructor; auto.
  - intros ph Hi. split; [apply value_supplied|exact (H9 ph Hi)].
  - intros name args Hi. split; [apply command_supplied|exact (H10 name args Hi)].
  - intros name args Hi. split; [apply delayed_supplied|exact (H11 name args Hi)].
  - intros d. split; [intros t (f & Hf & ->); cbn; now rewrite Hf|].
    destruct (fe_decimal (se_env S0) (se_locale S0) None) as [f0|], (fe_decimal (se_env S) (se_locale S) None) as [f|].
    + split; intros _; eauto.
    + destruct H12 as [_ H]. discriminate (H eq_refl).
    + destruct H12 as [H _]. discriminate (H eq_refl).
    + split; intros (t & f & H & _); discriminate H.
  - intros m. split; [apply moment_supplied|exact (H13 m)].
Qed.
Lemma choices_refl a S : same_choices a S S.
Proof. constructor; intros; unfold both_or_none; try reflexivity; tauto. Qed.

Theorem text_open d g S0 tag s a fm0 fuel : content_of d g s a ->
  formatter_try_new d g (se_env S0) (se_commands S0) tag (se_locale S0) s = Ok fm0 ->
  exists o, (forall l, o = Some l -> own_chunks a l) /\ forall S fm t, same_choices a S0 S ->
    formatter_try_new d g (se_env S) (se_commands S) tag (se_locale S) s = Ok fm ->
    snd (format fuel (se_env S) (se_commands S) fm (se_values S)) = Ok t <-> exists l, o = Some l /\ t = filled (supplied S) l.
Proof.
  intros Ha Hf0. assert (Hs : forall y, item_of a y -> shaped y).
  { intros y (name & body & Hin & Hy). exact (built_shaped _ _ _ _ _ _ _ _ _ _ _ _ Ha Hf0 Hin Hy). }
  destruct (string_uniform a S0 Hs fuel (us "_") (fun _ => []) (fun _ w Hw => match Hw with end)) as (o & Ho & Hr).
  exists (option_map snd o). split; [intros l; destruct o as [(T & l0)|]; [intros [= <-]; apply Ho|discriminate]|].
  intros S fm t Hg Hf. apply supplies_choices in Hg. destruct (try_new_inv d g _ _ tag _ s a fm Ha Hf) as (_ & Hrep & _). rewrite (fresh_format _ _ _ _ _ _ _ _ Hrep).
  specialize (Hr _ S (fun _ => []) Hg (fun _ => eq_refl)). change (strings_of a) with (all_strings a). destruct o as [(T & l)|]; cbn [option_map snd reads] in *.
  - destruct Hr as (st & E & _). rewrite E. split; [intros (st1 & [= _ <-]); eauto|]. intros (l0 & [= <-] & ->). eauto.
  - split; [intros (st & E); destruct (Hr _ _ E)|]. intros (l & H & _). discriminate H.
Qed.
Theorem text_open_after d g S0 tag s a fm0 fuel : content_of d g s a -> hash_in_plurals_only a ->
  formatter_try_new d g (se_env S0) (se_commands S0) tag (se_locale S0) s = Ok fm0 ->
  exists o, (forall l, o = Some l -> own_chunks a l) /\ forall S fm fm1 t, same_choices a S0 S ->
    formatter_try_new d g (se_env S) (se_commands S) tag (se_locale S) s = Ok fm -> after_formatting (se_env S) (se_commands S) fm fm1 ->
    snd (format fuel (se_env S) (se_commands S) fm1 (se_values S)) = Ok t <-> exists l, o = Some l /\ t = filled (supplied S) l.
Proof.
  intros Ha Hh Hf0. destruct (text_open d g S0 tag s a fm0 fuel Ha Hf0) as (o & Ho & H). exists o. split; [exact Ho|]. intros S fm fm1 t Hg Hf Haf.
  rewrite (format_history _ _ _ _ _ _ _ _ _ _ _ _ Ha Hh Hf Haf). now apply (H S fm t).
Qed.

(** ** What holds of all the parts holds of the text *)
Lemma Forall_concat {A} (P : A -> Prop) (ls : list (list A)) : (forall l, In l ls -> Forall P l) -> Forall P (List.concat ls).
Proof.
  induction ls as [|l ls IH]; intros H; cbn; [constructor|]. apply Forall_app. split; [apply H; now left|]. apply IH. intros l' Hl. apply H. now right.
Qed.
Theorem text_clean (P : N -> Prop) d g S tag s a fm fuel t : content_of d g s a ->
  formatter_try_new d g (se_env S) (se_commands S) tag (se_locale S) s = Ok fm ->
  (forall c, own_chunk a c -> Forall P (filled (supplied S) [c])) ->
  snd (format fuel (se_env S) (se_commands S) fm (se_values S)) = Ok t -> Forall P t.
Proof.
  intros Ha Hf Hc Ht. destruct (text_open d g S tag s a fm fuel Ha Hf) as (o & Ho & H). destruct (proj1 (H S fm t (choices_refl a S) Hf) Ht) as (l & E & E2). rewrite E2. clear E2.
  unfold filled. apply Forall_concat. intros u Hi. apply in_map_iff in Hi as (c & <- & Hi). specialize (Hc c (Ho l E c Hi)).
  unfold filled in Hc. cbn [map List.concat] in Hc. now rewrite app_nil_r in Hc.
Qed.

(** ** Other values for the placeholders that are only shown *)
Lemma values_choices a fe reg locale vals vals' :
  (forall ph kw, item_of a (SPat ph (Some kw)) -> mget ph vals' = mget ph vals) ->
  (forall name args w, item_of a (SCmd (SId name :: SDelay :: map SId args)) -> In w args -> mget w vals' = mget w vals) ->
  (forall ph, item_of a (SPat ph None) -> (exists t, shows_text vals' ph t) <-> (exists t, shows_text vals ph t)) ->
  same_choices a (mk_setting fe reg locale vals) (mk_setting fe reg locale vals').
Proof.
  intros H1 H2 H3. constructor; cbn [se_locale se_env se_values se_commands]; intros; unfold both_or_none; try reflexivity; auto.
  - eauto.
  - assert (E : map (parameter vals') args = map (parameter vals) args).
    { apply map_ext_in. intros w Hw. unfold parameter. now rewrite (H2 _ _ _ H Hw). }
    rewrite E. reflexivity.
Qed.
