(** Proofs about the errors of formatting. *)
From Verif Require Import Base BaseFacts LexerModel LexerSpec TreeModel TreeSpec TreeMachine TreeProofs TreeProofs4 DocSpec DocProofs
  ValueModel CommandModel IsoModel FormatterModel FormatterAbs FormatterRefine FormatterRefine2 FormatterSim FormatterActs
  FormatterSpec FormatterProofs FormatterProofs2 FormatterProofs3 FormatterProofs4 FormatterProofs5 DefectSpec DefectProofs.
Local Opaque us.

Section Format.
  Variables (fe : fmtenv) (reg : cregistry) (locale : ustr) (vals : amap pvalue) (a : sast).
  Hypothesis Hb : buildable reg a.
  Notation strs := (strings_of a).

  Lemma string_located k l x : mget k strs = Some l -> In x l -> exists known, located a known x.
  Proof.
    intros Hk Hx. apply mget_In in Hk. destruct Hk as [[= <- <-]|Hk]; [eexists; now apply in_main|].
    apply in_split in Hk as (pre & post & E). eexists. now apply (in_named a pre k l post).
  Qed.
  Lemma located_ok known x : located a known x -> item_ok reg known x.
  Proof.
    destruct Hb as (_ & _ & H1 & H2). intros [y Hy|pre name body post y E Hy].
    - rewrite Forall_forall in H1. auto.
    - specialize (H2 _ _ _ _ E). rewrite Forall_forall in H2. auto.
  Qed.
  Lemma located_known known x m : located a known x -> In m known -> exists l, mget m strs = Some l.
  Proof.
    intros Hl Hm. apply mget_keys. unfold strings_of, mkeys. cbn [map fst].
    destruct Hl as [y Hy|pre name body post y E Hy]; [exact Hm|]. destruct Hm as [<-|Hm]; [now left|]. right.
    rewrite E, map_app. apply in_or_app. now left.
  Qed.

  (** Calls lead to strings of the content. *)
  Lemma call_known known x m u : located a known x -> item_act fe reg locale vals strs x = ACall m u -> exists l, mget m strs = Some l.
  Proof.
    intros Hl H. pose proof (located_ok _ _ Hl) as Hok. apply (located_known known x m Hl).
    assert (Hc : item_check fe reg locale known false x = Ok tt) by (apply item_check_iff; split; [exact Hok|discriminate]).
    now destruct (item_call _ _ _ _ _ _ _ _ _ _ Hc H).
  Qed.

  Lemma evs_err rec self l e : (forall m st st', rec m st = (st', Err e) -> (exists l', mget m strs = Some l') ->
      exists k l' x, mget k strs = Some l' /\ In x l' /\ item_act fe reg locale vals strs x = APure (Err e)) ->
    mget self strs = Some l -> forall l0 st st', (forall x, In x l0 -> In x l) ->
    aitems fe reg locale vals rec strs self l0 st = (st', Err e) ->
    exists k l' x, mget k strs = Some l' /\ In x l' /\ item_act fe reg locale vals strs x = APure (Err e).
  Proof.
    intros Hrec Hself. induction l0 as [|x l0 IH]; intros st st' Hin H; [discriminate|]. rewrite evs_cons in H.
    destruct (run_act rec self (item_act fe reg locale vals strs x) st) as [st1 r1] eqn:Ex.
    destruct r1 as [s|e1| |]; try discriminate.
    - destruct (aitems fe reg locale vals rec strs self l0 st1) as [st2 [s'|e2| |]] eqn:E2; try discriminate.
      injection H as <- <-. apply (IH st1 st2); [|exact E2]. intros y Hy. apply Hin. now right.
    - injection H as <- <-. destruct (item_act fe reg locale vals strs x) as [r| |m [u|]] eqn:Ea; cbn [run_act] in Ex.
      + exists self, l, x. split; [exact Hself|]. split; [apply Hin; now left|]. congruence.
      + discriminate.
      + apply (Hrec _ _ _ Ex). destruct (string_located self l x Hself (Hin x (or_introl eq_refl))) as (known & Hl).
        exact (call_known known x m (Some u) Hl Ea).
      + apply (Hrec _ _ _ Ex). destruct (string_located self l x Hself (Hin x (or_introl eq_refl))) as (known & Hl).
        exact (call_known known x m None Hl Ea).
  Qed.
  Lemma ev_err f : forall m st st' e, astring fe reg locale vals f strs m st = (st', Err e) -> (exists l, mget m strs = Some l) ->
    exists k l x, mget k strs = Some l /\ In x l /\ item_act fe reg locale vals strs x = APure (Err e).
  Proof.
    induction f as [|f IH]; intros m st st' e H Hm; [discriminate|]. cbn [astring] in H. destruct Hm as (l & Hm). rewrite Hm in H.
    apply (evs_err (astring fe reg locale vals f strs) m l e) with (l0 := l) (st := st) (st' := st'); auto.
    intros m' st1 st2 H1 H2. exact (IH _ _ _ _ H1 H2).
  Qed.

  (** ** One item *)
  Lemma number_of_err kind v e : number_of fe kind v = Err e ->
    (e = FInvalidValue kind /\ ~ is_number v) \/ (e = FIcu /\ exists b, fe_float fe b = None).
  Proof.
    destruct v; cbn [number_of is_number]; intros H; try discriminate; try (left; split; [congruence|auto]; fail).
    destruct (fe_float fe bits) eqn:E; cbn [ok_or] in H; [discriminate|]. right. split; [congruence|eauto].
  Qed.
  Lemma number_of_ok kind v dec : number_of fe kind v = Ok dec -> number_value fe v dec.
  Proof.
    destruct v; cbn [number_of]; intros H; try discriminate; try (injection H as <-; constructor).
    destruct (fe_float fe bits) eqn:E; cbn [ok_or] in H; [|discriminate]. injection H as <-. now constructor.
  Qed.
  Lemma date_time_err v e : format_date_time fe locale None None None v = Err e ->
    (e = FInvalidValue (us "PatternDateTime") /\ ~ is_date_time v) \/ (e = FIcu /\ ~ icu_works fe locale) \/
    exists s part ie, v = VString s /\ e = FIso ie /\ In part (split_on (ch "T") s) /\
      (decompose_iso_date (fe_valid_date fe) part = Err ie \/ decompose_iso_time part = Err ie).
  Proof.
    unfold format_date_time.
    assert (Ht : forall t, (let! f := ok_or (fe_time fe locale LnMedium) FIcu in Ok (f t)) = Err e -> e = FIcu /\ ~ icu_works fe locale).
    { intros t H. destruct (fe_time fe locale LnMedium) eqn:E; cbn in H; [discriminate|]. split; [congruence|].
      intros (_ & _ & _ & _ & _ & Hi & _). now apply (Hi LnMedium). }
    assert (Hd : forall x, (let! f := ok_or (fe_date fe locale LnMedium) FIcu in ok_or (f x) FIcu) = Err e -> e = FIcu /\ ~ icu_works fe locale).
    { intros x H. destruct (fe_date fe locale LnMedium) as [g|] eqn:E; cbn in H.
      - destruct (g x) eqn:Eg; cbn in H; [discriminate|]. split; [congruence|]. intros (_ & _ & _ & _ & Hi & _).
        destruct (Hi LnMedium) as (g' & H1 & H2). assert (g' = g) by congruence. subst g'. now apply (H2 x).
      - split; [congruence|]. intros (_ & _ & _ & _ & Hi & _). destruct (Hi LnMedium) as (g' & H1 & _). congruence. }
    assert (Hdt : forall x t, (let! f := ok_or (fe_datetime fe locale LnMedium LnMedium) FIcu in ok_or (f x t) FIcu) = Err e ->
                    e = FIcu /\ ~ icu_works fe locale).
    { intros x t H. destruct (fe_datetime fe locale LnMedium LnMedium) as [g|] eqn:E; cbn in H.
      - destruct (g x t) eqn:Eg; cbn in H; [discriminate|]. split; [congruence|]. intros (_ & _ & _ & _ & _ & _ & Hi).
        destruct (Hi LnMedium LnMedium) as (g' & H1 & H2). assert (g' = g) by congruence. subst g'. now apply (H2 x t).
      - split; [congruence|]. intros (_ & _ & _ & _ & _ & _ & Hi). destruct (Hi LnMedium LnMedium) as (g' & H1 & _). congruence. }
    assert (Hid : forall p (k : date -> fout ustr), (let! x := map_err FIso (decompose_iso_date (fe_valid_date fe) p) in k x) = Err e ->
              (exists ie, e = FIso ie /\ decompose_iso_date (fe_valid_date fe) p = Err ie) \/ exists x, k x = Err e).
    { intros p k H. apply bind_Err in H as [H|(x & _ & H)]; [|right; eauto]. left.
      destruct (decompose_iso_date (fe_valid_date fe) p); cbn in H; try discriminate. injection H as <-. eauto. }
    assert (Hit : forall p (k : time -> fout ustr), (let! x := map_err FIso (decompose_iso_time p) in k x) = Err e ->
              (exists ie, e = FIso ie /\ decompose_iso_time p = Err ie) \/ exists x, k x = Err e).
    { intros p k H. apply bind_Err in H as [H|(x & _ & H)]; [|right; eauto]. left.
      destruct (decompose_iso_time p); cbn in H; try discriminate. injection H as <-. eauto. }
    cbv zeta. destruct v; intros H; try (left; split; [congruence|intros []]; fail).
    2:{ right. left. now apply (Hdt d t). }
    2:{ right. left. now apply (Hd d). }
    2:{ right. left. now apply (Ht t). }
    destruct (split_on (ch "T") s) as [|p [|q [|r l]]] eqn:Es; [discriminate| | |].
    - apply Hid in H as [(ie & -> & H)|(x & H)]; [|right; left; now apply (Hd x)].
      right. right. exists s, p, ie. rewrite Es. cbn [In]. auto 7.
    - destruct p as [|c p].
      + apply Hit in H as [(ie & -> & H)|(x & H)]; [|right; left; now apply (Ht x)].
        right. right. exists s, q, ie. rewrite Es. cbn [In]. auto 7.
      + apply Hid in H as [(ie & -> & H)|(x & H)].
        { right. right. exists s, (c :: p), ie. rewrite Es. cbn [In]. auto 7. }
        apply Hit in H as [(ie & -> & H)|(y & H)]; [|right; left; now apply (Hdt x y)].
        right. right. exists s, q, ie. rewrite Es. cbn [In]. auto 7.
    - apply Hid in H as [(ie & -> & H)|(x & H)]; [|right; left; now apply (Hd x)].
      right. right. exists s, p, ie. rewrite Es. cbn [In]. auto 7.
  Qed.
  Lemma value_text_none v : value_text v = None -> ~ is_text v.
  Proof. destruct v; cbn; intros H; try discriminate; auto. Qed.
  Lemma delayed_words args : delayed_parameters vals (map VString args) = Ok (map (word_value vals) args).
  Proof. induction args as [|w args IH]; [reflexivity|]. cbn [map delayed_parameters]. now rewrite IH. Qed.

  Notation says' := (format_says fe reg locale vals a).
  Lemma num_act_err known ph kw sels v d rules e : located a known (SPat ph (Some (kw, sels))) -> mget ph vals = Some v ->
    selected fe locale kw v (plural_category (rules d)) -> (forall sel, In sel (map fst sels) -> In sel known) ->
    num_act fe locale strs sels d rules = APure (Err e) -> says' e.
  Proof.
    intros Hl Hv Hs Hk. unfold num_act. destruct (fe_decimal fe locale None) as [g|] eqn:Ed.
    2:{ intros [= <-]. cbn. intros (Hi & _). now apply (Hi None). }
    cbv zeta. rewrite pairs_get. destruct (umem (plural_category (rules d)) (map fst sels)) eqn:E.
    - apply umem_In in E. destruct (located_known known _ _ Hl (Hk _ E)) as (l & Hm). rewrite Hm. discriminate.
    - apply umem_nIn in E. intros [= <-]. cbn [format_says]. exists known, ph, kw, sels, v. auto.
  Qed.
  Lemma act_err known x e : located a known x -> item_act fe reg locale vals strs x = APure (Err e) -> says' e.
  Proof.
    intros Hl H. pose proof (located_ok _ _ Hl) as Hok. destruct x as [w| |ph [[kw sels]|]|ps]; cbn [item_act] in H; try discriminate.
    - (* a keyword *)
      cbn [item_ok] in Hok. unfold kw_act in H.
      assert (Hmiss : forall kind, kind = part_kind (Some kw) -> mget ph vals = None -> says' (FPlaceholderValue kind ph)).
      { intros kind -> Hn. cbn [format_says]. exists known, (Some (kw, sels)). auto. }
      assert (Hval : forall kind ok v, value_kind (Some kw) kind ok -> mget ph vals = Some v -> ~ ok v -> says' (FInvalidValue kind)).
      { intros kind ok v H1 H2 H3. cbn [format_says]. exists known, ph, (Some (kw, sels)), v, ok. auto. }
      destruct (ueqb_spec kw (us "decimal")) as [->|N1].
      { destruct Hok as [(_ & ->)|[([E|E] & _)|(E & _)]]; [|discriminate E ..]. injection H as H. unfold avalue in H.
        destruct (mget ph vals) as [v|] eqn:Ev; cbn [ok_or bind] in H.
        2:{ injection H as <-. apply Hmiss; reflexivity. }
        cbn [pairs pairs_from fold_left decimal_options bind] in H. unfold format_decimal in H.
        destruct (fe_decimal fe locale None) as [g|] eqn:Ed; cbn [ok_or bind] in H.
        2:{ injection H as <-. cbn. intros (Hi & _). now apply (Hi None). }
        apply bind_Err in H as [H|(x & _ & H)]; [|discriminate].
        apply number_of_err in H as [(-> & H)|(-> & b & H)].
        - apply (Hval _ is_number v); auto. cbn [value_kind]. auto 9.
        - cbn. intros (_ & _ & _ & Hi & _). now apply (Hi b). }
      destruct (ueqb_spec kw (us "date_time")) as [->|N2].
      { destruct Hok as [(_ & ->)|[([E|E] & _)|(E & _)]]; [|discriminate E ..]. injection H as H. unfold avalue in H.
        destruct (mget ph vals) as [v|] eqn:Ev; cbn [ok_or bind] in H.
        2:{ injection H as <-. apply Hmiss; reflexivity. }
        cbn [pairs pairs_from fold_left date_time_options bind] in H.
        apply date_time_err in H as [(-> & H)|[(-> & H)|(s & p & ie & -> & -> & H1 & H2)]].
        - apply (Hval _ is_date_time v); auto. cbn [value_kind]. auto 9.
        - exact H.
        - cbn [format_says]. exists known, ph, [], s. split; [exact Hl|]. split; [exact Ev|]. exists p. auto. }
      destruct (mget ph vals) as [v|] eqn:Ev.
      2:{ injection H as <-. apply Hmiss; [|reflexivity]. cbn [part_kind].
          destruct (ueqb_spec kw (us "decimal")); [contradiction|]. destruct (ueqb_spec kw (us "date_time")); [contradiction|reflexivity]. }
      destruct (ueqb_spec kw (us "ordinal")) as [->|N3].
      { destruct Hok as [([E|E] & _)|[(_ & _ & Hk)|(E & _)]]; [discriminate E ..| |discriminate E].
        destruct (fe_ordinal fe locale) as [rules|] eqn:Er.
        2:{ injection H as <-. cbn. intros (_ & _ & Hi & _). contradiction. }
        destruct v; try (injection H as <-; eapply (Hval _ is_unsigned); [cbn [value_kind]; auto 7|reflexivity|intros []]; fail).
        apply (num_act_err known ph (us "ordinal") sels (VUnsigned n) (fe_unsigned fe n) rules e Hl Ev); auto.
        - now constructor.
        - intros sel Hs. now apply Hk. }
      destruct (ueqb_spec kw (us "plural")) as [->|N4].
      { destruct Hok as [([E|E] & _)|[(_ & _ & Hk)|(E & _)]]; [discriminate E ..| |discriminate E].
        destruct (fe_cardinal fe locale) as [rules|] eqn:Er.
        2:{ injection H as <-. cbn. intros (_ & Hi & _). contradiction. }
        destruct (number_of fe (us "PatternPlural") v) as [dec|e'| |] eqn:En; try discriminate.
        - apply (num_act_err known ph (us "plural") sels v dec rules e Hl Ev); auto.
          + apply (sel_plural fe locale v dec rules); [|exact Er]. exact (number_of_ok _ _ _ En).
          + intros sel Hs. now apply Hk.
        - injection H as <-. apply number_of_err in En as [(-> & H)|(-> & b & H)].
          + apply (Hval _ is_number v); auto. cbn [value_kind]. auto 9.
          + cbn. intros (_ & _ & _ & Hi & _). now apply (Hi b). }
      destruct Hok as [([E|E] & _)|[([E|E] & _)|(-> & Hk)]]; [contradiction ..|].
      destruct (value_text v) as [s|] eqn:Et.
      2:{ injection H as <-. apply (Hval _ is_text v); auto; [cbn [value_kind]; auto 9|now apply value_text_none]. }
      rewrite pairs_get in H. destruct (umem s (map fst sels)) eqn:E; [discriminate|]. apply umem_nIn in E. injection H as <-.
      cbn [format_says]. exists known, ph, (us "select"), sels, v. repeat split; auto. now constructor.
    - injection H as H. unfold avalue in H. destruct (mget ph vals) as [v|] eqn:Ev; cbn [ok_or bind] in H.
      2:{ injection H as <-. cbn [format_says]. exists known, None. auto. }
      unfold text_of in H. destruct (value_text v) eqn:Et; cbn [ok_or] in H; [discriminate|]. injection H as <-.
      cbn [format_says]. exists known, ph, None, v, is_text. repeat split; auto. now apply value_text_none.
    - cbn [item_ok] in Hok. injection H as H. destruct Hok as [(name & args & ->)|(name & args & f & t & -> & H1 & H2)].
      + rewrite (proj2 (cmd_parts_iff _ name true (map VString args))) in H by eauto. cbn [bind] in H.
        unfold format_command in H. rewrite delayed_words in H. cbn [bind] in H.
        change (run_command reg name (map (word_value vals) args) = Err e) in H.
        apply run_command_err in H as (ce & -> & H). cbn [format_says]. exists known, name, args. auto.
      + rewrite (proj2 (cmd_parts_iff _ name false (map VString args))) in H by eauto. cbn [bind] in H.
        rewrite (proj2 (run_command_ok reg name (map VString args) t)) in H by eauto. discriminate.
  Qed.

  Theorem content_says f st e : snd (astring fe reg locale vals f strs (us "_") st) = Err e -> says' e.
  Proof.
    intros H. destruct (astring fe reg locale vals f strs (us "_") st) as [st' r] eqn:E. cbn [snd] in H. subst r.
    apply ev_err in E as (k & l & x & Hk & Hx & Ha).
    - destruct (string_located k l x Hk Hx) as (known & Hl). exact (act_err known x e Hl Ha).
    - exists (fst a). cbn [strings_of mget]. now rewrite ueqb_refl.
  Qed.
End Format.

(** Every error of formatting, after any history. *)
Lemma says_erase fe reg locale vals a e e' : erase e = erase e' -> format_says fe reg locale vals a e -> format_says fe reg locale vals a e'.
Proof.
  intros E H. destruct e, e'; cbn [erase] in E; try discriminate E; try (injection E; intros; subst); exact H.
Qed.
Theorem format_reports d g fe reg tag locale s a fm fm' vals fuel e : content_of d g s a ->
  formatter_try_new d g fe reg tag locale s = Ok fm -> after_formatting fe reg fm fm' ->
  snd (format fuel fe reg fm' vals) = Err e -> format_says fe reg locale vals a e.
Proof.
  intros Ha Hf Haf H. destruct (try_new_inv _ _ _ _ _ _ _ _ _ Ha Hf) as (Hc & Hrep & _). apply content_check_iff in Hc.
  destruct (after_sim fe reg locale fm a fm' Hrep Haf) as (st & Hsim). specialize (Hsim vals fuel). rewrite H in Hsim.
  unfold same_out in Hsim. cbn [map_err] in Hsim.
  destruct (snd (astring fe reg locale vals fuel (strings_of a) (us "_") st)) as [t|e'| |] eqn:E; cbn [map_err] in Hsim; try discriminate.
  apply (says_erase fe reg locale vals a e' e); [congruence|]. exact (content_says fe reg locale vals a Hc fuel st e' E).
Qed.
