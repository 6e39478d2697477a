(** Facts about the abstract evaluation: what one item does does not depend on the number state. *)
From Verif Require Import Base BaseFacts LexerModel LexerSpec TreeModel TreeSpec ValueModel CommandModel IsoModel
  FormatterModel FormatterAbs.
Local Opaque us.

(** What an item does: give a result, show the number, or format another string after an optional update of that
    string's number. *)
Inductive act := APure (r : fout ustr) | AHash | ACall (named : ustr) (u : option ustr).

Section Acts.
  Variables (fe : fmtenv) (reg : cregistry) (locale : ustr) (vals : amap pvalue) (strs : amap (list sitem)).

  Definition num_act (sels : list (ustr * ustr)) (d : decimal) (rules : decimal -> category) : act :=
    match fe_decimal fe locale None with
    | None => APure (Err FIcu)
    | Some fdf =>
        let cat := plural_category (rules d) in
        match mget cat (pairs sels) with
        | None => APure (Err (FSelectorsIndexNamed cat 0))
        | Some named =>
            match mget named strs with
            | None => APure (Err (FPatternNamed named))
            | Some _ => ACall named (Some (fdf d))
            end
        end
    end.

  Definition kw_act (ph kw : ustr) (sels : list (ustr * ustr)) : act :=
    if ueqb kw (us "decimal") then
      APure (let! v := avalue vals (us "PatternDecimal") ph in
             let! (sign, group) := decimal_options ph (pairs sels) None None in
             format_decimal fe locale sign group v)
    else if ueqb kw (us "date_time") then
      APure (let! v := avalue vals (us "PatternDateTime") ph in
             let! (ld, lt, cal) := date_time_options fe locale ph (pairs sels) None None None in
             format_date_time fe locale ld lt cal v)
    else
      match mget ph vals with
      | None => APure (Err (FPlaceholderValue (us "PatternComplex") ph))
      | Some v =>
          if ueqb kw (us "ordinal") then
            match fe_ordinal fe locale with
            | None => APure (Err FIcu)
            | Some rules =>
                match v with
                | VUnsigned n => num_act sels (fe_unsigned fe n) rules
                | _ => APure (Err (FInvalidValue (us "PatternOrdinal")))
                end
            end
          else if ueqb kw (us "plural") then
            match fe_cardinal fe locale with
            | None => APure (Err FIcu)
            | Some rules =>
                match number_of fe (us "PatternPlural") v with
                | Ok d => num_act sels d rules
                | Err e => APure (Err e)
                | Panic => APure Panic
                | NoFuel => APure NoFuel
                end
            end
          else
            match value_text v with
            | None => APure (Err (FInvalidValue (us "PatternSelect")))
            | Some s =>
                match mget s (pairs sels) with
                | None => APure (Err (FSelectorsIndexNamed s 0))
                | Some named => ACall named None
                end
            end
      end.

  Definition item_act (x : sitem) : act :=
    match x with
    | SText w => APure (Ok w)
    | SHash => AHash
    | SPat ph None => APure (let! v := avalue vals (us "PatternString") ph in text_of (us "PatternString") v)
    | SPat ph (Some (kw, sels)) => kw_act ph kw sels
    | SCmd ps =>
        APure (let! (name, delay, l) := cmd_parts ps in
               if delay : bool then format_command reg vals (VString name :: l) else run_command reg name l)
    end.

  Definition run_act (rec : ustr -> numst -> aout) (self : ustr) (x : act) (st : numst) : aout :=
    match x with
    | APure r => (st, r)
    | AHash => (st, Ok (st self))
    | ACall named None => rec named st
    | ACall named (Some v) => rec named (upd st named v)
    end.

  Lemma num_run rec self sels d rules st :
    anumber fe locale rec strs sels d rules st = run_act rec self (num_act sels d rules) st.
  Proof.
    unfold anumber, num_act. destruct (fe_decimal fe locale None); [|reflexivity]. cbv zeta.
    destruct (mget _ (pairs sels)) as [named|]; [|reflexivity]. now destruct (mget named strs).
  Qed.
  Lemma kw_run rec self ph kw sels st :
    akw fe locale vals rec strs ph kw sels st = run_act rec self (kw_act ph kw sels) st.
  Proof.
    unfold akw, kw_act. destruct (ueqb kw (us "decimal")); [reflexivity|].
    destruct (ueqb kw (us "date_time")); [reflexivity|].
    destruct (mget ph vals) as [v|]; [|reflexivity].
    destruct (ueqb kw (us "ordinal")).
    { destruct (fe_ordinal fe locale); [|reflexivity]. destruct v; try reflexivity. apply num_run. }
    destruct (ueqb kw (us "plural")).
    { destruct (fe_cardinal fe locale); [|reflexivity]. destruct (number_of fe (us "PatternPlural") v); try reflexivity.
      apply num_run. }
    destruct (value_text v) as [s|]; [|reflexivity]. now destruct (mget s (pairs sels)).
  Qed.
  Lemma item_run rec self x st :
    aitem fe reg locale vals rec strs self x st = run_act rec self (item_act x) st.
  Proof. destruct x as [w| |ph [[kw sels]|]|ps]; try reflexivity. apply kw_run. Qed.

  (** Evaluation as a function of actions. *)
  Notation ev := (astring fe reg locale vals).
  Notation evs := (aitems fe reg locale vals).

  Lemma evs_cons rec self x l st :
    evs rec strs self (x :: l) st =
    match run_act rec self (item_act x) st with
    | (st1, Ok s) => match evs rec strs self l st1 with (st2, Ok s') => (st2, Ok (s ++ s')) | other => other end
    | other => other
    end.
  Proof. cbn [aitems]. now rewrite item_run. Qed.

  Definition is_ok {A} (o : fout A) : Prop := exists a, o = Ok a.
  Definition fine {A} (o : fout A) : Prop := o <> NoFuel.

  Lemma evs_mono rec rec' self l :
    (forall m st st' r, rec m st = (st', r) -> fine r -> rec' m st = (st', r)) ->
    forall st st' r, evs rec strs self l st = (st', r) -> fine r -> evs rec' strs self l st = (st', r).
  Proof.
    intros Hrec. induction l as [|x l IH]; intros st st' r H Hf; [exact H|]. rewrite evs_cons in *.
    assert (Hx : forall st1 r1, run_act rec self (item_act x) st = (st1, r1) -> fine r1 ->
                   run_act rec' self (item_act x) st = (st1, r1)).
    { intros st1 r1 H1 H2. destruct (item_act x) as [r0| |named [v|]]; cbn [run_act] in *; auto. }
    destruct (run_act rec self (item_act x) st) as [st1 r1].
    destruct r1 as [s|e| |]; [|injection H as <- <-; now rewrite (Hx _ _ eq_refl) by discriminate ..
                              |injection H as <- <-; now destruct Hf].
    rewrite (Hx _ _ eq_refl) by discriminate.
    destruct (evs rec strs self l st1) as [st2 r2] eqn:E2. specialize (IH _ _ _ E2).
    destruct r2 as [s2|e| |]; injection H as <- <-; try (now rewrite IH by discriminate). now destruct Hf.
  Qed.

  (** More fuel does not change a result. *)
  Lemma ev_mono f : forall f' m st st' r, f <= f' -> ev f strs m st = (st', r) -> fine r -> ev f' strs m st = (st', r).
  Proof.
    induction f as [|f IH]; intros f' m st st' r Hle H Hf.
    - cbn in H. injection H as <- <-. now destruct Hf.
    - destruct f' as [|f']; [lia|]. cbn [astring] in *. destruct (mget m strs) as [l|]; [|exact H].
      apply (evs_mono (ev f strs) (ev f' strs)); [|exact H|exact Hf]. intros m' s s' r' H1 H2. apply (IH f'); auto. lia.
  Qed.

  (** Two results that differ at most in the text. *)
  Definition shape {A} (x y : fout A) : Prop := (is_ok x /\ is_ok y) \/ x = y.

  Lemma evs_shape rec self l : (forall m st st2, shape (snd (rec m st)) (snd (rec m st2))) ->
    forall st st2, shape (snd (evs rec strs self l st)) (snd (evs rec strs self l st2)).
  Proof.
    intros Hrec. induction l as [|x l IH]; intros st st2; [right; reflexivity|]. rewrite !evs_cons.
    assert (Hx : shape (snd (run_act rec self (item_act x) st)) (snd (run_act rec self (item_act x) st2))).
    { destruct (item_act x) as [r0| |named [v|]]; cbn [run_act snd]; auto; [now right|left; split; eexists; reflexivity]. }
    destruct (run_act rec self (item_act x) st) as [st1 r1], (run_act rec self (item_act x) st2) as [st12 r12].
    cbn [snd] in Hx.
    assert (Hok : forall a b, shape (snd (match evs rec strs self l st1 with (s3, Ok s') => (s3, Ok (a ++ s')) | o => o end))
                    (snd (match evs rec strs self l st12 with (s3, Ok s') => (s3, Ok (b ++ s')) | o => o end))).
    { intros a b. specialize (IH st1 st12). destruct (evs rec strs self l st1) as [q1 o1], (evs rec strs self l st12) as [q2 o2].
      cbn [snd] in IH. destruct IH as [((u & ->) & u' & ->)|<-]; [left; split; eexists; reflexivity|].
      destruct o1; [left; split; eexists; reflexivity|right; reflexivity ..]. }
    destruct Hx as [((u & ->) & u' & ->)|<-]; [apply Hok|].
    destruct r1; [apply Hok|right; reflexivity ..].
  Qed.
  Lemma ev_shape f : forall m st st2, shape (snd (ev f strs m st)) (snd (ev f strs m st2)).
  Proof.
    induction f as [|f IH]; intros m st st2; [now right|]. cbn [astring].
    destruct (mget m strs) as [l|]; [|now right]. now apply evs_shape.
  Qed.
  Lemma shape_ok {A} (x y : fout A) : shape x y -> is_ok x -> is_ok y.
  Proof. intros [[_ H]| <-]; auto. Qed.

  Definition okf (f : nat) (m : ustr) : Prop := is_ok (snd (ev f strs m (fun _ => []))).
  Lemma okf_any f m st : okf f m <-> is_ok (snd (ev f strs m st)).
  Proof. split; apply shape_ok, ev_shape. Qed.
  Lemma okf_dec f m : okf f m \/ ~ okf f m.
  Proof. unfold okf, is_ok. destruct (snd (ev f strs m _)); [left; eauto|right; intros (? & ?); discriminate ..]. Qed.
  Lemma okf_least f m : okf f m -> exists f0, f0 <= f /\ okf f0 m /\ forall f', f' < f0 -> ~ okf f' m.
  Proof.
    induction f as [f IH] using lt_wf_ind. intros H.
    assert (Hd : (exists g, g < f /\ okf g m) \/ forall g, g < f -> ~ okf g m).
    { clear IH H. induction f as [|f IHf]; [right; lia|]. destruct IHf as [(g & H1 & H2)|IHf]; [left; exists g; split; [lia|exact H2]|].
      destruct (okf_dec f m) as [Hf|Hf]; [left; exists f; split; [lia|exact Hf]|].
      right. intros g Hg. destruct (Nat.eq_dec g f) as [->|Hne]; [exact Hf|apply IHf; lia]. }
    destruct Hd as [(g & H1 & H2)|Hd].
    - destruct (IH g H1 H2) as (f0 & H3 & H4). exists f0. split; [lia|exact H4].
    - exists f. split; [lia|auto].
  Qed.

  Lemma evs_ok_inv rec self x l st st' t : evs rec strs self (x :: l) st = (st', Ok t) ->
    exists st1 s s', run_act rec self (item_act x) st = (st1, Ok s) /\ evs rec strs self l st1 = (st', Ok s') /\ t = s ++ s'.
  Proof.
    rewrite evs_cons. destruct (run_act rec self (item_act x) st) as [st1 [s| | |]]; try discriminate.
    destruct (evs rec strs self l st1) as [st2 [s'| | |]] eqn:E; try discriminate.
    intros H. injection H as <- <-. exists st1, s, s'. rewrite E. auto.
  Qed.

  (** A number is changed only by formatting the string it belongs to. *)
  Lemma keep_items f self l k : (forall m st st' t, ev f strs m st = (st', Ok t) -> st' k = st k) -> ~ okf f k ->
    forall st st' t, evs (ev f strs) strs self l st = (st', Ok t) -> st' k = st k.
  Proof.
    intros Hrec Hk. induction l as [|x l IH]; intros st st' t H; [cbn in H; congruence|].
    apply evs_ok_inv in H as (st1 & s & s' & Hx & Hl & _). apply IH in Hl. rewrite Hl.
    destruct (item_act x) as [r0| |named [v|]]; cbn [run_act] in Hx; try congruence.
    - pose proof (Hrec _ _ _ _ Hx) as E. rewrite E. unfold upd. destruct (ueqb_spec k named) as [->|]; [|reflexivity].
      exfalso. apply Hk. apply (okf_any f named (upd st named v)). rewrite Hx. eexists; reflexivity.
    - eauto.
  Qed.
  Lemma keep f k : (forall f', f' < f -> ~ okf f' k) -> forall m st st' t, ev f strs m st = (st', Ok t) -> st' k = st k.
  Proof.
    induction f as [|f IH]; intros Hk m st st' t H; [discriminate|]. cbn [astring] in H.
    destruct (mget m strs) as [l|]; [|discriminate].
    apply (keep_items f m l k) with (t := t); [|apply Hk; lia|exact H]. apply IH. intros f' Hf'. apply Hk. lia.
  Qed.
End Acts.
