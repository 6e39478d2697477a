(** Property C59: the script data of languages. *)
From Verif Require Import Base BaseFacts ScriptModel ScriptSpec.
Local Opaque us.

Definition put (m : amap sdata) (e : ustr * sdata) : amap sdata := minsert (fst e) (snd e) m.
Lemma fold_minsert_get l : forall m k, mget k (fold_left put l m) =
  match mget k (fold_left put l []) with Some d => Some d | None => mget k m end.
Proof.
  induction l as [|(a, d) l IH]; intros m k; [reflexivity|]. cbn [fold_left]. unfold put at 2 4. cbn [fst snd]. rewrite (IH (minsert a d m)), (IH (minsert a d [])).
  destruct (mget k (fold_left put l [])); [reflexivity|]. rewrite !mget_minsert. destruct (ueqb k a); reflexivity.
Qed.
Lemma fold_last l k d : mget k (fold_left put l []) = Some d <->
  exists before after, l = before ++ (k, d) :: after /\ ~ In k (map fst after).
Proof.
  induction l as [|(a, x) l IH]; cbn [fold_left].
  - split; [discriminate|]. intros ([|? ?] & ? & ? & _); discriminate.
  - rewrite fold_minsert_get. cbn [fst snd]. split.
    + destruct (mget k (fold_left put l [])) as [y|] eqn:E.
      * intros [= ->]. destruct (proj1 IH eq_refl) as (b & c & -> & H). now exists ((a, x) :: b), c.
      * unfold put; cbn [fst snd minsert mget]. destruct (ueqb_spec k a) as [->|]; [|discriminate]. intros [= ->]. exists [], l. split; [reflexivity|]. intros H.
        assert (G : forall l, In a (map fst l) -> exists y, mget a (fold_left put l []) = Some y).
        { clear. induction l as [|(b, y) l IH]; [intros []|]. cbn [map fst In fold_left snd]. intros H. rewrite fold_minsert_get. destruct (mget a (fold_left put l [])) as [z|] eqn:E; [eauto|].
          destruct H as [->|H]; [unfold put; cbn [fst snd minsert mget]; rewrite ueqb_refl; eauto|]. destruct (IH H) as (z & Hz). congruence. }
        destruct (G l H) as (y & Hy). congruence.
    + intros ([|p b] & c & Hl & H).
      * injection Hl as -> -> ->. destruct (mget k (fold_left put c [])) as [y|] eqn:E.
        -- exfalso. assert (G : forall l y, mget k (fold_left put l []) = Some y -> In k (map fst l)).
           { clear. induction l as [|(b, y) l IH]; intros z; cbn [fold_left fst snd map In]; [discriminate|]. rewrite fold_minsert_get. destruct (mget k (fold_left put l [])) as [w|] eqn:E; [eauto|].
             unfold put; cbn [fst snd minsert mget]. destruct (ueqb_spec k b); [auto|discriminate]. }
           exact (H (G _ _ E)).
        -- unfold put; cbn [fst snd minsert mget]. now rewrite ueqb_refl.
      * injection Hl as _ Hl. rewrite (proj2 IH); [reflexivity|]. now exists b, c.
Qed.
Lemma script_get_iff s d : script_get s = Some d <-> data_of s d.
Proof. apply fold_last. Qed.

(** The data returned is that of the script of the tag, and nothing panics. *)
Theorem C59_data : forall E tag, script_env_ok E tag ->
  exists r, get_script_data E tag = Ok r /\ forall d, r = Some d <-> exists script, script_of E tag script /\ data_of script d.
Proof.
  intros E tag (H1 & H2). unfold get_script_data. assert (U : forall s s', script_of E tag s -> script_of E tag s' -> s = s').
  { intros s s' [A|(A & A')] [B|(B & B')]; congruence. }
  destruct (se_parse E tag) as [[s|]|] eqn:Ep; [| |congruence].
  - exists (script_get s). split; [reflexivity|]. intros d. rewrite script_get_iff. split.
    + intros H. exists s. split; [now left|exact H].
    + intros (s' & Hs & H). rewrite (U s s'); [exact H|now left|exact Hs].
  - destruct (se_expand E tag) as [[s|]|] eqn:Ex.
    + exists (script_get s). split; [reflexivity|]. intros d. rewrite script_get_iff. split.
      * intros H. exists s. split; [now right|exact H].
      * intros (s' & Hs & H). rewrite (U s s'); [exact H|now right|exact Hs].
    + destruct (H2 eq_refl). reflexivity.
    + exists None. split; [reflexivity|]. intros d. split; [discriminate|]. intros (s & [Hs|(_ & Hs)] & _); congruence.
Qed.
Print Assumptions C59_data.

(** The data kept with the default language is that of the last tag set. *)
Theorem C59_default : forall E tag tags st, ss_new E tag tags = Ok st ->
  ss_tag st = fold_left (fun t o => match o with Some t' => t' | None => t end) tags tag /\ get_script_data E (ss_tag st) = Ok (ss_data st).
Proof.
  intros E tag tags st. unfold ss_new, ss_set.
  assert (G : forall tags st0, get_script_data E (ss_tag st0) = Ok (ss_data st0) -> ss_run E st0 tags = Ok st ->
    ss_tag st = fold_left (fun t o => match o with Some t' => t' | None => t end) tags (ss_tag st0) /\ get_script_data E (ss_tag st) = Ok (ss_data st)).
  { clear. induction tags as [|[t|] tags IH]; intros st0 H0; cbn [ss_run fold_left]; [now intros [= <-]| |now apply IH].
    unfold ss_set. intros H. apply bind_Ok in H as (st' & H1 & H2). apply bind_Ok in H1 as (d & H1 & H3). injection H3 as <-. exact (IH (mk_sstate t d) H1 H2). }
  intros H. apply bind_Ok in H as (st' & H1 & H2). apply bind_Ok in H1 as (d & H1 & H3). injection H3 as <-. exact (G tags (mk_sstate tag d) H1 H2).
Qed.
Print Assumptions C59_default.
Theorem C59_no_panic : forall E tag tags, (forall t, In (Some t) (Some tag :: tags) -> script_env_ok E t) -> exists st, ss_new E tag tags = Ok st.
Proof.
  intros E tag tags H. unfold ss_new, ss_set. destruct (C59_data E tag (H tag (or_introl eq_refl))) as (d & -> & _). cbn [bind].
  assert (G : forall tags st0, (forall t, In (Some t) tags -> script_env_ok E t) -> exists st, ss_run E st0 tags = Ok st).
  { clear. induction tags as [|[t|] tags IH]; intros st0 H; cbn [ss_run]; [eauto| |apply IH; intros t Ht; apply H; now right].
    unfold ss_set. destruct (C59_data E t (H t (or_introl eq_refl))) as (d & -> & _). cbn [bind]. apply IH. intros t' Ht. apply H. now right. }
  apply G. intros t Ht. apply H. now right.
Qed.
Print Assumptions C59_no_panic.

(** Directions of a script direction: lines and letters, one of them vertical, and no two are the same. *)
Theorem C59_directions : forall d, directions d = (line d, grapheme d) /\ (vertical (line d) <-> ~ vertical (grapheme d)) /\
  (forall d', directions d = directions d' -> d = d') /\ forall a b, (vertical a <-> ~ vertical b) -> exists d, directions d = (a, b).
Proof.
  intros d. split; [destruct d; reflexivity|]. split; [destruct d; unfold vertical; cbn; intuition discriminate|]. split; [intros d'; destruct d, d'; cbn; congruence|].
  intros a b H. unfold vertical in H.
  destruct a, b; first [exists TopToBottomLeftToRight; reflexivity|exists TopToBottomRightToLeft; reflexivity|exists BottomToTopLeftToRight; reflexivity|exists BottomToTopRightToLeft; reflexivity
    |exists LeftToRightTopToBottom; reflexivity|exists LeftToRightBottomToTop; reflexivity|exists RightToLeftTopToBottom; reflexivity|exists RightToLeftBottomToTop; reflexivity
    |exfalso; intuition discriminate].
Qed.
Print Assumptions C59_directions.

(** The data itself. False: some scripts of Unicode have none, some codes do not exist, one has been given twice with different data,
    and the direction of some is wrong. *)
Lemma umem_In s l : umem s l = true <-> In s l.
Proof.
  unfold umem. rewrite existsb_exists. split; [intros (x & Hx & E); apply ueqb_eq in E; now subst|]. intros H. exists s. split; [exact H|apply ueqb_refl].
Qed.
Definition rtl_b (d : sdata) : bool := existsb (fun x => match x with TopToBottomRightToLeft => true | _ => false end) (sd_directions d).
Definition ltr_b (d : sdata) : bool := existsb (fun x => match x with TopToBottomLeftToRight => true | _ => false end) (sd_directions d).
Lemma rtl_iff d : written_rtl d <-> rtl_b d = true.
Proof.
  unfold written_rtl, rtl_b. rewrite existsb_exists. split; intros (x & H1 & H2); exists x; (split; [exact H1|]); destruct x; try discriminate; reflexivity.
Qed.
Lemma ltr_iff d : written_ltr d <-> ltr_b d = true.
Proof.
  unfold written_ltr, ltr_b. rewrite existsb_exists. split; intros (x & H1 & H2); exists x; (split; [exact H1|]); destruct x; try discriminate; reflexivity.
Qed.
Theorem C59_table_refuted :
  (exists s, In s unicode_scripts /\ forall d, ~ data_of s d) /\ (exists s d, data_of s d /\ ~ In s iso_15924) /\
  (exists s d d', In (s, d) script_entries /\ data_of s d' /\ sd_category d <> sd_category d') /\
  (exists s d, In s unicode_scripts /\ ~ In s right_to_left /\ data_of s d /\ ~ written_ltr d /\ written_rtl d).
Proof.
  split; [|split; [|split]].
  - exists (us "Yiii"). split; [apply umem_In; vm_compute; reflexivity|]. intros d H. apply script_get_iff in H. vm_compute in H. discriminate H.
  - exists (us "Hikt"), (mk_sdata Syllabic [RightToLeftTopToBottom; TopToBottomLeftToRight] false). split; [apply script_get_iff; vm_compute; reflexivity|].
    intros H. apply umem_In in H. vm_compute in H. discriminate H.
  - exists (us "Yezi"), (mk_sdata Abjad [TopToBottomRightToLeft] false), (mk_sdata Syllabic [TopToBottomRightToLeft] false). split; [|split; [apply script_get_iff; vm_compute; reflexivity|discriminate]].
    assert (H : exists x, find (fun e => (ueqb (fst e) (us "Yezi") && match sd_category (snd e) with Abjad => true | _ => false end)%bool) script_entries = Some x /\
      x = (us "Yezi", mk_sdata Abjad [TopToBottomRightToLeft] false)) by (eexists; split; vm_compute; reflexivity).
    destruct H as (x & H & ->). apply find_some in H as (H & _). exact H.
  - exists (us "Knda"), (mk_sdata Abugida [TopToBottomRightToLeft] true). split; [apply umem_In; vm_compute; reflexivity|]. split; [intros H; apply umem_In in H; vm_compute in H; discriminate H|].
    split; [apply script_get_iff; vm_compute; reflexivity|]. split; [intros H; apply ltr_iff in H; discriminate H|]. apply rtl_iff. reflexivity.
Qed.
Print Assumptions C59_table_refuted.
(** What holds: exactly those. *)
Theorem C59_table_partial :
  (forall s, In s unicode_scripts -> (exists d, data_of s d) <-> ~ In s without_data) /\
  (forall s d, data_of s d -> In s iso_15924 <-> ~ In s no_codes) /\
  (forall s d, In (s, d) script_entries -> sd_directions d <> []) /\
  (forall s d, data_of s d -> In s unicode_scripts -> In s right_to_left -> written_rtl d) /\
  (forall s d, data_of s d -> In s unicode_scripts -> ~ In s right_to_left -> (written_rtl d /\ ~ written_ltr d) <-> In s wrong_direction).
Proof.
  assert (T : forall (P : ustr * sdata -> bool) s d, data_of s d -> forallb P script_entries = true -> P (s, d) = true).
  { intros P s d (b & c & E & _) H. rewrite forallb_forall in H. apply H. rewrite E. apply in_elt. }
  split; [|split; [|split; [|split]]].
  - intros s Hs. rewrite <- umem_In.
    assert (H : forallb (fun s => Bool.eqb (match script_get s with Some _ => true | None => false end) (negb (umem s without_data))) unicode_scripts = true) by (vm_compute; reflexivity).
    pose proof (proj1 (forallb_forall _ _) H s Hs) as K. cbv beta in K. apply Bool.eqb_prop in K. transitivity ((match script_get s with Some _ => true | None => false end) = true).
    + split; [intros (d & Hd); apply script_get_iff in Hd; now rewrite Hd|]. destruct (script_get s) as [d|] eqn:E; [|discriminate]. exists d. now apply script_get_iff.
    + rewrite K. destruct (umem s without_data); cbn [negb]; split; congruence.
  - intros s d Hd. rewrite <- !umem_In.
    pose proof (T (fun e => Bool.eqb (umem (fst e) iso_15924) (negb (umem (fst e) no_codes))) s d Hd ltac:(vm_compute; reflexivity)) as K. cbn [fst] in K. apply Bool.eqb_prop in K. rewrite K.
    destruct (umem s no_codes); cbn [negb]; split; congruence.
  - intros s d Hd. assert (H : forallb (fun e => match sd_directions (snd e) with [] => false | _ => true end) script_entries = true) by (vm_compute; reflexivity).
    pose proof (proj1 (forallb_forall _ _) H (s, d) Hd) as K. cbn [snd] in K. destruct (sd_directions d); [discriminate K|discriminate].
  - intros s d Hd _ Hr. apply rtl_iff. pose proof (T (fun e => implb (umem (fst e) right_to_left) (rtl_b (snd e))) s d Hd ltac:(vm_compute; reflexivity)) as K. cbn [fst snd] in K.
    apply umem_In in Hr. rewrite Hr in K. exact K.
  - intros s d Hd Hu Hr. rewrite rtl_iff, ltr_iff, <- (umem_In s wrong_direction).
    pose proof (T (fun e => implb (umem (fst e) unicode_scripts && negb (umem (fst e) right_to_left))
      (Bool.eqb (rtl_b (snd e) && negb (ltr_b (snd e))) (umem (fst e) wrong_direction)))%bool s d Hd ltac:(vm_compute; reflexivity)) as K. cbn [fst snd] in K.
    apply umem_In in Hu. rewrite Hu in K. destruct (umem s right_to_left) eqn:Er; [apply umem_In in Er; contradiction|]. cbn [andb negb implb] in K. apply Bool.eqb_prop in K.
    destruct (rtl_b d), (ltr_b d), (umem s wrong_direction); cbn in K; try discriminate K; intuition congruence.
Qed.
Print Assumptions C59_table_partial.

Definition script_env_ex : scriptenv := mk_scriptenv
  (fun t => if ueqb t (us "sr-Latn") then Some (Some (us "Latn")) else if ueqb t (us "not a tag") then None else Some None)
  (fun t => if ueqb t (us "ar") then Some (Some (us "Arab")) else None).
Example C59_example : get_script_data script_env_ex (us "sr-Latn") = Ok (Some (mk_sdata Alphabetic [TopToBottomLeftToRight] false)) /\
  get_script_data script_env_ex (us "ar") = Ok (Some (mk_sdata Abjad [TopToBottomRightToLeft] false)) /\ get_script_data script_env_ex (us "und") = Ok None /\
  get_script_data script_env_ex (us "not a tag") = Panic /\ script_env_ok script_env_ex (us "ar") /\
  ss_new script_env_ex (us "ar") [None; Some (us "sr-Latn"); None] = Ok (mk_sstate (us "sr-Latn") (Some (mk_sdata Alphabetic [TopToBottomLeftToRight] false))).
Proof. split; [|split; [|split; [|split; [|split]]]]; try (vm_compute; reflexivity). split; vm_compute; discriminate. Qed.
