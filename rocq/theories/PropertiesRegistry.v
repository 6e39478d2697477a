(** Properties of the language tag registry: C25-C27, C46. *)
From Verif Require Import Base RegistryModel RegistrySpec RegistryProofs.

(** For examples: the canonical tags are en-US and de, with some other spellings. *)
Definition locid_ex : locid :=
  mk_locid (fun s => if umem s [us "en-US"; us "en_us"; us "EN-US"] then Some (us "en-US")
                     else if umem s [us "de"; us "DE"] then Some (us "de") else None)
           (fun s => if umem s [us "en-US"; us "de"] then Some s else None).
Lemma locid_ex_ok : locid_ok locid_ex.
Proof.
  intros s y. cbn [canon locid_ex]. destruct (umem s _) eqn:E; [intros [= <-]; vm_compute; split; [reflexivity|discriminate]|].
  destruct (umem s [us "de"; us "DE"]); [intros [= <-]; vm_compute; split; [reflexivity|discriminate]|discriminate].
Qed.

(** A history of [tag] calls. *)
Definition after_tags (L : locid) (ss : list ustr) : lregistry := fold_left (fun r s => fst (tag L r s)) ss lreg_new.
Lemma after_tags_reachable L ss : exists rs, reachable L (rev ss) rs (after_tags L ss).
Proof.
  unfold after_tags. set (h := rev ss). replace ss with (rev h) by apply rev_involutive. clearbody h. induction h as [|s h (rs & IH)]; [exists []; constructor|].
  cbn [rev]. rewrite fold_left_app. cbn [fold_left]. destruct (tag L _ s) as [r' o] eqn:E. eexists. eapply rc_tag; [exact IH|exact E].
Qed.

(** ** C25 *)
Theorem C25_canonical : forall L, locid_ok L -> forall h rs r s, reachable L h rs r ->
  match canon L s with
  | None => tag L r s = (r, Err IcuLocid)
  | Some y => exists r' x, tag L r s = (r', Ok x) /\ r_tag x = y
  end.
Proof. exact tag_canonical. Qed.
Print Assumptions C25_canonical.
Example C25_example :
  let r := after_tags locid_ex [us "EN-US"; us "bad"; us "de"] in
  snd (tag locid_ex r (us "en_us")) = Ok (mk_tref 0 (us "en-US")) /\ tag locid_ex r (us "bad") = (r, Err IcuLocid).
Proof. split; vm_compute; reflexivity. Qed.

(** ** C26 *)
Theorem C26_shared : forall L, locid_ok L -> forall h rs r x x', reachable L h rs r -> In x rs -> In x' rs ->
  (r_tag x = r_tag x' <-> r_id x = r_id x') /\ (r_tag x = r_tag x' -> x = x').
Proof. exact tag_shared. Qed.
Print Assumptions C26_shared.
Theorem C26_list : forall L, locid_ok L -> forall h rs r, reachable L h rs r ->
  NoDup (map r_tag (list_tags r)) /\ (forall y, In y (map r_tag (list_tags r)) <-> requested L h y).
Proof. exact tags_listed. Qed.
Print Assumptions C26_list.
(** [list_deprecated] returns the canonical tags, not the strings asked for. *)
Theorem C26_list_deprecated_refuted : exists L ss, locid_ok L /\
  In (us "EN-US") ss /\ canon L (us "EN-US") <> Some (us "EN-US") /\ canon L (us "EN-US") <> None /\
  map r_tag (list_deprecated (after_tags L ss)) = [us "en-US"; us "en-US"].
Proof.
  exists locid_ex, [us "EN-US"; us "en_us"]. split; [exact locid_ex_ok|]. split; [now left|].
  split; [vm_compute; discriminate|]. split; [vm_compute; discriminate|]. vm_compute. reflexivity.
Qed.
Print Assumptions C26_list_deprecated_refuted.
Theorem C26_list_deprecated_partial : forall L, locid_ok L -> forall h rs r, reachable L h rs r ->
  exists ks, NoDup ks /\ (forall k, In k ks <-> In k h /\ exists y, canon L k = Some y /\ y <> k) /\
    map (fun k => canon L k) ks = map (fun x => Some (r_tag x)) (list_deprecated r).
Proof. exact deprecated_listed. Qed.
Print Assumptions C26_list_deprecated_partial.
(** [list_all] has an entry for every string that can be given to [tag] without making a new one, and only those. *)
Theorem C26_list_all_partial : forall L, locid_ok L -> forall h rs r, reachable L h rs r ->
  exists ks, NoDup ks /\
    (forall k, In k ks <-> requested L h k \/ (In k h /\ exists y, canon L k = Some y /\ y <> k)) /\
    map (fun k => canon L k) ks = map (fun x => Some (r_tag x)) (list_all r).
Proof. exact all_listed. Qed.
Print Assumptions C26_list_all_partial.
Example C26_example : let r := after_tags locid_ex [us "EN-US"; us "de"; us "en_us"; us "en-US"; us "bad"] in
  map r_tag (list_tags r) = [us "en-US"; us "de"] /\ map r_id (list_tags r) = [0; 1] /\
  map r_tag (list_all r) = [us "en-US"; us "de"; us "en-US"; us "en-US"].
Proof. repeat split; vm_compute; reflexivity. Qed.

(** ** C27: [conc_run L (conc_start r args) sch] is the state after the steps of the schedule [sch], where thread [i] calls
    [tag] with the [i]-th of [args]. *)
Theorem C27_canonical : forall L, locid_ok L -> forall h rs r args sch i s o, reachable L h rs r ->
  nth_error (g_threads (conc_run L (conc_start r args) sch)) i = Some (PDone s o) ->
  nth_error args i = Some s /\
  match canon L s with Some y => exists x, o = Ok x /\ r_tag x = y | None => o = Err IcuLocid end.
Proof. exact schedule_canonical. Qed.
Print Assumptions C27_canonical.
Theorem C27_no_deadlock : forall L, locid_ok L -> forall h rs r args sch, reachable L h rs r ->
  let g := conc_run L (conc_start r args) sch in
  (forall i, conc_step L g i = None) -> forall i p, nth_error (g_threads g) i = Some p -> exists s o, p = PDone s o.
Proof. exact no_deadlock. Qed.
Print Assumptions C27_no_deadlock.
(** Every step decreases the work left, which is six per thread at the start. *)
Theorem C27_terminates : forall L, (forall g i g', conc_step L g i = Some g' -> work (g_threads g') < work (g_threads g)) /\
  forall r args, work (g_threads (conc_start r args)) = 6 * List.length args.
Proof. intros L. split; [exact (step_less L)|exact start_work]. Qed.
Print Assumptions C27_terminates.
(** A call that is not interrupted is the sequential one. *)
Theorem C27_alone : forall L r th i s, nth_error th i = Some (PTags s) ->
  conc_run L (mk_conc r None th) (repeat i 6) = mk_conc (fst (tag L r s)) None (lset th i (PDone s (snd (tag L r s)))).
Proof. exact alone_sequential. Qed.
Print Assumptions C27_alone.
(** Two threads both find the tag missing and both create it. *)
Theorem C27_shared_refuted : exists L args sch, locid_ok L /\
  let th := g_threads (conc_run L (conc_start lreg_new args) sch) in
  nth_error th 0 = Some (PDone (us "de") (Ok (mk_tref 0 (us "de")))) /\
  nth_error th 1 = Some (PDone (us "de") (Ok (mk_tref 1 (us "de")))).
Proof.
  exists locid_ex, [us "de"; us "de"], [0; 1; 0; 1; 0; 1; 0; 1; 0; 1; 0; 1]. split; [exact locid_ex_ok|].
  split; [vm_compute; reflexivity|]. vm_compute. reflexivity.
Qed.
Print Assumptions C27_shared_refuted.
Example C27_example : map (fun p => match p with PDone _ (Ok x) => Some (r_tag x) | _ => None end)
  (g_threads (conc_run locid_ex (conc_start lreg_new [us "DE"; us "EN-US"; us "de"; us "bad"])
     [0; 3; 1; 1; 0; 2; 2; 0; 0; 1; 3; 2; 1; 0; 1; 2; 0; 1; 3; 2; 2])) = [Some (us "de"); Some (us "en-US"); Some (us "de"); None].
Proof. vm_compute. reflexivity. Qed.

(** ** C46: the locale of a tag *)
Theorem C46_icu_language : forall L, locid_ok L -> forall h rs r t, reachable L h rs r -> In t rs ->
  exists r' x, icu_language L r t = (r', Ok x) /\ parse_locale L (r_tag t) = Some (r_tag x) /\
    forall t', r_tag t' = r_tag t -> icu_language L r' t' = (r', Ok x).
Proof. exact icu_language_ok. Qed.
Print Assumptions C46_icu_language.
Example C46_example : let r := after_tags locid_ex [us "EN-US"] in
  snd (icu_language locid_ex r (mk_tref 0 (us "en-US"))) = Ok (mk_tref 1 (us "en-US")).
Proof. vm_compute. reflexivity. Qed.
