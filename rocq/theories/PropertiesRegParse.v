(** C108: the language tag registry parses a tag once. *)
From Verif Require Import Base RegistryModel RegistrySpec RegistryProofs PropertiesRegistry RegThreadsModel RegThreadsSpec PropertiesRegThreads RegParseModel RegParseProofs RegParseThreads.

(** Exactly when a call of [tag] parses: the string is ill-formed, or neither it nor a spelling of which it is the canonical form was asked for before. *)
Theorem C108_when : forall L, locid_ok L -> forall h rs r s, reachable L h rs r ->
  (tag_parses r s = true <-> canon L s = None \/ (~ In s h /\ ~ requested L h s)).
Proof. exact parses_when. Qed.
Print Assumptions C108_when.
(** A well-formed string is parsed once at most, whatever the calls; an ill-formed one each time. *)
Theorem C108_once : forall L r cs s, canon L s <> None -> count_occ (list_eq_dec N.eq_dec) (parsed L r cs) s <= 1.
Proof. intros L r cs s H. exact (parsed_once L s cs H r). Qed.
Print Assumptions C108_once.
Theorem C108_ill_formed : forall L, locid_ok L -> forall h rs r cs s, reachable L h rs r -> canon L s = None ->
  count_occ (list_eq_dec N.eq_dec) (parsed L r cs) s = count_occ (list_eq_dec N.eq_dec) (flat_map (fun c => match c with CTag q => [q] | CIcu _ => [] end) cs) s.
Proof. intros L HL h rs r cs s H Hc. exact (parsed_bad L s cs h rs r HL Hc H). Qed.
Print Assumptions C108_ill_formed.
(** The locale of a tag is made once. *)
Theorem C108_locales : forall L r cs k, parse_locale L k <> None -> count_occ (list_eq_dec N.eq_dec) (parsed_icu L r cs) k <= 1.
Proof. intros L r cs k H. exact (parsed_icu_once L k cs H r). Qed.
Print Assumptions C108_locales.
(** Threads: each parses a well-formed string once at most, and not at all if it begins when the string was answered to any of them. *)
Theorem C108_threads : forall L s, canon L s <> None -> forall r ps sch i, parse_turns L (world_start r ps) sch i s <= 1.
Proof. intros L s H r ps sch i. exact (turns_once L s i sch H (world_start r ps)). Qed.
Print Assumptions C108_threads.
Theorem C108_later : forall L s x0 i0 i r ps sch sch', let w := world_run L (world_start r ps) sch in
  In (i0, STag s (Ok x0)) (w_log w) -> outside (w_threads w i) -> parse_turns L w sch' i s = 0.
Proof. exact turns_known. Qed.
Print Assumptions C108_later.
(** Each makes the locale of a tag once at most, and not at all if it begins when the locale was answered to any of them. *)
Theorem C108_locale_threads : forall L k, parse_locale L k <> None -> forall r ps sch i, locale_turns L (world_start r ps) sch i k <= 1.
Proof. intros L k H r ps sch i. exact (locale_once L k H i sch (world_start r ps)). Qed.
Print Assumptions C108_locale_threads.
Theorem C108_locale_later : forall L t x0 i0 i p r ps sch sch', let w := world_run L (world_start r ps) sch in
  In (i0, SIcu t (Ok x0)) (w_log w) -> w_threads w i = TRest p -> locale_turns L w sch' i (r_tag t) = 0.
Proof. exact locale_known. Qed.
Print Assumptions C108_locale_later.
Example C108_locale_example :
  let twice := ask_locale (us "DE") (ask_locale (us "de") REnd) in
  let w := world_start lreg_new (fun i => nth i [twice; twice; twice] REnd) in
  let sch := turns (fun k => Nat.modulo k 2) 0 40 in let w1 := world_run locid_ex w sch in
  locale_turns locid_ex w sch 0 (us "de") = 1 /\ locale_turns locid_ex w sch 1 (us "de") = 1 /\ w_threads w1 2 = TRest twice /\
  (exists t x, In (0, SIcu t (Ok x)) (w_log w1) /\ r_tag t = us "de") /\ locale_turns locid_ex w1 (repeat 2 20) 2 (us "de") = 0.
Proof.
  cbn zeta. split; [vm_compute; reflexivity|]. split; [vm_compute; reflexivity|]. split; [vm_compute; reflexivity|]. split; [|vm_compute; reflexivity].
  exists (mk_tref 1 (us "de")). eexists. split; [vm_compute; tauto|reflexivity].
Qed.
Example C108_example :
  parsed locid_ex lreg_new [CTag (us "EN-US"); CTag (us "en-US"); CTag (us "bad"); CTag (us "en_us"); CIcu (mk_tref 0 (us "en-US")); CTag (us "bad"); CTag (us "EN-US"); CIcu (mk_tref 0 (us "en-US"))]
    = [us "EN-US"; us "bad"; us "en_us"; us "bad"] /\
  parsed_icu locid_ex lreg_new [CTag (us "EN-US"); CIcu (mk_tref 0 (us "en-US")); CIcu (mk_tref 0 (us "en-US"))] = [us "en-US"] /\
  (let w := world_start lreg_new (fun i => nth i [ask (us "de") (ask (us "de") REnd); ask (us "de") (ask (us "de") REnd)] REnd) in
   let sch := turns (fun k => Nat.modulo k 2) 0 30 in
   parse_turns locid_ex w sch 0 (us "de") = 1 /\ parse_turns locid_ex w sch 1 (us "de") = 1 /\ forall i, i < 2 -> ended (w_threads (world_run locid_ex w sch) i)).
Proof.
  split; [vm_compute; reflexivity|]. split; [vm_compute; reflexivity|]. split; [vm_compute; reflexivity|]. split; [vm_compute; reflexivity|].
  intros [|[|i]] Hi; [vm_compute; reflexivity|vm_compute; reflexivity|lia].
Qed.
