(** Property C81: strings shared by similar languages, as in crates/*/l10n/supported_languages.asciidoc. *)
From Coq Require Import Sorted.
From Verif Require Import Base BaseFacts RegistryModel ProviderModel ProviderSpec ProviderProofs ProviderProofs2 ProviderProofs3 ProviderProofs4 ProviderProofs7 ProviderProofs8
  PropertiesProvider.

(** The language [l] of a tag: what comes before the first hyphen. *)
Definition in_language (l t : ustr) : Prop := l <> [] /\ ~ In (ch "-") l /\ ancestor l t.
(** No entry for the tag [t], nor for anything between it and the language [l]. *)
Definition nothing_closer (p : sprovider) (c i t l : ustr) : Prop :=
  forall d b, source p c d -> ancestor b t -> List.length l < List.length b -> ~ has d c i (starts_with b).
(** There is an entry in the language [o] of the original strings. *)
Definition original_stored (p : sprovider) (c i o : ustr) : Prop := exists d, source p c d /\ has d c i (eq o).

(** The documented claim: "the original entries will be used in place of the missing entries for the language tag". *)
Definition original_used : Prop := forall E es p h c i t o l, made es p -> env_fine E p -> index_order E -> known p c -> no_wildcard t -> one_source p c ->
  default_of E p c o -> in_language l o -> in_language l t -> original_stored p c i o -> nothing_closer p c i t l ->
  exists d r x, result E p h (CallString c i t) = Ok (AnString (Some x)) /\ source p c d /\ hit d c i (eq o) r /\ answer_of E r x.

(** The example of the documentation: the knight. *)
Definition knight : list entry :=
  [file "app" [row "app" "horse" "en-ZA" "The knight rides a black horse."; row "app" "armour" "en-ZA" "The knight wears silver armour.";
               row "app" "armour" "en-US" "The knight wears silver armor."]
     [wrote "app" "en-ZA" "Ann"; wrote "app" "en-US" "Bo"] [main "app" "en-ZA"]].
Definition asked_for (i t : string) : pout panswer := result env_index (prov knight) [] (CallString (us "app") (us i) (us t)).
Lemma knight_made : made knight (prov knight).
Proof. apply prov_made; vm_compute; reflexivity. Qed.
Lemma knight_source d : source (prov knight) (us "app") d -> match map en_db knight with [Some d'] => d = d' | _ => False end.
Proof. intros [(f & v & H1 & H2)|(f & v & H1 & H2)]; [vm_compute in H1; discriminate H1|]. vm_compute in H2. injection H2 as <- _. reflexivity. Qed.
Lemma no_hyphen_b u : forallb (fun c => negb (c =? ch "-")%N) u = true -> ~ In (ch "-") u.
Proof. intros H Hi. apply (proj1 (forallb_forall _ _) H) in Hi. vm_compute in Hi. discriminate Hi. Qed.
Lemma starts_with_b b s : starts_with b s -> ueqb (map lower (firstn (List.length b) s)) (map lower b) = true.
Proof.
  intros (x & y & -> & H). assert (Hl : List.length x = List.length b) by (apply (f_equal (@List.length N)) in H; rewrite !map_length in H; exact H).
  rewrite <- Hl, firstn_app, Nat.sub_diag, firstn_all, app_nil_r. cbn [firstn]. rewrite app_nil_r || idtac. rewrite H. apply ueqb_refl.
Qed.

(** False, in the order of the index: for British English the American string is returned, not the original. *)
Theorem C81_original_refuted : exists E es p c i t o l x, made es p /\ env_fine E p /\ index_order E /\ known p c /\ no_wildcard t /\ one_source p c /\
  default_of E p c o /\ in_language l o /\ in_language l t /\ original_stored p c i o /\ nothing_closer p c i t l /\
  result E p [] (CallString c i t) = Ok (AnString (Some x)) /\ snd x <> o /\ (forall d r, source p c d -> hit d c i (eq o) r -> ~ answer_of E r x).
Proof.
  exists env_index, knight, (prov knight), (us "app"), (us "armour"), (us "en-GB"), (us "en-ZA"), (us "en"), (us "The knight wears silver armor.", us "en-US").
  split; [exact knight_made|]. split; [apply index_fine|]. split; [exact index_sorted|]. split; [vm_compute; left; reflexivity|].
  split; [apply no_wildcard_b; reflexivity|]. split; [intros d d' Hd Hd'; apply knight_source in Hd, Hd'; cbn in Hd, Hd'; congruence|].
  split. { right. split; [intros d (f & v & H & _); vm_compute in H; discriminate H|]. eexists. split; [exists false, (us "1.0"); split; vm_compute; reflexivity|].
    exists (main "app" "en-ZA"). split; [left; reflexivity|]. split; vm_compute; reflexivity. }
  split. { split; [discriminate|]. split; [apply no_hyphen_b; reflexivity|]. right. exists (us "ZA"). reflexivity. }
  split. { split; [discriminate|]. split; [apply no_hyphen_b; reflexivity|]. right. exists (us "GB"). reflexivity. }
  split. { eexists. split; [right; exists false, (us "1.0"); split; vm_compute; reflexivity|]. exists (row "app" "armour" "en-ZA" "The knight wears silver armour.").
    split; [vm_compute; right; left; reflexivity|repeat split]. }
  split. { intros d b Hd Hb Hl (r & Hr & _ & _ & Hs). apply knight_source in Hd. cbn in Hd. subst d.
    apply (ancestor_parent (us "en-GB") (us "en") (us "GB") b eq_refl (no_hyphen_b (us "GB") eq_refl)) in Hb. destruct Hb as [->|Hb].
    - apply starts_with_b in Hs. destruct Hr as [<-|[<-|[<-|[]]]]; vm_compute in Hs; discriminate Hs.
    - apply (ancestor_alone (us "en") b (no_hyphen_b (us "en") eq_refl)) in Hb. subst b. lia. }
  split; [vm_compute; reflexivity|]. split; [discriminate|]. intros d r _ (_ & _ & _ & Ht) (_ & H). rewrite <- Ht in H. vm_compute in H. discriminate H.
Qed.
Print Assumptions C81_original_refuted.

(** What holds. Some string of the language is returned. It is the original if there is no other of that language; and, in the
    order of the index, if the tag of the originals is the first of the language: for instance, the language alone. *)
Lemma tag_le_antisym a : forall b, tag_le a b = true -> tag_le b a = true -> a = b.
Proof.
  induction a as [|x a IH]; intros [|y b] H1 H2; cbn [tag_le] in *; try reflexivity; try discriminate.
  apply Bool.orb_true_iff in H1, H2. rewrite !Bool.andb_true_iff, !N.ltb_lt, !N.eqb_eq in *. destruct H1 as [H1|(-> & H1)], H2 as [H2|(H2' & H2)]; try lia.
  f_equal. apply IH; assumption.
Qed.
Lemma tag_le_extension a y : tag_le a (a ++ y) = true.
Proof. induction a as [|x a IH]; [reflexivity|]. cbn [tag_le app]. rewrite N.eqb_refl, IH. apply Bool.orb_true_r. Qed.
Theorem C81_original_partial : forall E es p h c i t o l, made es p -> env_fine E p -> known p c -> no_wildcard t -> one_source p c ->
  in_language l o -> in_language l t -> original_stored p c i o -> nothing_closer p c i t l ->
  exists d r x, result E p h (CallString c i t) = Ok (AnString (Some x)) /\ source p c d /\ hit d c i (starts_with l) r /\ answer_of E r x /\
  ((forall r', hit d c i (starts_with l) r' -> pr_tag r' = o) -> pr_tag r = o) /\
  (index_order E -> (forall r', hit d c i (starts_with l) r' -> tag_le (pr_tag r) (pr_tag r') = true) /\
     ((forall r', hit d c i (starts_with l) r' -> tag_le o (pr_tag r') = true) -> pr_tag r = o)) /\
  (index_order E -> o = l -> (forall r', hit d c i (starts_with l) r' -> exists y, pr_tag r' = l ++ y) -> pr_tag r = o).
Proof.
  intros E es p h c i t o l Hm He Hk Hw H1 (Hl & _ & Hlo) (_ & _ & Hlt) (d0 & Hd0 & r0 & Hr0) Hno. apply made_ok in Hm.
  destruct (one_string_answer E p Hm He false c i t Hk Hw) as (u & Hv & H). rewrite (result_string E p Hm). unfold string_. rewrite Hv.
  assert (Hhit : hit d0 c i (starts_with l) r0).
  { destruct Hr0 as (A1 & A2 & A3 & A4). split; [exact A1|]. split; [exact A2|]. split; [exact A3|]. rewrite <- A4.
    destruct Hlo as [->|(y & ->)]; [apply starts_with_refl|]. exists l, (ch "-" :: y). auto. }
  destruct u as [x|]; [|destruct (H d0 Hd0 l Hlt Hl (ex_intro _ r0 Hhit))].
  destruct H as (d & a & r & Ha & Hr & Hx & Hmin). destruct (answering_source p c i t false d a Ha) as (Hs & (Hanc & Hnil & Hhas & Hlong)).
  rewrite (H1 d0 d Hd0 Hs) in Hhit, Hr0. assert (a = l).
  { apply (ancestor_same_length a l t); [exact Hanc|exact Hlt|]. apply Nat.le_antisymm; [|apply Hlong; [exact Hlt|exists r0; exact Hhit]].
    destruct (Nat.le_gt_cases (List.length a) (List.length l)) as [L|L]; [exact L|]. destruct (Hno d a Hs Hanc L Hhas). }
  subst a. cbn [fit] in Hr, Hmin. exists d, r, x. split; [reflexivity|]. split; [exact Hs|]. split; [exact Hr|]. split; [exact Hx|].
  assert (Hfirst : index_order E -> (forall r', hit d c i (starts_with l) r' -> tag_le o (pr_tag r') = true) -> pr_tag r = o).
  { intros Hidx Hf. apply tag_le_antisym; [|apply Hf, Hr]. rewrite (proj2 (proj2 (proj2 Hr0))). apply Hmin; [exact Hidx|exact Hhit]. }
  split; [intros K; apply K, Hr|]. split; [intros Hidx; split; [exact (Hmin Hidx)|exact (Hfirst Hidx)]|].
  intros Hidx -> Hy. apply (Hfirst Hidx). intros r' Hr'. destruct (Hy r' Hr') as (y & ->). apply tag_le_extension.
Qed.
Print Assumptions C81_original_partial.
(** The first string of the documentation as it says; the second for American English; with the originals as en, also for British. *)
Definition knight_en : list entry :=
  [file "app" [row "app" "armour" "en-US" "The knight wears silver armor."; row "app" "armour" "en" "The knight wears silver armour."]
     [wrote "app" "en" "Ann"; wrote "app" "en-US" "Bo"] [main "app" "en"]].
Example C81_example :
  asked_for "horse" "en-US" = Ok (AnString (Some (us "The knight rides a black horse.", us "en-ZA"))) /\
  asked_for "horse" "en-GB" = Ok (AnString (Some (us "The knight rides a black horse.", us "en-ZA"))) /\
  asked_for "armour" "en-US" = Ok (AnString (Some (us "The knight wears silver armor.", us "en-US"))) /\
  asked_for "armour" "en-ZA" = Ok (AnString (Some (us "The knight wears silver armour.", us "en-ZA"))) /\
  asked_for "armour" "en-GB" = Ok (AnString (Some (us "The knight wears silver armor.", us "en-US"))) /\
  result env_index (prov knight_en) [] (CallString (us "app") (us "armour") (us "en-GB")) = Ok (AnString (Some (us "The knight wears silver armour.", us "en"))).
Proof. repeat split; vm_compute; reflexivity. Qed.
