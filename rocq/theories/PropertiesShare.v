(** * Use of the types by several threads (C71) *)
From Coq Require Import String List Bool.
From Verif Require Import ShareModel ShareSpec ShareProofs.
Import ListNotations.
Open Scope string_scope.

(** What stands against the use by several threads, even with the feature [sync]: trait objects without bounds, and the cell of the
    command registry. *)
Definition confined : list string := ["ProviderError"; "CommandError"; "LocaliserError"; "FormatterError"; "CommandRegistry"; "Localiser"].

Definition good : list string := filter (fun n => negb (existsb (String.eqb n) confined)) (map fst (types true)).
Lemma good_consistent : consistent good good (types true) = true.
Proof. vm_compute. reflexivity. Qed.
Lemma has_rest all out n : In n all -> ~ In n out -> has (filter (fun n => negb (existsb (String.eqb n) out)) all) n = true.
Proof.
  intros Hn Hni. unfold has. apply existsb_exists. exists n. split; [|apply String.eqb_refl]. apply filter_In. split; [exact Hn|].
  apply negb_true_iff. destruct (existsb (String.eqb n) out) eqn:E; [|reflexivity]. exfalso. apply existsb_exists in E as (x & Hx & E).
  apply String.eqb_eq in E. subst x. exact (Hni Hx).
Qed.

Local Ltac find_type := cbn; repeat first [left; reflexivity | right].

(** Even with the feature [sync] a localiser can neither be given to another thread nor be shared, whatever the other libraries do. *)
Theorem C71_share_refuted : forall ext, ~ can_send (types true) ext ext "Localiser" /\ ~ can_share (types true) ext ext "Localiser".
Proof.
  intros ext. split; intros H; apply H.
  - eapply ns_name; [find_type|]. eapply ns_all with (t := TDyn "LocalisationProviderTrait"); [cbn; tauto|]. constructor.
  - eapply ny_name; [find_type|]. eapply ny_all with (t := TDyn "LocalisationProviderTrait"); [cbn; tauto|]. constructor.
Qed.
Print Assumptions C71_share_refuted.

Local Ltac named_by := eapply ns_name; [find_type|].
Lemma confined_not (ext : string -> Prop) n : In n confined -> ~ concurrent (types true) ext n.
Proof.
  intros Hin (Hs & Hy).
  assert (Hp : not_send (types true) ext ext (TName "ProviderError")).
  { named_by. eapply ns_all with (t := TArc (TDyn "ProviderErrorTrait")); [cbn; tauto|]. apply ns_arc1. constructor. }
  assert (Hc : not_send (types true) ext ext (TName "CommandError")).
  { named_by. eapply ns_all with (t := TArc (TDyn "LocalisationErrorTrait")); [cbn; tauto|]. apply ns_arc1. constructor. }
  cbn [confined In] in Hin. destruct Hin as [<-|[<-|[<-|[<-|[<-|[<-|[]]]]]]].
  - exact (Hs Hp).
  - exact (Hs Hc).
  - apply Hs. named_by. eapply ns_all with (t := TName "ProviderError"); [cbn; tauto|]. exact Hp.
  - apply Hs. named_by. eapply ns_all with (t := TName "CommandError"); [cbn; tauto|]. exact Hc.
  - apply Hy. eapply ny_name; [find_type|]. constructor.
  - exact (proj1 (C71_share_refuted ext) Hs).
Qed.
Lemma check_send_name gs gy n : check_send gs gy (TName n) = has gs n.
Proof. reflexivity. Qed.
Lemma check_sync_name gs gy n : check_sync gs gy (TName n) = has gy n.
Proof. reflexivity. Qed.
Lemma others (ext : string -> Prop) n : (forall s, ext s) -> has good n = true -> concurrent (types true) ext n.
Proof.
  intros He Hg. split; intros H.
  - apply (check_complete good good (types true) ext He good_consistent) in H. rewrite check_send_name, Hg in H. discriminate H.
  - apply (check_complete_sync good good (types true) ext He good_consistent) in H. rewrite check_sync_name, Hg in H. discriminate H.
Qed.

(** Six types are confined to a thread; all others are for several threads, if those of the other libraries are. *)
Theorem C71_share_implemented : forall (ext : string -> Prop) n, (forall s, ext s) -> In n (map fst (types true)) ->
  (concurrent (types true) ext n <-> ~ In n confined).
Proof.
  intros ext n He Hn. split; [intros Hc Hin; exact (confined_not ext n Hin Hc)|]. intros Hni. apply others; [exact He|].
  unfold good. exact (has_rest _ _ n Hn Hni).
Qed.
Print Assumptions C71_share_implemented.

(** In particular these, as documented; and the command registry can at least be given away. *)
Theorem C71_share_partial : forall ext : string -> Prop, (forall s, ext s) ->
  concurrent (types true) ext "LanguageTagRegistry" /\ concurrent (types true) ext "LocalisationProviderSqlite3" /\
  concurrent (types true) ext "IcuDataProvider" /\ concurrent (types true) ext "LexerIterator" /\
  concurrent (types true) ext "PlaceholderValue" /\ concurrent (types true) ext "LocalisationData" /\ concurrent (types true) ext "TaggedString" /\
  can_send (types true) ext ext "CommandRegistry".
Proof.
  intros ext He.
  repeat (split; [apply (C71_share_implemented ext); [exact He|cbn; tauto|cbn; intuition discriminate]|]).
  intros H. refine (eq_true_false_abs _ eq_refl (check_complete ["CommandRegistry"] [] (types true) ext He _ _ H)). vm_compute. reflexivity.
Qed.
Print Assumptions C71_share_partial.

(** *** Example: without the feature not even a tagged string can be given to another thread; with it, it can. *)
Example C71_example : ~ can_send (types false) (fun _ => True) (fun _ => True) "TaggedString" /\
  concurrent (types true) (fun _ => True) "TaggedString" /\ ~ concurrent (types true) (fun _ => True) "CommandRegistry".
Proof.
  split; [|split].
  - intros H. apply H. eapply ns_name; [find_type|]. eapply ns_all; [cbn; right; left; reflexivity|]. constructor.
  - apply C71_share_implemented; [intros; exact Logic.I|cbn; tauto|cbn; intuition discriminate].
  - intros H. apply C71_share_implemented in H; [apply H; cbn; tauto|intros; exact Logic.I|cbn; tauto].
Qed.

(** ** Every type, with the feature and without it *)

(** A search for reasons. *)
Fixpoint reason (table : list (string * rty)) (fuel : nat) (send : bool) (t : rty) : bool :=
  match fuel with
  | O => false
  | S k => match t with
    | TPlain | TExt _ => false
    | TName n => existsb (fun e => if String.eqb (fst e) n then reason table k send (snd e) else false) table
    | TAll l => existsb (reason table k send) l
    | TRc _ | TDyn _ => true
    | TArc t => reason table k true t || reason table k false t
    | TRefCell t | TOnceCell t => if send then reason table k true t else true
    | TMutex t => reason table k true t
    | TRwLock t | TOnceLock t => if send then reason table k true t else reason table k true t || reason table k false t
    end
  end.
Lemma reason_sound table ext fuel : forall t,
  (reason table fuel true t = true -> not_send table ext ext t) /\ (reason table fuel false t = true -> not_sync table ext ext t).
Proof.
  induction fuel as [|k IH]; intros t; [split; discriminate|].
  destruct t; cbn [reason]; (split; intros H); try discriminate H; try (constructor; fail).
  - apply existsb_exists in H as ((m & t) & Hin & H). cbn [fst snd] in H. destruct (String.eqb m name) eqn:E; [|discriminate H]. apply String.eqb_eq in E. subst m.
    exact (ns_name _ _ _ _ t Hin (proj1 (IH t) H)).
  - apply existsb_exists in H as ((m & t) & Hin & H). cbn [fst snd] in H. destruct (String.eqb m name) eqn:E; [|discriminate H]. apply String.eqb_eq in E. subst m.
    exact (ny_name _ _ _ _ t Hin (proj2 (IH t) H)).
  - apply existsb_exists in H as (t & Hin & H). exact (ns_all _ _ _ _ t Hin (proj1 (IH t) H)).
  - apply existsb_exists in H as (t & Hin & H). exact (ny_all _ _ _ _ t Hin (proj2 (IH t) H)).
  - apply orb_true_iff in H as [H|H]; [apply ns_arc1, (proj1 (IH t) H)|apply ns_arc2, (proj2 (IH t) H)].
  - apply orb_true_iff in H as [H|H]; [apply ny_arc1, (proj1 (IH t) H)|apply ny_arc2, (proj2 (IH t) H)].
  - apply ns_refcell, (proj1 (IH t) H).
  - apply ns_oncecell, (proj1 (IH t) H).
  - apply ns_mutex, (proj1 (IH t) H).
  - apply ny_mutex, (proj1 (IH t) H).
  - apply ns_rwlock, (proj1 (IH t) H).
  - apply orb_true_iff in H as [H|H]; [apply ny_rwlock1, (proj1 (IH t) H)|apply ny_rwlock2, (proj2 (IH t) H)].
  - apply ns_oncelock, (proj1 (IH t) H).
  - apply orb_true_iff in H as [H|H]; [apply ny_oncelock1, (proj1 (IH t) H)|apply ny_oncelock2, (proj2 (IH t) H)].
Qed.

(** The types that own no reference counted part. *)
Definition counted_not : list string := ["LanguageTag"; "RegistryError"; "ScriptData"; "Token"; "DataProvider"; "IcuDataProvider"; "IcuError";
  "LexerError"; "LanguageData"; "Length"; "NodeType"; "ParserState"; "script::DataProvider"; "TreeError"].
Lemma has_in l n : has l n = true <-> In n l.
Proof.
  unfold has. rewrite existsb_exists. split; [intros (x & Hx & E); apply String.eqb_eq in E; subst x; exact Hx|].
  intros H. exists n. split; [exact H|apply String.eqb_refl].
Qed.
Definition searched (table : list (string * rty)) (gs gy : list string) : bool :=
  forallb (fun n => (has gs n || reason table 10 true (TName n)) && (has gy n || reason table 10 false (TName n))) (map fst table).
(** Lists that are consistent, and outside of which there are reasons. *)
Lemma exactly table (ext : string -> Prop) gs gy : (forall s, ext s) -> consistent gs gy table = true -> searched table gs gy = true ->
  forall n, In n (map fst table) -> (can_send table ext ext n <-> In n gs) /\ (can_share table ext ext n <-> In n gy).
Proof.
  intros He Hc Hr n Hn. unfold searched in Hr. rewrite forallb_forall in Hr. specialize (Hr n Hn). apply andb_true_iff in Hr as (Hs & Hy).
  rewrite <- !has_in. split; split.
  - intros H. apply orb_true_iff in Hs as [Hs|Hs]; [exact Hs|]. destruct (H (proj1 (reason_sound table ext 10 _) Hs)).
  - intros Hg H. apply (check_complete gs gy table ext He Hc) in H. rewrite check_send_name, Hg in H. discriminate H.
  - intros H. apply orb_true_iff in Hy as [Hy|Hy]; [exact Hy|]. destruct (H (proj2 (reason_sound table ext 10 _) Hy)).
  - intros Hg H. apply (check_complete_sync gs gy table ext He Hc) in H. rewrite check_sync_name, Hg in H. discriminate H.
Qed.

Lemma with_consistent : consistent ("CommandRegistry" :: good) good (types true) = true.
Proof. vm_compute. reflexivity. Qed.
Lemma with_searched : searched (types true) ("CommandRegistry" :: good) good = true.
Proof. vm_compute. reflexivity. Qed.
Lemma without_consistent : consistent ("CommandRegistry" :: counted_not) counted_not (types false) = true.
Proof. vm_compute. reflexivity. Qed.
Lemma without_searched : searched (types false) ("CommandRegistry" :: counted_not) counted_not = true.
Proof. vm_compute. reflexivity. Qed.
Lemma in_first (x n : string) l : In n (x :: l) <-> n = x \/ In n l.
Proof. cbn [In]. split; intros [H|H]; auto. Qed.
Lemma in_good n : In n (map fst (types true)) -> (In n good <-> ~ In n confined).
Proof.
  intros Hn. unfold good. rewrite filter_In, negb_true_iff. split.
  - intros (_ & H) Hin. enough (X : existsb (String.eqb n) confined = true) by congruence.
    apply existsb_exists. exists n. split; [exact Hin|apply String.eqb_refl].
  - intros H. split; [exact Hn|]. destruct (existsb (String.eqb n) confined) eqn:E; [|reflexivity]. exfalso.
    apply existsb_exists in E as (x & Hx & E). apply String.eqb_eq in E. subst x. exact (H Hx).
Qed.

(** Without the feature [sync] a type is for several threads if and only if it owns nothing that is counted; and only the command
    registry, of which the cell is the only obstacle, can besides be given to another thread. With the feature that holds of all types
    but six, and again the command registry can be given away. *)
Theorem C71_each : forall (ext : string -> Prop) sync n, (forall s, ext s) -> In n (map fst (types sync)) ->
  (can_share (types sync) ext ext n <-> if sync then ~ In n confined else In n counted_not) /\
  (can_send (types sync) ext ext n <-> n = "CommandRegistry" \/ if sync then ~ In n confined else In n counted_not).
Proof.
  intros ext [] n He Hn.
  - destruct (exactly (types true) ext ("CommandRegistry" :: good) good He with_consistent with_searched n Hn) as (Hs & Hy).
    exact (conj (iff_trans Hy (in_good n Hn)) (iff_trans Hs (iff_trans (in_first _ n good) (or_iff_compat_l _ (in_good n Hn))))).
  - destruct (exactly (types false) ext ("CommandRegistry" :: counted_not) counted_not He without_consistent without_searched n Hn) as (Hs & Hy).
    exact (conj Hy (iff_trans Hs (in_first _ n counted_not))).
Qed.
Print Assumptions C71_each.

(** *** Example: the ICU data can be shared in either case, a placeholder value only with the feature; a registry of commands can always be
    given away, and never be shared. *)
Example C71_each_example : let ext := fun _ : string => True in
  can_share (types false) ext ext "IcuDataProvider" /\ ~ can_share (types false) ext ext "PlaceholderValue" /\ ~ can_send (types false) ext ext "PlaceholderValue" /\
  can_share (types true) ext ext "PlaceholderValue" /\
  (forall sync, can_send (types sync) ext ext "CommandRegistry" /\ ~ can_share (types sync) ext ext "CommandRegistry").
Proof.
  intros ext. assert (He : forall s, ext s) by (intros; exact Logic.I).
  assert (Hc : forall sync, In "CommandRegistry" (map fst (types sync))) by (intros sync; cbn; tauto).
  repeat split.
  - apply (C71_each ext false); [exact He|cbn; tauto|cbn; tauto].
  - intros H. apply (C71_each ext false) in H; [|exact He|cbn; tauto]. cbn in H. intuition discriminate.
  - intros H. apply (C71_each ext false) in H; [|exact He|cbn; tauto]. cbn in H. intuition discriminate.
  - apply (C71_each ext true); [exact He|cbn; tauto|cbn; intuition discriminate].
  - apply (C71_each ext sync); [exact He|apply Hc|left; reflexivity].
  - intros H. apply (C71_each ext sync) in H; [|exact He|apply Hc]. destruct sync; [apply H; cbn; tauto|cbn in H; intuition discriminate].
Qed.
