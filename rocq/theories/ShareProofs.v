(** [Send] and [Sync]: proofs. *)
From Coq Require Import String List Bool.
From Verif Require Import ShareModel ShareSpec.
Import ListNotations.
Open Scope string_scope.

(** ** A check that gives the traits *)
Section Check.
  Variables good_send good_sync : list string.
  Definition has (l : list string) (n : string) : bool := existsb (String.eqb n) l.
  Fixpoint check_send (t : rty) : bool :=
    match t with
    | TPlain | TExt _ => true
    | TName n => has good_send n
    | TAll l => forallb check_send l
    | TRc _ | TDyn _ => false
    | TArc t => check_send t && check_sync t
    | TRefCell t | TOnceCell t | TMutex t | TRwLock t | TOnceLock t => check_send t
    end
  with check_sync (t : rty) : bool :=
    match t with
    | TPlain | TExt _ => true
    | TName n => has good_sync n
    | TAll l => forallb check_sync l
    | TRc _ | TDyn _ | TRefCell _ | TOnceCell _ => false
    | TArc t | TRwLock t | TOnceLock t => check_send t && check_sync t
    | TMutex t => check_send t
    end.
  Definition consistent (table : list (string * rty)) : bool :=
    forallb (fun e => implb (has good_send (fst e)) (check_send (snd e)) && implb (has good_sync (fst e)) (check_sync (snd e))) table.

  Variables (table : list (string * rty)) (ext : string -> Prop).
  Hypothesis Hext : forall s, ext s.
  Hypothesis Hc : consistent table = true.
  Scheme ns_ind := Induction for not_send Sort Prop with ny_ind := Induction for not_sync Sort Prop.
  Lemma named n t : In (n, t) table -> (has good_send n = true -> check_send t = true) /\ (has good_sync n = true -> check_sync t = true).
  Proof.
    intros H. unfold consistent in Hc. rewrite forallb_forall in Hc. specialize (Hc _ H). cbn [fst snd] in Hc.
    destruct (has good_send n), (has good_sync n), (check_send t), (check_sync t); cbn in Hc; try discriminate; auto.
  Qed.
  Lemma forallb_false {A} (f : A -> bool) l x : In x l -> f x = false -> forallb f l = false.
  Proof. intros Hx Hf. destruct (forallb f l) eqn:E; [|reflexivity]. rewrite forallb_forall in E. rewrite (E x Hx) in Hf. discriminate. Qed.
  Lemma check_complete : forall t, not_send table ext ext t -> check_send t = false.
  Proof.
    apply (ns_ind table ext ext (fun t _ => check_send t = false) (fun t _ => check_sync t = false)); cbn [check_send check_sync]; intros;
      try reflexivity; try assumption; try (match goal with H : _ = false |- _ => rewrite H end; cbn; rewrite ?andb_false_r; reflexivity);
      try (exfalso; match goal with H : ~ ext ?s |- _ => exact (H (Hext s)) end);
      try (eapply forallb_false; eassumption).
    - match goal with H : In _ table |- _ => apply named in H as (H1 & H2) end. destruct (has good_send n); [rewrite H1 in H by reflexivity; discriminate|reflexivity].
    - match goal with H : In _ table |- _ => apply named in H as (H1 & H2) end. destruct (has good_sync n); [rewrite H2 in H by reflexivity; discriminate|reflexivity].
  Qed.
  Lemma check_complete_sync : forall t, not_sync table ext ext t -> check_sync t = false.
  Proof.
    apply (ny_ind table ext ext (fun t _ => check_send t = false) (fun t _ => check_sync t = false)); cbn [check_send check_sync]; intros;
      try reflexivity; try assumption; try (match goal with H : _ = false |- _ => rewrite H end; cbn; rewrite ?andb_false_r; reflexivity);
      try (exfalso; match goal with H : ~ ext ?s |- _ => exact (H (Hext s)) end);
      try (eapply forallb_false; eassumption).
    - match goal with H : In _ table |- _ => apply named in H as (H1 & H2) end. destruct (has good_send n); [rewrite H1 in H by reflexivity; discriminate|reflexivity].
    - match goal with H : In _ table |- _ => apply named in H as (H1 & H2) end. destruct (has good_sync n); [rewrite H2 in H by reflexivity; discriminate|reflexivity].
  Qed.
End Check.
