(** Boolean checkers for the conditions of [DocSpec], used in examples only. *)
From Verif Require Import Base BaseFacts LexerModel LexerSpec LexerProofs TreeSpec IcuExample DocSpec.

Definition ne (w : ustr) : bool := match w with [] => false | _ => true end.
Definition textb (w : ustr) : bool := forallb (fun c => negb (char_mem c l10n_grammar)) w.
Definition identb (d : icu) (w : ustr) : bool := ne w && forallb (fun c => negb (white_space d c) && negb (syntax d c)) w.
Definition wsb (d : icu) (w : ustr) : bool := forallb (white_space d) w.
Definition ws1b (d : icu) (w : ustr) : bool := ne w && wsb d w.
Definition synb (d : icu) (x : dsyn) : bool :=
  match x with
  | DEsc c => char_mem c l10n_grammar
  | DHash => true
  | DPlace id None => identb d id
  | DPlace id (Some (w, k, sels)) =>
      identb d id && ws1b d w && identb d k &&
      forallb (fun x => ws1b d (fst x) && identb d (fst (snd x)) && identb d (snd (snd x))) sels
  | DCmd name delay ps =>
      identb d name && match delay with None => true | Some w => wsb d w && match ps with [] => false | _ => true end end &&
      forallb (fun p => ws1b d (fst p) && identb d (snd p)) ps
  end.
Definition strb (d : icu) (s : dstr) : bool := textb (ds_text s) && forallb (fun x => synb d (fst x) && textb (snd x)) (ds_rest s).
Definition namedb (d : icu) (x : dnamed) : bool :=
  identb d (dn_id x) && ws1b d (dn_ws x) && strb d (dn_str x) && wsb d (dn_after x) &&
  match ds_text (dn_str x) with [] => true | c :: _ => negb (white_space d c) end.
Definition mainb (d : icu) (s : dstr) : bool :=
  strb d s && forallb (fun x => match fst x with DHash => false | _ => true end) (ds_rest s).
Definition docb (d : icu) (e : doc) : bool :=
  mainb d (d_main e) &&
  match d_group e with None => true | Some (w, l) => wsb d w && match l with [] => false | _ => true end && forallb (namedb d) l end.

Ltac bool :=
  repeat match goal with
  | H : (_ && _)%bool = true |- _ => apply andb_prop in H; destruct H
  | H : negb _ = true |- _ => apply Bool.negb_true_iff in H
  end.

Lemma forallb_imp {A} (f : A -> bool) (P : A -> Prop) l : (forall x, f x = true -> P x) -> forallb f l = true -> Forall P l.
Proof. intros H Hf. rewrite forallb_forall in Hf. apply Forall_forall. intros x Hx. apply H. apply Hf. exact Hx. Qed.

Lemma textb_ok w : textb w = true -> is_text w.
Proof. apply forallb_imp. intros c H Hin. bool. apply char_mem_In in Hin. congruence. Qed.
Lemma identb_ok d w : identb d w = true -> is_ident d w.
Proof. intros H. unfold identb in H. bool. split; [destruct w; discriminate|]. revert H0. apply forallb_imp. intros; bool; auto. Qed.
Lemma wsb_ok d w : wsb d w = true -> is_ws d w.
Proof. apply forallb_imp. auto. Qed.
Lemma ws1b_ok d w : ws1b d w = true -> is_ws1 d w.
Proof. intros H. unfold ws1b in H. bool. split; [destruct w; discriminate | apply wsb_ok; assumption]. Qed.
#[local] Hint Resolve textb_ok identb_ok wsb_ok ws1b_ok : core.
Lemma synb_ok d x : synb d x = true -> syn_wf d x.
Proof.
  destruct x as [c| |id [[[w k] sels]|]|name delay ps]; cbn [synb syn_wf]; intros H; bool; auto.
  - apply char_mem_In; exact H.
  - split; [auto|]. split; [auto|]. split; [auto|]. revert H0. apply forallb_imp. intros; bool; auto.
  - split; [auto|]. split; [|revert H0; apply forallb_imp; intros; bool; auto].
    destruct delay; [|exact I]. bool. split; [auto | destruct ps; discriminate].
Qed.
Lemma strb_ok d s : strb d s = true -> str_wf d s.
Proof. intros H. unfold strb in H. bool. split; [auto|]. revert H0. apply forallb_imp. intros x H0; bool. split; [apply synb_ok; assumption | auto]. Qed.
Lemma namedb_ok d x : namedb d x = true -> named_wf d x.
Proof.
  intros H. unfold namedb in H. bool. split; [auto|]. split; [auto|]. split; [apply strb_ok; assumption|]. split; [auto|].
  destruct (ds_text (dn_str x)); [exact I | bool; assumption].
Qed.
Lemma mainb_ok d s : mainb d s = true -> main_wf d s.
Proof.
  intros H. unfold mainb in H. bool. split; [apply strb_ok; assumption|]. revert H0. apply forallb_imp. intros (x, w); cbn. destruct x; discriminate.
Qed.
Lemma docb_ok d e : docb d e = true -> doc_wf d e.
Proof.
  intros H. unfold docb in H. bool. split; [apply mainb_ok; assumption|]. destruct (d_group e) as [(w, l)|]; [|exact I]. bool.
  split; [auto|]. split; [destruct l; discriminate|]. revert H1. apply forallb_imp. apply namedb_ok.
Qed.

Fixpoint nodupb (l : list ustr) : bool := match l with [] => true | x :: r => negb (umem x r) && nodupb r end.
Lemma nodupb_ok l : nodupb l = true -> NoDup l.
Proof.
  induction l as [|x l IH]; cbn; intros H; [constructor|]. bool. constructor; [|auto]. intros Hin. apply umem_In in Hin. congruence.
Qed.
Definition uniqueb (e : doc) : bool := nodupb (placeholder_names (doc_content e)) && nodupb (string_names (doc_content e)).
Lemma uniqueb_ok e : uniqueb e = true -> unique_names e.
Proof. intros H. unfold uniqueb in H. bool. split; apply nodupb_ok; assumption. Qed.

Definition plainb (d : icu) (s : dstr) : bool :=
  match ds_text s with
  | c :: _ => negb (white_space d c) && negb (syntax d c)
  | [] => match ds_rest s with (DHash, _) :: _ => true | _ => false end
  end.
Fixpoint apartb (l : list (dsyn * ustr)) : bool :=
  match l with
  | (DHash, []) :: ((DHash, _) :: _) => false
  | _ :: r => apartb r
  | [] => true
  end.
Definition supportedb (d : icu) (e : doc) : bool :=
  match d_group e with None => true | Some (_, l) => forallb (fun x => plainb d (dn_str x) && apartb (ds_rest (dn_str x))) l end.
Lemma apartb_ok l : apartb l = true -> hash_apart l.
Proof.
  induction l as [|(x, w) l IH]; [intros; exact I|]. cbn. destruct x; auto. destruct w; auto. destruct l as [|(y, v) l]; auto.
  destruct y; auto. discriminate.
Qed.
Lemma supportedb_ok d e : supportedb d e = true -> supported d e.
Proof.
  unfold supportedb, supported. destruct (d_group e) as [(w, l)|]; [|auto]. apply forallb_imp. intros x H; bool.
  split; [|apply apartb_ok; assumption]. unfold plainb, starts_plain in *. destruct (ds_text (dn_str x)); [|bool; auto].
  destruct (ds_rest (dn_str x)) as [|([]&?) ?]; try discriminate; exact I.
Qed.

Lemma icu_ex_ok : icu_ok icu_ex.
Proof. intros c H. vm_compute in H. repeat (destruct H as [<-|H]; [split; reflexivity|]). contradiction. Qed.
