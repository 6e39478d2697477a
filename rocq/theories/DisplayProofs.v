(** Proofs about the texts of the errors. *)
From Coq Require Import Lia PeanoNat DecimalNat DecimalFacts Decimal DecimalString.
From Verif Require Import Base BaseFacts LexerModel TreeModel ValueModel L10nData ErrorModel ErrorSpec DisplaySpec.

(** ** Numerals *)
Lemma us_cons c s : us (String c s) = N_of_ascii c :: us s.
Proof. reflexivity. Qed.
Lemma digits_uint : forall u w n, digits w n -> digits (w ++ us (NilEmpty.string_of_uint u)) (Nat.of_uint_acc u n).
Proof.
  assert (S : forall w n c d s m n', digits w n -> digit (N_of_ascii c) d -> (forall w n, digits w n -> digits (w ++ us s) (m n)) ->
    n' = Nat.tail_mul 10 n + d -> digits (w ++ us (String c s)) (m n')).
  { intros w n c d s m n' Hw Hd IH ->. rewrite us_cons. replace (w ++ N_of_ascii c :: us s) with ((w ++ [N_of_ascii c]) ++ us s) by now rewrite <- app_assoc.
    apply IH. rewrite Nat.tail_mul_spec. now constructor. }
  Local Opaque us.
  induction u as [|u IH|u IH|u IH|u IH|u IH|u IH|u IH|u IH|u IH|u IH]; intros w n Hw; cbn [NilEmpty.string_of_uint Nat.of_uint_acc].
  1: replace (us "") with (@nil uchar) by reflexivity; now rewrite app_nil_r.
  - apply (S w n _ 0 _ (Nat.of_uint_acc u)); [exact Hw|split; [lia|reflexivity]|exact IH|lia].
  - apply (S w n _ 1 _ (Nat.of_uint_acc u)); [exact Hw|split; [lia|reflexivity]|exact IH|lia].
  - apply (S w n _ 2 _ (Nat.of_uint_acc u)); [exact Hw|split; [lia|reflexivity]|exact IH|lia].
  - apply (S w n _ 3 _ (Nat.of_uint_acc u)); [exact Hw|split; [lia|reflexivity]|exact IH|lia].
  - apply (S w n _ 4 _ (Nat.of_uint_acc u)); [exact Hw|split; [lia|reflexivity]|exact IH|lia].
  - apply (S w n _ 5 _ (Nat.of_uint_acc u)); [exact Hw|split; [lia|reflexivity]|exact IH|lia].
  - apply (S w n _ 6 _ (Nat.of_uint_acc u)); [exact Hw|split; [lia|reflexivity]|exact IH|lia].
  - apply (S w n _ 7 _ (Nat.of_uint_acc u)); [exact Hw|split; [lia|reflexivity]|exact IH|lia].
  - apply (S w n _ 8 _ (Nat.of_uint_acc u)); [exact Hw|split; [lia|reflexivity]|exact IH|lia].
  - apply (S w n _ 9 _ (Nat.of_uint_acc u)); [exact Hw|split; [lia|reflexivity]|exact IH|lia].
Qed.
Lemma nzhead_zero u v : nzhead u <> D0 v.
Proof. induction u; cbn [nzhead]; try discriminate. exact IHu. Qed.
Lemma uint_norm n : Nat.to_uint n = unorm (Nat.to_uint n).
Proof. rewrite <- (DecimalNat.Unsigned.to_of (Nat.to_uint n)), DecimalNat.Unsigned.of_to. reflexivity. Qed.
Lemma show_numeral n : numeral (show n) n.
Proof.
  unfold show. split; [|split].
  - pose proof (digits_uint (Nat.to_uint n) [] 0 digits_none) as H. cbn [app] in H.
    change (Nat.of_uint_acc (Nat.to_uint n) 0) with (Nat.of_uint (Nat.to_uint n)) in H. now rewrite DecimalNat.Unsigned.of_to in H.
  - rewrite uint_norm. unfold unorm. destruct (nzhead (Nat.to_uint n)); discriminate.
  - intros v. rewrite uint_norm. unfold unorm. destruct (nzhead (Nat.to_uint n)) eqn:E; cbn [NilEmpty.string_of_uint]; rewrite us_cons; intros [= Hv].
    + now rewrite <- Hv.
    + destruct (nzhead_zero _ _ E).
Qed.
(** ** Finding a part of a text *)
Lemma contains_here x b : contains (x ++ b) x.
Proof. now exists [], b. Qed.
Lemma contains_cons c w x : contains w x -> contains (c :: w) x.
Proof. intros (a & b & ->). now exists (c :: a), b. Qed.
Lemma contains_app v w x : contains w x -> contains (v ++ w) x.
Proof. intros (a & b & ->). exists (v ++ a), b. now rewrite <- app_assoc. Qed.
Lemma contains_inside a w b x : contains w x -> contains (a ++ w ++ b) x.
Proof. intros (p & q & ->). exists (a ++ p), (q ++ b). now rewrite <- !app_assoc. Qed.
Lemma contains_trans u v w : contains u v -> contains v w -> contains u w.
Proof. intros (a & b & ->) H. now apply contains_inside. Qed.
Definition begins (w x : ustr) : Prop := exists b, w = x ++ b.
Lemma begins_nil w : begins w [].
Proof. now exists w. Qed.
Lemma begins_cons c w x : begins w x -> begins (c :: w) (c :: x).
Proof. intros (b & ->). now exists b. Qed.
Lemma begins_app v w x : begins w x -> begins (v ++ w) (v ++ x).
Proof. intros (b & ->). exists b. now rewrite <- app_assoc. Qed.
Lemma begins_contains w x : begins w x -> contains w x.
Proof. intros (b & ->). apply contains_here. Qed.
Lemma ended_cons c w : ended w -> ended (c :: w).
Proof. intros (a & ->). now exists (c :: a). Qed.
Lemma ended_app v w : ended w -> ended (v ++ w).
Proof. intros (a & ->). exists (v ++ a). now rewrite <- app_assoc. Qed.

(** The literals of the goal written out *)
Ltac literals :=
  repeat match goal with
  | |- context [us ?s] => let v := eval vm_compute in (us s) in change (us s) with v
  | |- context [u8 ?s] => let v := eval vm_compute in (u8 s) in change (u8 s) with v
  | |- context [ch ?s] => let v := eval vm_compute in (ch s) in change (ch s) with v
  end; cbn [app].
Ltac here := first [apply begins_nil | apply begins_cons; here | apply begins_app; here].
Ltac find := first [solve [apply begins_contains; here] | apply contains_cons; find | apply contains_app; find].
Ltac at_end := first [now exists [] | apply ended_cons; at_end | apply ended_app; at_end].

Lemma numbered_blank w noun n : contains w (noun ++ us " " ++ show n ++ us " ") -> numbered w noun n.
Proof. intros (a & b & ->). exists (show n), a, (ch " "), b. split; [apply show_numeral|]. split; [now rewrite <- !app_assoc|now left]. Qed.
Lemma numbered_stop w noun n : contains w (noun ++ us " " ++ show n ++ us ".") -> numbered w noun n.
Proof. intros (a & b & ->). exists (show n), a, (ch "."), b. split; [apply show_numeral|]. split; [now rewrite <- !app_assoc|now right]. Qed.

(** ** The parts of the texts *)
Local Opaque us u8.
Lemma node_text t : ntype_text t = node_name t.
Proof. now destruct t. Qed.
Lemma state_text s : pstate_text s = state_name s.
Proof. now destruct s. Qed.
Ltac open_text := cbn [error_text icu_text lexer_text registry_text provider_text sqlite3_text schema_text tree_text command_text localiser_text formatter_text];
  cbv zeta.
Ltac shut e := let H := fresh in pose proof e as H; clear H.

Lemma text_headed e : ~ headless e -> headed e (error_text e).
Proof.
  intros H. enough (G : begins (error_text e) (fst (error_name e) ++ us "::" ++ snd (error_name e) ++ us ": ")).
  { destruct G as (b & G). exists b. now rewrite G, <- !app_assoc. }
  revert H. destruct e as [e|e|e|e|e|e|e|e|e|e]; destruct e; intros H; try (exfalso; exact (H Logic.I)); clear H;
    cbn [error_name fst snd]; open_text; literals; here.
Qed.
Lemma text_headless e : headless e -> ~ headed e (error_text e).
Proof.
  destruct e as [e|e|e|e|e|e|e|e|e|e]; destruct e; intros H; try destruct H; intros (rest & G); revert G;
    cbn [error_name fst snd]; open_text; literals; discriminate.
Qed.
Lemma text_ended e : ended (error_text e).
Proof. destruct e as [e|e|e|e|e|e|e|e|e|e]; destruct e; open_text; literals; at_end. Qed.
Definition ends (w x : ustr) : Prop := exists head, w = head ++ x.
Lemma ends_here x : ends x x.
Proof. now exists []. Qed.
Lemma ends_cons c w x : ends w x -> ends (c :: w) x.
Proof. intros (h & ->). now exists (c :: h). Qed.
Lemma text_cause e : shows_cause e (error_text e).
Proof.
  intros k Hk. change (ends (error_text e) (us "[" ++ cause_text k ++ us "].")).
  destruct e as [e|e|e|e|e|e|e|e|e|e]; destruct e; try discriminate; injection Hk as <-; cbn [cause_text]; open_text; literals;
    repeat first [apply ends_here | apply ends_cons].
Qed.
Lemma text_facts e : ~ mixed_up e -> facts e (error_text e).
Proof.
  intros H. destruct e as [e|e|e|e|e|e|e|e|e|e]; destruct e; try exact Logic.I; try (exfalso; exact (H Logic.I)); clear H;
    cbn [facts]; open_text; rewrite ?node_text, ?state_text; unfold DisplaySpec.named, DisplaySpec.named_after; repeat split;
    solve [ literals; find | apply numbered_blank; literals; find | apply numbered_stop; literals; find | destruct fallback; literals; find ].
Qed.
Lemma text_due e k : due_to e k -> contains (error_text e) (us "[" ++ cause_text k ++ us "]").
Proof.
  assert (D : forall e k, cause_of e = Some k -> contains (error_text e) (us "[" ++ cause_text k ++ us "]")).
  { clear. intros e k H. destruct (text_cause e k H) as (h & ->). exists h, (us "."). rewrite <- !app_assoc. reflexivity. }
  induction 1 as [e k H|e e' k H _ IH]; [exact (D e k H)|]. apply D in H. cbn [cause_text] in H.
  apply (contains_trans _ _ _ H). now apply contains_inside.
Qed.

(** ** The names in front *)
Definition plain_name (w : ustr) : Prop := ~ In (ch ":") w.
Lemma split_name a b u v : plain_name a -> plain_name b -> a ++ ch ":" :: u = b ++ ch ":" :: v -> a = b /\ u = v.
Proof.
  revert b. induction a as [|x a IH]; intros [|y b] Ha Hb; cbn [app]; intros H.
  - injection H as ->. auto.
  - injection H as <- _. destruct Hb. now left.
  - injection H as -> _. destruct Ha. now left.
  - injection H as -> H. destruct (IH b) as (-> & ->); auto; intros K; [apply Ha|apply Hb]; now right.
Qed.
Lemma names_plain e : plain_name (fst (error_name e)) /\ plain_name (snd (error_name e)).
Proof.
  assert (P : forall s, existsb (N.eqb (ch ":")) (us s) = false -> plain_name (us s)).
  { intros s H K. assert (existsb (N.eqb (ch ":")) (us s) = true); [|congruence]. apply existsb_exists. exists (ch ":"). split; [exact K|apply N.eqb_refl]. }
  destruct e as [e|e|e|e|e|e|e|e|e|e]; destruct e; split; cbn [error_name fst snd]; apply P; vm_compute; reflexivity.
Qed.
Lemma heads_apart e e' w : headed e w -> headed e' w -> error_name e = error_name e'.
Proof.
  intros (r & ->) (r' & H). destruct (names_plain e) as (F & S), (names_plain e') as (F' & S').
  destruct (error_name e) as (t & v), (error_name e') as (t' & v'). cbn [fst snd] in *.
  change (us "::") with [ch ":"; ch ":"] in H. change (us ": ") with [ch ":"; ch " "] in H. cbn [app] in H.
  apply split_name in H as (-> & H); auto. injection H as H. apply split_name in H as (-> & _); auto.
Qed.

(** ** Search, to show that something is not said *)
Fixpoint beginsb (w x : ustr) : bool :=
  match x, w with [], _ => true | a :: x, b :: w => if N.eqb a b then beginsb w x else false | _, [] => false end.
Fixpoint containsb (w x : ustr) : bool :=
  if beginsb w x then true else match w with [] => false | _ :: w => containsb w x end.
Lemma beginsb_true x b : beginsb (x ++ b) x = true.
Proof. induction x as [|c x IH]; [now destruct b|]. cbn [app beginsb]. now rewrite N.eqb_refl. Qed.
Lemma containsb_true w x : contains w x -> containsb w x = true.
Proof.
  intros (a & b & ->). induction a as [|c a IH].
  - cbn [app]. destruct (x ++ b) eqn:E; cbn [containsb]; rewrite <- E, beginsb_true; reflexivity.
  - cbn [app containsb]. destruct (beginsb _ x); [reflexivity|exact IH].
Qed.
