(** Proofs for C94. *)
From Verif Require Import Base BaseFacts ValueModel CommandModel FormatterModel FormatterSpec SettleSpec.

(** ** Assignments *)
Lemma same_entries {A} (l l' : list A) : (forall i, nth_error l i = nth_error l' i) -> l = l'.
Proof.
  revert l'. induction l as [|x l IH]; intros [|y l'] H; [reflexivity|discriminate (H 0)|discriminate (H 0)|].
  injection (H 0) as <-. f_equal. apply IH. intros i. exact (H (S i)).
Qed.
Definition assign (w : list (nat * ustr)) (ns : nums) : nums := fold_left (fun m x => lset m (fst x) (snd x)) w ns.
Lemma assign_app w w' ns : assign (w ++ w') ns = assign w' (assign w ns).
Proof. apply fold_left_app. Qed.
Lemma assign_length w ns : List.length (assign w ns) = List.length ns.
Proof. revert ns. induction w as [|x w IH]; intros ns; [reflexivity|]. cbn. rewrite IH. apply lset_length. Qed.
(** The last assignment to a place. *)
Fixpoint last_to (w : list (nat * ustr)) (i : nat) : option ustr :=
  match w with
  | [] => None
  | (j, s) :: r => match last_to r i with Some x => Some x | None => if j =? i then Some s else None end
  end.
Lemma assign_nth w ns i : i < List.length ns ->
  nth_error (assign w ns) i = match last_to w i with Some s => Some s | None => nth_error ns i end.
Proof.
  revert ns. induction w as [|[j s] w IH]; intros ns Hi; [reflexivity|]. cbn [assign fold_left fst snd last_to].
  change (fold_left _ w ?m) with (assign w m). rewrite IH by now rewrite lset_length. destruct (last_to w i); [reflexivity|].
  destruct (Nat.eqb_spec j i) as [->|Hn]; [now apply lset_nth_eq|now apply lset_nth_ne].
Qed.
Lemma assign_twice w ns : assign w (assign w ns) = assign w ns.
Proof.
  apply same_entries. intros i. destruct (Nat.lt_ge_cases i (List.length ns)) as [Hi|Hi].
  - rewrite assign_nth by now rewrite assign_length. rewrite assign_nth by assumption. now destruct (last_to w i).
  - rewrite !(proj2 (nth_error_None _ _)); [reflexivity| |]; now rewrite ?assign_length.
Qed.
(** Open places after assignments, as open places before them. *)
Definition after (w : list (nat * ustr)) (p : piece) : piece :=
  match p with PcText s => PcText s | PcOpen i => match last_to w i with Some s => PcText s | None => PcOpen i end end.
Definition inside (n : nat) (l : list piece) : Prop := forall i, In (PcOpen i) l -> i < n.
Lemma complete_after w ns l : inside (List.length ns) l -> complete ns (map (after w) l) = complete (assign w ns) l.
Proof.
  unfold complete. rewrite map_map. intros H. f_equal. apply map_ext_in. intros [s|i] Hp; [reflexivity|]. cbn [after].
  specialize (H i Hp). pose proof (assign_nth w ns i H) as E. rewrite nth_error_nth' with (d := []) in E by now rewrite assign_length.
  destruct (last_to w i) as [s|]; [now injection E|]. rewrite nth_error_nth' with (d := []) in E by assumption. now injection E.
Qed.
Lemma complete_app ns l l' : complete ns (l ++ l') = complete ns l ++ complete ns l'.
Proof. unfold complete. now rewrite map_app, concat_app. Qed.

(** ** A run that depends on the memory only in open places *)
Definition opens (n : nat) (r : fout (list piece)) : Prop := match r with Ok l => inside n l | _ => True end.
Definition blind (Q : ustr -> Prop) (n : nat) (f : nums -> fst_out ustr) : Prop :=
  exists w r, Forall (fun x => Q (snd x)) w /\ opens n r /\ forall ns, List.length ns = n -> f ns = (assign w ns, completed ns r).

Lemma blind_const Q n (r : fout ustr) : blind Q n (fun ns => (ns, r)).
Proof.
  exists [], (match r with Ok s => Ok [PcText s] | Err e => Err e | Panic => Panic | NoFuel => NoFuel end).
  split; [constructor|]. split; [destruct r; try exact I; cbn; intros i [H|[]]; discriminate H|].
  intros ns _. destruct r; try reflexivity. cbn. now rewrite app_nil_r.
Qed.
Lemma blind_ext Q n f f' : (forall ns, List.length ns = n -> f ns = f' ns) -> blind Q n f' -> blind Q n f.
Proof. intros H (w & r & Hw & Ho & He). exists w, r. split; [exact Hw|]. split; [exact Ho|]. intros ns Hn. rewrite (H ns Hn). now apply He. Qed.

Section Run.
  Variables (fe : fmtenv) (reg : cregistry) (fm : formatter) (vals : amap pvalue) (n : nat).
  Notation num := (numeral fe (fm_locale fm)).
  Notation blind := (blind num n).
  Variable rec : ustr -> nums -> fst_out ustr.
  Hypothesis Hrec : forall named, blind (rec named).

  Lemma update_blind parts x : exists w r, Forall (fun y => snd y = x) w /\ forall ns, List.length ns = n -> update_numbers parts x ns = (assign w ns, r).
  Proof.
    induction parts as [|p parts IH]; [exists [], (Ok tt); split; [constructor|reflexivity]|].
    destruct IH as (w & r & Hw & He). destruct p as [|i| | | | |]; try (exists w, r; split; [exact Hw|exact He]).
    cbn [update_numbers]. destruct (i <? n) eqn:E.
    - exists ((i, x) :: w), r. split; [now constructor|]. intros ns Hn. rewrite Hn, E. cbn. apply He. now rewrite lset_length.
    - exists [], (Err (FNumberSignString i)). split; [constructor|]. intros ns Hn. now rewrite Hn, E.
  Qed.
  Lemma find_blind d rules idx : blind (find_number_sign fe fm rec d rules idx).
  Proof.
    unfold find_number_sign. destruct (fe_decimal fe (fm_locale fm) None) as [fdf|] eqn:Ef; [|apply blind_const]. cbn zeta.
    destruct (nth_error (fm_selectors fm) idx) as [sels|]; [|apply blind_const].
    destruct (mget (plural_category (rules d)) sels) as [named|]; [|apply blind_const].
    destruct (mget named (fm_patterns fm)) as [parts|]; [|apply blind_const].
    destruct (update_blind parts (fdf d)) as (w & r & Hw & He). destruct (Hrec named) as (w' & r' & Hw' & Ho & He').
    assert (Hq : Forall (fun y : nat * ustr => num (snd y)) w) by (eapply Forall_impl; [|exact Hw]; intros y Hy; exists fdf, d; auto).
    destruct r as [[]|e| |].
    - exists (w ++ w'), (match r' with Ok l => Ok (map (after w) l) | o => o end). split; [now apply Forall_app|]. split.
      { destruct r' as [l| | |]; try exact I. intros i Hi. apply in_map_iff in Hi as (p & Hp & Hi). apply Ho. destruct p as [s|j]; cbn in Hp; [discriminate|].
        destruct (last_to w j); [discriminate|]. injection Hp as <-. exact Hi. }
      intros ns Hn. rewrite (He ns Hn), (He' (assign w ns)) by now rewrite assign_length. rewrite assign_app. f_equal.
      destruct r' as [l| | |]; try reflexivity. cbn. f_equal. symmetry. apply complete_after. now rewrite Hn.
    - exists w, (Err e). split; [exact Hq|]. split; [exact I|]. intros ns Hn. now rewrite (He ns Hn).
    - exists w, Panic. split; [exact Hq|]. split; [exact I|]. intros ns Hn. now rewrite (He ns Hn).
    - exists w, Panic. split; [exact Hq|]. split; [exact I|]. intros ns Hn. now rewrite (He ns Hn).
  Qed.
  Lemma select_blind v idx : blind (format_select fm rec v idx).
  Proof.
    unfold format_select. destruct (nth_error (fm_selectors fm) idx) as [sels|]; [|apply blind_const].
    destruct (mget v sels) as [named|]; [apply Hrec|apply blind_const].
  Qed.
  Lemma part_blind p : blind (format_part fe reg fm vals rec p).
  Proof.
    destruct p as [|i| | | |ph c idx|]; try apply blind_const; cbn [format_part].
    - exists [], (if i <? n then Ok [PcOpen i] else Err (FNumberSignString i)). split; [constructor|].
      destruct (Nat.ltb_spec i n) as [Hi|Hi].
      + split; [intros j [[= <-]|[]]; exact Hi|]. intros ns Hn. cbn. f_equal. rewrite (nth_error_nth' ns []) by lia. cbn. unfold complete. cbn. now rewrite app_nil_r.
      + split; [exact I|]. intros ns Hn. cbn. f_equal. now rewrite (proj2 (nth_error_None ns i)) by lia.
    - destruct (mget ph vals) as [v|] eqn:Ev.
      2: { apply (blind_ext _ _ _ (fun ns => (ns, Err (FPlaceholderValue (us "PatternComplex") ph)))); [|apply blind_const]. intros ns _. cbn [format_part]. now rewrite Ev. }
      apply (blind_ext _ _ _ (format_complex fe fm rec c v idx)); [intros ns _; cbn [format_part]; now rewrite Ev|]. unfold format_complex. destruct c.
      + destruct (fe_cardinal fe (fm_locale fm)); [|apply blind_const]. destruct (number_of fe (us "PatternPlural") v); try apply blind_const. apply find_blind.
      + destruct (fe_ordinal fe (fm_locale fm)); [|apply blind_const]. destruct v; try apply blind_const. apply find_blind.
      + destruct (value_text v); [apply select_blind|apply blind_const].
  Qed.
  Lemma parts_blind l : blind (format_parts fe reg fm vals rec l).
  Proof.
    induction l as [|p l IH]; [apply (blind_const _ _ (Ok []))|]. destruct (part_blind p) as (w & r & Hw & Ho & He). destruct IH as (w' & r' & Hw' & Ho' & He').
    destruct r as [x|e| |].
    2: exists w, (Err e). 3: exists w, Panic. 4: exists w, NoFuel.
    2-4: (split; [exact Hw|]; split; [exact I|]; intros ns Hn; cbn [format_parts]; rewrite (He ns Hn); reflexivity).
    exists (w ++ w'), (match r' with Ok l => Ok (x ++ map (after w) l) | o => o end). split; [now apply Forall_app|]. split.
    { destruct r' as [l'| | |]; try exact I. intros i Hi. apply in_app_or in Hi as [Hi|Hi]; [now apply Ho|]. apply in_map_iff in Hi as (q & Hq & Hi). apply Ho'.
      destruct q as [s|j]; cbn in Hq; [discriminate|]. destruct (last_to w j); [discriminate|]. injection Hq as <-. exact Hi. }
    intros ns Hn. cbn [format_parts]. rewrite (He ns Hn). cbn [completed]. rewrite (He' (assign w ns)) by now rewrite assign_length. rewrite assign_app.
    destruct r' as [l'| | |]; try reflexivity. cbn [completed]. rewrite complete_app, complete_after; [reflexivity|now rewrite Hn].
  Qed.
End Run.

Lemma pattern_blind fe reg fm vals n fuel named : blind (numeral fe (fm_locale fm)) n (format_pattern fe reg fm vals fuel named).
Proof.
  revert named. induction fuel as [|f IH]; intros named; cbn [format_pattern]; [apply blind_const|].
  destruct (mget named (fm_patterns fm)) as [parts|]; [|apply blind_const]. now apply parts_blind.
Qed.

(** ** Formatters *)
Lemma numbers_aside fe reg fm ns vals fuel named : format_pattern fe reg (set_numbers fm ns) vals fuel named = format_pattern fe reg fm vals fuel named.
Proof. reflexivity. Qed.
Lemma after_numbers fe reg fm fm1 : after_formatting fe reg fm fm1 ->
  exists ns, fm1 = set_numbers fm ns /\ List.length ns = List.length (fm_numbers fm) /\
    forall i s, nth_error ns i = Some s -> nth_error (fm_numbers fm) i = Some s \/ numeral fe (fm_locale fm) s.
Proof.
  induction 1 as [|fm1 vals fuel _ (ns & -> & Hl & Hn)]; [exists (fm_numbers fm); split; [now destruct fm|]; split; [reflexivity|now left]|].
  destruct (pattern_blind fe reg fm vals (List.length (fm_numbers fm)) fuel (us "_")) as (w & r & Hw & _ & He).
  exists (assign w ns). unfold format. rewrite numbers_aside. cbn [fm_numbers set_numbers]. rewrite (He ns Hl). cbn [fst]. split; [reflexivity|].
  split; [now rewrite assign_length|]. intros i s Hi. assert (Hlt : i < List.length ns) by (rewrite <- (assign_length w); apply nth_error_Some; congruence).
  rewrite (assign_nth w ns i Hlt) in Hi. destruct (last_to w i) as [s'|] eqn:El; [|now apply Hn]. injection Hi as ->. right.
  revert El. clear -Hw. induction Hw as [|[j y] w Hy _ IH]; [discriminate|]. cbn [last_to]. destruct (last_to w i); [exact IH|]. destruct (j =? i); [|discriminate]. now intros [= <-].
Qed.
Lemma shape fe reg fm vals fuel : exists r, opens (List.length (fm_numbers fm)) r /\
  forall fm1, after_formatting fe reg fm fm1 -> snd (format fuel fe reg fm1 vals) = completed (fm_numbers fm1) r.
Proof.
  destruct (pattern_blind fe reg fm vals (List.length (fm_numbers fm)) fuel (us "_")) as (w & r & _ & Ho & He).
  exists r. split; [exact Ho|]. intros fm1 H. destruct (after_numbers _ _ _ _ H) as (ns & -> & Hl & _). unfold format. rewrite numbers_aside. cbn [fm_numbers set_numbers].
  now rewrite (He ns Hl).
Qed.
Lemma settled fe reg fm vals fuel : fst (format fuel fe reg (fst (format fuel fe reg fm vals)) vals) = fst (format fuel fe reg fm vals).
Proof.
  destruct (pattern_blind fe reg fm vals (List.length (fm_numbers fm)) fuel (us "_")) as (w & r & _ & Ho & He).
  unfold format at 2 3. rewrite (He _ eq_refl). cbn [fst]. unfold format. rewrite numbers_aside. cbn [fm_numbers set_numbers].
  rewrite He by apply assign_length. cbn [fst]. unfold set_numbers. cbn. now rewrite assign_twice.
Qed.
Lemma again_settled fe reg fm vals fuel n : repeated (fun fm => format fuel fe reg fm vals) n (fst (format fuel fe reg fm vals)) =
  repeat (snd (format fuel fe reg (fst (format fuel fe reg fm vals)) vals)) n.
Proof. induction n as [|n IH]; [reflexivity|]. cbn [repeated repeat]. f_equal. now rewrite settled. Qed.
Lemma same_completed m m' r : same_outcome (completed m r) (completed m' r).
Proof. now destruct r. Qed.
