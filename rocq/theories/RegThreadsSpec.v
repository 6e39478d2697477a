(** What holds of a registry used by threads (C104). *)
From Verif Require Import Base RegistryModel RegistrySpec RegThreadsModel.

Section Spec.
  Variable L : locid.
  (** A tag is in canonical form. *)
  Definition canonical (x : tref) : Prop := canon L (r_tag x) = Some (r_tag x).
  (** An answer that is right whatever the other threads do. *)
  Definition right_answer (a : said) : Prop :=
    match a with
    | SAsk _ => True
    | STag s o => match canon L s with Some y => exists x, o = Ok x /\ r_tag x = y | None => o = Err IcuLocid end
    | SIcu t o => match parse_locale L (r_tag t) with Some l => exists x, o = Ok x /\ r_tag x = l | None => o = Panic end
    | SList l => NoDup (map r_tag l) /\ Forall canonical l
    | SDeprecated l | SAll l => Forall canonical l
    end.
  (** The language [y] was asked for: earlier ([h]), or by a thread. *)
  Definition asked (h : list ustr) (log : list (nat * said)) (y : ustr) : Prop :=
    requested L h y \/ exists i s, In (i, SAsk s) log /\ canon L s = Some y.
  (** The tag [y] was given as an answer: earlier, or to a thread. *)
  Definition given (h : list ustr) (log : list (nat * said)) (y : ustr) : Prop :=
    requested L h y \/ exists i s x, In (i, STag s (Ok x)) log /\ r_tag x = y.
  (** The thread is not in a call of [tag]. *)
  Definition outside (t : tstate) : Prop := match t with TTag _ _ => False | _ => True end.
  (** The thread has no more calls to make. *)
  Definition ended (t : tstate) : Prop := t = TRest REnd.
  (** The number of answers that thread [i] got, and the number of steps it made: a turn at which it waits is none. *)
  Definition answers_to (i : nat) (log : list (nat * said)) : nat :=
    List.length (filter (fun e : nat * said => Nat.eqb (fst e) i && match snd e with SAsk _ => false | _ => true end)%bool log).
  Fixpoint took (w : world) (sch : list nat) (i : nat) : nat :=
    match sch with
    | [] => 0
    | j :: sch => match world_step L w j with Some w' => (if Nat.eqb j i then 1 else 0) + took w' sch i | None => took w sch i end
    end.
  (** The first [m] turns of a schedule that goes on for ever, after [k]; every thread gets its turn again and again. *)
  Definition turns (f : nat -> nat) (k m : nat) : list nat := map f (seq k m).
  Definition fair (n : nat) (f : nat -> nat) : Prop := forall i k, i < n -> exists m, k <= m /\ f m = i.
End Spec.
(** What was said to thread [i], the first first. *)
Definition said_to (i : nat) (log : list (nat * said)) : list said := rev (map snd (filter (fun e : nat * said => Nat.eqb (fst e) i) log)).
(** A program that was said this has come so far: each call is the next of the program, which goes on with the answer. [true]: it has
    asked for a tag, and not been answered. *)
Inductive course : rprog -> list said -> rprog -> bool -> Prop :=
| co_here p : course p [] p false
| co_asked s k : course (RTag s k) [SAsk s] (RTag s k) true
| co_tag s k o l q b : course (k o) l q b -> course (RTag s k) (SAsk s :: STag s o :: l) q b
| co_icu t k o l q b : course (k o) l q b -> course (RIcu t k) (SIcu t o :: l) q b
| co_list k a l q b : course (k a) l q b -> course (RList k) (SList a :: l) q b
| co_deprecated k a l q b : course (k a) l q b -> course (RDeprecated k) (SDeprecated a :: l) q b
| co_all k a l q b : course (k a) l q b -> course (RAll k) (SAll a :: l) q b.
