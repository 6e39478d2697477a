(** How often the language tag registry parses (crates/utility/src/language.rs): what is given to icu_locid. *)
From Verif Require Import Base RegistryModel RegThreadsModel.

(** language.rs 157-184: [tag] comes to [canonicalize] if the string is in neither map. *)
Definition tag_parses (r : lregistry) (s : ustr) : bool :=
  match mget s (lr_tags r) with
  | Some _ => false
  | None => match mget s (lr_deprecated r) with Some _ => false | None => true end
  end.
(** language.rs 260-272: [icu_language] comes to [try_from_bytes] if the tag has no locale in the map. *)
Definition icu_parses (r : lregistry) (t : tref) : bool := match mget (r_tag t) (lr_icu r) with Some _ => false | None => true end.

Inductive rcall := CTag (s : ustr) | CIcu (t : tref).
Section Parse.
  Variable L : locid.
  Definition rstep (r : lregistry) (c : rcall) : lregistry := match c with CTag s => fst (tag L r s) | CIcu t => fst (icu_language L r t) end.
  (** The strings parsed as tags, and those parsed as locales, by the calls of a script. *)
  Fixpoint parsed (r : lregistry) (cs : list rcall) : list ustr :=
    match cs with
    | [] => []
    | c :: cs => (match c with CTag s => if tag_parses r s then [s] else [] | CIcu _ => [] end) ++ parsed (rstep r c) cs
    end.
  Fixpoint parsed_icu (r : lregistry) (cs : list rcall) : list ustr :=
    match cs with
    | [] => []
    | c :: cs => (match c with CIcu t => if icu_parses r t then [r_tag t] else [] | CTag _ => [] end) ++ parsed_icu (rstep r c) cs
    end.
  (** Threads: the turns at which thread [i] parses [s] (184, no lock is held). *)
  Definition parses_now (t : tstate) (s : ustr) : bool := match t with TTag (PCanon q) _ => ueqb q s | _ => false end.
  Fixpoint parse_turns (w : world) (sch : list nat) (i : nat) (s : ustr) : nat :=
    match sch with
    | [] => 0
    | j :: sch =>
        match world_step L w j with
        | Some w' => (if Nat.eqb j i && parses_now (w_threads w i) s then 1 else 0)%bool + parse_turns w' sch i s
        | None => parse_turns w sch i s
        end
    end.
  (** The turns at which thread [i] makes the locale of the tag [k] (272 and 69-73, no lock is held). *)
  Definition locates_now (t : tstate) (k : ustr) : bool := match t with TIcu u _ => ueqb (r_tag u) k | _ => false end.
  Fixpoint locale_turns (w : world) (sch : list nat) (i : nat) (k : ustr) : nat :=
    match sch with
    | [] => 0
    | j :: sch =>
        match world_step L w j with
        | Some w' => (if Nat.eqb j i && locates_now (w_threads w i) k then 1 else 0)%bool + locale_turns w' sch i k
        | None => locale_turns w sch i k
        end
    end.
End Parse.
