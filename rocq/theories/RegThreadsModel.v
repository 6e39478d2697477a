(** Threads that use one language tag registry for anything and any number of times (crates/utility/src/language.rs, feature [sync]).
    [RegistryModel] has threads that call [tag] once. *)
From Verif Require Import Base RegistryModel.

(** What a thread does: calls of the methods of the registry, each with what is done with the answer. A panic may be caught. *)
Inductive rprog :=
| REnd
| RTag (s : ustr) (k : rout tref -> rprog)                (* 157-232 *)
| RIcu (t : tref) (k : rout tref -> rprog)                (* 260-286 *)
| RList (k : list tref -> rprog)                          (* 310-316 *)
| RDeprecated (k : list tref -> rprog)                    (* 337-351 *)
| RAll (k : list tref -> rprog).                          (* 375-396 *)
(** Between two steps a thread holds no lock, but for [PHold] of [RegistryModel]. *)
Inductive tstate :=
| TRest (p : rprog)
| TTag (p : pc) (k : rout tref -> rprog)
| TIcu (t : tref) (k : rout tref -> rprog)                (* 272: the locale is not in the registry *)
| TIcuInsert (t x : tref) (k : rout tref -> rprog)        (* 280-283 *)
| TAll (l : list tref) (k : list tref -> rprog).          (* 386-395 *)
(** What is written down about the calls (not in the code): a thread asks for a tag; answers. *)
Inductive said :=
| SAsk (s : ustr)
| STag (s : ustr) (o : rout tref)
| SIcu (t : tref) (o : rout tref)
| SList (l : list tref)
| SDeprecated (l : list tref)
| SAll (l : list tref).
Record world := mk_world { w_reg : lregistry; w_lock : option nat; w_threads : nat -> tstate; w_log : list (nat * said) }.

Section Threads.
  Variable L : locid.
  Definition in_tag (p : pc) (k : rout tref -> rprog) : tstate * list said :=
    match p with PDone s o => (TRest (k o), [STag s o]) | _ => (TTag p k, []) end.
  Definition tag_step (r : lregistry) (free : bool) (p : pc) (k : rout tref -> rprog) : option (lregistry * bool * (tstate * list said)) :=
    match pc_step L r free p with Some (r', hold, p') => Some (r', hold, in_tag p' k) | None => None end.
  (** One critical section, or the code between two. *)
  Definition thread_step (r : lregistry) (free : bool) (t : tstate) : option (lregistry * bool * (tstate * list said)) :=
    match t with
    | TRest REnd => None
    | TRest (RTag s k) =>
        match tag_step r free (PTags s) k with
        | Some (r', hold, (t', l)) => Some (r', hold, (t', l ++ [SAsk s]))
        | None => None
        end
    | TTag p k => tag_step r free p k
    | TRest (RIcu t k) =>                                                             (* 266-269 *)
        match mget (r_tag t) (lr_icu r) with
        | Some x => Some (r, false, (TRest (k (Ok x)), [SIcu t (Ok x)]))
        | None => Some (r, false, (TIcu t k, []))
        end
    | TIcu t k =>                                                                     (* 272, and 69-73: no lock is held *)
        match parse_locale L (r_tag t) with
        | Some l => let (r', x) := fresh r l in Some (r', false, (TIcuInsert t x k, []))
        | None => Some (r, false, (TRest (k Panic), [SIcu t Panic]))
        end
    | TIcuInsert t x k =>
        Some (mk_lregistry (lr_tags r) (lr_deprecated r) (minsert (r_tag t) x (lr_icu r)) (lr_next r), false, (TRest (k (Ok x)), [SIcu t (Ok x)]))
    | TRest (RList k) => if free then Some (r, false, (TRest (k (list_tags r)), [SList (list_tags r)])) else None
    | TRest (RDeprecated k) => Some (r, false, (TRest (k (list_deprecated r)), [SDeprecated (list_deprecated r)]))
    | TRest (RAll k) => if free then Some (r, false, (TAll (list_tags r) k, [])) else None      (* 380 *)
    | TAll l k => let a := l ++ list_deprecated r in Some (r, false, (TRest (k a), [SAll a]))
    end.
  Definition releases (t : tstate) : bool := match t with TTag (PHold _ _) _ => true | _ => false end.
  Definition world_step (w : world) (i : nat) : option world :=
    match thread_step (w_reg w) (match w_lock w with None => true | Some _ => false end) (w_threads w i) with
    | None => None
    | Some (r, hold, (t, l)) =>
        Some (mk_world r (if hold then Some i else if releases (w_threads w i) then None else w_lock w)
                (fun j => if Nat.eqb j i then t else w_threads w j) (map (fun a => (i, a)) l ++ w_log w))
    end.
  (** A schedule; a thread that has ended or waits for a lock is skipped. *)
  Fixpoint world_run (w : world) (sch : list nat) : world :=
    match sch with
    | [] => w
    | i :: sch => world_run (match world_step w i with Some w' => w' | None => w end) sch
    end.
  Definition world_start (r : lregistry) (ps : nat -> rprog) : world := mk_world r None (fun i => TRest (ps i)) [].
End Threads.
