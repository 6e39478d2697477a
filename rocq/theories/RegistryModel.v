(** Model of crates/utility/src/language.rs: the language tag registry, sequentially and under thread schedules. *)
From Verif Require Import Base.

(** language.rs 54-56 [LanguageTag] behind a reference count: the address of the allocation and the string. *)
Record tref := mk_tref { r_id : nat; r_tag : ustr }.

(** External code of icu_locid: [canonicalize] (language.rs 184) gives the canonical string of a well-formed tag,
    [try_from_bytes] (language.rs 72) the locale, here given by its string. *)
Record locid := mk_locid { canon : ustr -> option ustr; parse_locale : ustr -> option ustr }.

(** language.rs 106-116 [LanguageTagRegistry]; [lr_next] is the next free address. The keys of [icu] are compared by the
    tag's string (derived [Eq] and [Hash], language.rs 53). A value of [icu] is the address of the locale and the locale. *)
Record lregistry := mk_lregistry {
  lr_tags : amap tref;
  lr_deprecated : amap tref;
  lr_icu : amap tref;
  lr_next : nat
}.
(** language.rs 119-126 [new] *)
Definition lreg_new : lregistry := mk_lregistry [] [] [] 0.

Inductive registry_error := IcuLocid.
Definition rout := outcome registry_error.

Definition set_tags (r : lregistry) (m : amap tref) : lregistry := mk_lregistry m (lr_deprecated r) (lr_icu r) (lr_next r).
Definition set_deprecated (r : lregistry) (m : amap tref) : lregistry := mk_lregistry (lr_tags r) m (lr_icu r) (lr_next r).
Definition fresh (r : lregistry) (s : ustr) : lregistry * tref :=
  (mk_lregistry (lr_tags r) (lr_deprecated r) (lr_icu r) (S (lr_next r)), mk_tref (lr_next r) s).

Section Registry.
  Variable L : locid.

  (** language.rs 157-232 [tag], without feature [sync] *)
  Definition tag (r : lregistry) (s : ustr) : lregistry * rout tref :=
    match mget s (lr_tags r) with                                                  (* 159-162 *)
    | Some x => (r, Ok x)
    | None =>
        match mget s (lr_deprecated r) with                                        (* 169-173 *)
        | Some x => (r, Ok x)
        | None =>
            match canon L s with                                                   (* 184 *)
            | None => (r, Err IcuLocid)
            | Some new =>
                match mget new (lr_tags r) with                                    (* 188-194 *)
                | Some x => (set_deprecated r (minsert s x (lr_deprecated r)), Ok x)
                | None =>
                    let (r1, x) := fresh r new in                                  (* 208 *)
                    let r2 := if ueqb s new then r1
                              else set_deprecated r1 (minsert s x (lr_deprecated r1)) in (* 209-220 *)
                    (set_tags r2 (minsert new x (lr_tags r2)), Ok x)               (* 222-231 *)
                end
            end
        end
    end.

  (** language.rs 260-286 [icu_language] with 71-73; the locale is freshly allocated. *)
  Definition icu_language (r : lregistry) (t : tref) : lregistry * rout tref :=
    match mget (r_tag t) (lr_icu r) with
    | Some x => (r, Ok x)
    | None =>
        match parse_locale L (r_tag t) with
        | None => (r, Panic)
        | Some l =>
            let (r1, x) := fresh r l in
            (mk_lregistry (lr_tags r1) (lr_deprecated r1) (minsert (r_tag t) x (lr_icu r1)) (lr_next r1), Ok x)
        end
    end.

  (** language.rs 310-316, 337-351, 375-396; the order of a [HashMap] is unspecified. *)
  Definition list_tags (r : lregistry) : list tref := map snd (lr_tags r).
  Definition list_deprecated (r : lregistry) : list tref := map snd (lr_deprecated r).
  Definition list_all (r : lregistry) : list tref := list_tags r ++ list_deprecated r.

  (** ** Feature [sync]: threads calling [tag] concurrently.
      A step is one critical section. The guard of [tags.lock()] in language.rs 196-203 lives until the end of the
      [if let], so the lock on [tags] is held while [deprecated] is locked: [PHold]. In all other places a guard is
      dropped before the next lock is taken. *)
  Inductive pc :=
  | PTags (s : ustr)                    (* 164-167 *)
  | PDeprecated (s : ustr)              (* 175-178 *)
  | PCanon (s : ustr)                   (* 184, no lock *)
  | PAgain (s new : ustr)               (* 196 *)
  | PHold (s : ustr) (x : tref)         (* 197-202, holding tags *)
  | PCreate (s new : ustr)              (* 208-220 *)
  | PInsert (s : ustr) (x : tref)       (* 228-231 *)
  | PDone (s : ustr) (o : rout tref).

  Record conc := mk_conc { g_reg : lregistry; g_lock : option nat; g_threads : list pc }.

  (** One step of thread [i]; [None] if it is finished, does not exist or waits for the lock on [tags]. *)
  Definition pc_step (r : lregistry) (free : bool) (p : pc) : option (lregistry * bool * pc) :=
    match p with
    | PTags s =>
        if free then Some (r, false, match mget s (lr_tags r) with Some x => PDone s (Ok x) | None => PDeprecated s end)
        else None
    | PDeprecated s => Some (r, false, match mget s (lr_deprecated r) with Some x => PDone s (Ok x) | None => PCanon s end)
    | PCanon s => Some (r, false, match canon L s with Some new => PAgain s new | None => PDone s (Err IcuLocid) end)
    | PAgain s new =>
        if free then
          match mget new (lr_tags r) with
          | Some x => Some (r, true, PHold s x)
          | None => Some (r, false, PCreate s new)
          end
        else None
    | PHold s x => Some (set_deprecated r (minsert s x (lr_deprecated r)), false, PDone s (Ok x))
    | PCreate s new =>
        let (r1, x) := fresh r new in
        Some (if ueqb s new then r1 else set_deprecated r1 (minsert s x (lr_deprecated r1)), false, PInsert s x)
    | PInsert s x =>
        if free then Some (set_tags r (minsert (r_tag x) x (lr_tags r)), false, PDone s (Ok x)) else None
    | PDone _ _ => None
    end.
  Definition conc_step (g : conc) (i : nat) : option conc :=
    match nth_error (g_threads g) i with
    | None => None
    | Some p =>
        match pc_step (g_reg g) (match g_lock g with None => true | Some _ => false end) p with
        | None => None
        | Some (r, hold, p') =>
            let lock := if hold then Some i
                        else match p with PHold _ _ => None | _ => g_lock g end in
            Some (mk_conc r lock (lset (g_threads g) i p'))
        end
    end.

  (** A schedule is the sequence of threads taking a step; a thread that cannot step is skipped. *)
  Fixpoint conc_run (g : conc) (sch : list nat) : conc :=
    match sch with
    | [] => g
    | i :: r => conc_run (match conc_step g i with Some g' => g' | None => g end) r
    end.
  Definition conc_start (r : lregistry) (args : list ustr) : conc := mk_conc r None (map PTags args).
End Registry.
