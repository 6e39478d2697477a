(** Common definitions: strings, UTF-8 lengths, outcomes, association maps.
    Nothing in this file models a particular function of /repo; it models the parts of Rust's
    standard library the code relies on. *)
From Coq Require Export List Arith NArith ZArith Bool Lia Ascii String.
Export ListNotations.
Open Scope list_scope.
Open Scope nat_scope.

(** A Rust [char] is a code point, a Rust [String]/[&str] a list of code points. *)
Notation uchar := N (only parsing).
Notation ustr := (list N) (only parsing).

(** ASCII literals. *)
Fixpoint s2u (s : string) : ustr :=
  match s with
  | EmptyString => []
  | String a r => N_of_ascii a :: s2u r
  end.
Definition us (s : string) : ustr := s2u s.
Arguments us s%string_scope.
Definition ch (s : string) : uchar := match s2u s with c :: _ => c | [] => 0%N end.
Arguments ch s%string_scope.

(** UTF-8 length of a code point ([char::len_utf8]) and of a string ([str::len]). *)
Definition clen (c : uchar) : nat :=
  if (c <? 128)%N then 1 else if (c <? 2048)%N then 2 else if (c <? 65536)%N then 3 else 4.
Fixpoint blen (s : ustr) : nat :=
  match s with [] => 0 | c :: r => clen c + blen r end.

(** String equality. *)
Fixpoint ueqb (a b : ustr) : bool :=
  match a, b with
  | [], [] => true
  | x :: a', y :: b' => N.eqb x y && ueqb a' b'
  | _, _ => false
  end.

Definition umem (x : ustr) (l : list ustr) : bool := existsb (ueqb x) l.

(** Result of a Rust computation: a value, an [Err] value, a panic, or - for
    fuelled recursion only - running out of fuel. *)
Inductive outcome (E A : Type) : Type :=
| Ok (a : A)
| Err (e : E)
| Panic
| NoFuel.
Arguments Ok {E A} _.
Arguments Err {E A} _.
Arguments Panic {E A}.
Arguments NoFuel {E A}.

Definition bind {E A B} (x : outcome E A) (f : A -> outcome E B) : outcome E B :=
  match x with
  | Ok a => f a
  | Err e => Err e
  | Panic => Panic
  | NoFuel => NoFuel
  end.
Notation "'let!' x ':=' a 'in' b" := (bind a (fun x => b))
  (at level 200, x pattern, a at level 100, b at level 200, right associativity).

Definition map_err {E F A} (f : E -> F) (x : outcome E A) : outcome F A :=
  match x with
  | Ok a => Ok a
  | Err e => Err (f e)
  | Panic => Panic
  | NoFuel => NoFuel
  end.

(** [Option::unwrap] *)
Definition unwrap {E A} (o : option A) : outcome E A :=
  match o with Some a => Ok a | None => Panic end.

(** [Option::ok_or] / [let Some(..) = .. else return Err(..)] *)
Definition ok_or {E A} (o : option A) (e : E) : outcome E A :=
  match o with Some a => Ok a | None => Err e end.

(** HashMap with string keys: association list, [minsert] replaces in place. *)
Definition amap (V : Type) := list (ustr * V).
Fixpoint mget {V} (k : ustr) (m : amap V) : option V :=
  match m with
  | [] => None
  | (k', v) :: r => if ueqb k k' then Some v else mget k r
  end.
Fixpoint minsert {V} (k : ustr) (v : V) (m : amap V) : amap V :=
  match m with
  | [] => [(k, v)]
  | (k', v') :: r => if ueqb k k' then (k', v) :: r else (k', v') :: minsert k v r
  end.
Definition mhas {V} (k : ustr) (m : amap V) : bool :=
  match mget k m with Some _ => true | None => false end.
Definition mkeys {V} (m : amap V) : list ustr := map fst m.

(** [Vec] element replacement *)
Fixpoint lset {A} (l : list A) (i : nat) (x : A) : list A :=
  match l, i with
  | [], _ => []
  | _ :: r, O => x :: r
  | y :: r, S j => y :: lset r j x
  end.

Definition last_opt {A} (l : list A) : option A := nth_error l (List.length l - 1).
