(** A localiser as a notebook (C103): what was remembered is written down line by line, and nothing is ever changed in it. A string is
    formatted anew for every call. *)
From Verif Require Import Base LexerModel ValueModel CommandModel FormatterModel RegistryModel LocaliserModel LocaliserSpec GrowModel.

Inductive note :=
| Text (s t : ustr)          (* a string of language [t] to be given as it is *)
| Pattern (s t : ustr).      (* a string of language [t] to be formatted *)
(** A new page is begun for a language: older notes about it are not looked at again. A note is made about a string, on the page of a
    language. The newest line comes first. *)
Inductive line :=
| Page (t : ustr)
| Note (t name : ustr) (n : note).
Definition notebook := list line.
Definition has_page (t : ustr) (b : notebook) : bool := existsb (fun x => match x with Page t' => ueqb t t' | Note _ _ _ => false end) b.
Fixpoint noted (t name : ustr) (b : notebook) : option note :=
  match b with
  | [] => None
  | Page t' :: b => if ueqb t t' then None else noted t name b
  | Note t' name' n :: b => if ueqb t t' && ueqb name name' then Some n else noted t name b
  end.
(** The name of a string. *)
Definition full_name (component identifier : ustr) : ustr := component ++ us "/" ++ identifier.
Definition plain_text (s : ustr) : bool := forallb (fun c => negb (existsb (N.eqb c) (us "{}`#"))) s.

Section Notes.
  Context {PE : Type}.
  Variable E : lenv PE.
  Notation answer := (lout (PE := PE) (ustr * ustr)).

  (** What a new formatter gives for a string of language [t]. *)
  Definition new_formatter (s t : ustr) : outcome formatter_error formatter :=
    formatter_try_new (le_icu E) (us "{}`#") (le_fmt E) (le_reg E) t (le_locale E t) s.
  Definition fresh (s t : ustr) (vals : amap pvalue) : answer :=
    match new_formatter s t with
    | Ok fm => match snd (format (le_fuel E) (le_fmt E) (le_reg E) fm vals) with
               | Ok w => Ok (w, t)
               | Err e => Err (LFormatter e)
               | Panic => Panic
               | NoFuel => NoFuel
               end
    | Err e => Err (LFormatter e)
    | Panic => Panic
    | NoFuel => NoFuel
    end.

  (** A string of language [t'] is given as it is to someone who asked for language [t]; it is noted if [note] is set. The note goes
      to the page of [t'], a new one if [t] had no page. If [t] had a page and [t'] has none, there is no page to write on. *)
  Definition give_text (b : notebook) (note : bool) (t name s t' : ustr) : notebook * answer :=
    if negb note then (b, Ok (s, t'))
    else if negb (has_page t b) then (Note t' name (Text s t') :: Page t' :: b, Ok (s, t'))
    else if has_page t' b then (Note t' name (Text s t') :: b, Ok (s, t'))
    else (b, Panic).

  Definition note_literal (b : notebook) (c i t : ustr) (fallback note : bool) : notebook * answer :=
    match noted t (full_name c i) b with
    | Some (Text s t') => (b, Ok (s, t'))
    | Some (Pattern _ _) => (b, Err (LCacheEntry c i))
    | None =>
        match find_string E c i t fallback with
        | Ok (s, t') => give_text b note t (full_name c i) s t'
        | other => (b, other)
        end
    end.
  Definition note_format (b : notebook) (c i : ustr) (vals : amap pvalue) (t : ustr) (fallback note : bool) : notebook * answer :=
    match noted t (full_name c i) b with
    | Some (Text s t') => (b, Ok (s, t'))
    | Some (Pattern s t') => (b, fresh s t' vals)
    | None =>
        match find_string E c i t fallback with
        | Ok (s, t') =>
            if plain_text s then give_text b note t (full_name c i) s t'
            else
              (match new_formatter s t' with
               | Ok _ => if note then Note t (full_name c i) (Pattern s t') :: (if has_page t b then b else Page t :: b) else b
               | _ => b
               end, fresh s t' vals)
        | other => (b, other)
        end
    end.
  Fixpoint note_data (d : ldata) (t : ustr) (fallback note : bool) (b : notebook) {struct d} : notebook * answer :=
    match d with
    | LData c i None => note_literal b c i t fallback note
    | LData c i (Some vs) =>
        (fix go (vs : list (ustr * pvalue)) (new : amap pvalue) (b : notebook) {struct vs} :=
           match vs with
           | [] => note_format b c i new t fallback note
           | (ph, v) :: r =>
               match v with
               | VData inner =>
                   match note_data inner t fallback note b with
                   | (b', Ok (s, t')) => go r (minsert ph (VLocalised s t') new) b'
                   | other => other
                   end
               | _ => go r (minsert ph v new) b
               end
           end) vs [] b
    end.

  (** The settings, and the notebook. *)
  Record holder := mk_holder { nb_fallback : bool; nb_caching : bool; nb_tag : ustr; nb_notes : notebook }.
  Definition or_else {A} (o : option A) (a : A) : A := match o with Some x => x | None => a end.
  Definition note_step (x : holder) (c : lcall) : holder * option answer :=
    let f o := or_else o (nb_fallback x) in let n o := or_else o (nb_caching x) in
    let give (r : notebook * answer) := (mk_holder (nb_fallback x) (nb_caching x) (nb_tag x) (fst r), Some (snd r)) in
    match c with
    | CallFormat c i vals t fb ca => give (note_format (nb_notes x) c i vals t (f fb) (n ca))
    | CallFormatDefaults c i vals => give (note_format (nb_notes x) c i vals (nb_tag x) (f None) (n None))
    | CallLiteral c i t fb ca => give (note_literal (nb_notes x) c i t (f fb) (n ca))
    | CallLiteralDefaults c i => give (note_literal (nb_notes x) c i (nb_tag x) (f None) (n None))
    | CallData d t fb ca => give (note_data d t (f fb) (n ca) (nb_notes x))
    | CallDataDefaults d => give (note_data d (nb_tag x) (f None) (n None) (nb_notes x))
    | CallDefaults t fb ca => (mk_holder (f fb) (n ca) (or_else t (nb_tag x)) (nb_notes x), None)
    end.
End Notes.

(** A script of registrations and calls; the notebook is the only memory. *)
Fixpoint note_run {PE} (E : lenv PE) (x : holder) (r : cregistry) (h : list event) : holder * list (option (lout (PE := PE) (ustr * ustr))) :=
  match h with
  | [] => (x, [])
  | Insert name f :: h => note_run E x (if mhas name r then r else r ++ [(name, f)]) h
  | Use c :: h => let (x1, a) := note_step (with_reg E r) x c in let (x2, l) := note_run E x1 r h in (x2, a :: l)
  end.

(** When the answer for one string is that of a notebook with nothing in it. *)
Section Anew.
  Context {PE : Type}.
  Variable E : lenv PE.
  Definition anew_literal (c i t : ustr) (fallback : bool) := snd (note_literal E [] c i t fallback false).
  Definition anew_format (c i : ustr) (vals : amap pvalue) (t : ustr) (fallback : bool) := snd (note_format E [] c i vals t fallback false).
  (** There is no page for the note. *)
  Definition no_place (b : notebook) (note : bool) (t t' : ustr) : Prop := note = true /\ In (Page t) b /\ ~ In (Page t') b.
  Definition literal_as_new (b : notebook) (c i t : ustr) (fallback note : bool) : Prop :=
    match noted t (full_name c i) b with
    | Some (Text s t') => found E c i t fallback s t'
    | Some (Pattern _ _) => False
    | None => forall s t', found E c i t fallback s t' -> ~ no_place b note t t'
    end.
  Definition format_as_new (b : notebook) (c i : ustr) (vals : amap pvalue) (t : ustr) (fallback note : bool) : Prop :=
    match noted t (full_name c i) b with
    | Some (Text s t') => exists s', found E c i t fallback s' t' /\ string_gives E vals s' t' s
    | Some (Pattern s t') => anew_format c i vals t fallback = fresh E s t' vals
    | None => forall s t', found E c i t fallback s t' -> no_syntax s -> ~ no_place b note t t'
    end.
End Anew.
