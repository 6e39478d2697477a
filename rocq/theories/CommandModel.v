(** Model of crates/localiser/src/command.rs. *)
From Verif Require Import Base ValueModel.

(** error.rs 274-280 [CommandError]; the payload of [Custom] is kept as the localisation data it can be turned into. *)
Inductive command_error :=
| CustomError (d : ldata)
| AlreadyExists (command : ustr)
| NotFound (command : ustr)
| ParameterMissing (command : ustr) (index : nat)
| InvalidType (command : ustr) (index : nat).

Definition cout := outcome command_error.

(** Callback functions, command.rs 35: any function; a callback may panic. *)
Definition command := list pvalue -> cout ustr.

(** command.rs 34-36 [CommandRegistry], interior mutability made explicit. *)
Definition cregistry := amap command.

(** command.rs 58-65 *)
Definition creg_new : cregistry := [].

(** command.rs 94-109 [insert]; the state after the call is returned with the result. *)
Definition creg_insert (r : cregistry) (name : ustr) (f : command) : cregistry * cout unit :=
  if mhas name r then (r, Err (AlreadyExists name)) else (minsert name f r, Ok tt).

(** command.rs 133-143 [command] *)
Definition creg_command (r : cregistry) (name : ustr) : cout command := ok_or (mget name r) (NotFound name).

(** command.rs 161-163 [list]; the order of a [HashMap] is unspecified, here it is the order of insertion. *)
Definition creg_list (r : cregistry) : list ustr := mkeys r.

(** The common beginning of the two built-in commands (command.rs 180-196 and 206-222): the name of the command and its
    first parameter. Indexing [parameters[0]] of an empty vector panics. *)
Definition command_parameter (ps : list pvalue) : cout ustr :=
  match ps with
  | [] => Panic
  | VString name :: r =>
      match r with
      | [] => Err (ParameterMissing name 1)
      | VString s :: _ => Ok s
      | _ :: _ => Err (InvalidType name 1)
      end
  | _ :: _ => Err (InvalidType (us "command identifier") 0)
  end.

(** command.rs 179-200 [file_path]: [PathBuf::from_str] never fails and displaying a path made from a string gives that
    string. *)
Definition file_path (ps : list pvalue) : cout ustr := command_parameter ps.

(** command.rs 205-229 [english_a_or_an]; [chars.next().unwrap()] panics on the empty string. *)
Definition english_a_or_an (ps : list pvalue) : cout ustr :=
  let! s := command_parameter ps in
  let! c := unwrap (hd_error s) in
  if existsb (N.eqb c) (us "aeiou") then Ok (us "an") else Ok (us "a").
