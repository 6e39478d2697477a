(** The localiser over the sqlite3 provider: crates/localiser/src/localiser.rs with the trait of
    crates/provider/core/src/provider.rs as implemented by crates/provider/sqlite3/src/provider.rs. *)
From Verif Require Import Base LexerModel CommandModel FormatterModel RegistryModel ProviderModel LocaliserModel.

(** provider.rs 1178-1220 [string] and 1480-1497 [component_details] as the localiser uses them. A language tag is a reference
    made by the language tag registry, so that it is in canonical form (C25); for other strings, which cannot occur, there is
    no answer. That a call has the value it has for a new provider is C47. *)
Definition sqlite_provider (E : penv) (p : sprovider) : provider perror :=
  mk_provider
    (fun c i t => match pe_canon E t with
                  | Some t' => if ueqb t t' then snd (string_ E p c i t pstate_new) else Ok None
                  | None => Ok None
                  end)
    (fun c => let! cd := snd (component_details E p c pstate_new) in Ok (cd_default cd)).

(** A localiser with such a provider. *)
Definition system (E : penv) (p : sprovider) (ic : icu) (fe : fmtenv) (reg : cregistry) (locale : ustr -> ustr)
  (script : ustr -> option ustr) (fuel : nat) : lenv perror :=
  mk_lenv ic fe reg locale (sqlite_provider E p) script fuel.
