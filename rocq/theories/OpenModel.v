(** Model of the part of crates/provider/sqlite3/src/provider.rs that reads the directory (114-246 [try_new]), and of the
    conversions of errors on the way (crates/provider/sqlite3/src/error.rs 254-270 and 517-521, [From]). *)
From Verif Require Import Base RegistryModel ProviderModel ErrorModel.

(** An entry of a directory: the extension of its path, and what [ProviderModel] knows of it. *)
Record fsitem := mk_fsitem { fi_extension : option ustr; fi_entry : entry }.
(** The file system as [try_new] sees it: the path given, as [Path::display] shows it, unless it cannot be converted to a
    [PathBuf] (119); whether it is a directory (122); and what reading it gives (136-138): the text of an [IoError], or the
    entries, of which each can be an error too. *)
Record fs := mk_fs {
  fs_path : option ustr;
  fs_is_dir : bool;
  fs_read : ustr + list (ustr + fsitem)
}.

(** error.rs 517-521: [From<Sqlite3Error> for SchemaError]; [sq] is the text of the error of SQLite. *)
Definition schema_of (sq : ustr) (e : schema_error) : schema_err :=
  match e with
  | SMissingTable t => SeMissingTable t
  | SMissingColumn t c => SeMissingColumn t c
  | SColumnProperty t c p => SeColumnProperty t c p
  | SColumnDefault t c d => SeColumnDefault t c d
  | SVersion p v => SeVersion p v
  | SSqlite => SeSqlite3 sq
  end.
(** error.rs 260-270: [From<Sqlite3Error>] and [From<SchemaError> for ProviderSqlite3Error]; 238 of provider.rs. *)
Definition sqlite3_of (sq path : ustr) (e : new_error) : sqlite3_err :=
  match e with
  | NSchema e => QeSchemaInvalid (schema_of sq e)
  | NSqlite => QeSqlite3 sq
  | NNoSqlite3Files => QeNoSqlite3Files path
  end.

(** provider.rs 137-230: the loop over the entries. Line 138: [From<IoError>], error.rs 254-258. *)
Fixpoint add_items (sq path : ustr) (comp_ok : db -> bool) (items : list (ustr + fsitem)) (p : sprovider)
  : outcome sqlite3_err sprovider :=
  match items with
  | [] => Ok p
  | inl w :: _ => Err (QeIo w)
  | inr it :: rest =>
      match fi_extension it with
      | Some x =>
          if ueqb x (us "sqlite3") then
            let! p' := map_err (sqlite3_of sq path) (add_entries comp_ok [fi_entry it] p) in
            add_items sq path comp_ok rest p'
          else add_items sq path comp_ok rest p
      | None => add_items sq path comp_ok rest p
      end
  end.
(** provider.rs 114-246 [try_new] *)
Definition provider_open (sq : ustr) (comp_ok : db -> bool) (f : fs) : outcome sqlite3_err sprovider :=
  match fs_path f with
  | None => Err QePathConversion
  | Some path =>
      if negb (fs_is_dir f) then Err (QeNotDirectory path)
      else match fs_read f with
           | inl w => Err (QeIo w)
           | inr items =>
               let! p := add_items sq path comp_ok items (mk_sprovider [] []) in
               match sp_components p with [] => Err (QeNoSqlite3Files path) | _ => Ok p end
           end
  end.
