(** What calls are meant to answer while the files change, also during a call (C113). *)
From Verif Require Import Base FormatterModel LocaliserModel RegistryModel ProviderModel ProviderSpec QueryModel QuerySpec FreshSpec.

(** The content of the files when a query is made, after those made before. *)
Definition changing := list qcall -> contents.
(** SQLite answers each query from the content at that time. *)
Definition reads_changing (E : penv) (W : changing) (D : database) : Prop := forall h q,
  D h q = match select E (qc_file q) (W h (qc_file q)) (qc_sql q) (qc_params q) with Ok rows => Some rows | _ => None end.
(** A time during a call, from the state [s] before it to its result [r]: before, between or after its queries. *)
Definition during {A} (s : qstate) (r : qstate * A) (h : list qcall) : Prop :=
  exists before rest, h = fst s ++ before /\ fst (fst r) = h ++ rest.

(** The files in which a component is looked for. *)
Definition file_of (p : sprovider) (c f : ustr) : Prop := exists files, mget c (sp_components p) = Some files /\
  ((fst files = true /\ f = aio) \/ (snd files = true /\ f = c)).
(** The one looked into first. *)
Definition first_file (p : sprovider) (c f : ustr) : Prop := exists files, mget c (sp_components p) = Some files /\
  if fst files then f = aio else snd files = true /\ f = c.
(** The strings in an answer to a lookup. *)
Definition strings_in (a : panswer) : list (ustr * ustr) :=
  match a with AnString (Some y) => [y] | AnStrings l => l | _ => [] end.
(** A language tag in its canonical form has no character with a meaning in LIKE. *)
Definition plain_tags (E : penv) : Prop := forall a b, pe_canon E a = Some b -> no_wildcard b.
(** A provider that has one text only, for whatever is asked. *)
Definition holding (text tag : ustr) : provider perror := mk_provider (fun _ _ _ => Ok (Some (text, tag))) (fun _ => Ok tag).
