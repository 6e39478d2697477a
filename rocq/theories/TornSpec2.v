(** What details are meant to be that are put together while the files change (C113). *)
From Verif Require Import Base RegistryModel ProviderModel ProviderSpec QueryModel QuerySpec FreshSpec TornSpec.

(** What one content of a file says of a component: it has contributors in a language; one of them. *)
Definition speaks_in (E : penv) (d : db) (c t : ustr) : Prop := exists r, In r (db_contributor d) /\ co_component r = c /\ pe_canon E (co_tag r) = Some t.
Definition wrote_in (d : db) (c t n : ustr) : Prop := exists r, In r (db_contributor d) /\ co_component r = c /\ co_tag r = t /\ co_name r = n.

(** A part of the details that comes from the file for all components at one time, and from the file of the component at another. *)
Definition from_files (W : changing) (files : bool * bool) (c : ustr) (when : list qcall -> Prop) (P : option db -> option db -> Prop) : Prop :=
  exists h1 h2, when h1 /\ when h2 /\ P (if fst files then Some (W h1 aio) else None) (if snd files then Some (W h2 c) else None).
Definition said (P : db -> Prop) (d : option db) : Prop := match d with Some d => P d | None => False end.
(** The file, if there is one, has no default language of the component. *)
Definition silent (c : ustr) (d : option db) : Prop := match d with Some d => no_default_in d c | None => True end.
Definition number (d : option db) (c t : ustr) : N := match d with Some d => stored_in d c t | None => 0 end.

(** The details of a component, each part as it was at some time. *)
Definition pieced (E : penv) (W : changing) (files : bool * bool) (c : ustr) (when : list qcall -> Prop) (cd : cdetails) : Prop :=
  from_files W files c when (fun d1 d2 => forall t, mhas t (cd_languages cd) = true <-> said (fun d => speaks_in E d c t) d1 \/ said (fun d => speaks_in E d c t) d2) /\
  from_files W files c when (fun d1 d2 => said (fun d => default_in E d c (cd_default cd)) d1 \/
    (silent c d1 /\ said (fun d => default_in E d c (cd_default cd)) d2)) /\
  forall t data, mget t (cd_languages cd) = Some data ->
    from_files W files c when (fun d1 d2 => forall n, In n (lg_contributors data) <-> said (fun d => wrote_in d c t n) d1 \/ said (fun d => wrote_in d c t n) d2) /\
    from_files W files c when (fun d1 d2 => lg_count data = (number d1 c t + number d2 c t)%N) /\
    exists def, mget (cd_default cd) (cd_languages cd) = Some def /\ lg_ratio data = Some (lg_count data, lg_count def).
(** A string of an identifier is stored in a language. *)
Definition told_in (E : penv) (d : db) (c i t : ustr) : Prop := exists r, In r (db_pattern d) /\ pr_component r = c /\ pr_identifier r = i /\ pe_canon E (pr_tag r) = Some t.
