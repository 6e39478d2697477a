(** What is stored for one string, and which parts of a provider a localiser uses. *)
From Verif Require Import Base ProviderModel ProviderSpec LocaliserModel LocaliserSpec.

(** The rows of table pattern of the identifier [i] of the component [c]. *)
Definition rows_of (c i : ustr) (d : db) : list prow := filter (fun r => ueqb (pr_component r) c && ueqb (pr_identifier r) i) (db_pattern d).
(** Two providers know the component [c] or not, and have the same rows for [i] in the files holding [c]. Whatever else is in the
    files - other strings, contributors, default languages - may differ. *)
Definition same_string (p p' : sprovider) (c i : ustr) : Prop :=
  (known p c <-> known p' c) /\
  option_map (rows_of c i) (aio_db p c) = option_map (rows_of c i) (aio_db p' c) /\
  option_map (rows_of c i) (own_db p c) = option_map (rows_of c i) (own_db p' c).

(** Two providers give the same answers as far as requests are concerned: for the strings asked for, in any language, and for the
    default language of the component if it is needed. *)
Definition same_answers {PE} (P P' : provider PE) (rs : list request) : Prop := forall q, In q rs ->
  (forall t, pv_string P (rq_component q) (rq_identifier q) t = pv_string P' (rq_component q) (rq_identifier q) t) /\
  (rq_fallback q = true -> pv_string P (rq_component q) (rq_identifier q) (rq_tag q) = Ok None ->
   pv_default P (rq_component q) = pv_default P' (rq_component q)).
(** The localiser with another provider. *)
Definition with_provider {PE} (L : lenv PE) (P : provider PE) : lenv PE :=
  mk_lenv (le_icu L) (le_fmt L) (le_reg L) (le_locale L) P (le_script L) (le_fuel L).
(** The results of a history of calls. *)
Fixpoint results {PE} (L : lenv PE) (st : lstate) (h : list lcall) : list (option (outcome (localiser_error PE) (ustr * ustr))) :=
  match h with [] => [] | c :: r => snd (lstep L st c) :: results L (fst (lstep L st c)) r end.
(** No request falls back to the default language: it is not asked for, or there is a string in the language asked for, or an error. *)
Definition no_fallback {PE} (P : provider PE) (rs : list request) : Prop := forall q, In q rs ->
  rq_fallback q = true -> pv_string P (rq_component q) (rq_identifier q) (rq_tag q) <> Ok None.
