(** Histories of the language tag registry. *)
From Verif Require Import Base RegistryModel.

(** Canonical forms are canonical, and they are locales. Both are properties of icu_locid. *)
Definition locid_ok (L : locid) : Prop :=
  forall s y, canon L s = Some y -> canon L y = Some y /\ parse_locale L y <> None.

(** [reachable h rs r]: [r] is the registry after some calls, where [h] are the strings asked for (latest first) and [rs]
    the references returned by [tag]. References given to [icu_language] were returned before. *)
Inductive reachable (L : locid) : list ustr -> list tref -> lregistry -> Prop :=
| rc_new : reachable L [] [] lreg_new
| rc_tag h rs r s r' o : reachable L h rs r -> tag L r s = (r', o) ->
    reachable L (s :: h) (match o with Ok x => x :: rs | _ => rs end) r'
| rc_icu h rs r t r' o : reachable L h rs r -> In t rs -> icu_language L r t = (r', o) -> reachable L h rs r'.

(** The strings asked for whose canonical form is [y]. *)
Definition requested (L : locid) (h : list ustr) (y : ustr) : Prop := exists s, In s h /\ canon L s = Some y.
