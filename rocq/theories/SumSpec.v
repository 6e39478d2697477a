(** How the details of the repository and those of the components are meant to belong together, whatever SQLite answers (C114). *)
From Verif Require Import Base RegistryModel ProviderModel ProviderSpec QueryModel QuerySpec.

(** The number of strings of a language. *)
Definition count_of (m : amap lgdata) (t : ustr) : N := match mget t m with Some x => lg_count x | None => 0%N end.
(** Contributors of some language of a component. *)
Definition wrote_some (cd : cdetails) (n : ustr) : Prop := exists t x, mget t (cd_languages cd) = Some x /\ In n (lg_contributors x).

(** The total of a component is the sum over its languages. *)
Definition own_sum (cd : cdetails) : Prop := cd_total cd = sumN (map (fun x => lg_count (snd x)) (cd_languages cd)).
(** The repository is the sum of its components. *)
Record sums (cds : amap cdetails) (rd : rdetails) : Prop := mk_sums {
  su_components : rd_components rd = mkeys cds;
  su_total : rd_total rd = sumN (map (fun y => cd_total (snd y)) cds);
  su_default : rd_default rd = option_map cd_default (mget (us "application") cds);
  su_languages : forall t, mhas t (rd_languages rd) = true <-> exists c cd, mget c cds = Some cd /\ mhas t (cd_languages cd) = true;
  su_count : forall t, count_of (rd_languages rd) t = sumN (map (fun y => count_of (cd_languages (snd y)) t) cds);
  su_contributors : forall n, In n (rd_contributors rd) <-> exists c cd, mget c cds = Some cd /\ wrote_some cd n;
  su_once : NoDup (rd_contributors rd) /\ NoDup (mkeys (rd_languages rd));
  su_ratio : forall t x, mget t (rd_languages rd) = Some x ->
    lg_ratio x = match rd_default rd with Some d => Some (lg_count x, count_of (rd_languages rd) d) | None => None end;
  su_own : forall c cd, mget c cds = Some cd -> own_sum cd
}.
