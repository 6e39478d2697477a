(** Property C77 of the sqlite3 provider. *)
From Verif Require Import Base BaseFacts RegistryModel ProviderModel ProviderSpec ProviderSpec2 ProviderProofs ProviderProofs8 ProviderProofs9 PropertiesProvider.

(** ** C77: the errors of the methods of a provider tell the truth. False: an identifier that does not exist makes a component
    that does not be found (see C50). *)
Theorem C77_errors_refuted : exists E es p k e, made es p /\ env_fine E p /\ result E p [] k = Err e /\ ~ provider_says E p e.
Proof.
  exists env_stored, dir_ex, (prov dir_ex), (CallIdentifier (us "lib") (us "none")), (PComponentNotFound (us "lib")).
  split; [exact dir_made|]. split; [apply stored_fine|]. split; [vm_compute; reflexivity|]. intros H. apply H. vm_compute. right. left. reflexivity.
Qed.
Print Assumptions C77_errors_refuted.

(** What every error means for the call, whatever calls came before; and it tells the truth, except that the details of an
    identifier of which the all in one file has no string say that the component does not exist. *)
Theorem C77_errors_partial : forall E es p h k e, made es p -> order_ok E -> result E p h k = Err e ->
  provider_reports E p k e /\ ((forall c i, k = CallIdentifier c i -> ~ absent_in_aio p c i) -> provider_says E p e).
Proof.
  intros E es p h k e Hm Ho H. apply made_ok in Hm. pose proof (call_reports E p Hm Ho h k e H) as Hr. split; [exact Hr|]. intros Hk.
  destruct e as [c|x|c|c|]; cbn [provider_reports] in Hr; try exact (proj1 Hr); [|exact Hr].
  destruct Hr as (_ & [Hn|(i & Hi & Ha)]); [exact Hn | destruct (Hk c i Hi Ha)].
Qed.
Print Assumptions C77_errors_partial.

(** If no query fails, the methods that look for strings fail only for a component that does not exist, or because of a string
    with the identifier asked for, of which the language tag is not valid; the other rows of the files do not matter. *)
Theorem C77_strings : forall E es p h k c i e, made es p -> order_ok E -> (forall f q ps, pe_ok E f q ps = true) -> string_call k c i ->
  result E p h k = Err e ->
  (e = PComponentNotFound c /\ ~ known p c) \/
  ((exists x, e = PRegistry x) /\
   exists d r, source p c d /\ In r (db_pattern d) /\ pr_component r = c /\ pr_identifier r = i /\ pe_canon E (pr_tag r) = None).
Proof.
  intros E es p h k c i e Hm Ho Hok Hk H. destruct (C77_errors_partial E es p h k e Hm Ho H) as (Hr & Hs).
  destruct e as [c'|x|c'|c'|]; cbn [provider_reports] in Hr.
  - left. assert (c' = c) as ->.
    { destruct Hr as ([(i' & [(t' & H')|H'])|H'] & _); destruct Hk as (t & Hk); [|destruct Hk as [->|[->| ->]]; discriminate H' | destruct Hk as [->|[->| ->]]; discriminate H'].
      destruct Hk as [->|[->| ->]]; destruct H' as [H'|[H'|H']]; try discriminate H'; injection H' as ->; reflexivity. }
    split; [reflexivity|]. apply Hs. intros c' i' ->. destruct Hk as (t & [Hk|[Hk|Hk]]); discriminate Hk.
  - right. split; [eauto|]. exact (proj2 Hr c i Hk).
  - destruct (proj2 Hr c i Hk).
  - destruct (proj2 Hr c i Hk).
  - destruct Hr as (f & q & ps & Hf). rewrite Hok in Hf. discriminate Hf.
Qed.
Print Assumptions C77_strings.

(** A component of the own file, with a default language of which it has no contributor; one without default; one with a
    language tag that is not valid; and one of which the default language has no string, for which there is an error
    (error.rs 31), that is not returned. *)
Definition canon_no (t : ustr) : option ustr := if ueqb t (us "xx") then None else Some t.
Definition env_no : penv := mk_penv canon_no (fun _ _ _ => true) (fun _ _ _ l => l) (fun _ _ _ l => l) (fun _ _ _ l => l).
Example C77_example :
  result env_stored (prov [file "a" [row "a" "x" "en" "X"] [wrote "a" "en" "Ann"] [main "a" "fr"]]) [] CallRepository = Err (PInvalidDefaultLanguage (us "a")) /\
  result env_stored (prov [file "a" [row "a" "x" "en" "X"] [wrote "a" "en" "Ann"] []]) [] (CallComponent (us "b")) = Err (PDefaultLanguage (us "a")) /\
  result env_stored (prov dir_ex) [] (CallComponent (us "b")) = Err (PComponentNotFound (us "b")) /\
  result env_no (prov [file "a" [row "a" "x" "xx" "X"; row "a" "y" "en" "Y"] [wrote "a" "en" "Ann"] [main "a" "en"]]) []
    (CallString (us "a") (us "x") (us "xx")) = Err (PRegistry IcuLocid) /\
  result env_no (prov [file "a" [row "a" "x" "xx" "X"; row "a" "y" "en" "Y"] [wrote "a" "en" "Ann"] [main "a" "en"]]) []
    (CallString (us "a") (us "y") (us "en")) = Ok (AnString (Some (us "Y", us "en"))) /\
  match result env_stored (prov [file "a" [row "a" "x" "fr" "X"] [wrote "a" "en" "Ann"; wrote "a" "fr" "Bo"] [main "a" "en"]]) [] (CallComponent (us "a")) with
  | Ok (AnComponent cd) => cd_default cd = us "en" | _ => False end.
Proof. repeat split; vm_compute; reflexivity. Qed.
