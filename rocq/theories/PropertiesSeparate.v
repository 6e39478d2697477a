(** Property C51, continued: what holds of the independence of components. *)
From Verif Require Import Base BaseFacts ProviderModel ProviderSpec ProviderProofs ProviderProofs7 ProviderProofs8 RowsSpec RowsProofs SeparateSpec SeparateProofs PropertiesProvider PropertiesRows.

(** If there are details at all, those of a component and of its identifiers are given by the rows of the component in its files. *)
Theorem C51_separate_partial : forall E es es' p p' h h' c cd cd', made es p -> made es' p' -> same_component p p' c ->
  result E p h (CallComponent c) = Ok (AnComponent cd) -> result E p' h' (CallComponent c) = Ok (AnComponent cd') -> cd = cd'.
Proof.
  intros E es es' p p' h h' c cd cd' Hm Hm' Hs H H'. apply made_ok in Hm, Hm'. rewrite (result_component E p Hm) in H. rewrite (result_component E p' Hm') in H'.
  apply bind_Ok in H as (x & Hx & [= ->]). apply bind_Ok in H' as (x' & Hx' & [= ->]). exact (component_details_same E p p' Hm Hm' c Hs cd cd' Hx Hx').
Qed.
Print Assumptions C51_separate_partial.
Theorem C51_identifier_partial : forall E es es' p p' h h' c i o o', made es p -> made es' p' -> same_component p p' c ->
  result E p h (CallIdentifier c i) = Ok (AnIdentifier o) -> result E p' h' (CallIdentifier c i) = Ok (AnIdentifier o') -> o = o'.
Proof.
  intros E es es' p p' h h' c i o o' Hm Hm' Hs H H'. pose proof (made_ok es p Hm) as Hp. pose proof (made_ok es' p' Hm') as Hp'.
  pose proof (C86_languages_partial E es es' p p' h h' c i o o' Hm Hm' (component_string p p' c Hs i) H H') as Hl.
  rewrite (result_identifier E p Hp) in H. rewrite (result_identifier E p' Hp') in H'.
  apply bind_Ok in H as (x & Hx & [= ->]). apply bind_Ok in H' as (x' & Hx' & [= ->]).
  destruct (identifier_value E p Hp c i o Hx) as (cd & _ & Hcd & Hd & _). destruct (identifier_value E p' Hp' c i o' Hx') as (cd' & _ & Hcd' & Hd' & _).
  pose proof (component_details_same E p p' Hp Hp' c Hs cd cd' Hcd Hcd') as <-. destruct o as [l d], o' as [l' d']. cbn in *. congruence.
Qed.
Print Assumptions C51_identifier_partial.
(** There are details if every component has a default language with contributors (see C39). *)
Theorem C51_fine_partial : forall E es es' p p' h h' c, made es p -> made es' p' -> env_fine E p -> env_fine E p' -> defaults_fine E p -> defaults_fine E p' ->
  known p c -> same_component p p' c -> exists cd, result E p h (CallComponent c) = Ok (AnComponent cd) /\ result E p' h' (CallComponent c) = Ok (AnComponent cd).
Proof.
  intros E es es' p p' h h' c Hm Hm' He He' Hd Hd' Hk Hs. destruct (proj2 (C39_succeeds E es p h Hm He Hd) c Hk) as (cd & H).
  destruct (proj2 (C39_succeeds E es' p' h' Hm' He' Hd') c (proj1 (proj1 Hs) Hk)) as (cd' & H').
  pose proof (C51_separate_partial E es es' p p' h h' c cd cd' Hm Hm' Hs H H') as <-. eauto.
Qed.
Print Assumptions C51_fine_partial.
(** Another component, of another file, and rows of it in the file of the first. *)
Definition more_components : list entry :=
  [file "lib" [row "lib" "x" "de" "X"] [wrote "lib" "de" "Max"] [main "lib" "de"];
   file "app" [row "lib" "y" "en" "Y"; row "app" "greet" "en-ZA" "Howzit"; row "app" "greet" "en" "Hello"] [wrote "lib" "en" "Ann"; wrote "app" "en" "Ann"] [main "app" "en"]].
Example C51_example_separate : same_component (prov za_first) (prov more_components) (us "app") /\
  result env_stored (prov za_first) [] (CallComponent (us "app")) = result env_stored (prov more_components) [] (CallComponent (us "app")) /\
  result env_stored (prov more_components) [] (CallComponent (us "app")) =
    Ok (AnComponent (mk_cdetails [(us "en", mk_lgdata 1 (Some (1, 1)%N) [us "Ann"])] (us "en") 1)) /\
  result env_stored (prov more_components) [] (CallRepository) <> result env_stored (prov za_first) [] CallRepository.
Proof.
  split; [split; [unfold known; vm_compute; tauto | split; vm_compute; reflexivity]|]. split; [vm_compute; reflexivity|]. split; [vm_compute; reflexivity|].
  vm_compute. discriminate.
Qed.
Example C51_example_identifier : exists o o', result env_stored (prov za_first) [] (CallIdentifier (us "app") (us "greet")) = Ok (AnIdentifier o) /\
  result env_stored (prov more_components) [CallRepository] (CallIdentifier (us "app") (us "greet")) = Ok (AnIdentifier o') /\ o = o' /\
  o = mk_idetails [us "en-ZA"; us "en"] (us "en").
Proof. do 2 eexists. split; [vm_compute; reflexivity|]. split; [vm_compute; reflexivity|]. split; vm_compute; reflexivity. Qed.
