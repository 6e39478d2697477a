(** Property C53 continued: where it is false, and fallback in histories. *)
From Verif Require Import Base BaseFacts LexerModel LexerSpec IcuExample TreeModel TreeSpec DocSpec ValueModel CommandModel FormatterModel FormatterSpec FmtExample
  FormatterProofs4 FormatterProofs5 RegistryModel ProviderModel ProviderSpec ProviderProofs ProviderProofs2 ProviderProofs8 LocaliserModel LocaliserSpec LocaliserProofs
  DocCheck SystemModel SystemSpec SystemProofs PropertiesProvider PropertiesFormatter PropertiesLocaliser PropertiesSystem.

(** The only row of its component, identifier and language. *)
Definition only_row (p : sprovider) (r : prow) : Prop := stored_row p r /\ forall r', stored_row p r' ->
  pr_component r' = pr_component r -> pr_identifier r' = pr_identifier r -> pr_tag r' = pr_tag r -> r' = r.

Definition dir_keys : list entry := [file "__all_in_one__" [row "a/b" "c" "en" "one"; row "a" "b/c" "en" "two"]
  [wrote "a/b" "en" "Ann"; wrote "a" "en" "Ann"] [main "a/b" "en"; main "a" "en"]].
Definition dir_order : list entry := [file "app" [row "app" "greet" "en-ZA" "Howzit"; row "app" "greet" "en" "Hello"] [wrote "app" "en" "Ann"] [main "app" "en"]].
Definition dir_swapped : list entry := [file "app" [mk_prow (us "app") (us "s") (us "en") (dprint swapped)] [wrote "app" "en" "Ann"] [main "app" "en"]].

Lemma one_file_row p n d r : sp_connections p = [(n, (d, us "1.0"))] -> stored_row p r <-> In r (db_pattern d).
Proof.
  intros Hc. unfold stored_row. rewrite Hc. split.
  - intros (f & d' & v & Hf & Hr). cbn in Hf. destruct (ueqb f n); [|discriminate]. injection Hf as <- _. exact Hr.
  - intros Hr. exists n, d, (us "1.0"). split; [cbn; now rewrite ueqb_refl | exact Hr].
Qed.

(** False: the cache takes the string of another component with the same key; SQLite gives the row of another language that starts with
    the same letters; and the text of a select placeholder is that of another branch. *)
Theorem C53_stored_refuted :
  (exists E es p r t h x, made es p /\ env_fine E p /\ fixed_order E p /\ only_row p r /\ pr_tag r = t /\
     let L := system E p icu_ex env_ex reg_ex (fun t => t) (fun _ => None) 8 in
     snd (lstep L (lrun L (localiser_new L true true t) h) (CallLiteral (pr_component r) (pr_identifier r) t None None)) = Some (Ok (x, t)) /\ x <> pr_string r) /\
  (exists E es p r t t' x, made es p /\ env_fine E p /\ fixed_order E p /\ only_row p r /\ pr_tag r = t /\
     let L := system E p icu_ex env_ex reg_ex (fun t => t) (fun _ => None) 8 in
     snd (lstep L (localiser_new L true false t) (CallLiteral (pr_component r) (pr_identifier r) t None None)) = Some (Ok (x, t')) /\ x <> pr_string r /\ t' <> t) /\
  (exists E es p r t e vals w x, made es p /\ env_fine E p /\ fixed_order E p /\ only_row p r /\ pr_tag r = t /\
     pr_string r = dprint e /\ doc_wf icu_ex e /\ unique_names e /\ supported icu_ex e /\ documented_text env_ex reg_ex t vals (doc_content e) w /\
     let L := system E p icu_ex env_ex reg_ex (fun t => t) (fun _ => None) 8 in
     snd (lstep L (localiser_new L true false t) (CallFormat (pr_component r) (pr_identifier r) vals t None None)) = Some (Ok (x, t)) /\ x <> w).
Proof.
  split; [|split].
  - exists env_stored, dir_keys, (prov dir_keys), (row "a" "b/c" "en" "two"), (us "en"), [CallLiteral (us "a/b") (us "c") (us "en") None None], (us "one").
    assert (Hm : made dir_keys (prov dir_keys)) by (apply prov_made; vm_compute; reflexivity).
    split; [exact Hm|]. split; [apply stored_fine|]. split; [apply stored_order|]. split.
    { assert (H : forall r, stored_row (prov dir_keys) r <-> In r [row "a/b" "c" "en" "one"; row "a" "b/c" "en" "two"])
        by (intros r; eapply one_file_row with (d := match en_db (hd (mk_entry None None) dir_keys) with Some d => d | None => mk_db schema_ex [] [] [] end); vm_compute; reflexivity).
      split; [apply H; right; now left|]. intros r' Hr H1 _ _. apply H in Hr. destruct Hr as [<-|[<-|[]]]; [vm_compute in H1; discriminate | reflexivity]. }
    split; [reflexivity|]. split; [vm_compute; reflexivity | discriminate].
  - exists env_stored, dir_order, (prov dir_order), (row "app" "greet" "en" "Hello"), (us "en"), (us "en-ZA"), (us "Howzit").
    assert (Hm : made dir_order (prov dir_order)) by (apply prov_made; vm_compute; reflexivity).
    split; [exact Hm|]. split; [apply stored_fine|]. split; [apply stored_order|]. split.
    { assert (H : forall r, stored_row (prov dir_order) r <-> In r [row "app" "greet" "en-ZA" "Howzit"; row "app" "greet" "en" "Hello"])
        by (intros r; eapply one_file_row with (d := match en_db (hd (mk_entry None None) dir_order) with Some d => d | None => mk_db schema_ex [] [] [] end); vm_compute; reflexivity).
      split; [apply H; right; now left|]. intros r' Hr _ _ H1. apply H in Hr. destruct Hr as [<-|[<-|[]]]; [vm_compute in H1; discriminate | reflexivity]. }
    split; [reflexivity|]. split; [vm_compute; reflexivity | split; discriminate].
  - exists env_stored, dir_swapped, (prov dir_swapped), (mk_prow (us "app") (us "s") (us "en") (dprint swapped)), (us "en"), swapped,
      [(us "v", VString (us "a"))], (us "BBB"), (us "AAA").
    assert (Hm : made dir_swapped (prov dir_swapped)) by (apply prov_made; vm_compute; reflexivity).
    split; [exact Hm|]. split; [apply stored_fine|]. split; [apply stored_order|]. split.
    { assert (H : forall r, stored_row (prov dir_swapped) r <-> In r [mk_prow (us "app") (us "s") (us "en") (dprint swapped)])
        by (intros r; eapply one_file_row with (d := match en_db (hd (mk_entry None None) dir_swapped) with Some d => d | None => mk_db schema_ex [] [] [] end); vm_compute; reflexivity).
      split; [apply H; now left|]. intros r' Hr _ _ _. apply H in Hr. destruct Hr as [<-|[]]. reflexivity. }
    destruct C16_select_refuted as (_ & H1 & H2 & H3 & _).
    split; [reflexivity|]. split; [reflexivity|]. split; [exact H1|]. split; [exact H2|]. split; [repeat constructor|]. split; [exact H3|].
    split; [vm_compute; reflexivity | discriminate].
Qed.
Print Assumptions C53_stored_refuted.

(** Fallback after any history of harmless requests: the string of the default language, or the panic of C32. *)
Theorem C53_fallback_history_partial : forall E es p ic fe reg locale script fuel fallback caching tag h c i t cd r ca hp,
  let L := system E p ic fe reg locale script fuel in let st := lrun L (localiser_new L fallback caching tag) h in
  database_fine E es p -> icu_ok ic -> stored_hash_ok ic p -> pe_canon E t = Some t -> (forall d, source p c d -> no_level d c i t false) ->
  result E p hp (CallComponent c) = Ok (AnComponent cd) -> translated E p c i (cd_default cd) r ->
  (let call := CallLiteral c i t (Some true) ca in
   harmless L (history_requests L (localiser_new L fallback caching tag) (h ++ [call])) ->
   snd (lstep L st call) = Some (Ok (pr_string r, cd_default cd)) \/ snd (lstep L st call) = Some Panic) /\
  (forall vals w, string_gives L vals (pr_string r) (cd_default cd) w -> let call := CallFormat c i vals t (Some true) ca in
   harmless L (history_requests L (localiser_new L fallback caching tag) (h ++ [call])) ->
   snd (lstep L st call) = Some (Ok (w, cd_default cd)) \/ snd (lstep L st call) = Some Panic).
Proof.
  intros E es p ic fe reg locale script fuel fallback caching tag h c i t cd r ca hp L st Hdb Hic Hh Hct Hno Hcd Htr.
  destruct (C53_fallback E es p ic fe reg locale script fuel c i t cd r st ca hp Hdb Hic Hct Hno Hcd Htr) as (H1 & _ & H3). fold L in H1, H3.
  split.
  - intros call Hrs. destruct (C52_transparent_partial E es p ic fe reg locale script fuel fallback caching tag h call Hdb Hic Hh Hrs) as [H|(H & _)].
    + left. fold L in H. fold st in H. rewrite H. exact H1.
    + right. exact H.
  - intros vals w Hw call Hrs. destruct (C52_transparent_partial E es p ic fe reg locale script fuel fallback caching tag h call Hdb Hic Hh Hrs) as [H|(H & _)].
    + left. fold L in H. fold st in H. rewrite H. exact (H3 vals w Hw).
    + right. exact H.
Qed.
Print Assumptions C53_fallback_history_partial.

(** Both happen: the first request for a language that is not translated falls back, a later one may panic. *)
Example C53_fallback_example :
  sys_after [] (CallLiteral (us "app") (us "esc") (us "fr") (Some true) None) = Some (Ok (us "`{name`}", us "en")) /\
  sys_after [CallLiteral (us "app") (us "bye") (us "en") None None] (CallLiteral (us "app") (us "esc") (us "fr") (Some true) None) = Some (Ok (us "`{name`}", us "en")) /\
  sys_after [CallLiteral (us "app") (us "bye") (us "fr") None None] (CallLiteral (us "app") (us "esc") (us "fr") (Some true) None) = Some Panic.
Proof. repeat split; vm_compute; reflexivity. Qed.
