(** Proofs for C97: lookups, and all calls. *)
From Coq Require Import Sorted.
From Verif Require Import Base BaseFacts RegistryModel ProviderModel ProviderSpec ProviderProofs ProviderProofs2 QueryModel QuerySpec QueryProofs QueryProofs2.

Lemma last_string_cases (l : list (ustr * ustr)) : match l with [] => last_string l = None | _ :: _ => exists y, last_string l = Some y end.
Proof.
  destruct l as [|x l]; [reflexivity|]. unfold last_string. revert x. induction l as [|y l IH]; intros x; cbn [map last]; [eauto|]. exact (IH y).
Qed.

Section Calls.
  Variable E : penv.
  Variable D : database.
  Variable p : sprovider.
  Hypothesis Hp : provider_ok p.
  Notation adds := (@adds _).

  Section Lookup.
    Variables (c i t : ustr) (files : bool * bool) (one exact : bool).
    Hypothesis Hc : mget c (sp_components p) = Some files.
    Let lv := levels (S (List.length t)) t.
    Let plan1 := if fst files then map (level_query one exact aio c i) lv else [].
    Let plan2 := if snd files then map (level_query one exact c c i) lv else [].
    Lemma adds_first : adds (if fst files then q_find_strings E D p c i t true one exact else qskip [])
      (fun h qs x => exists r, until_answered D h plan1 qs r /\ x = level_read E r).
    Proof.
      unfold plan1. destruct (fst files) eqn:Ef.
      - apply adds_find with files; [exact Hp|exact Hc|]. unfold file_of. now rewrite Ef.
      - apply adds_ret. intros h. exists (Some []). split; [constructor | reflexivity].
    Qed.
    Lemma adds_second : adds (if snd files then q_find_strings E D p c i t false one exact else qskip [])
      (fun h qs x => exists r, until_answered D h plan2 qs r /\ x = level_read E r).
    Proof.
      unfold plan2. destruct (snd files) eqn:Ef.
      - apply adds_find with files; [exact Hp|exact Hc|]. unfold file_of. cbn [andb]. now rewrite Ef.
      - apply adds_ret. intros h. exists (Some []). split; [constructor | reflexivity].
    Qed.
    Definition both_files : QM (list (ustr * ustr)) :=
      let& l := if fst files then q_find_strings E D p c i t true one exact else qskip [] in
      match l with
      | _ :: _ => qskip l
      | [] => if snd files then q_find_strings E D p c i t false one exact else qskip []
      end.
    Lemma adds_both : adds both_files (fun h qs x => exists r, until_answered D h (lookup_plan one exact files c i lv) qs r /\ x = level_read E r).
    Proof.
      unfold both_files, lookup_plan. fold plan1 plan2.
      apply (adds_bind _ _ _ (fun a h qs x => match a with _ :: _ => qs = [] /\ x = Ok a | [] => exists r, until_answered D h plan2 qs r /\ x = level_read E r end)
        _ adds_first).
      - intros [|y l]; [exact adds_second|]. apply adds_ret. intros h. auto.
      - intros h q1 [|y l] q2 x (r & Hr & Hx) H2.
        + symmetry in Hx. apply level_read_nil in Hx. subst r. destruct H2 as (r & H2 & ->). exists r. split; [|reflexivity]. now apply answered_app.
        + destruct H2 as (-> & ->). rewrite app_nil_r. exists r. split; [|exact Hx]. apply answered_stop; [exact Hr|]. intros ->. discriminate Hx.
      - intros h q1 e (r & Hr & Hx). exists r. split; [|exact Hx]. apply answered_stop; [exact Hr|]. intros ->. discriminate Hx.
      - intros h q1 (r & Hr & Hx). exists r. split; [|exact Hx]. apply answered_stop; [exact Hr|]. intros ->. discriminate Hx.
      - intros h q1 (r & Hr & Hx). exists r. split; [|exact Hx]. apply answered_stop; [exact Hr|]. intros ->. discriminate Hx.
    Qed.
  End Lookup.
  Lemma strings_both c i t files : mget c (sp_components p) = Some files -> forall s, q_strings E D p c i t s = both_files c i t files false false s.
  Proof. intros Hc s. unfold q_strings, both_files. rewrite Hc. reflexivity. Qed.
  Lemma one_string_both exact c i t files : mget c (sp_components p) = Some files ->
    forall s, q_one_string E D p exact c i t s = qbind (both_files c i t files true exact) (fun l => qskip (last_string l)) s.
  Proof.
    intros Hc s. unfold q_one_string, both_files. rewrite Hc. unfold qbind, qskip, qret. destruct (fst files).
    - destruct (q_find_strings E D p c i t true true exact s) as (s' & [[|y l]|e| |]); try reflexivity.
      + cbn [map last]. destruct (snd files); reflexivity.
      + destruct (last_string_cases (y :: l)) as (z & Hz). unfold last_string in *. now rewrite Hz.
    - cbn [map last]. destruct (snd files); reflexivity.
  Qed.
  Lemma concludes_read {A} r (answer : list (ustr * ustr) -> A) : concludes E r answer (let! l := level_read E r in Ok (answer l)).
  Proof.
    unfold concludes. destruct r as [rows|]; [|reflexivity]. cbn [level_read].
    destruct (map_rows_says E rows) as [(l & Hl & ->)|(Hl & e & ->)]; cbn [bind]; [left | right]; eauto.
  Qed.

  Lemma lookup_adds x one exact c i t answer files : lookup_of x = Some (one, exact, (c, i, t), answer) -> mget c (sp_components p) = Some files ->
    adds (q_pcall E D p x) (fun h qs y => exists r, until_answered D h (lookup_plan one exact files c i (levels (S (List.length t)) t)) qs r /\ concludes E r answer y).
  Proof.
    intros Hx Hc.
    assert (Hb : adds (qbind (both_files c i t files one exact) (fun l => qret (Ok (answer l))))
      (fun h qs y => exists r, until_answered D h (lookup_plan one exact files c i (levels (S (List.length t)) t)) qs r /\ concludes E r answer y)).
    { apply (adds_bind _ _ _ (fun a h qs y => qs = [] /\ y = Ok (answer a)) _ (adds_both c i t files one exact Hc)).
      - intros l. apply adds_ret. auto.
      - intros h q1 a q2 y (r & Hr & Ha) (-> & ->). rewrite app_nil_r. exists r. split; [exact Hr|]. pose proof (concludes_read r answer) as H. rewrite <- Ha in H. exact H.
      - intros h q1 e (r & Hr & Ha). exists r. split; [exact Hr|]. pose proof (concludes_read r answer) as H. rewrite <- Ha in H. exact H.
      - intros h q1 (r & Hr & Ha). exists r. split; [exact Hr|]. pose proof (concludes_read r answer) as H. rewrite <- Ha in H. exact H.
      - intros h q1 (r & Hr & Ha). exists r. split; [exact Hr|]. pose proof (concludes_read r answer) as H. rewrite <- Ha in H. exact H. }
    intros h st Hq. destruct (Hb h st Hq) as (qs & st' & y & H1 & H2). exists qs, st', y. split; [|exact H2]. rewrite <- H1. clear Hb H1 H2.
    destruct x; cbn [lookup_of] in Hx; try discriminate; injection Hx as <- <- <- <- <- <-; cbn [q_pcall]; unfold qbind.
    - rewrite (one_string_both false _ identifier tag files Hc). unfold qbind. destruct (both_files _ _ _ _ _ _ _) as (s' & [l|e| |]); reflexivity.
    - rewrite (one_string_both true _ identifier tag files Hc). unfold qbind. destruct (both_files _ _ _ _ _ _ _) as (s' & [l|e| |]); reflexivity.
    - rewrite (strings_both _ identifier tag files Hc). destruct (both_files _ _ _ _ _ _ _) as (s' & [l|e| |]); reflexivity.
  Qed.
  Lemma lookup_unknown x one exact c i t answer : lookup_of x = Some (one, exact, (c, i, t), answer) -> mget c (sp_components p) = None ->
    forall s, q_pcall E D p x s = (s, Err (PComponentNotFound c)).
  Proof.
    intros Hx Hc s. destruct x; cbn [lookup_of] in Hx; try discriminate; injection Hx as <- <- <- <- <- <-; cbn [q_pcall];
      unfold qbind, q_one_string, q_strings; rewrite Hc; reflexivity.
  Qed.
End Calls.
