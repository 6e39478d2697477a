From Coq Require Import Sorted.
From Verif Require Import Base BaseFacts LexerModel LexerSpec TreeModel TreeSpec DocSpec ValueModel CommandModel FormatterModel FormatterSpec
  FormatterProofs4 FormatterProofs5 RegistryModel ProviderModel ProviderSpec ProviderProofs ProviderProofs2 ProviderProofs3 ProviderProofs7 ProviderProofs8
  LocaliserModel LocaliserSpec LocaliserProofs SystemModel SystemSpec.

Section System.
  Variables (E : penv) (es : list entry) (p : sprovider).
  Hypothesis Hdb : database_fine E es p.
  Let Hm := df_made _ _ _ Hdb.
  Let He := df_env _ _ _ Hdb.
  Let Hp := made_ok es p Hm.

  Variables (ic : icu) (fe : fmtenv) (reg : cregistry) (locale : ustr -> ustr) (script : ustr -> option ustr) (fuel : nat).
  Let S := system E p ic fe reg locale script fuel.

  Lemma sqlite_string c i t x : pv_string (le_provider S) c i t = Ok (Some x) ->
    pe_canon E t = Some t /\ value (string_ E p c i t) = Ok (Some x).
  Proof.
    cbn. destruct (pe_canon E t) as [t'|]; [|discriminate]. destruct (ueqb_spec t t') as [<-|]; [|discriminate]. auto.
  Qed.
  Lemma sqlite_canonical c i t : pe_canon E t = Some t -> pv_string (le_provider S) c i t = value (string_ E p c i t).
  Proof. intros H. cbn. rewrite H, ueqb_refl. reflexivity. Qed.

  Lemma one_string_source exact c i t x : value (one_string E p exact c i t) = Ok (Some x) -> no_wildcard t ->
    exists d r, source p c d /\ In r (db_pattern d) /\ answer_of E r x.
  Proof.
    intros H Hw. assert (Hk : known p c).
    { unfold known. destruct (mget c (sp_components p)) as [f|] eqn:Ec; [apply mget_keys; eauto|]. unfold one_string, value in H. rewrite Ec in H. discriminate H. }
    destruct (one_string_answer E p Hp He exact c i t Hk Hw) as (o & Ho & Ha). rewrite Ho in H. injection H as ->.
    destruct Ha as (d & a & r & Ha & Hr & Hx & _). exists d, r. split; [|split; [apply Hr | exact Hx]].
    destruct Ha as [(H & _)|(_ & H & _)]; [left | right]; exact H.
  Qed.
  Lemma source_stored c d r : source p c d -> In r (db_pattern d) -> stored_row p r.
  Proof. intros [(f & v & _ & Hd)|(f & v & _ & Hd)] Hr; [exists aio, d, v | exists c, d, v]; auto. Qed.

  Lemma sqlite_stored c i t s t' : pv_string (le_provider S) c i t = Ok (Some (s, t')) -> exists r, stored_row p r /\ pr_string r = s /\ pr_tag r = t'.
  Proof.
    intros H. apply sqlite_string in H. destruct H as (Ht & H). apply one_string_source in H; [|exact (df_wildcard _ _ _ Hdb t Ht)].
    destruct H as (d & r & Hs & Hr & Hx & Hx'). exists r. pose proof (source_stored c d r Hs Hr) as Hst. split; [exact Hst|]. split; [symmetry; exact Hx|].
    destruct Hst as (f & d' & v & Hd & Hin). destruct (df_canonical _ _ _ Hdb f d' v Hd r Hin) as (Hc & _). rewrite Hc in Hx'. injection Hx' as Hx'. exact Hx'.
  Qed.
  Lemma stored_canonical r : stored_row p r -> pe_canon E (pr_tag r) = Some (pr_tag r).
  Proof. intros (f & d & v & Hd & Hr). exact (proj1 (df_canonical _ _ _ Hdb f d v Hd r Hr)). Qed.

  Lemma sqlite_again : answers_again S.
  Proof.
    intros c i t s t' H. destruct (sqlite_stored c i t s t' H) as (r & Hr & _ & Hrt). apply sqlite_string in H. destruct H as (Ht & H).
    pose proof (stored_canonical r Hr) as Hc. rewrite Hrt in Hc. rewrite (sqlite_canonical c i t' Hc).
    exact (asks_again E p Hp He (df_order _ _ _ Hdb) (df_canonical _ _ _ Hdb) c i t (s, t') (df_wildcard _ _ _ Hdb t Ht) H).
  Qed.
  Lemma sqlite_hash : stored_hash_ok ic p -> provider_hash_ok S.
  Proof. intros Hh c i t s t' a H Ha. destruct (sqlite_stored c i t s t' H) as (r & Hr & <- & _). exact (Hh r a Hr Ha). Qed.
  Lemma sqlite_calm : commands_calm reg -> stored_parse ic p -> calm S.
  Proof.
    intros Hc Hpa. split.
    - intros c i t. cbn. destruct (pe_canon E t) as [t'|]; [|discriminate]. destruct (ueqb t t'); [|discriminate].
      exact (proj1 (proj2 (one_string_quiet E p Hp false c i t))).
    - intros c. cbn. pose proof (history_quiet E p Hp (proj1 He) (CallComponent c) []) as (H & _). cbn [prun fold_left] in H. cbn [pcall_run] in H.
      intros K. apply H. unfold pbind. destruct (component_details E p c pstate_new) as (st & [cd|e| |]); cbn in *; congruence.
    - exact Hc.
    - intros c i t s t' H. destruct (sqlite_stored c i t s t' H) as (r & Hr & <- & _). exact (Hpa r Hr).
  Qed.

  (** ** A string stored in the language asked for *)
  Lemma translated_found c i t r fb : translated E p c i t r -> found S c i t fb (pr_string r) t.
  Proof.
    intros [Hk H1 (d & Hd & Hr) Hu Hi Hcs (Ht & Hct)]. apply fd_asked. rewrite (sqlite_canonical c i t Hct).
    destruct (requested_first E p Hp He c i t Hk (df_wildcard _ _ _ Hdb t Hct) Ht H1 Hi Hcs) as (d' & r' & x & Hd' & Hr' & Hx & Hv).
    { exists d. split; [exact Hd|]. exists r. exact Hr. }
    rewrite Hv. destruct x as (s & t'). destruct Hx as (Hx & Hx'). cbn [fst snd] in *. subst s. rewrite (Hu d' r' Hd' Hr').
    destruct Hr' as (_ & _ & _ & Heq). rewrite <- Heq, Hct in Hx'. injection Hx' as <-. reflexivity.
  Qed.
  Lemma found_unique c i t fb s t' s' t'' : found S c i t fb s t' -> found S c i t fb s' t'' -> s = s' /\ t' = t''.
  Proof. intros H1 H2. apply find_string_iff in H1, H2. rewrite H1 in H2. injection H2. auto. Qed.
  Lemma translated_language rs : all_translated E p rs -> same_language S rs.
  Proof.
    intros H q s t' Hq Hf. destruct (H q Hq) as (r & Hr). exact (proj2 (found_unique _ _ _ _ _ _ _ _ Hf (translated_found _ _ _ r _ Hr))).
  Qed.
End System.

(** ** Texts of strings *)
Section Texts.
  Context {PE : Type}.
  Variable E : lenv PE.
  Hypothesis Hicu : icu_ok (le_icu E).

  Lemma built_syntax t s fm : formatter_try_new (le_icu E) localiser_grammar (le_fmt E) (le_reg E) t (le_locale E t) s = Ok fm -> ~ no_syntax s.
  Proof.
    intros H Hn. destruct (plain_no_grammar E Hicu s t Hn) as [->|K]; [discriminate H|]. congruence.
  Qed.
  Lemma plain_gives vals s t w : 0 < le_fuel E -> main_wf (le_icu E) s -> NoDup (spats (str_content s)) -> FormatterSpec.plain s -> ds_rest s <> [] ->
    plain_text vals s = Ok w -> string_gives E vals (strprint s) t w.
  Proof.
    intros Hf Hw Hn Hpl Hr Ht. destruct (plain_format (le_icu E) (le_fmt E) (le_reg E) t (le_locale E t) Hicu s Hw Hn Hpl Hr) as (fm & Hb & H).
    apply sg_format with fm; [exact (built_syntax t _ fm Hb) | exact Hb|]. rewrite (H fm vals (le_fuel E) (af_fresh _ _ _) Hf). exact Ht.
  Qed.
  Lemma escaped_gives vals t w : 0 < le_fuel E -> string_gives E vals (escape w) t w.
  Proof. intros Hf. exact (proj2 (proj1 (pure_text_iff E Hicu vals (escape w) t w t) (escape_gives E Hicu vals w t Hf))). Qed.
End Texts.
