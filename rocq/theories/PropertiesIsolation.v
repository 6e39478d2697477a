(** Property C63, a panic of one call and the others. *)
From Verif Require Import Base BaseFacts LexerModel LexerSpec IcuExample TreeModel TreeSpec DocSpec ValueModel CommandModel FormatterModel FormatterSpec FmtExample
  RegistryModel LocaliserModel LocaliserSpec LocaliserProofs SyncModel SyncSpec SyncProofs ErrorProofs IsolationSpec IsolationProofs.

(** Without the condition that no command panics ([calm] of C63_prepared_partial): after any history and under every schedule, a call returns what
    it returns alone, or it panics, and then some call of the threads panics alone, both format the same string in the same language, and this
    string panics alone for some values. A panic of one call thus disturbs only calls that format the same string in the same language. *)
Theorem C63_isolated_partial : forall PE (E : lenv PE) fallback caching tag h calls sch c r,
  icu_ok (le_icu E) -> answers_again E -> provider_hash_ok E ->
  let st := lrun E (localiser_new E fallback caching tag) h in
  harmless E (history_requests E (localiser_new E fallback caching tag) h ++ sync_requests st calls) ->
  same_language E (sync_requests st calls) -> prepared (sync_requests st calls) st ->
  returned (sys_run E (sys_start st calls) sch) c r ->
  result_alone E st calls c r \/ (r = Some Panic /\ disturbed E st calls c).
Proof. intros PE E fb ca tag h calls sch c r. apply isolation. Qed.
Print Assumptions C63_isolated_partial.

(** The panic of english_a_or_an (C20) in the first thread disturbs the second thread, which formats the same string; the third thread formats another
    string and is not disturbed. *)
Definition iso_ex : lenv unit := mk_lenv icu_ex env_ex reg_ex (fun t => t)
  (mk_provider (fun _ i t => Ok (Some (if ueqb i (us "item") then us "{#english_a_or_an # v} {v}" else us "Hello {v}!", t))) (fun _ => Ok (us "en"))) (fun _ => None) 8.
Definition iso_start : lstate := localiser_new iso_ex true true (us "en").
Definition iso_say (i v : ustr) : lcall := CallFormat (us "app") i [(us "v", VString v)] (us "en") None None.
Definition iso_hist : list lcall := [iso_say (us "item") (us "apple")].
Definition iso_calls : list (list lcall) := [[iso_say (us "item") []]; [iso_say (us "item") (us "apple")]; [iso_say (us "greet") (us "Bob")]].
Lemma iso_requests : history_requests iso_ex iso_start iso_hist ++ sync_requests (lrun iso_ex iso_start iso_hist) iso_calls =
  [mk_request (us "app") (us "item") (us "en") true false; mk_request (us "app") (us "item") (us "en") true false;
   mk_request (us "app") (us "item") (us "en") true false; mk_request (us "app") (us "greet") (us "en") true false].
Proof. vm_compute. reflexivity. Qed.
Lemma iso_hash : provider_hash_ok iso_ex.
Proof.
  intros c i t s t' a H Ha. cbn in H. injection H as H _. destruct (ueqb i _) in H.
  - assert (Hs : s <> []) by (subst s; vm_compute; congruence).
    apply (ref_content_iff icu_ex s a (fun x _ => conj eq_refl eq_refl) Hs) in Ha. clear Hs. subst s. vm_compute in Ha. injection Ha as <-.
    intros name body x ph sels sel branch [[= <- <-]|[]] Hx Hs. vm_compute in Hx. repeat (destruct Hx as [<-|Hx]; [discriminate Hs|]). destruct Hx.
  - apply (no_hash_in_plurals _ _ _ _) with (2 := Ha). subst s. vm_compute. intuition discriminate.
Qed.
Example C63_isolated_example : let st := lrun iso_ex iso_start iso_hist in
  (answers_again iso_ex /\ provider_hash_ok iso_ex /\
   harmless iso_ex (history_requests iso_ex iso_start iso_hist ++ sync_requests st iso_calls) /\
   same_language iso_ex (sync_requests st iso_calls) /\ prepared (sync_requests st iso_calls) st) /\
  map th_done (sys_threads (sys_run iso_ex (SyncModel.sys_start st iso_calls) (repeat 0 10 ++ repeat 1 10 ++ repeat 2 10))) =
    [[(iso_say (us "item") [], Some Panic)];
     [(iso_say (us "item") (us "apple"), Some Panic)]; [(iso_say (us "greet") (us "Bob"), Some (Ok (us "Hello Bob!", us "en")))]].
Proof.
  cbv zeta. split; [|vm_compute; reflexivity]. split; [intros c i t s t' H; injection H as <- <-; reflexivity|]. split; [|split; [|split]].
  - exact iso_hash.
  - rewrite iso_requests. split; [|split].
    + intros q [<-|[<-|[<-|[<-|[]]]]] H; vm_compute in H; intuition discriminate.
    + intros q q' s t' Hq Hq' H1 H2 H3 H4 _. exfalso. destruct Hq as [<-|[<-|[<-|[<-|[]]]]], Hq' as [<-|[<-|[<-|[<-|[]]]]]; discriminate.
    + intros q q' Hq Hq' _ _ _ H. destruct Hq as [<-|[<-|[<-|[<-|[]]]]]; vm_compute in H; discriminate.
  - intros q s t' H1 H2. assert (Hin : In q (history_requests iso_ex iso_start iso_hist ++ sync_requests (lrun iso_ex iso_start iso_hist) iso_calls))
      by (apply in_or_app; now right). rewrite iso_requests in Hin. clear H1.
    destruct Hin as [<-|[<-|[<-|[<-|[]]]]]; (destruct H2 as [H2|d H2 _ _ _]; [vm_compute in H2; injection H2 as _ H2; symmetry; exact H2|vm_compute in H2; discriminate]).
  - intros q H1. assert (Hin : In q (history_requests iso_ex iso_start iso_hist ++ sync_requests (lrun iso_ex iso_start iso_hist) iso_calls))
      by (apply in_or_app; now right). rewrite iso_requests in Hin. clear H1.
    destruct Hin as [<-|[<-|[<-|[<-|[]]]]]; vm_compute; discriminate.
Qed.

(** If no call of the threads panics alone, none panics; commands that panic for other values do not matter. *)
Theorem C63_quiet_partial : forall PE (E : lenv PE) fallback caching tag h calls sch c r,
  icu_ok (le_icu E) -> answers_again E -> provider_hash_ok E ->
  let st := lrun E (localiser_new E fallback caching tag) h in
  harmless E (history_requests E (localiser_new E fallback caching tag) h ++ sync_requests st calls) ->
  same_language E (sync_requests st calls) -> prepared (sync_requests st calls) st ->
  (forall l c t fb, In l calls -> In c l -> In t (tags_seen st calls) -> In fb (fallbacks_seen st calls) -> uncached_result E (seen t fb) c <> Some Panic) ->
  returned (sys_run E (sys_start st calls) sch) c r -> result_alone E st calls c r.
Proof.
  intros PE E fb ca tag h calls sch c r H1 H2 H3 st H4 H5 H6 Hq H7. destruct (isolation E fb ca tag h calls sch c r H1 H2 H3 H4 H5 H6 H7) as [H|(_ & H)]; [exact H|].
  destruct H as (t & f & q & _ & _ & _ & _ & _ & l & c' & t' & f' & q' & Hl & Hc & Ht & Hf & Hp & _). destruct (Hq l c' t' f' Hl Hc Ht Hf Hp).
Qed.
Print Assumptions C63_quiet_partial.

(** The command of the example panics for an empty text, which no thread asks for. *)
Definition quiet_calls : list (list lcall) := [[iso_say (us "item") (us "pear")]; [iso_say (us "item") (us "apple")]; [iso_say (us "greet") (us "Bob")]].
Example C63_quiet_example : let st := lrun iso_ex iso_start iso_hist in
  ~ calm iso_ex /\ sync_requests st quiet_calls = sync_requests st iso_calls /\
  (forall l c t fb, In l quiet_calls -> In c l -> In t (tags_seen st quiet_calls) -> In fb (fallbacks_seen st quiet_calls) ->
    uncached_result iso_ex (seen t fb) c <> Some Panic) /\
  map th_done (sys_threads (sys_run iso_ex (SyncModel.sys_start st quiet_calls) (repeat 0 10 ++ repeat 1 10 ++ repeat 2 10))) =
    [[(iso_say (us "item") (us "pear"), Some (Ok (us "a pear", us "en")))]; [(iso_say (us "item") (us "apple"), Some (Ok (us "an apple", us "en")))];
     [(iso_say (us "greet") (us "Bob"), Some (Ok (us "Hello Bob!", us "en")))]].
Proof.
  cbv zeta. split; [|split; [vm_compute; reflexivity|split; [|vm_compute; reflexivity]]].
  - intros H. apply (pure_format_calm iso_ex H (us "app") (us "item") [(us "v", VString [])] (us "en") true). vm_compute. reflexivity.
  - intros l c t fb Hl Hc Ht Hf. vm_compute in Ht, Hf. destruct Ht as [<-|[]], Hf as [<-|[]].
    destruct Hl as [<-|[<-|[<-|[]]]]; (destruct Hc as [<-|[]]); vm_compute; discriminate.
Qed.
