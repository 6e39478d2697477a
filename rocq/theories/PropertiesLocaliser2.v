(** Property C78 of the localiser. *)
From Verif Require Import Base BaseFacts LexerModel LexerSpec IcuExample TreeModel TreeSpec DocSpec DocCheck ValueModel CommandModel FormatterModel FormatterSpec FmtExample
  RegistryModel ProviderModel ProviderSpec ProviderProofs ProviderProofs2 ProviderProofs8 LocaliserModel LocaliserSpec LocaliserProofs SystemModel SystemSpec SystemProofs
  DefectSpec DefectProofs2 ErrorSpec ErrorProofs ProviderSpec2 LocaliserSpec2 LocaliserProofs2 PropertiesProvider PropertiesProvider2 PropertiesLocaliser PropertiesDefect.

(** ** C78: the errors of the localiser tell the truth. *)
Definition key_strings : list (ustr * ustr * ustr) := [(us "app", us "esc", us "`{name`}"); (us "a/b", us "c", us "{x} one"); (us "a", us "b/c", us "two")].
Definition key_lookup (c i t : ustr) : option (ustr * ustr) :=
  match find (fun x => let '(c', i', _) := x in ueqb c c' && ueqb i i') key_strings with Some (_, _, s) => Some (s, us "en") | None => None end.
Definition key_env : lenv unit := mk_lenv icu_ex env_ex reg_ex (fun t => t) (mk_provider (fun c i t => Ok (key_lookup c i t)) (fun _ => Ok (us "en"))) (fun _ => None) 8.
Definition key_start : lstate := localiser_new key_env true true (us "en").
Definition key_after (h : list lcall) (c : lcall) := snd (lstep key_env (lrun key_env key_start h) c).
Lemma key_found c i t fb s t' s' : found key_env c i t fb s t' -> key_lookup c i t = Some (s', us "en") -> s = s'.
Proof. intros H Hs. apply find_string_iff in H. unfold find_string in H. cbn [le_provider key_env pv_string] in H. rewrite Hs in H. cbn in H. congruence. Qed.
Lemma key_content s a : s <> [] -> content_of icu_ex localiser_grammar s a -> ref_content s = Some a.
Proof. intros Hs. apply ref_content_iff; [|exact Hs]. intros c _. split; reflexivity. Qed.

(** False: "the cache entry requires values" is said of a string that has none, but escapes; and of a string that has the key of
    another one, as is an error of formatting. *)
Theorem C78_errors_refuted :
  (exists PE (E : lenv PE) fb ca tag h c e, icu_ok (le_icu E) /\ no_slashes (history_requests E (localiser_new E fb ca tag) (h ++ [c])) /\
     let st := lrun E (localiser_new E fb ca tag) h in snd (lstep E st c) = Some (Err e) /\ (exists c i, e = LCacheEntry c i) /\
     ~ localiser_says E (call_requests st c) e) /\
  (exists PE (E : lenv PE) fb ca tag h c e, icu_ok (le_icu E) /\
     let st := lrun E (localiser_new E fb ca tag) h in snd (lstep E st c) = Some (Err e) /\ (exists c i, e = LCacheEntry c i) /\
     ~ localiser_says E (call_requests st c) e) /\
  (exists PE (E : lenv PE) fb ca tag h c e, icu_ok (le_icu E) /\
     let st := lrun E (localiser_new E fb ca tag) h in snd (lstep E st c) = Some (Err e) /\ (exists e', e = LFormatter e') /\
     ~ localiser_says E (call_requests st c) e).
Proof.
  split; [|split].
  - exists unit, key_env, true, true, (us "en"), [CallFormatDefaults (us "app") (us "esc") []], (CallLiteralDefaults (us "app") (us "esc")). eexists.
    split; [exact icu_ex_ok|]. split.
    { intros r Hr. vm_compute in Hr. destruct Hr as [<-|[<-|[]]]; vm_compute; intuition discriminate. }
    split; [vm_compute; reflexivity|]. split; [do 2 eexists; reflexivity|].
    intros (t & fb & s & t' & Hi & Hf & a & Ha & x & Hx & Hp). apply (key_found _ _ _ _ _ _ (us "`{name`}")) in Hf; [|reflexivity]. subst s.
    apply key_content in Ha; [|discriminate]. vm_compute in Ha. injection Ha as <-. destruct Hp as [(ph & kw & ->)|(ps & ->)]; vm_compute in Hx; intuition discriminate.
  - exists unit, key_env, true, true, (us "en"), [CallFormatDefaults (us "a/b") (us "c") [(us "x", VUnsigned 1)]], (CallLiteralDefaults (us "a") (us "b/c")). eexists.
    split; [exact icu_ex_ok|]. split; [vm_compute; reflexivity|]. split; [do 2 eexists; reflexivity|].
    intros (t & fb & s & t' & Hi & Hf & a & Ha & x & Hx & Hp). apply (key_found _ _ _ _ _ _ (us "two")) in Hf; [|reflexivity]. subst s.
    apply key_content in Ha; [|discriminate]. vm_compute in Ha. injection Ha as <-. destruct Hp as [(ph & kw & ->)|(ps & ->)]; vm_compute in Hx; intuition discriminate.
  - exists unit, key_env, true, true, (us "en"), [CallFormatDefaults (us "a/b") (us "c") [(us "x", VUnsigned 1)]], (CallFormatDefaults (us "a") (us "b/c") []). eexists.
    split; [exact icu_ex_ok|]. split; [vm_compute; reflexivity|]. split; [eexists; reflexivity|].
    intros (q & s & t & Hi & _ & Hf & Hn & _). vm_compute in Hi. destruct Hi as [<-|[]]. apply (key_found _ _ _ _ _ _ (us "two")) in Hf; [|reflexivity]. subst s.
    apply Hn. intros c Hc Hg. vm_compute in Hc, Hg. intuition congruence.
Qed.
Print Assumptions C78_errors_refuted.

(** What every error means, after any history. If no component has a slash in its name, and requests of a string the provider
    does not have agree on fallback, every error tells the truth, but for the entry of the cache, which is of the string asked for
    and has syntax, if only escapes. *)
Theorem C78_errors_partial : forall PE (E : lenv PE) fallback caching tag h c e, icu_ok (le_icu E) ->
  let st0 := localiser_new E fallback caching tag in let st := lrun E st0 h in let rs := history_requests E st0 (h ++ [c]) in
  snd (lstep E st c) = Some (Err e) ->
  localiser_reports E rs (call_requests st c) e /\
  (no_slashes rs -> same_fallback E rs ->
   match e with
   | LCacheEntry c' i => exists t fb s t', In (mk_request c' i t fb true) (call_requests st c) /\ found E c' i t fb s t' /\ ~ no_syntax s
   | _ => localiser_says E (call_requests st c) e
   end).
Proof.
  intros PE E fb ca tag h c e Hi st0 st rs H. pose proof (history_reports E Hi fb ca tag h c e H) as G. split; [exact G|]. intros Hs Hf.
  apply (reports_says E rs); [exact Hs | exact Hf | | exact G]. intros q Hq. subst rs. rewrite history_app. apply in_or_app. right. exact Hq.
Qed.
Print Assumptions C78_errors_partial.

(** The error for a string that is not found is always true and names what was asked for; "never reached" and an error of the language
    tag registry do not occur. *)
Theorem C78_not_found : forall PE (E : lenv PE) fallback caching tag h call c i t fb, icu_ok (le_icu E) ->
  let st := lrun E (localiser_new E fallback caching tag) h in
  snd (lstep E st call) = Some (Err (LStringNotFound c i t fb)) -> (exists l, In (mk_request c i t fb l) (call_requests st call)) /\ missing E c i t fb.
Proof. intros PE E fallback caching tag h call c i t fb Hi st H. exact (proj1 (C78_errors_partial PE E fallback caching tag h call _ Hi H)). Qed.
Print Assumptions C78_not_found.
Theorem C78_never : forall PE (E : lenv PE) fallback caching tag h call e, icu_ok (le_icu E) ->
  let st := lrun E (localiser_new E fallback caching tag) h in
  snd (lstep E st call) = Some (Err e) -> e <> LNeverReached /\ forall x, e <> LRegistry x.
Proof.
  intros PE E fallback caching tag h call e Hi st H. pose proof (proj1 (C78_errors_partial PE E fallback caching tag h call _ Hi H)) as G.
  split; [intros -> | intros x ->]; exact G.
Qed.
Print Assumptions C78_never.

(** An error of formatting says the truth of the content of a string that was asked for, and of some values, or building its formatter
    failed. *)
Theorem C78_formatting_partial : forall PE (E : lenv PE) fallback caching tag h call e, icu_ok (le_icu E) ->
  let st0 := localiser_new E fallback caching tag in let st := lrun E st0 h in
  snd (lstep E st call) = Some (Err (LFormatter e)) ->
  exists q s t, In q (history_requests E st0 (h ++ [call])) /\ request_found E q s t /\
    (formatter_try_new (le_icu E) localiser_grammar (le_fmt E) (le_reg E) t (le_locale E t) s = Err e \/
     exists a vals, content_of (le_icu E) localiser_grammar s a /\ format_says (le_fmt E) (le_reg E) (le_locale E t) vals a e).
Proof.
  intros PE E fallback caching tag h call e Hi st0 st H. destruct (proj1 (C78_errors_partial PE E fallback caching tag h call _ Hi H)) as (q & q' & s & t & _ & _ & H3 & _ & _ & H5 & _ & H6).
  exists q', s, t. split; [exact H3|]. split; [exact H5|]. destruct H6 as [H6|(fm & fm' & vals & Hb & Ha & Hf)]; [left; exact H6|].
  right. destruct (FormatterProofs4.built_content _ _ _ _ _ _ _ _ Hb) as (a & Hc). exists a, vals. split; [exact Hc|]. exact (C68_formatting _ _ _ _ _ _ _ _ _ _ _ _ _ Hc Hb Ha Hf).
Qed.
Print Assumptions C78_formatting_partial.

(** Over the sqlite3 provider: its errors reach the caller only if they are true (see C77); a string that is not found is in no
    file of the component, in no language the search looks at. *)
Theorem C78_stored : forall E es p ic fe reg locale script fuel fallback caching tag h call e, made es p -> order_ok E -> icu_ok ic ->
  let S := system E p ic fe reg locale script fuel in let st := lrun S (localiser_new S fallback caching tag) h in
  snd (lstep S st call) = Some (Err e) ->
  match e with
  | LProvider e' => provider_says E p e' /\ forall c, e' = PComponentNotFound c -> exists q, In q (call_requests st call) /\ rq_component q = c
  | LStringNotFound c i t fb => env_fine E p -> pe_canon E t = Some t -> no_wildcard t -> known p c /\ forall d, source p c d -> no_level d c i t false
  | _ => True
  end.
Proof.
  intros E es p ic fe reg locale script fuel fallback caching tag h call e Hm Ho Hi S st H.
  pose proof (proj1 (C78_errors_partial perror S fallback caching tag h call _ Hi H)) as G. pose proof (made_ok es p Hm) as Hp.
  destruct e as [x|x|e|c i t fb|c i|]; try exact Logic.I; cbn [localiser_reports] in G.
  - destruct G as (q & Hq & G).
    assert (Hstr : forall t, pv_string (le_provider S) (rq_component q) (rq_identifier q) t = Err e -> provider_says E p e /\ forall c, e = PComponentNotFound c -> rq_component q = c).
    { intros t Hs. cbn in Hs. destruct (pe_canon E t) as [t'|]; [|discriminate Hs]. destruct (ueqb t t'); [|discriminate Hs].
      assert (Hr : result E p [] (CallString (rq_component q) (rq_identifier q) t) = Err e).
      { rewrite (result_string E p Hp). unfold value. rewrite Hs. reflexivity. }
      destruct (C77_errors_partial E es p [] _ e Hm Ho Hr) as (H1 & H2). split; [apply H2; intros c i Hx; discriminate Hx|].
      intros c ->. destruct H1 as ([(i & [(t1 & [Hx|[Hx|Hx]])|Hx])|Hx] & _); try discriminate Hx. congruence. }
    assert (Hdef : pv_default (le_provider S) (rq_component q) = Err e -> provider_says E p e /\ forall c, e = PComponentNotFound c -> rq_component q = c).
    { intros Hs. cbn in Hs. assert (Hr : result E p [] (CallComponent (rq_component q)) = Err e).
      { rewrite (result_component E p Hp). unfold value. destruct (component_details E p (rq_component q) pstate_new) as (s1 & [cd|e1| |]); cbn in *; congruence. }
      destruct (C77_errors_partial E es p [] _ e Hm Ho Hr) as (H1 & H2). split; [apply H2; intros c i Hx; discriminate Hx|].
      intros c ->. destruct H1 as ([(i & [(t1 & [Hx|[Hx|Hx]])|Hx])|Hx] & _); try discriminate Hx. congruence. }
    destruct G as [e G|e _ _ G|d e _ _ _ G]; [destruct (Hstr _ G) as (H1 & H2) | destruct (Hdef G) as (H1 & H2) | destruct (Hstr _ G) as (H1 & H2)];
      (split; [exact H1 | intros c Hc; exists q; split; [exact Hq | exact (H2 c Hc)]]).
  - destruct G as (_ & G). intros He Ht Hw.
    assert (Hs : value (string_ E p c i t) = Ok None) by (destruct G as [G|d G _ _]; rewrite <- G; symmetry; exact (sqlite_canonical E p ic fe reg locale script fuel c i t Ht)).
    assert (Hk : known p c).
    { unfold known. destruct (mget c (sp_components p)) as [f|] eqn:Ec; [apply mget_keys; eauto|]. unfold string_, one_string, value in Hs. rewrite Ec in Hs. discriminate Hs. }
    split; [exact Hk|]. destruct (C34_specific_partial E es p [] c i t Hm He Hk Hw) as (o & Hr & H1 & _).
    rewrite (result_string E p Hp), Hs in Hr. injection Hr as <-. exact H1.
Qed.
Print Assumptions C78_stored.

Example C78_example :
  (* a placeholder without value *)
  outcome_after [] (CallFormatDefaults (us "app") (us "greet") []) = Some (Err (LFormatter (FPlaceholderValue (us "PatternString") (us "name")))) /\
  (* used before, so that it is in the cache *)
  outcome_after [CallFormatDefaults (us "app") (us "greet") bob] (CallFormatDefaults (us "app") (us "greet") []) = Some (Err (LFormatter (FPlaceholderValue (us "PatternString") (us "name")))) /\
  (* an entry of the cache that does require values *)
  outcome_after [CallFormatDefaults (us "app") (us "greet") bob] (CallLiteralDefaults (us "app") (us "greet")) = Some (Err (LCacheEntry (us "app") (us "greet"))) /\
  (* nested data: the inner string is the one that is not found *)
  outcome_after [] (CallDataDefaults (LData (us "app") (us "greet") (Some [(us "name", VData (LData (us "app") (us "none") None))]))) =
    Some (Err (LStringNotFound (us "app") (us "none") (us "en") true)).
Proof. repeat split; vm_compute; reflexivity. Qed.
