(** Property theorems C85: what a pattern string does not use does not matter (crates/localiser/src/formatter.rs, localiser.rs). *)
From Verif Require Import Base BaseFacts LexerModel LexerSpec IcuExample TreeModel TreeSpec DocSpec DocCheck ValueModel CommandModel IsoModel
  FormatterModel FormatterSpec FormatterProofs4 FmtExample RegistryModel LocaliserModel LocaliserSpec LocaliserProofs PropertiesLocaliser ErrorProofs UseSpec UseProofs.

(** Values of names that the string does not mention: the same result, text or error, and the same formatter afterwards. *)
Theorem C85_values_partial : forall d g fe reg tag locale s a fm fm' vals vals' fuel, content_of d g s a ->
  formatter_try_new d g fe reg tag locale s = Ok fm -> after_formatting fe reg fm fm' ->
  (forall w, mentions a w -> mget w vals = mget w vals') ->
  format fuel fe reg fm' vals = format fuel fe reg fm' vals'.
Proof. exact values_used. Qed.
Print Assumptions C85_values_partial.

(** Named strings that no selector leads to: the same text. *)
Theorem C85_strings_partial : forall d g fe reg tag tag' locale s s' a a' fm fm' vals fuel t, content_of d g s a -> content_of d g s' a' ->
  formatter_try_new d g fe reg tag locale s = Ok fm -> formatter_try_new d g fe reg tag' locale s' = Ok fm' ->
  (forall name, reached a name -> mget name (all_strings a) = mget name (all_strings a')) ->
  snd (format fuel fe reg fm vals) = Ok t <-> snd (format fuel fe reg fm' vals) = Ok t.
Proof. exact strings_used. Qed.
Print Assumptions C85_strings_partial.

(** ** The localiser *)
Section Localiser.
  Context {PE : Type}.
  Variable E : lenv PE.

  Lemma gives_used vals vals' s t w : (forall a k, content_of (le_icu E) localiser_grammar s a -> mentions a k -> mget k vals = mget k vals') ->
    string_gives E vals s t w -> string_gives E vals' s t w.
  Proof.
    intros H [Hn|fm w0 Hn Hb Hw]; [now apply sg_plain|]. apply sg_format with fm; [exact Hn|exact Hb|].
    destruct (built_content _ _ _ _ _ _ _ _ Hb) as (a & Ha).
    rewrite <- (values_used _ _ _ _ _ _ _ a fm fm vals vals' (le_fuel E) Ha Hb (af_fresh _ _ _)); [exact Hw|]. intros k. exact (H a k Ha).
  Qed.
  Lemma found_same c i t fb s1 t1 s2 t2 : found E c i t fb s1 t1 -> found E c i t fb s2 t2 -> s1 = s2 /\ t1 = t2.
  Proof. rewrite <- !find_string_iff. intros H1 H2. rewrite H1 in H2. injection H2 as -> ->. now split. Qed.
  Lemma values_app t fb vs vs' : localised_values E t fb vs vs' -> forall ph v x, localised_values E t fb [(ph, v)] [(ph, x)] ->
    localised_values E t fb (vs ++ [(ph, v)]) (vs' ++ [(ph, x)]).
  Proof.
    induction 1 as [|ph0 d s t' vs vs' Hd _ IH|ph0 v0 vs vs' Hn _ IH]; intros ph v x Hx; cbn [app]; [exact Hx|apply lv_data; auto|apply lv_other; auto].
  Qed.
  Lemma values_app_inv t fb vs ph v l : localised_values E t fb (vs ++ [(ph, v)]) l ->
    exists vs' x, l = vs' ++ [(ph, x)] /\ localised_values E t fb vs vs'.
  Proof.
    revert l. induction vs as [|(k, u) vs IH]; intros l H; cbn [app] in H.
    - inversion H as [|ph0 d s t' vs0 vs' Hd Hr|ph0 v0 vs0 vs' Hn Hr]; subst; inversion Hr; subst; eexists []; eexists; (split; [reflexivity|constructor]).
    - inversion H as [|ph0 d s t' vs0 vs' Hd Hr|ph0 v0 vs0 vs' Hn Hr]; subst; destruct (IH _ Hr) as (vs1 & x & -> & Hvs).
      + exists ((k, VLocalised s t') :: vs1), x. split; [reflexivity|]. now apply lv_data.
      + exists ((k, u) :: vs1), x. split; [reflexivity|]. now apply lv_other.
  Qed.
  Lemma mget_snoc {V} (m : amap V) ph x k : k <> ph -> mget k (m ++ [(ph, x)]) = mget k m.
  Proof.
    intros H. induction m as [|(k0, v) m IH]; cbn.
    - destruct (ueqb_spec k ph); [contradiction|reflexivity].
    - now rewrite IH.
  Qed.
End Localiser.

(** Values given to [format]. *)
Theorem C85_localiser_partial : forall PE (E : lenv PE) st c i vals vals' t fb ca w t', icu_ok (le_icu E) ->
  (forall s a k, found E c i t (unwrap_or fb (ls_fallback st)) s t' -> content_of (le_icu E) localiser_grammar s a -> mentions a k ->
     mget k vals = mget k vals') ->
  uncached_result E st (CallFormat c i vals t fb ca) = Some (Ok (w, t')) <-> uncached_result E st (CallFormat c i vals' t fb ca) = Some (Ok (w, t')).
Proof.
  intros PE E st c i vals vals' t fb ca w t' Hd H. rewrite !uncached_pure. cbn [pure_call].
  assert (G : forall v v', (forall s a k, found E c i t (unwrap_or fb (ls_fallback st)) s t' -> content_of (le_icu E) localiser_grammar s a -> mentions a k -> mget k v = mget k v') ->
    Some (pure_format E c i v t (unwrap_or fb (ls_fallback st))) = Some (Ok (w, t')) -> Some (pure_format E c i v' t (unwrap_or fb (ls_fallback st))) = Some (Ok (w, t'))).
  { intros v v' Hv X. f_equal. assert (X' : pure_format E c i v t (unwrap_or fb (ls_fallback st)) = Ok (w, t')) by congruence.
    apply (pure_format_iff E Hd) in X' as (s & Hf & Hg). apply (pure_format_iff E Hd). exists s. split; [exact Hf|].
    refine (gives_used E v v' s t' w _ Hg). intros a k. exact (Hv s a k Hf). }
  split; apply G; [exact H|]. intros s a k Hf Ha Hk. symmetry. exact (H s a k Hf Ha Hk).
Qed.
Print Assumptions C85_localiser_partial.

(** Values of localisation data: false if the value is itself localisation data for which there is no string. *)
Theorem C85_data_refuted : exists PE (E : lenv PE) st c i vs ph v t fb ca s a w t' e, icu_ok (le_icu E) /\
  found E c i t (unwrap_or fb (ls_fallback st)) s t' /\ content_of (le_icu E) localiser_grammar s a /\ ~ mentions a ph /\ ~ In ph (map fst vs) /\
  uncached_result E st (CallData (LData c i (Some vs)) t fb ca) = Some (Ok (w, t')) /\
  uncached_result E st (CallData (LData c i (Some (vs ++ [(ph, v)]))) t fb ca) = Some (Err e).
Proof.
  exists unit, loc_ex, start_ex, (us "app"), (us "greet"), bob, (us "other"), (VData (LData (us "app") (us "nothing") None)), (us "en"), None, None,
    (us "Hello {name}!"), ([SText (us "Hello"); SText (us " "); SPat (us "name") None; SText (us "!")], None), (us "Hello Bob!"), (us "en"), (LStringNotFound (us "app") (us "nothing") (us "en") true).
  split; [exact icu_ex_ok|]. split; [apply fd_asked; vm_compute; reflexivity|]. split.
  { apply ref_content_iff; [intros c _; split; reflexivity|discriminate|vm_compute; reflexivity]. }
  split.
  { intros (name & body & x & H1 & H2 & H3). cbn in H1. destruct H1 as [[= <- <-]|[]]. cbn [In] in H2.
    repeat (destruct H2 as [<-|H2]; [destruct H3 as [(kw & H3)|(n & args & H3 & _)]; discriminate H3|]). destruct H2. }
  split; [cbn; intros [H|[]]; discriminate H|]. split; vm_compute; reflexivity.
Qed.
Print Assumptions C85_data_refuted.

(** Otherwise it is true. *)
Theorem C85_data_partial : forall PE (E : lenv PE) st c i vs ph v t fb ca w t', icu_ok (le_icu E) -> keys_distinct (LData c i (Some (vs ++ [(ph, v)]))) ->
  keys_distinct (LData c i (Some vs)) ->
  (forall d, v = VData d -> exists w' t'', localised E t (unwrap_or fb (ls_fallback st)) d w' t'') ->
  (forall s a, found E c i t (unwrap_or fb (ls_fallback st)) s t' -> content_of (le_icu E) localiser_grammar s a -> ~ mentions a ph) ->
  uncached_result E st (CallData (LData c i (Some vs)) t fb ca) = Some (Ok (w, t')) <->
  uncached_result E st (CallData (LData c i (Some (vs ++ [(ph, v)]))) t fb ca) = Some (Ok (w, t')).
Proof.
  intros PE E st c i vs ph v t fb ca w t' Hd Hk1 Hk2 Hv Hm. rewrite !C33_inside_out by assumption. set (fb' := unwrap_or fb (ls_fallback st)) in *.
  assert (Hx : exists x, localised_values E t fb' [(ph, v)] [(ph, x)]).
  { destruct v; try (eexists; apply lv_other; [discriminate|constructor]). destruct (Hv d eq_refl) as (w' & t'' & Hl). eexists. apply lv_data; [exact Hl|constructor]. }
  destruct Hx as (x & Hx). split; intros H; inversion H as [|c0 i0 vs0 vs' s t0 w0 Hvs Hf Hg]; subst.
  - apply lz_format with (vs' ++ [(ph, x)]) s; [now apply values_app|exact Hf|]. refine (gives_used E vs' _ s t' w _ Hg).
    intros a k Ha Hk. symmetry. apply mget_snoc. intros ->. exact (Hm s a Hf Ha Hk).
  - destruct (values_app_inv E _ _ _ _ _ _ Hvs) as (vs1 & y & -> & Hvs1). apply lz_format with vs1 s; [exact Hvs1|exact Hf|]. refine (gives_used E _ vs1 s t' w _ Hg).
    intros a k Ha Hk. apply mget_snoc. intros ->. exact (Hm s a Hf Ha Hk).
Qed.
Print Assumptions C85_data_partial.

(** Building looks at all named strings: one that is not used may prevent it. *)
Example C85_example : text_ex (us "{v select a#a}#{a A{x}}{b B{y}}") [(us "v", VString (us "a")); (us "x", VString (us "1")); (us "y", VString (us "2"))] = Ok (us "A1") /\
  text_ex (us "{v select a#a}#{a A{x}}{c C{z}}") [(us "v", VString (us "a")); (us "x", VString (us "1"))] = Ok (us "A1") /\
  build_ex (us "{v select a#a}#{a A{x}}{c C{z none}}") = Err (FInvalidKeyword (us "none") (us "z")) /\
  exists a, content_of icu_ex l10n_grammar (us "{v select a#a}#{a A{x}}{b B{y}}") a /\ reached a (us "a") /\ mentions a (us "x") /\ ~ reached a (us "b") /\ ~ mentions a (us "z").
Proof.
  split; [vm_compute; reflexivity|]. split; [vm_compute; reflexivity|]. split; [vm_compute; reflexivity|].
  exists ([SPat (us "v") (Some (us "select", [(us "a", us "a")]))], Some [(us "a", [SText (us "A"); SPat (us "x") None]); (us "b", [SText (us "B"); SPat (us "y") None])]).
  split; [apply (ref_content_iff icu_ex); [intros c _; split; reflexivity|discriminate|vm_compute; reflexivity]|].
  split; [eapply rc_selector; [apply rc_main|reflexivity|now left|now left]|].
  split; [exists (us "a"), [SText (us "A"); SPat (us "x") None], (SPat (us "x") None); split; [cbn; auto|]; split; [cbn; auto|]; left; eauto|].
  split.
  - assert (G : forall k, reached ([SPat (us "v") (Some (us "select", [(us "a", us "a")]))], Some [(us "a", [SText (us "A"); SPat (us "x") None]); (us "b", [SText (us "B"); SPat (us "y") None])]) k -> k = us "_" \/ k = us "a").
    { intros k Hk. induction Hk as [|name body ph kw sels sel _ IH Hb Hin Hs]; [now left|]. right. destruct IH as [->| ->]; vm_compute in Hb; injection Hb as <-.
      - destruct Hin as [Hin|[]]. injection Hin as <- <- <-. destruct Hs as [<-|[]]. reflexivity.
      - destruct Hin as [Hin|[Hin|[]]]; discriminate Hin. }
    intros H. destruct (G _ H) as [H0|H0]; discriminate H0.
  - intros (name & body & x & H1 & H2 & H3). cbn in H1. destruct H1 as [[= <- <-]|[[= <- <-]|[[= <- <-]|[]]]]; cbn [In] in H2;
      repeat (destruct H2 as [<-|H2]; [destruct H3 as [(kw & H3)|(n & args & H3 & _)]; discriminate H3|]); destruct H2.
Qed.
