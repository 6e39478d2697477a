(** The localisation data of the errors, one kind at a time. *)
From Verif Require Import Base BaseFacts LexerModel LexerSpec TreeModel TreeSpec TreeArena TreeMachine TreeGrammar DocSpec
  ValueModel CommandModel IsoModel FormatterModel FormatterAbs FormatterSpec
  RegistryModel ProviderModel ProviderSpec LocaliserModel LocaliserSpec LocaliserProofs SystemModel IcuExample L10nData ErrorModel ErrorSpec ErrorProofs.
Local Opaque us.

Definition not_data (v : pvalue) : bool := match v with VData _ => false | _ => true end.
Definition inserted (vs new : list (ustr * pvalue)) : amap pvalue := fold_left (fun m x => minsert (fst x) (snd x) m) vs new.

Section Data.
  Context {PE : Type}.
  Variables (L : lenv PE) (t : ustr) (fb : bool) (lk : ustr -> ustr -> option (ustr * ustr)).
  Hypothesis Hicu : icu_ok (le_icu L).
  Hypothesis Hfind : forall c i s t', mentioned c -> find_string L c i t fb = Ok (s, t') <-> lk c i = Some (s, t').
  Hypothesis Hreads : forall c i s t', lk c i = Some (s, t') -> reads (le_icu L) s.

  Definition gives (d : ldata) (o : option (ustr * ustr)) : Prop := forall w t', pure_data L t fb d = Ok (w, t') <-> o = Some (w, t').
  Definition the_text (c i : ustr) (vs : amap pvalue) : option (ustr * ustr) :=
    match lk c i with
    | Some (s, t') => option_map (fun w => (w, t')) (ref_text (le_fmt L) (le_reg L) (le_locale L t') (le_fuel L) vs s)
    | None => None
    end.

  Lemma G_none c i : mentioned c -> gives (LData c i None) (lk c i).
  Proof. intros Hc w t'. cbn [pure_data]. exact (Hfind c i w t' Hc). Qed.
  Lemma format_text c i vs w t' : mentioned c -> pure_format L c i vs t fb = Ok (w, t') <-> the_text c i vs = Some (w, t').
  Proof.
    intros Hc. unfold pure_format, the_text. split.
    - intros H. apply bind_Ok in H as ((s & t1) & H1 & H2). apply (Hfind c i s t1 Hc) in H1 as H1'. rewrite H1'.
      apply (ref_text_pure L Hicu vs s t1 w t' (Hreads _ _ _ _ H1')) in H2 as (-> & ->). reflexivity.
    - destruct (lk c i) as [(s & t1)|] eqn:El; [|discriminate]. destruct (ref_text _ _ _ _ _ s) as [w'|] eqn:Er; [|discriminate]. intros [= <- <-].
      apply (Hfind c i s t1 Hc) in El as El'. rewrite El'. cbn. apply (ref_text_pure L Hicu vs s t1 w' t1 (Hreads _ _ _ _ El)). auto.
  Qed.
  Lemma G_flat c i vs : mentioned c -> forallb (fun x => not_data (snd x)) vs = true -> gives (LData c i (Some vs)) (the_text c i (inserted vs [])).
  Proof.
    intros Hc Hv w t'. cbn [pure_data]. unfold inserted. generalize (@nil (ustr * pvalue)) as new. revert Hv. induction vs as [|(k & v) r IH]; intros Hv new.
    - cbn [fold_left]. exact (format_text c i new w t' Hc).
    - cbn [forallb snd] in Hv. apply andb_prop in Hv as (H1 & H2). cbn [fold_left fst snd]. rewrite <- (IH H2 (minsert k v new)). destruct v; try reflexivity. discriminate H1.
  Qed.

  Definition loc : ustr := us "i18n_localiser".
  Lemma loc_mentioned : mentioned loc.
  Proof. unfold mentioned, shipped_components, loc. cbn [In]. auto 8. Qed.
  Definition outer (i k ty v w t1 : ustr) : option (ustr * ustr) :=
    the_text loc i [(us "type", VString ty); (us "variant", VString v); (k, VLocalised w t1)].

  Lemma G_message ty v d o : gives d o ->
    gives (enum_message ty v d) (match o with Some (w, t1) => outer (us "error_format_enum") (us "message") ty v w t1 | None => None end).
  Proof.
    intros Hd w t'. unfold enum_message, outer. cbn [pure_data str].
    change (us "i18n_localiser") with loc. split.
    - destruct (pure_data L t fb d) as [(w1 & t1)|e| |] eqn:Ed; try discriminate. apply Hd in Ed as ->. intros H. exact (proj1 (format_text _ _ _ w t' loc_mentioned) H).
    - destruct o as [(w1 & t1)|]; [|discriminate]. rewrite (proj2 (Hd w1 t1) eq_refl). intros H. exact (proj2 (format_text _ _ _ w t' loc_mentioned) H).
  Qed.
  Lemma G_embedded ty v d o : gives d o ->
    gives (enum_embedded ty v (VData d)) (match o with Some (w, t1) => outer (us "error_format_enum_embedded") (us "error") ty v w t1 | None => None end).
  Proof.
    intros Hd w t'. unfold enum_embedded, outer. cbn [pure_data str].
    change (us "i18n_localiser") with loc. split.
    - destruct (pure_data L t fb d) as [(w1 & t1)|e| |] eqn:Ed; try discriminate. apply Hd in Ed as ->. intros H. exact (proj1 (format_text _ _ _ w t' loc_mentioned) H).
    - destruct o as [(w1 & t1)|]; [|discriminate]. rewrite (proj2 (Hd w1 t1) eq_refl). intros H. exact (proj2 (format_text _ _ _ w t' loc_mentioned) H).
  Qed.
  Lemma G_eq d o o' : gives d o -> o = o' -> gives d o'.
  Proof. now intros H ->. Qed.
End Data.

(** ** Texts of the library in a language *)
Section Language.
  Context {PE : Type}.
  Variables (L : lenv PE) (t : ustr) (fb : bool) (l : language) (n : nat).
  Hypothesis Hicu : icu_ok (le_icu L).
  Hypothesis Hfind : forall c i s t', mentioned c -> find_string L c i t fb = Ok (s, t') <-> look l c i = Some (s, t').
  Hypothesis Hreads : forall c i s t', look l c i = Some (s, t') -> reads (le_icu L) s.
  Hypothesis Hfuel : le_fuel L = S (S n).

  Definition cust_text (k : custom) : option ustr := match pure_data L t fb (cu_data k) with Ok (w, _) => Some w | _ => None end.
  Definition with_tag (tag : ustr) (o : option ustr) : option (ustr * ustr) := option_map (fun w => (w, tag)) o.
  Definition own_tag : ustr := match l with English => en | Italian => it end.

  Lemma outer_enum ty v w t1 : outer L (look l) (us "error_format_enum") (us "message") ty v w t1 = with_tag en (enum ty v w).
  Proof. unfold outer, the_text, with_tag, enum. rewrite Hfuel. destruct l; vm_compute; reflexivity. Qed.
  Lemma outer_embedded ty v w t1 : outer L (look l) (us "error_format_enum_embedded") (us "error") ty v w t1 = with_tag en (embedded ty v w).
  Proof. unfold outer, the_text, with_tag, embedded. rewrite Hfuel. destruct l; vm_compute; reflexivity. Qed.
  Lemma flat_embedded ty v w : gives L t fb (enum_embedded ty v (str w)) (with_tag en (embedded ty v w)).
  Proof.
    unfold enum_embedded. eapply G_eq; [apply (G_flat L t fb (look l) Hicu Hfind Hreads); [exact loc_mentioned|reflexivity]|].
    unfold the_text, with_tag, embedded. rewrite Hfuel. destruct l; vm_compute; reflexivity.
  Qed.
  Lemma message ty v d tag o : gives L t fb d (with_tag tag o) -> gives L t fb (enum_message ty v d) (with_tag en (within (enum ty v) o)).
  Proof.
    intros H. eapply G_eq; [exact (G_message L t fb (look l) Hicu Hfind Hreads ty v d _ H)|]. destruct o as [w|]; [|reflexivity].
    cbn [with_tag option_map within]. apply outer_enum.
  Qed.
  Lemma embedded_in ty v d o o' : gives L t fb d o' -> option_map fst o' = o -> gives L t fb (enum_embedded ty v (VData d)) (with_tag en (within (embedded ty v) o)).
  Proof.
    intros H <-. eapply G_eq; [exact (G_embedded L t fb (look l) Hicu Hfind Hreads ty v d _ H)|]. destruct o' as [(w & t1)|]; [|reflexivity].
    cbn [option_map within fst]. apply outer_embedded.
  Qed.
  Lemma fst_tag tag o : option_map fst (with_tag tag o) = o.
  Proof. now destruct o. Qed.
  Lemma cust_gives k : exists o, gives L t fb (cu_data k) o /\ option_map fst o = cust_text k.
  Proof.
    unfold gives, cust_text. destruct (pure_data L t fb (cu_data k)) as [(w & t1)|e| |] eqn:E.
    - exists (Some (w, t1)). split; [|reflexivity]. intros w' t'. split; intros [= <- <-]; reflexivity.
    - exists None. split; [|reflexivity]. intros w' t'. split; discriminate.
    - exists None. split; [|reflexivity]. intros w' t'. split; discriminate.
    - exists None. split; [|reflexivity]. intros w' t'. split; discriminate.
  Qed.
  Lemma custom_in ty v k : gives L t fb (enum_embedded ty v (VData (cu_data k))) (with_tag en (within (embedded ty v) (cust_text k))).
  Proof. destruct (cust_gives k) as (o & H1 & H2). exact (embedded_in ty v _ _ o H1 H2). Qed.

  Lemma flat c i vs o : mentioned c -> forallb (fun x => not_data (snd x)) vs = true ->
    the_text L (look l) c i (inserted vs []) = with_tag own_tag o -> gives L t fb (LData c i (Some vs)) (with_tag own_tag o).
  Proof. intros Hc Hv H. eapply G_eq; [apply (G_flat L t fb (look l) Hicu Hfind Hreads c i vs Hc Hv)|exact H]. Qed.
  Lemma none c i o : mentioned c -> look l c i = with_tag own_tag o -> gives L t fb (LData c i None) (with_tag own_tag o).
  Proof. intros Hc H. eapply G_eq; [apply (G_none L t fb (look l) Hfind c i Hc)|exact H]. Qed.
  Ltac mention := unfold mentioned, shipped_components; cbn [In]; auto 8.
  Ltac flat_text := apply flat; [mention|reflexivity|unfold the_text; rewrite Hfuel; unfold own_tag, either; destruct l; vm_compute; reflexivity].
  Ltac none_text := apply none; [mention|unfold own_tag, either; destruct l; vm_compute; reflexivity].

  Lemma registry_result e : gives L t fb (registry_data e) (with_tag en (registry_says e)).
  Proof. destruct e; apply flat_embedded. Qed.
  Lemma icu_result e : gives L t fb (icu_data e) (with_tag en (icu_says e)).
  Proof.
    destruct e; cbn [icu_data icu_says]; try apply flat_embedded; apply (message _ _ _ own_tag None); none_text.
  Qed.
  Lemma lexer_result e : gives L t fb (lexer_data e) None.
  Proof. destruct e; cbn [lexer_data]; apply (message _ _ _ own_tag None); none_text. Qed.
  Lemma provider_result e : gives L t fb (provider_data e) (with_tag en (provider_says l cust_text e)).
  Proof.
    destruct e; cbn [provider_data provider_says].
    1,3,4,5: apply (message _ _ _ own_tag (Some _)); flat_text.
    - exact (embedded_in _ _ _ _ _ (registry_result _) (fst_tag en _)).
    - apply custom_in.
  Qed.
  Definition schema_tag (e : schema_err) : ustr :=
    match e with SeSqlite3 _ | SeVersion _ _ | SeMissingVersion _ => en | _ => own_tag end.
  Lemma schema_result e : gives L t fb (schema_data e) (with_tag (schema_tag e) (schema_says l e)).
  Proof.
    destruct e; cbn [schema_data schema_says schema_tag].
    - apply flat_embedded.
    - flat_text.
    - apply (message _ _ _ own_tag None). flat_text.
    - apply (message _ _ _ own_tag None). flat_text.
    - flat_text.
    - flat_text.
    - flat_text.
    - flat_text.
  Qed.
  Lemma sqlite3_result e : gives L t fb (sqlite3_data e) (with_tag en (sqlite3_says l e)).
  Proof.
    destruct e; cbn [sqlite3_data sqlite3_says].
    - apply flat_embedded.
    - apply flat_embedded.
    - apply (message _ _ _ own_tag (Some _)). flat_text.
    - apply (message _ _ _ own_tag None). flat_text.
    - apply (message _ _ _ own_tag (Some _)). none_text.
    - apply (message _ _ _ own_tag (Some _)). flat_text.
    - exact (message _ _ _ _ _ (schema_result _)).
  Qed.
  Lemma tree_result e : gives L t fb (tree_data e) None.
  Proof.
    destruct e; cbn [tree_data].
    - exact (embedded_in _ _ _ None _ (lexer_result _) eq_refl).
    - apply (message _ _ _ own_tag None). none_text.
    - apply (message _ _ _ own_tag None). flat_text.
    - apply (message _ _ _ own_tag None). flat_text.
    - apply (message _ _ _ own_tag None). flat_text.
    - apply (message _ _ _ own_tag None). flat_text.
  Qed.
  Lemma command_result e : gives L t fb (command_data e) (with_tag en (command_says cust_text e)).
  Proof.
    destruct e; cbn [command_data command_says]; [apply custom_in|..]; apply (message _ _ _ own_tag None); flat_text.
  Qed.
  Lemma formatter_result e : gives L t fb (formatter_data e) (with_tag en (formatter_says l cust_text e)).
  Proof.
    destruct e; cbn [formatter_data formatter_says]; try apply flat_embedded.
    - exact (embedded_in _ _ _ _ _ (command_result _) (fst_tag en _)).
    - apply (message _ _ _ own_tag (Some _)); none_text.
    - apply (message _ _ _ own_tag (Some _)); none_text.
    - apply (message _ _ _ own_tag (Some _)); flat_text.
    - apply (message _ _ _ own_tag (Some _)); flat_text.
    - apply (message _ _ _ own_tag (Some _)); flat_text.
    - apply (message _ _ _ own_tag (Some _)); flat_text.
    - apply (message _ _ _ own_tag (Some _)); flat_text.
    - apply (message _ _ _ own_tag (Some _)); flat_text.
    - apply (message _ _ _ own_tag (Some _)); flat_text.
    - apply (message _ _ _ own_tag (Some _)); flat_text.
    - apply (message _ _ _ own_tag None); flat_text.
    - apply (message _ _ _ own_tag (Some _)); flat_text.
    - apply (message _ _ _ own_tag None); flat_text.
    - apply (message _ _ _ own_tag (Some _)); flat_text.
    - apply (message _ _ _ own_tag None); flat_text.
    - apply (message _ _ _ own_tag (Some _)); flat_text.
    - apply (message _ _ _ own_tag None); flat_text.
    - apply (message _ _ _ own_tag None); flat_text.
    - apply (message _ _ _ own_tag None); flat_text.
    - apply (message _ _ _ own_tag None); flat_text.
    - apply (message _ _ _ own_tag None); flat_text.
    - apply (message _ _ _ own_tag (Some _)); flat_text.
    - apply (message _ _ _ own_tag (Some _)); flat_text.
    - apply (message _ _ _ own_tag None); flat_text.
    - apply (message _ _ _ own_tag (Some _)); none_text.
    - apply (message _ _ _ own_tag (Some _)); none_text.
  Qed.
  Lemma localiser_result e : gives L t fb (localiser_data e) (with_tag en (localiser_says l cust_text e)).
  Proof.
    destruct e as [e|e|e|c i tag b|c i|]; cbn [localiser_data localiser_says].
    - exact (embedded_in _ _ _ _ _ (registry_result _) (fst_tag en _)).
    - exact (embedded_in _ _ _ _ _ (formatter_result _) (fst_tag en _)).
    - exact (embedded_in _ _ _ _ _ (provider_result _) (fst_tag en _)).
    - apply (message _ _ _ own_tag (Some _)). destruct b; flat_text.
    - apply (message _ _ _ own_tag (Some _)); flat_text.
    - apply (message _ _ _ own_tag (Some _)); none_text.
  Qed.
  Definition result_tag (e : error) : ustr := match e with XSchema e => schema_tag e | _ => en end.
  Theorem error_result e : gives L t fb (error_data e) (with_tag (result_tag e) (says l cust_text e)).
  Proof.
    destruct e; cbn [error_data says result_tag].
    - apply icu_result.
    - apply lexer_result.
    - apply registry_result.
    - apply provider_result.
    - apply sqlite3_result.
    - apply schema_result.
    - apply tree_result.
    - apply command_result.
    - apply localiser_result.
    - apply formatter_result.
  Qed.
End Language.

(** ** Only what is stored in Italian *)
Section Only.
  Context {PE : Type}.
  Variables (L : lenv PE) (t : ustr) (fb : bool) (n : nat).
  Hypothesis Hicu : icu_ok (le_icu L).
  Hypothesis Hfind : forall c i s t', mentioned c -> find_string L c i t fb = Ok (s, t') <-> only_italian c i = Some (s, t').
  Hypothesis Hreads : forall c i s t', only_italian c i = Some (s, t') -> reads (le_icu L) s.
  Hypothesis Hfuel : le_fuel L = S (S n).

  Lemma gives_some d : exists o, gives L t fb d o.
  Proof.
    unfold gives. destruct (pure_data L t fb d) as [(w & t1)|e| |] eqn:E; [exists (Some (w, t1))|exists None ..];
      intros w' t'; (split; first [discriminate | intros [= <- <-]; reflexivity]).
  Qed.
  Lemma only_message ty v d : gives L t fb (enum_message ty v d) None.
  Proof.
    destruct (gives_some d) as (o & H). eapply G_eq; [exact (G_message L t fb only_italian Hicu Hfind Hreads ty v d o H)|].
    destruct o as [(w & t1)|]; [|reflexivity]. unfold outer, the_text. assert (only_italian loc (us "error_format_enum") = None) as -> by (vm_compute; reflexivity). reflexivity.
  Qed.
  Lemma only_embedded ty v d : gives L t fb (enum_embedded ty v (VData d)) None.
  Proof.
    destruct (gives_some d) as (o & H). eapply G_eq; [exact (G_embedded L t fb only_italian Hicu Hfind Hreads ty v d o H)|].
    destruct o as [(w & t1)|]; [|reflexivity]. unfold outer, the_text. assert (only_italian loc (us "error_format_enum_embedded") = None) as -> by (vm_compute; reflexivity). reflexivity.
  Qed.
  Lemma only_flat ty v w : gives L t fb (enum_embedded ty v (str w)) None.
  Proof.
    unfold enum_embedded. eapply G_eq; [apply (G_flat L t fb only_italian Hicu Hfind Hreads); [exact loc_mentioned|reflexivity]|].
    unfold the_text. change (us "i18n_localiser") with loc. assert (only_italian loc (us "error_format_enum_embedded") = None) as -> by (vm_compute; reflexivity). reflexivity.
  Qed.
  Definition bare_says (e : error) : option ustr :=
    match e with
    | XSchema e => match e with SeSqlite3 _ | SeVersion _ _ | SeMissingVersion _ => None | _ => schema_says Italian e end
    | _ => None
    end.
  Theorem only_result e : gives L t fb (error_data e) (with_tag it (bare_says e)).
  Proof.
    destruct e as [e|e|e|e|e|e|e|e|e|e]; cbn [error_data bare_says].
    - destruct e; cbn [icu_data]; try apply only_flat; apply only_message.
    - destruct e; cbn [lexer_data]; apply only_message.
    - destruct e; cbn [registry_data]; apply only_flat.
    - destruct e; cbn [provider_data]; try apply only_message; apply only_embedded.
    - destruct e; cbn [sqlite3_data]; try apply only_flat; apply only_message.
    - destruct e; cbn [schema_data]; try apply only_flat; try apply only_message;
        (eapply G_eq; [apply (G_flat L t fb only_italian Hicu Hfind Hreads); [unfold mentioned, shipped_components; cbn [In]; auto 8|reflexivity]|]);
        unfold the_text; rewrite Hfuel; vm_compute; reflexivity.
    - destruct e; cbn [tree_data]; try apply only_message; apply only_embedded.
    - destruct e; cbn [command_data]; try apply only_message; apply only_embedded.
    - destruct e; cbn [localiser_data]; try apply only_message; apply only_embedded.
    - destruct e; cbn [formatter_data]; try apply only_flat; try apply only_message; apply only_embedded.
  Qed.
  Lemma bare_says_iff e w : bare_says e = Some w <-> bare e /\ says Italian (fun _ => None) e = Some w.
  Proof.
    destruct e as [e|e|e|e|e|e|e|e|e|e]; cbn [bare_says bare says]; try (split; [discriminate|intros ([] & _)]).
    destruct e; cbn [schema_says]; (split; [intros H; first [discriminate H | exact (conj I H)] | intros (H1 & H2); first [exact H2 | destruct H1]]).
  Qed.
End Only.

(** ** Nothing *)
Definition nothing (c i : ustr) : option (ustr * ustr) := None.
Section Nothing.
  Context {PE : Type}.
  Variables (L : lenv PE) (t : ustr) (fb : bool).
  Hypothesis Hicu : icu_ok (le_icu L).
  Hypothesis Hfind : forall c i s t', mentioned c -> find_string L c i t fb = Ok (s, t') <-> nothing c i = Some (s, t').
  Lemma Hreads0 : forall c i s t', nothing c i = Some (s, t') -> reads (le_icu L) s.
  Proof. discriminate. Qed.
  Lemma no_message ty v d : gives L t fb (enum_message ty v d) None.
  Proof.
    destruct (gives_some L t fb d) as (o & H). eapply G_eq; [exact (G_message L t fb nothing Hicu Hfind Hreads0 ty v d o H)|]. now destruct o as [(w & t1)|].
  Qed.
  Lemma no_embedded ty v d : gives L t fb (enum_embedded ty v (VData d)) None.
  Proof.
    destruct (gives_some L t fb d) as (o & H). eapply G_eq; [exact (G_embedded L t fb nothing Hicu Hfind Hreads0 ty v d o H)|]. now destruct o as [(w & t1)|].
  Qed.
  Lemma no_flat c i vs : mentioned c -> forallb (fun x => not_data (snd x)) vs = true -> gives L t fb (LData c i (Some vs)) None.
  Proof. intros Hc Hv. eapply G_eq; [apply (G_flat L t fb nothing Hicu Hfind Hreads0 c i vs Hc Hv)|reflexivity]. Qed.
  Theorem no_result e : gives L t fb (error_data e) None.
  Proof.
    assert (Hs : forall ty v w, gives L t fb (enum_embedded ty v (str w)) None) by (intros; apply no_flat; [exact loc_mentioned|reflexivity]).
    destruct e as [e|e|e|e|e|e|e|e|e|e]; cbn [error_data].
    - destruct e; cbn [icu_data]; try apply Hs; apply no_message.
    - destruct e; cbn [lexer_data]; apply no_message.
    - destruct e; cbn [registry_data]; apply Hs.
    - destruct e; cbn [provider_data]; try apply no_message; apply no_embedded.
    - destruct e; cbn [sqlite3_data]; try apply Hs; apply no_message.
    - destruct e; cbn [schema_data]; try apply Hs; try apply no_message; apply no_flat; try reflexivity; unfold mentioned, shipped_components; cbn [In]; auto 8.
    - destruct e; cbn [tree_data]; try apply no_message; apply no_embedded.
    - destruct e; cbn [command_data]; try apply no_message; apply no_embedded.
    - destruct e; cbn [localiser_data]; try apply no_message; apply no_embedded.
    - destruct e; cbn [formatter_data]; try apply Hs; try apply no_message; apply no_embedded.
  Qed.
End Nothing.
