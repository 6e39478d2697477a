(** Proofs for C93. *)
From Verif Require Import Base BaseFacts LexerModel TreeModel TreeSpec ValueModel CommandModel IsoModel FormatterModel FormatterSpec
  FormatterAbs FormatterRefine FormatterRefine2 FormatterSim FormatterProofs FormatterProofs3 FormatterProofs4 TwinSpec.

Lemma Forall2_in_l {A B} (R : A -> B -> Prop) l l' x : Forall2 R l l' -> In x l -> exists y, In y l' /\ R x y.
Proof.
  induction 1 as [|a b l l' H _ IH]; [intros []|]. intros [->|Hi]; [exists b; split; [now left|exact H]|].
  destruct (IH Hi) as (y & Hy & Hr). exists y. split; [now right|exact Hr].
Qed.
Lemma Forall2_flip' {A B} (R : A -> B -> Prop) (R' : B -> A -> Prop) l l' : (forall x y, R x y -> R' y x) -> Forall2 R l l' -> Forall2 R' l' l.
Proof. intros H. induction 1; constructor; auto. Qed.

Lemma twin_sym S S' N x y : twin S S' N x y -> twin S' S (fun a b => N b a) y x.
Proof.
  assert (Hs : forall sels sels', same_selectors N sels sels' -> same_selectors (fun a b => N b a) sels' sels).
  { intros sels sels'. apply Forall2_flip'. auto. }
  destruct 1; try (constructor; auto; fail); constructor; auto; intros; try (symmetry; auto; fail).
Qed.
Lemma twins_sym S S' N a a' : twins S S' N a a' -> twins S' S (fun a b => N b a) a' a.
Proof.
  intros (H1 & H2 & H3). split; [exact H2|]. split; [exact H1|]. revert H3. apply Forall2_flip'. intros x y [Hn Hl]. split; [exact Hn|].
  revert Hl. apply Forall2_flip'. intros u v. apply twin_sym.
Qed.

(** ** What items give *)
Section Items.
  Variables (fe : fmtenv) (reg : cregistry) (locale : ustr) (vals : amap pvalue) (rec : ustr -> numst -> aout) (strs : amap (list sitem)) (self : ustr).
  Notation item := (aitem fe reg locale vals rec strs self).
  Lemma pure_ok (st st1 : numst) (r : fout ustr) t (P : Prop) : (r = Ok t <-> P) -> ((st, r) = (st1, Ok t) <-> st1 = st /\ P).
  Proof. intros H. rewrite <- H. split; [intros [= -> ->]; auto|]. intros [-> ->]. reflexivity. Qed.
  Lemma place_ok ph st st1 t : item (SPat ph None) st = (st1, Ok t) <-> st1 = st /\ shows_text vals ph t.
  Proof.
    cbn [aitem]. apply pure_ok. unfold shows_text, avalue, text_of. destruct (mget ph vals) as [v|]; cbn [ok_or bind].
    - split; [intros H; apply ok_or_ok in H; exists v; now split|]. intros (v' & [= <-] & H). now apply ok_or_ok.
    - split; [discriminate|]. now intros (v & H & _).
  Qed.
  Lemma decimal_item ph st st1 t : item (SPat ph (Some (us "decimal", []))) st = (st1, Ok t) <-> st1 = st /\ shows_number fe locale vals ph t.
  Proof.
    cbn [aitem]. unfold akw. rewrite ueqb_refl. apply pure_ok. unfold shows_number, avalue. destruct (mget ph vals) as [v|]; cbn [ok_or bind].
    2:{ split; [discriminate|]. now intros (v & dec & f & H & _). }
    cbn [pairs pairs_from fold_left decimal_options bind]. unfold format_decimal. split.
    - intros H. apply bind_Ok in H as (f & H2 & H). apply ok_or_ok in H2. apply bind_Ok in H as (dec & H3 & H). apply number_of_ok in H3. injection H as <-.
      exists v, dec, f. auto.
    - intros (v' & dec & f & [= <-] & H1 & -> & ->). cbn [ok_or bind]. now rewrite (proj2 (number_of_ok fe _ v dec) H1).
  Qed.
  Lemma date_time_item ph st st1 t : item (SPat ph (Some (us "date_time", []))) st = (st1, Ok t) <-> st1 = st /\ shows_moment fe locale vals ph t.
  Proof.
    cbn [aitem]. unfold akw. rewrite ueqb_refl. change (ueqb (us "date_time") (us "decimal")) with false. cbv iota. apply pure_ok.
    unfold shows_moment, avalue. destruct (mget ph vals) as [v|]; cbn [ok_or bind].
    2:{ split; [discriminate|]. now intros (v & m & H & _). }
    cbn [pairs pairs_from fold_left date_time_options bind]. rewrite date_time_ok. split.
    - intros (m & H). exists v, m. auto.
    - intros (v' & m & [= <-] & H). eauto.
  Qed.
  Lemma select_item ph sels st st1 t : item (SPat ph (Some (us "select", sels))) st = (st1, Ok t) <->
    exists k, shows_text vals ph k /\ In k (map fst sels) /\ rec k st = (st1, Ok t).
  Proof.
    cbn [aitem]. unfold akw. change (ueqb (us "select") (us "decimal")) with false. change (ueqb (us "select") (us "date_time")) with false.
    change (ueqb (us "select") (us "ordinal")) with false. change (ueqb (us "select") (us "plural")) with false. cbv iota. unfold shows_text.
    destruct (mget ph vals) as [v|].
    2:{ split; [discriminate|]. now intros (k & (v & H & _) & _). }
    change (value_text v) with (text_value v). destruct (text_value v) as [w|] eqn:Ew.
    2:{ split; [discriminate|]. intros (k & (v' & [= <-] & H) & _). congruence. }
    rewrite pairs_get. destruct (umem w (map fst sels)) eqn:Em.
    - apply umem_In in Em. split; [intros H; exists w; split; [exists v; now split|]; now split|].
      intros (k & (v' & Hv & Hk) & Hi & Hx). injection Hv as <-. rewrite Ew in Hk. injection Hk as <-. exact Hx.
    - split; [discriminate|]. intros (k & (v' & [= <-] & Hk) & Hi & _). rewrite Ew in Hk. injection Hk as <-. apply umem_In in Hi. congruence.
  Qed.
  Lemma anumber_ok sels d rules st st1 t : anumber fe locale rec strs sels d rules st = (st1, Ok t) <->
    exists f body, fe_decimal fe locale None = Some f /\ In (category_name (rules d)) (map fst sels) /\ mget (category_name (rules d)) strs = Some body /\
      rec (category_name (rules d)) (upd st (category_name (rules d)) (f d)) = (st1, Ok t).
  Proof.
    change (category_name (rules d)) with (plural_category (rules d)). unfold anumber. destruct (fe_decimal fe locale None) as [f|].
    2:{ split; [discriminate|]. now intros (f & body & Hf & _). }
    cbv zeta. rewrite pairs_get. destruct (umem _ (map fst sels)) eqn:E.
    - apply umem_In in E. destruct (mget (plural_category (rules d)) strs) as [body|].
      + split; [intros H; exists f, body; auto|]. now intros (f0 & b0 & [= <-] & _ & _ & H).
      + split; [discriminate|]. now intros (f0 & b0 & _ & _ & Hb & _).
    - split; [discriminate|]. intros (f0 & b0 & _ & Hi & _). apply umem_In in Hi. congruence.
  Qed.
  Lemma plural_item ph sels st st1 t : item (SPat ph (Some (us "plural", sels))) st = (st1, Ok t) <->
    exists u k body, shows_cardinal fe locale vals ph u k /\ In k (map fst sels) /\ mget k strs = Some body /\ rec k (upd st k u) = (st1, Ok t).
  Proof.
    cbn [aitem]. unfold akw. change (ueqb (us "plural") (us "decimal")) with false. change (ueqb (us "plural") (us "date_time")) with false.
    change (ueqb (us "plural") (us "ordinal")) with false. rewrite ueqb_refl. cbv iota. unfold shows_cardinal.
    destruct (mget ph vals) as [v|].
    2:{ split; [discriminate|]. now intros (u & k & b & (v & d & f & rules & H & _) & _). }
    destruct (fe_cardinal fe locale) as [rules|].
    2:{ split; [discriminate|]. now intros (u & k & b & (v' & d & f & rules & _ & _ & _ & _ & H & _) & _). }
    split.
    - intros H. destruct (number_of fe (us "PatternPlural") v) as [d| | |] eqn:En; try discriminate H. apply number_of_ok in En.
      apply anumber_ok in H as (f & body & Hf & Hi & Hb & H). exists (f d), (category_name (rules d)), body. split; [exists v, d, f, rules; auto 8|]. auto.
    - intros (u & k & body & (v' & d & f & rules' & Hv & Hn & Hf & -> & Hru & ->) & Hi & Hb & Hx). injection Hv as <-. injection Hru as <-.
      rewrite (proj2 (number_of_ok fe (us "PatternPlural") v d) Hn). apply anumber_ok. exists f, body. auto.
  Qed.
  Lemma ordinal_item ph sels st st1 t : item (SPat ph (Some (us "ordinal", sels))) st = (st1, Ok t) <->
    exists u k body, shows_ordinal fe locale vals ph u k /\ In k (map fst sels) /\ mget k strs = Some body /\ rec k (upd st k u) = (st1, Ok t).
  Proof.
    cbn [aitem]. unfold akw. change (ueqb (us "ordinal") (us "decimal")) with false. change (ueqb (us "ordinal") (us "date_time")) with false.
    rewrite ueqb_refl. cbv iota. unfold shows_ordinal.
    destruct (mget ph vals) as [v|].
    2:{ split; [discriminate|]. now intros (u & k & b & (v & f & rules & H & _) & _). }
    destruct (fe_ordinal fe locale) as [rules|].
    2:{ split; [discriminate|]. now intros (u & k & b & (n & f & rules & _ & _ & _ & H & _) & _). }
    split.
    - intros H. destruct v; try discriminate H.
      apply anumber_ok in H as (f & body & Hf & Hi & Hb & H). eexists _, _, body. split; [exists n, f, rules; auto 8|]. auto.
    - intros (u & k & body & (n & f & rules' & Hv & Hf & -> & Hru & ->) & Hi & Hb & Hx). injection Hv as ->. injection Hru as <-. apply anumber_ok. exists f, body. auto.
  Qed.
  Lemma command_item name args st st1 t : item (SCmd (SId name :: map SId args)) st = (st1, Ok t) <-> st1 = st /\ answers reg name (map VString args) t.
  Proof.
    cbn [aitem]. apply pure_ok. assert (E : cmd_parts (SId name :: map SId args) = Ok (name, false, map VString args)).
    { assert (Ea : cmd_args (map SId args) = Ok (map VString args)) by (apply cmd_args_iff; eauto).
      destruct args as [|w args]; [reflexivity|]. cbn [map cmd_parts] in *. rewrite Ea. reflexivity. }
    rewrite E. cbn [bind]. apply run_command_ok.
  Qed.
  Lemma delayed_item name args st st1 t : item (SCmd (SId name :: SDelay :: map SId args)) st = (st1, Ok t) <->
    st1 = st /\ answers reg name (map (parameter vals) args) t.
  Proof.
    cbn [aitem]. apply pure_ok. cbn [cmd_parts]. rewrite (proj2 (cmd_args_iff (map SId args) (map VString args))) by eauto.
    cbn [bind]. apply format_command_ok.
  Qed.
End Items.

Section Sim.
  Variables (S S' : setting) (N : ustr -> ustr -> Prop) (strs strs' : amap (list sitem)).
  Hypothesis N1 : forall k x y, N k x -> N k y -> x = y.
  Hypothesis N2 : forall k x y, N x k -> N y k -> x = y.
  Hypothesis Hs : Forall2 (fun x y => N (fst x) (fst y) /\ Forall2 (twin S S' N) (snd x) (snd y)) strs strs'.
  Notation astr := (astring (se_env S) (se_commands S) (se_locale S) (se_values S)).
  Notation astr' := (astring (se_env S') (se_commands S') (se_locale S') (se_values S')).

  Lemma string_twin k k' body : N k k' -> mget k strs = Some body -> exists body', mget k' strs' = Some body' /\ Forall2 (twin S S' N) body body'.
  Proof.
    intros Hk. pose proof Hs as H0. clear Hs. induction H0 as [|[n b] [n' b'] l l' [Hn Hb] _ IH]; cbn [mget fst snd] in *; [discriminate|].
    destruct (ueqb k n) eqn:E.
    - apply ueqb_eq in E as ->. rewrite (N1 _ _ _ Hk Hn), ueqb_refl. intros [= <-]. eauto.
    - destruct (ueqb k' n') eqn:E'; [|exact IH]. apply ueqb_eq in E' as ->. rewrite (N2 _ _ _ Hk Hn), ueqb_refl in E. discriminate.
  Qed.
  Definition related (st st' : numst) : Prop := forall k k', N k k' -> st k = st' k'.
  Lemma related_upd st st' k k' x : related st st' -> N k k' -> related (upd st k x) (upd st' k' x).
  Proof.
    intros Hr Hk m m' Hm. unfold upd. destruct (ueqb m k) eqn:E.
    - apply ueqb_eq in E as ->. now rewrite (N1 _ _ _ Hm Hk), ueqb_refl.
    - destruct (ueqb m' k') eqn:E'; [|now apply Hr]. apply ueqb_eq in E' as ->. rewrite (N2 _ _ _ Hm Hk), ueqb_refl in E. discriminate.
  Qed.
  Definition rec_ok (rec rec' : ustr -> numst -> aout) : Prop := forall m m' st st' st1 t, N m m' -> related st st' -> rec m st = (st1, Ok t) ->
    exists st1', rec' m' st' = (st1', Ok t) /\ related st1 st1'.

  Lemma selector_twin sels sels' k : same_selectors N sels sels' -> In k (map fst sels) -> exists k', In k' (map fst sels') /\ N k k'.
  Proof. intros H Hi. exact (Forall2_in_l _ _ _ _ H Hi). Qed.

  Lemma item_twin rec rec' self self' x x' st st' st1 t : rec_ok rec rec' -> N self self' -> related st st' -> twin S S' N x x' ->
    aitem (se_env S) (se_commands S) (se_locale S) (se_values S) rec strs self x st = (st1, Ok t) ->
    exists st1', aitem (se_env S') (se_commands S') (se_locale S') (se_values S') rec' strs' self' x' st' = (st1', Ok t) /\ related st1 st1'.
  Proof.
    intros Hrec Hself Hr Hx. destruct Hx as [w| |ph ph' H|ph ph' H|ph ph' H|ph ph' sels sels' Hsel H|ph ph' sels sels' Hsel H|ph ph' sels sels' Hsel H|name name' args args' H|name name' args args' H].
    - intros [= <- <-]. cbn. eauto.
    - intros [= <- <-]. cbn. rewrite (Hr _ _ Hself). eauto.
    - rewrite place_ok. intros [-> Ht]. exists st'. split; [|exact Hr]. apply place_ok. split; [reflexivity|now apply H].
    - rewrite decimal_item. intros [-> Ht]. exists st'. split; [|exact Hr]. apply decimal_item. split; [reflexivity|now apply H].
    - rewrite date_time_item. intros [-> Ht]. exists st'. split; [|exact Hr]. apply date_time_item. split; [reflexivity|now apply H].
    - rewrite select_item. intros (k & Hk & Hi & E). destruct (selector_twin _ _ _ Hsel Hi) as (k' & Hi' & Hkk).
      destruct (Hrec _ _ _ _ _ _ Hkk Hr E) as (st1' & E' & Hr'). exists st1'. split; [|exact Hr']. apply select_item. exists k'. split; [now apply (H k k' Hkk)|auto].
    - rewrite plural_item. intros (u & k & body & Hk & Hi & Hb & E). destruct (selector_twin _ _ _ Hsel Hi) as (k' & Hi' & Hkk).
      destruct (Hrec _ _ _ _ _ _ Hkk (related_upd _ _ _ _ u Hr Hkk) E) as (st1' & E' & Hr'). exists st1'. split; [|exact Hr']. apply plural_item.
      destruct (string_twin _ _ _ Hkk Hb) as (body' & Hb' & _). exists u, k', body'. split; [now apply (H u k k' Hkk)|auto].
    - rewrite ordinal_item. intros (u & k & body & Hk & Hi & Hb & E). destruct (selector_twin _ _ _ Hsel Hi) as (k' & Hi' & Hkk).
      destruct (Hrec _ _ _ _ _ _ Hkk (related_upd _ _ _ _ u Hr Hkk) E) as (st1' & E' & Hr'). exists st1'. split; [|exact Hr']. apply ordinal_item.
      destruct (string_twin _ _ _ Hkk Hb) as (body' & Hb' & _). exists u, k', body'. split; [now apply (H u k k' Hkk)|auto].
    - rewrite command_item. intros [-> Ht]. exists st'. split; [|exact Hr]. apply command_item. split; [reflexivity|now apply H].
    - rewrite delayed_item. intros [-> Ht]. exists st'. split; [|exact Hr]. apply delayed_item. split; [reflexivity|now apply H].
  Qed.
  Lemma items_twin rec rec' self self' l l' : rec_ok rec rec' -> N self self' -> Forall2 (twin S S' N) l l' -> forall st st' st1 t, related st st' ->
    aitems (se_env S) (se_commands S) (se_locale S) (se_values S) rec strs self l st = (st1, Ok t) ->
    exists st1', aitems (se_env S') (se_commands S') (se_locale S') (se_values S') rec' strs' self' l' st' = (st1', Ok t) /\ related st1 st1'.
  Proof.
    intros Hrec Hself. induction 1 as [|x x' l l' Hx _ IH]; intros st st' st1 t Hr; cbn [aitems]; [intros [= <- <-]; eauto|].
    destruct (aitem _ _ _ _ rec strs self x st) as (sa & [s| | |]) eqn:Ex; try discriminate.
    destruct (item_twin _ _ _ _ _ _ _ _ _ _ Hrec Hself Hr Hx Ex) as (sa' & -> & Hra).
    destruct (aitems _ _ _ _ rec strs self l sa) as (sb & [s'| | |]) eqn:El; try discriminate. intros [= <- <-].
    destruct (IH _ _ _ _ Hra El) as (sb' & -> & Hrb). eauto.
  Qed.
  Lemma string_gives_twin fuel : rec_ok (astr fuel strs) (astr' fuel strs').
  Proof.
    induction fuel as [|f IH]; intros m m' st st' st1 t Hm Hr; cbn [astring]; [discriminate|].
    destruct (mget m strs) as [l|] eqn:El; [|discriminate]. destruct (string_twin _ _ _ Hm El) as (l' & -> & Hl). now apply items_twin.
  Qed.
End Sim.

Lemma fresh_format fe reg locale fm a vals fuel t : fm_rep fe reg locale fm a ->
  snd (format fuel fe reg fm vals) = Ok t <-> exists st, astring fe reg locale vals fuel (strings_of a) (us "_") (fun _ => []) = (st, Ok t).
Proof.
  intros Hrep. pose proof (proj2 (sim_pattern fe reg locale fm a vals Hrep fuel (us "_") _ _ (R_init _ _ _ _ _ Hrep))) as S1.
  unfold format. destruct (format_pattern fe reg fm vals fuel (us "_") (fm_numbers fm)) as (n1, r1). cbn [snd] in *. rewrite (same_ok _ _ _ S1).
  destruct (astring _ _ _ _ _ _ _ _) as (st, r). cbn [snd]. split; [intros ->; eauto|]. now intros (st1 & [= _ ->]).
Qed.

(** ** Formatters *)
Section Formatters.
  Variables (d d' : icu) (g g' : ustr) (S S' : setting) (N : ustr -> ustr -> Prop) (tag tag' s s' : ustr) (a a' : sast) (fm fm' : formatter).
  Hypothesis Ha : content_of d g s a.
  Hypothesis Ha' : content_of d' g' s' a'.
  Hypothesis Hf : formatter_try_new d g (se_env S) (se_commands S) tag (se_locale S) s = Ok fm.
  Hypothesis Hf' : formatter_try_new d' g' (se_env S') (se_commands S') tag' (se_locale S') s' = Ok fm'.

  Lemma twin_fresh fuel t : twins S S' N a a' -> snd (format fuel (se_env S) (se_commands S) fm (se_values S)) = Ok t ->
    snd (format fuel (se_env S') (se_commands S') fm' (se_values S')) = Ok t.
  Proof.
    intros (N1 & N2 & Hs). destruct (try_new_inv d g _ _ tag _ s a fm Ha Hf) as (_ & Hrep & _).
    destruct (try_new_inv d' g' _ _ tag' _ s' a' fm' Ha' Hf') as (_ & Hrep' & _).
    rewrite (fresh_format _ _ _ _ _ _ _ _ Hrep), (fresh_format _ _ _ _ _ _ _ _ Hrep'). intros (st & E).
    change (strings_of a) with (all_strings a) in E. change (strings_of a') with (all_strings a').
    assert (H0 : N (us "_") (us "_")) by (inversion Hs as [|x y l l' [H0 _] _]; exact H0).
    destruct (string_gives_twin S S' N _ _ N1 N2 Hs fuel _ _ _ (fun _ => []) _ _ H0 (fun _ _ _ => eq_refl) E) as (st' & E' & _). eauto.
  Qed.
End Formatters.

Theorem twins_same d d' g g' S S' N tag tag' s s' a a' fm fm' fuel t : content_of d g s a -> content_of d' g' s' a' ->
  formatter_try_new d g (se_env S) (se_commands S) tag (se_locale S) s = Ok fm ->
  formatter_try_new d' g' (se_env S') (se_commands S') tag' (se_locale S') s' = Ok fm' -> twins S S' N a a' ->
  snd (format fuel (se_env S) (se_commands S) fm (se_values S)) = Ok t <-> snd (format fuel (se_env S') (se_commands S') fm' (se_values S')) = Ok t.
Proof.
  intros Ha Ha' Hf Hf' Ht. split; [exact (twin_fresh d d' g g' S S' N tag tag' s s' a a' fm fm' Ha Ha' Hf Hf' fuel t Ht)|].
  exact (twin_fresh d' d g' g S' S (fun x y => N y x) tag' tag s' s a' a fm' fm Ha' Ha Hf' Hf fuel t (twins_sym _ _ _ _ _ Ht)).
Qed.

(** ** After other calls *)
Lemma Forall2_in_r {A B} (R : A -> B -> Prop) l l' y : Forall2 R l l' -> In y l' -> exists x, In x l /\ R x y.
Proof.
  induction 1 as [|a b l l' H _ IH]; [intros []|]. intros [->|Hi]; [exists a; split; [now left|exact H]|].
  destruct (IH Hi) as (x & Hx & Hr). exists x. split; [now right|exact Hr].
Qed.
Lemma hash_twin S S' N l l' : Forall2 (twin S S' N) l l' -> In SHash l' -> In SHash l.
Proof. intros H Hi. destruct (Forall2_in_r _ _ _ _ H Hi) as (x & Hx & Ht). now inversion Ht; subst. Qed.
Lemma plurals_only_twin S S' N a a' : twins S S' N a a' -> hash_in_plurals_only a -> hash_in_plurals_only a'.
Proof.
  intros (N1 & N2 & Hs) H name body x ph sels sel branch Hin Hx -> Hsel target Ht Hh.
  destruct (Forall2_in_r _ _ _ _ Hs Hin) as ((n0 & b0) & Hin0 & [_ Hb0]). destruct (Forall2_in_r _ _ _ _ Hs Ht) as ((n1 & b1) & Hin1 & [Hn1 Hb1]). cbn [fst snd] in *.
  destruct (Forall2_in_r _ _ _ _ Hb0 Hx) as (x0 & Hx0 & Htw). inversion Htw as [| | | | |ph0 ph1 sels0 sels1 Hss Hte E1 E2| | | |]; subst.
  destruct (Forall2_in_r _ _ _ _ Hss (in_map fst _ _ Hsel)) as (k & Hk & Hkk). cbn [fst] in Hkk. rewrite (N2 _ _ _ Hkk Hn1) in Hk.
  apply in_map_iff in Hk as ((k0 & br) & <- & Hk). exact (H _ _ _ _ _ _ _ Hin0 Hx0 eq_refl Hk _ Hin1 (hash_twin _ _ _ _ _ Hb1 Hh)).
Qed.
Theorem twins_after d d' g g' S S' N tag tag' s s' a a' fm fm' fm1 fm1' fuel t : content_of d g s a -> content_of d' g' s' a' ->
  formatter_try_new d g (se_env S) (se_commands S) tag (se_locale S) s = Ok fm ->
  formatter_try_new d' g' (se_env S') (se_commands S') tag' (se_locale S') s' = Ok fm' -> twins S S' N a a' -> hash_in_plurals_only a ->
  after_formatting (se_env S) (se_commands S) fm fm1 -> after_formatting (se_env S') (se_commands S') fm' fm1' ->
  snd (format fuel (se_env S) (se_commands S) fm1 (se_values S)) = Ok t <-> snd (format fuel (se_env S') (se_commands S') fm1' (se_values S')) = Ok t.
Proof.
  intros Ha Ha' Hf Hf' Ht Hh H1 H1'. rewrite (format_history _ _ _ _ _ _ _ _ _ _ _ _ Ha Hh Hf H1).
  rewrite (format_history _ _ _ _ _ _ _ _ _ _ _ _ Ha' (plurals_only_twin _ _ _ _ _ Ht Hh) Hf' H1').
  exact (twins_same d d' g g' S S' N tag tag' s s' a a' fm fm' fuel t Ha Ha' Hf Hf' Ht).
Qed.

(** ** The items of a string of which a formatter can be made *)
Inductive shaped : sitem -> Prop :=
| sp_text w : shaped (SText w)
| sp_hash : shaped SHash
| sp_place ph : shaped (SPat ph None)
| sp_decimal ph : shaped (SPat ph (Some (us "decimal", [])))
| sp_date_time ph : shaped (SPat ph (Some (us "date_time", [])))
| sp_select ph sels : shaped (SPat ph (Some (us "select", sels)))
| sp_plural ph sels : shaped (SPat ph (Some (us "plural", sels)))
| sp_ordinal ph sels : shaped (SPat ph (Some (us "ordinal", sels)))
| sp_command name args : shaped (SCmd (SId name :: map SId args))
| sp_delayed name args : shaped (SCmd (SId name :: SDelay :: map SId args)).
Lemma checked_shaped fe reg locale known main x : item_check fe reg locale known main x = Ok tt -> shaped x.
Proof.
  destruct x as [w| |ph [[kw sels]|]|ps]; try (intros _; constructor; fail); cbn [item_check].
  - unfold kw_check. destruct (ueqb_spec kw (us "decimal")) as [->|_].
    { intros H. apply bind_Ok in H as ([o1 o2] & H & _). apply decimal_options_nil in H as (H & _); [|apply pairs_same]. apply pairs_nil in H as ->. constructor. }
    destruct (ueqb_spec kw (us "date_time")) as [->|_].
    { intros H. apply bind_Ok in H as ([[o1 o2] o3] & H & _). apply date_time_options_nil in H as (H & _); [|apply pairs_same]. apply pairs_nil in H as ->. constructor. }
    destruct (ueqb_spec kw (us "ordinal")) as [->|_]; [intros _; constructor|]. destruct (ueqb_spec kw (us "plural")) as [->|_]; [intros _; constructor|].
    cbn [orb]. destruct (ueqb_spec kw (us "select")) as [->|_]; [intros _; constructor|discriminate].
  - intros H. apply bind_Ok in H as (((name & delay) & l) & H & _). destruct ps as [|[n|] r]; try discriminate H. destruct r as [|[w|] r]; cbn [cmd_parts] in H.
    + exact (sp_command n []).
    + apply bind_Ok in H as (l' & H & _). apply cmd_args_iff in H as (args & -> & _). constructor.
    + apply bind_Ok in H as (l' & H & _). apply cmd_args_iff in H as (args & -> & _). constructor.
Qed.
Lemma built_shaped d g fe reg tag locale s a fm name body x : content_of d g s a -> formatter_try_new d g fe reg tag locale s = Ok fm ->
  In (name, body) (all_strings a) -> In x body -> shaped x.
Proof.
  intros Ha Hf Hin Hx. destruct (try_new_inv d g fe reg tag locale s a fm Ha Hf) as (Hc & Hrep & _).
  assert (Hn : NoDup (map fst (all_strings a))).
  { pose proof (fr_nodup _ _ _ _ _ Hrep) as Hn. assert (E : mkeys (fm_patterns fm) = map fst (all_strings a)); [|now rewrite E in Hn].
    pose proof (fr_pats _ _ _ _ _ Hrep) as Hp. change (strings_of a) with (all_strings a) in Hp. clear -Hp. unfold mkeys. induction Hp as [|p q l l' [Hpq _] _ IH]; [reflexivity|].
    cbn [map]. now rewrite Hpq, IH. }
  destruct (strings_checked fe reg locale a name body Hc (mget_nodup _ _ _ Hn Hin) x Hx) as (known & main & Hxc). exact (checked_shaped _ _ _ _ _ _ Hxc).
Qed.

(** ** Strings without numbers and dates; other names *)
Lemma Forall2_map_r {A B} (R : A -> B -> Prop) (f : A -> B) l : (forall x, In x l -> R x (f x)) -> Forall2 R l (map f l).
Proof. induction l as [|x l IH]; intros H; cbn; constructor; [apply H; now left|]. apply IH. intros y Hy. apply H. now right. Qed.
Lemma Forall2_refl_in {A} (R : A -> A -> Prop) l : (forall x, In x l -> R x x) -> Forall2 R l l.
Proof. intros H. rewrite <- (map_id l) at 2. now apply Forall2_map_r. Qed.
Lemma same_selectors_eq sels : same_selectors eq sels sels.
Proof. apply Forall2_refl_in. auto. Qed.
Lemma wordy_twins d g fe reg tag locale fe' locale' vals s a fm : content_of d g s a -> formatter_try_new d g fe reg tag locale s = Ok fm -> wordy a ->
  twins (mk_setting fe reg locale vals) (mk_setting fe' reg locale' vals) eq a a.
Proof.
  intros Ha Hf Hw. split; [congruence|]. split; [congruence|]. apply Forall2_refl_in. intros (name & body) Hin. split; [reflexivity|]. cbn [snd].
  apply Forall2_refl_in. intros x Hx. pose proof (built_shaped _ _ _ _ _ _ _ _ _ _ _ _ Ha Hf Hin Hx) as Hsh.
  destruct Hsh as [w| |ph|ph|ph|ph sels|ph sels|ph sels|n args|n args]; try (pose proof (Hw _ _ _ _ _ Hin Hx) as Hk; discriminate Hk); try (constructor; cbn; tauto).
  constructor; [apply same_selectors_eq|]. now intros k k' <-.
Qed.
Lemma all_rename f a : all_strings (rename f a) = map (fun x => (fst x, map (rename_item f) (snd x))) (all_strings a).
Proof. destruct a as [m [l|]]; reflexivity. Qed.
Lemma rename_twins d g fe reg tag locale f vals vals' s a fm : content_of d g s a -> formatter_try_new d g fe reg tag locale s = Ok fm ->
  (forall name body ph kw, In (name, body) (all_strings a) -> In (SPat ph kw) body -> mget (f ph) vals' = mget ph vals) ->
  (forall name body n args w, In (name, body) (all_strings a) -> In (SCmd (SId n :: SDelay :: map SId args)) body -> In w args ->
     parameter vals' (f w) = parameter vals w) ->
  twins (mk_setting fe reg locale vals) (mk_setting fe reg locale vals') eq a (rename f a).
Proof.
  intros Ha Hf Hp Hd. split; [congruence|]. split; [congruence|]. rewrite all_rename. apply Forall2_map_r. intros (name & body) Hin. split; [reflexivity|]. cbn [fst snd].
  apply Forall2_map_r. intros x Hx. pose proof (built_shaped _ _ _ _ _ _ _ _ _ _ _ _ Ha Hf Hin Hx) as Hsh.
  assert (Hph : forall ph kw, In (SPat ph kw) body -> mget (f ph) vals' = mget ph vals) by (intros ph kw; apply (Hp _ _ _ _ Hin)).
  destruct Hsh as [w| |ph|ph|ph|ph sels|ph sels|ph sels|n args|n args]; cbn [rename_item]; try (apply Hph in Hx).
  - constructor.
  - constructor.
  - constructor. cbn. unfold shows_text. now rewrite Hx.
  - constructor. cbn. unfold shows_number. now rewrite Hx.
  - constructor. cbn. unfold shows_moment. now rewrite Hx.
  - constructor; [apply same_selectors_eq|]. intros k k' <-. cbn. unfold shows_text. now rewrite Hx.
  - constructor; [apply same_selectors_eq|]. intros t k k' <-. cbn. unfold shows_cardinal. now rewrite Hx.
  - constructor; [apply same_selectors_eq|]. intros t k k' <-. cbn. unfold shows_ordinal. now rewrite Hx.
  - destruct args as [|w args]; [apply (tw_command _ _ _ n n [] []); cbn; tauto|]. cbn [map]. apply (tw_command _ _ _ n n (w :: args) (w :: args)). cbn. tauto.
  - rewrite map_map. rewrite <- (map_map f SId). apply tw_delayed. cbn. assert (E : map (parameter vals') (map f args) = map (parameter vals) args).
    { rewrite map_map. apply map_ext_in. intros w Hw. exact (Hd _ _ _ _ _ Hin Hx Hw). }
    rewrite E. tauto.
Qed.
