(** Proofs about the sqlite3 provider: the ancestor search, strings. *)
From Coq Require Import Sorted.
From Verif Require Import Base BaseFacts RegistryModel ProviderModel ProviderSpec ProviderProofs.

(** ** LIKE *)
Lemma like_any s : like [ch "%"] s = true.
Proof. induction s as [|c s IH]; [reflexivity|]. cbn in *. exact IH. Qed.

Lemma like_prefix a : no_wildcard a -> forall s, like (a ++ [ch "%"]) s = true <-> starts_with a s.
Proof.
  induction a as [|x a IH]; intros (Hp & Hu) s.
  - cbn [app]. rewrite like_any. split; [intros _; exists [], s; auto | reflexivity].
  - assert (Hx : (x =? ch "%")%N = false) by (apply N.eqb_neq; intros ->; apply Hp; left; reflexivity).
    assert (Hx' : (x =? ch "_")%N = false) by (apply N.eqb_neq; intros ->; apply Hu; left; reflexivity).
    cbn [app like]. rewrite Hx, Hx'. cbn [orb].
    assert (Ha : no_wildcard a) by (split; intros H; [apply Hp | apply Hu]; right; exact H).
    destruct s as [|y s].
    + split; [discriminate|]. intros (u & v & Hs & Hm). destruct u; [|discriminate Hs]. discriminate Hm.
    + rewrite andb_true_iff, N.eqb_eq, (IH Ha). split.
      * intros (Hl & u & v & -> & Hm). exists (y :: u), v. split; [reflexivity|]. cbn [map]. congruence.
      * intros (u & v & Hs & Hm). destruct u as [|z u]; [discriminate Hm|]. injection Hs as -> ->. injection Hm as Hl Hm.
        split; [congruence|]. exists u, v. auto.
Qed.

(** ** Ancestors *)
Lemma hyphen_split s : match before_last_hyphen s with
  | Some a => exists r, s = a ++ ch "-" :: r /\ ~ In (ch "-") r
  | None => ~ In (ch "-") s end.
Proof.
  induction s as [|c s IH]; [intros []|]. cbn [before_last_hyphen]. destruct (before_last_hyphen s) as [a|] eqn:Eb.
  - destruct IH as (r & -> & Hr). exists r. split; [reflexivity | exact Hr].
  - destruct (N.eqb_spec c (ch "-")) as [->|Hn]; [exists s; auto|]. intros [->|H]; [apply Hn; reflexivity | contradiction].
Qed.
Lemma hyphen_after s c : c <> ch "-" -> before_last_hyphen (s ++ [c]) = before_last_hyphen s.
Proof.
  intros Hc. induction s as [|x s IH].
  - cbn [app before_last_hyphen]. apply N.eqb_neq in Hc. rewrite Hc. reflexivity.
  - cbn [app before_last_hyphen]. rewrite IH. reflexivity.
Qed.

Lemma app_hyphen a b r s : a ++ ch "-" :: r = b ++ ch "-" :: s -> ~ In (ch "-") r ->
  (a = b /\ r = s) \/ exists u, a = b ++ ch "-" :: u.
Proof.
  revert b; induction a as [|x a IH]; intros [|y b] H Hr; cbn [app] in *.
  - injection H as ->. auto.
  - injection H as <- H. subst r. exfalso; apply Hr; apply in_or_app; right; left; reflexivity.
  - injection H as -> <-. right. exists a. reflexivity.
  - injection H as -> H. destruct (IH b H Hr) as [(-> & ->)|(u & ->)]; [auto|]. right. exists u. reflexivity.
Qed.

Lemma ancestor_parent t q r a : t = q ++ ch "-" :: r -> ~ In (ch "-") r -> (ancestor a t <-> a = t \/ ancestor a q).
Proof.
  intros Ht Hr. unfold ancestor. split.
  - intros [->|(s & Hs)]; [auto|]. right. subst t. destruct (app_hyphen q a r s Hs Hr) as [(-> & _)|(u & ->)]; [auto|].
    right. exists u. reflexivity.
  - intros [->|[->|(u & ->)]]; [auto | right; exists r; exact Ht|]. right. exists (u ++ ch "-" :: r). rewrite Ht, <- app_assoc. reflexivity.
Qed.
Lemma ancestor_alone t a : ~ In (ch "-") t -> (ancestor a t <-> a = t).
Proof.
  intros Ht. split; [|intros ->; left; reflexivity]. intros [->|(r & ->)]; [reflexivity|].
  exfalso; apply Ht; apply in_or_app; right; left; reflexivity.
Qed.
Lemma ancestor_app a t : ancestor a t -> exists r, t = a ++ r.
Proof. intros [->|(r & ->)]; [exists []; symmetry; apply app_nil_r | eauto]. Qed.
Lemma ancestor_length a t : ancestor a t -> List.length a <= List.length t.
Proof. intros H. destruct (ancestor_app a t H) as (r & ->). rewrite app_length. lia. Qed.
Lemma prefix_length {A} (a b r s : list A) : a ++ r = b ++ s -> List.length a = List.length b -> a = b.
Proof.
  revert b; induction a as [|x a IH]; intros [|y b] H Hl; cbn in *; try discriminate; auto.
  injection H as -> H. f_equal. apply IH; congruence.
Qed.
Lemma ancestor_same_length a b t : ancestor a t -> ancestor b t -> List.length a = List.length b -> a = b.
Proof.
  intros Ha Hb Hl. destruct (ancestor_app a t Ha) as (r & ->). destruct (ancestor_app _ _ Hb) as (s & Hs).
  exact (prefix_length a b r s Hs Hl).
Qed.
Lemma ancestor_wild a t : ancestor a t -> no_wildcard t -> no_wildcard a.
Proof.
  intros H (H1 & H2). destruct (ancestor_app a t H) as (r & ->).
  split; intros Hi; [apply H1 | apply H2]; apply in_or_app; auto.
Qed.

Section Search.
  Variable E : penv.
  Variables (file : ustr) (d : db) (q : sql) (c i : ustr) (exact : bool).

  Definition asked (a : ustr) : ustr := if exact then a else a ++ [ch "%"].
  Definition ask (a : ustr) : pout (list (ustr * ustr)) :=
    let! rows := select E file d q [i; asked a; c] in
    map_rows (fun row => let! s := get_text row 0 in let! raw := get_text row 1 in let! t := registry_tag E raw in Ok (s, t)) rows.

  Lemma asked_parent a : before_last_hyphen (asked a) = before_last_hyphen a.
  Proof. unfold asked. destruct exact; [reflexivity|]. apply hyphen_after. discriminate. Qed.

  Lemma find_search n t fuel : List.length t <= n -> List.length t < fuel ->
    exists l, are_levels t l /\ search ask l (find_loop E fuel file d q c i exact t).
  Proof.
    revert t fuel. induction n as [|n IH]; intros t fuel Hn Hf.
    - destruct t; [|cbn in Hn; lia]. exists []. split; [|destruct fuel; [cbn in Hf; lia | constructor]].
      split; [|constructor]. intros a. split; [intros [] | intros (Ha & [->|(r & Hr)]); [apply Ha; reflexivity | destruct a; discriminate Hr]].
    - destruct fuel as [|f]; [lia|]. destruct t as [|x t'].
      { exists []. split; [|constructor]. split; [|constructor]. intros a.
        split; [intros [] | intros (Ha & [->|(r & Hr)]); [apply Ha; reflexivity | destruct a; discriminate Hr]]. }
      set (t := x :: t') in *. set (par := match before_last_hyphen t with None => [] | Some a => a end).
      assert (Hpar : List.length par < List.length t /\ forall a, a <> [] -> (ancestor a t <-> a = t \/ ancestor a par)).
      { subst par. pose proof (hyphen_split t) as H. destruct (before_last_hyphen t) as [a|].
        - destruct H as (r & Hr & Hi). split; [rewrite Hr, app_length; cbn; lia|]. intros b _. exact (ancestor_parent t a r b Hr Hi).
        - split; [cbn; lia|]. intros b Hb. rewrite (ancestor_alone t b H). split; [auto|]. intros [->|[->|(r & Hr)]]; auto; try contradiction.
          destruct b; discriminate Hr. }
      destruct Hpar as (Hlen & Hpar).
      destruct (IH par f) as (l & (Hl & Hsort) & Hs); [cbn in *; lia | cbn in *; lia|].
      exists (t :: l). split.
      + split.
        * intros a. cbn [In]. rewrite Hl. split.
          -- intros [<-|(Ha & Hi)]; [split; [discriminate | left; reflexivity]|]. split; [exact Ha | apply Hpar; auto].
          -- intros (Ha & Hi). apply Hpar in Hi; [|exact Ha]. destruct Hi as [->|Hi]; auto.
        * constructor; [exact Hsort|]. apply Forall_forall. intros a Ha. apply Hl in Ha. destruct Ha as (_ & Ha).
          apply ancestor_length in Ha. unfold longer. lia.
      + change (find_loop E (S f) file d q c i exact t) with
          (let! rows := select E file d q [i; asked t; c] in
           let! strings := map_rows (fun row => let! s := get_text row 0 in let! raw := get_text row 1 in
                                                let! t := registry_tag E raw in Ok (s, t)) rows in
           match strings with _ :: _ => Ok strings
           | [] => find_loop E f file d q c i exact (match before_last_hyphen (asked t) with None => [] | Some a => a end) end).
        rewrite asked_parent. fold par.
        assert (Ha : forall X, (let! rows := select E file d q [i; asked t; c] in
           let! strings := map_rows (fun row => let! s := get_text row 0 in let! raw := get_text row 1 in
                                                let! t := registry_tag E raw in Ok (s, t)) rows in
           match strings with _ :: _ => Ok strings | [] => X end) = bind (ask t) (fun l => match l with [] => X | _ => Ok l end)).
        { intros X. unfold ask. destruct (select E file d q [i; asked t; c]); cbn [bind]; try reflexivity. }
        rewrite Ha. destruct (ask t) as [[|y ys]|e| |] eqn:Ek; cbn [bind].
        * apply se_next; assumption.
        * rewrite <- Ek. apply se_stop. congruence.
        * rewrite <- Ek. apply se_stop; congruence.
        * rewrite <- Ek. apply se_stop; congruence.
        * rewrite <- Ek. apply se_stop; congruence.
  Qed.
End Search.

Lemma tag_le_refl a : tag_le a a = true.
Proof. induction a as [|x a IH]; [reflexivity|]. cbn [tag_le]. rewrite N.eqb_refl, IH. apply orb_true_r. Qed.

(** ** Lookups in one file *)
Lemma filter_partition {A} (f : A -> bool) l : Permutation (filter f l ++ filter (fun x => negb (f x)) l) l.
Proof.
  induction l as [|x l IH]; [constructor|]. cbn [filter]. destruct (f x); cbn [negb].
  - cbn [app]. constructor. exact IH.
  - apply Permutation_sym, Permutation_cons_app, Permutation_sym. exact IH.
Qed.

Lemma search_first {A} (ask : ustr -> pout (list A)) l x : search ask l x ->
  (x = Ok [] /\ forall b, In b l -> ask b = Ok []) \/
  exists u a v, l = u ++ a :: v /\ x = ask a /\ ask a <> Ok [] /\ forall b, In b u -> ask b = Ok [].
Proof.
  induction 1 as [|a l x Ha Hs IH|a l Ha].
  - left. split; [reflexivity | intros b []].
  - destruct IH as [(-> & Hb)|(u & a' & v & -> & -> & Hn & Hu)].
    + left. split; [reflexivity|]. intros b [<-|H]; auto.
    + right. exists (a :: u), a', v. split; [reflexivity|]. split; [reflexivity|]. split; [exact Hn|]. intros b [<-|H]; auto.
  - right. exists [], a, l. split; [reflexivity|]. split; [reflexivity|]. split; [exact Ha | intros b []].
Qed.

Lemma sorted_app {A} (R : A -> A -> Prop) u a v : StronglySorted R (u ++ a :: v) -> (forall b, In b u -> R b a) /\ forall b, In b v -> R a b.
Proof.
  induction u as [|x u IH]; cbn [app]; intros H; inversion H as [|y l Hs Hf]; subst.
  - split; [intros b [] | apply Forall_forall; exact Hf].
  - destruct (IH Hs) as (Hu & Hv). split; [|exact Hv]. rewrite Forall_forall in Hf. intros b [<-|Hb]; [|auto].
    apply Hf. apply in_or_app; right; left; reflexivity.
Qed.

Section File.
  Variable E : penv.
  Variables (file : ustr) (d : db).
  Hypothesis Ho : order_ok E.
  Hypothesis Hsql : sql_fine E.
  Hypothesis Htags : tags_fine E d.

  Definition level_rows (c i : ustr) (exact : bool) (tag : ustr) : list prow :=
    filter (fun r => ueqb (pr_identifier r) i && (if exact then ueqb (pr_tag r) tag else like tag (pr_tag r)) && ueqb (pr_component r) c)
      (db_pattern d).

  Lemma level_rows_hit c i exact a r : no_wildcard a -> (In r (level_rows c i exact (asked exact a)) <-> hit d c i (fit exact a) r).
  Proof.
    intros Hw. unfold level_rows, hit, fit, asked. rewrite filter_In, !andb_true_iff, !ueqb_eq. destruct exact.
    - rewrite ueqb_eq. split; [intros (H1 & (H2 & H3) & H4) | intros (H1 & H2 & H3 & H4)]; auto.
    - rewrite (like_prefix a Hw). split; [intros (H1 & (H2 & H3) & H4) | intros (H1 & H2 & H3 & H4)]; auto.
  Qed.

  Lemma map_rows_answers rows : (forall r, In r rows -> In r (db_pattern d)) ->
    exists l, map_rows (fun row => let! s := get_text row 0 in let! raw := get_text row 1 in let! t := registry_tag E raw in Ok (s, t))
                (map (fun r => [CellText (pr_string r); CellText (pr_tag r)]) rows) = Ok l /\ Forall2 (answer_of E) rows l.
  Proof.
    induction rows as [|r rows IH]; intros Hr; [exists []; split; [reflexivity | constructor]|].
    destruct IH as (l & Hl & Hf); [intros; apply Hr; right; assumption|].
    pose proof (proj1 Htags r (Hr r (or_introl eq_refl))) as Ht. destruct (pe_canon E (pr_tag r)) as [t|] eqn:Et; [|contradiction].
    exists ((pr_string r, t) :: l). split; [|constructor; [split; [reflexivity | exact Et] | exact Hf]].
    cbn [map map_rows get_text nth_error bind]. unfold registry_tag at 1. rewrite Et. cbn [bind]. rewrite Hl. reflexivity.
  Qed.

  (** What one level gives. *)
  Lemma ask_fine one c i exact a : no_wildcard a -> exists rows l,
    ask E file d (SqlPattern one exact) c i exact a = Ok l /\ Forall2 (answer_of E) rows l /\
    (forall r, In r rows -> hit d c i (fit exact a) r) /\ (rows = [] -> ~ has d c i (fit exact a)) /\
    (if one then List.length rows <= 1 /\ (index_order E -> forall r r', In r rows -> hit d c i (fit exact a) r' -> tag_le (pr_tag r) (pr_tag r') = true)
     else exists rest, Permutation (rows ++ rest) (db_pattern d) /\ forall r, In r rest -> ~ hit d c i (fit exact a) r).
  Proof.
    intros Hw. unfold ask, select. rewrite Hsql. cbn [negb].
    set (q := SqlPattern one exact). fold (level_rows c i exact (asked exact a)).
    set (all := pe_patterns E file q [i; asked exact a; c] (level_rows c i exact (asked exact a))).
    assert (Hall : Permutation all (level_rows c i exact (asked exact a))) by apply (proj1 Ho).
    set (rows := if one then firstn 1 all else all).
    assert (Hin : forall r, In r rows -> In r all).
    { subst rows. destruct one; [|auto]. destruct all; [auto|]. cbn. intros r [->|[]]. left; reflexivity. }
    assert (Hhit : forall r, In r all <-> hit d c i (fit exact a) r).
    { intros r. rewrite <- (level_rows_hit c i exact a r Hw). split; apply Permutation_in; [exact Hall | apply Permutation_sym; exact Hall]. }
    cbn [bind]. destruct (map_rows_answers rows) as (l & Hl & Hf).
    { intros r Hr. exact (proj1 (proj1 (Hhit r) (Hin r Hr))). }
    exists rows, l. split; [exact Hl|]. split; [exact Hf|]. split; [intros r Hr; apply Hhit, Hin; exact Hr|]. split.
    - intros He (r & Hr). apply Hhit in Hr. subst rows. destruct one; [|rewrite He in Hr; destruct Hr]. destruct all; [destruct Hr | discriminate He].
    - subst rows. destruct one.
      + split; [destruct all; cbn; lia|]. intros Hidx r r' Hr Hr'. apply Hhit in Hr'. specialize (Hidx file true exact [i; asked exact a; c]
          (level_rows c i exact (asked exact a))). fold q in Hidx. fold all in Hidx. destruct all as [|y all]; [destruct Hr'|].
        cbn [firstn In] in Hr. destruct Hr as [->|[]]. inversion Hidx as [|z w Hs' Hf']; subst. destruct Hr' as [->|Hr']; [apply tag_le_refl|].
        rewrite Forall_forall in Hf'. exact (Hf' r' Hr').
      + eexists. split.
        * eapply Permutation_trans; [|apply filter_partition]. apply Permutation_app; [exact Hall | apply Permutation_refl].
        * intros r Hr Hh. apply (level_rows_hit c i exact a r Hw) in Hh. apply filter_In in Hr. destruct Hr as (_ & Hr). apply filter_In in Hh.
          destruct Hh as (_ & Hh). rewrite Hh in Hr. discriminate Hr.
  Qed.

  (** What the search gives: the first level with rows. *)
  Lemma find_fine one c i exact t : no_wildcard t -> exists l,
    find_loop E (S (List.length t)) file d (SqlPattern one exact) c i exact t = Ok l /\
    ((l = [] /\ no_level d c i t exact) \/
     exists a rows, first_level d c i t exact a /\ rows <> [] /\ Forall2 (answer_of E) rows l /\
       (forall r, In r rows -> hit d c i (fit exact a) r) /\
       (if one then List.length rows = 1 /\ (index_order E -> forall r r', In r rows -> hit d c i (fit exact a) r' -> tag_le (pr_tag r) (pr_tag r') = true)
        else exists rest, Permutation (rows ++ rest) (db_pattern d) /\ forall r, In r rest -> ~ hit d c i (fit exact a) r)).
  Proof.
    intros Hw. destruct (find_search E file d (SqlPattern one exact) c i exact (List.length t) t (S (List.length t))) as (ls & (Hls & Hsort) & Hs);
      [lia | lia|].
    assert (Hno : forall b, ask E file d (SqlPattern one exact) c i exact b = Ok [] -> no_wildcard b -> ~ has d c i (fit exact b)).
    { intros b Hb Hbw. destruct (ask_fine one c i exact b Hbw) as (rows & l & Hl & Hf & _ & He & _). rewrite Hb in Hl. injection Hl as <-.
      inversion Hf; subst. apply He; reflexivity. }
    destruct (search_first _ _ _ Hs) as [(Hx & Hb)|(u & a & v & Hl & Hx & Hn & Hu)]; rewrite Hx.
    - exists []. split; [reflexivity|]. left. split; [reflexivity|]. intros b Hanc Hne. apply Hno; [apply Hb; apply Hls; auto|].
      exact (ancestor_wild b t Hanc Hw).
    - assert (Ha : a <> [] /\ ancestor a t) by (apply Hls; rewrite Hl; apply in_or_app; right; left; reflexivity).
      destruct Ha as (Hne & Hanc). pose proof (ancestor_wild a t Hanc Hw) as Haw.
      destruct (ask_fine one c i exact a Haw) as (rows & l & Hk & Hf & Hhit & He & Hone). exists l. split; [exact Hk|]. right.
      assert (Hrows : rows <> []). { intros ->. inversion Hf; subst. contradiction. }
      exists a, rows. split; [|split; [exact Hrows|split; [exact Hf|split; [exact Hhit|]]]].
      + split; [exact Hanc|]. split; [exact Hne|]. split.
        * destruct rows as [|r rows]; [contradiction|]. exists r. apply Hhit. left; reflexivity.
        * intros b Hb Hhas. destruct b as [|x b]; [cbn; lia|]. rewrite Hl in Hsort. apply sorted_app in Hsort. destruct Hsort as (_ & Hv).
          assert (Hi : In (x :: b) (u ++ a :: v)) by (rewrite <- Hl; apply Hls; split; [discriminate | exact Hb]).
          apply in_app_or in Hi. destruct Hi as [Hi|[<-|Hi]]; [|lia|].
          -- exfalso. apply (Hno (x :: b)); [apply Hu; exact Hi | exact (ancestor_wild _ t Hb Hw) | exact Hhas].
          -- specialize (Hv _ Hi). unfold longer in Hv. lia.
      + destruct one; [|exact Hone]. split; [|exact (proj2 Hone)].
        destruct Hone as (Hone & _). destruct rows as [|r [|]]; [contradiction | reflexivity | cbn in Hone; lia].
  Qed.
End File.

(** ** Nothing panics *)
Definition quiet {A} (x : pout A) : Prop := x <> Panic /\ x <> NoFuel.
Lemma quiet_Ok {A} (a : A) : quiet (Ok a).
Proof. split; discriminate. Qed.
Lemma quiet_Err {A} e : quiet (@Err perror A e).
Proof. split; discriminate. Qed.
Lemma quiet_bind {A B} (x : pout A) (f : A -> pout B) : quiet x -> (forall a, x = Ok a -> quiet (f a)) -> quiet (bind x f).
Proof. intros (H1 & H2) Hf. destruct x; cbn [bind]; [apply Hf; reflexivity | apply quiet_Err | contradiction | contradiction]. Qed.
Lemma quiet_map_rows {A} (f : list cell -> pout A) rows : (forall r, quiet (f r)) -> quiet (map_rows f rows).
Proof.
  intros Hf. induction rows as [|r rows IH]; cbn [map_rows]; [apply quiet_Ok|].
  apply quiet_bind; [apply Hf|]. intros a _. apply quiet_bind; [exact IH | intros; apply quiet_Ok].
Qed.
Lemma quiet_get_text r n : quiet (get_text r n).
Proof. unfold get_text. destruct (nth_error r n) as [[]|]; (apply quiet_Ok || apply quiet_Err). Qed.
Lemma quiet_get_int r n : quiet (get_int r n).
Proof. unfold get_int. destruct (nth_error r n) as [[]|]; (apply quiet_Ok || apply quiet_Err). Qed.
Lemma quiet_tag E t : quiet (registry_tag E t).
Proof. unfold registry_tag. destruct (pe_canon E t); (apply quiet_Ok || apply quiet_Err). Qed.
Lemma quiet_select E f d q ps : quiet (select E f d q ps).
Proof.
  unfold select. destruct (pe_ok E f q ps); cbn [negb]; [|apply quiet_Err].
  destruct q, ps as [|? [|? [|? [|]]]]; (apply quiet_Ok || apply quiet_Err).
Qed.
Lemma quiet_ask E f d q c i exact a : quiet (ask E f d q c i exact a).
Proof.
  unfold ask. apply quiet_bind; [apply quiet_select|]. intros rows _. apply quiet_map_rows. intros r.
  repeat (apply quiet_bind; [apply quiet_get_text || apply quiet_tag | intros ? _]). apply quiet_Ok.
Qed.
Lemma quiet_find E f d q c i exact t : quiet (find_loop E (S (List.length t)) f d q c i exact t).
Proof.
  destruct (find_search E f d q c i exact (List.length t) t (S (List.length t))) as (ls & _ & Hs); [lia | lia|].
  apply search_first in Hs. destruct Hs as [(-> & _)|(u & a & v & _ & -> & _)]; [apply quiet_Ok | apply quiet_ask].
Qed.

Section Lookup.
  Variable E : penv.
  Variable p : sprovider.
  Hypothesis Hp : provider_ok p.

  Lemma quiet_connection c all : quiet (connection p c all).
  Proof.
    unfold connection. destruct (mget c (sp_components p)) as [(fa, fo)|] eqn:Ec; [|apply quiet_Err]. cbn [fst snd].
    destruct (proj2 Hp c _ Ec) as (Ha & Hw). cbn [fst snd] in *. destruct (all && fa) eqn:Ea.
    - apply andb_prop in Ea. destruct Ea as (_ & Ea). destruct (Ha Ea) as (d' & Hd'). rewrite Hd'. apply quiet_Ok.
    - destruct fo; [|apply quiet_Err]. destruct (Hw eq_refl) as (d' & Hd'). rewrite Hd'. apply quiet_Ok.
  Qed.
  Lemma quiet_on_connection {A} c all (g : ustr -> db -> pout A) : (forall f d, quiet (g f d)) -> quiet (on_connection p c all g).
  Proof. intros Hg. apply quiet_bind; [apply quiet_connection|]. intros (f & d & v) _. apply Hg. Qed.

  Definition quiet_m {A} (m : PM A) : Prop := steady E p m /\ quiet (value m).
  Lemma quiet_m_ret {A} (x : pout A) : quiet x -> quiet_m (pret x).
  Proof. intros H. split; [apply steady_ret | exact H]. Qed.
  Lemma quiet_m_bind {A B} (m : PM A) (f : A -> PM B) : quiet_m m -> (forall a, value m = Ok a -> quiet_m (f a)) -> quiet_m (pbind m f).
  Proof.
    intros (Hm & Hq) Hf. split; [apply steady_bind; [exact Hm | intros a Ha; apply (Hf a Ha)]|].
    rewrite (value_bind E p); [|exact Hm | intros a Ha; apply (Hf a Ha)]. apply quiet_bind; [exact Hq|]. intros a Ha. apply Hf. exact Ha.
  Qed.
  Lemma find_strings_quiet c i t all one exact : quiet_m (find_strings E p c i t all one exact).
  Proof.
    split; [apply find_strings_steady; exact Hp|]. rewrite find_strings_value by exact Hp.
    apply quiet_on_connection. intros f d. apply quiet_find.
  Qed.
  Lemma one_string_quiet exact c i t : quiet_m (one_string E p exact c i t).
  Proof.
    unfold one_string. destruct (mget c (sp_components p)) as [(fa, fo)|]; [|apply quiet_m_ret, quiet_Err]. cbn [fst snd].
    apply quiet_m_bind.
    - destruct fa; [|apply quiet_m_ret, quiet_Ok]. apply quiet_m_bind; [apply find_strings_quiet | intros; apply quiet_m_ret, quiet_Ok].
    - intros [x|] _; [apply quiet_m_ret, quiet_Ok|]. destruct fo; [|apply quiet_m_ret, quiet_Ok].
      apply quiet_m_bind; [apply find_strings_quiet | intros; apply quiet_m_ret, quiet_Ok].
  Qed.
  Lemma strings_quiet c i t : quiet_m (strings E p c i t).
  Proof.
    unfold strings. destruct (mget c (sp_components p)) as [(fa, fo)|]; [|apply quiet_m_ret, quiet_Err]. cbn [fst snd].
    apply quiet_m_bind.
    - destruct fa; [apply find_strings_quiet | apply quiet_m_ret, quiet_Ok].
    - intros [|x l] _; [|apply quiet_m_ret, quiet_Ok]. destruct fo; [apply find_strings_quiet | apply quiet_m_ret, quiet_Ok].
  Qed.

  (** ** Answers *)
  Hypothesis He : env_fine E p.

  Lemma aio_find c i t fo one exact : mget c (sp_components p) = Some (true, fo) -> no_wildcard t -> exists d l,
    in_aio p c d /\ value (find_strings E p c i t true one exact) = Ok l /\
    ((l = [] /\ no_level d c i t exact) \/
     exists a rows, first_level d c i t exact a /\ rows <> [] /\ Forall2 (answer_of E) rows l /\
       (forall r, In r rows -> hit d c i (fit exact a) r) /\
       (if one then List.length rows = 1 /\ (index_order E -> forall r r', In r rows -> hit d c i (fit exact a) r' -> tag_le (pr_tag r) (pr_tag r') = true)
        else exists rest, Permutation (rows ++ rest) (db_pattern d) /\ forall r, In r rest -> ~ hit d c i (fit exact a) r)).
  Proof.
    intros Hc Hw. destruct (proj1 (proj2 Hp c _ Hc) eq_refl) as (d & Hd). destruct He as (Ho & Hs & Ht).
    destruct (find_fine E aio d Ho Hs (Ht _ _ _ Hd) one c i exact t Hw) as (l & Hl & H).
    exists d, l. split; [exists fo, (us "1.0"); auto|]. split; [|exact H].
    rewrite find_strings_value by exact Hp. unfold on_connection, connection. rewrite Hc. cbn [fst snd andb]. rewrite Hd. exact Hl.
  Qed.
  Lemma own_find c i t fa one exact : mget c (sp_components p) = Some (fa, true) -> no_wildcard t -> exists d l,
    in_own p c d /\ value (find_strings E p c i t false one exact) = Ok l /\
    ((l = [] /\ no_level d c i t exact) \/
     exists a rows, first_level d c i t exact a /\ rows <> [] /\ Forall2 (answer_of E) rows l /\
       (forall r, In r rows -> hit d c i (fit exact a) r) /\
       (if one then List.length rows = 1 /\ (index_order E -> forall r r', In r rows -> hit d c i (fit exact a) r' -> tag_le (pr_tag r) (pr_tag r') = true)
        else exists rest, Permutation (rows ++ rest) (db_pattern d) /\ forall r, In r rest -> ~ hit d c i (fit exact a) r)).
  Proof.
    intros Hc Hw. destruct (proj2 (proj2 Hp c _ Hc) eq_refl) as (d & Hd). destruct He as (Ho & Hs & Ht).
    destruct (find_fine E c d Ho Hs (Ht _ _ _ Hd) one c i exact t Hw) as (l & Hl & H).
    exists d, l. split; [exists fa, (us "1.0"); auto|]. split; [|exact H].
    rewrite find_strings_value by exact Hp. unfold on_connection, connection. rewrite Hc. cbn [fst snd andb]. rewrite Hd. exact Hl.
  Qed.
  Lemma in_aio_unique c d d' : in_aio p c d -> in_aio p c d' -> d = d'.
  Proof. intros (f & v & H1 & H2) (f' & v' & H1' & H2'). congruence. Qed.
  Lemma in_own_unique c d d' : in_own p c d -> in_own p c d' -> d = d'.
  Proof. intros (f & v & H1 & H2) (f' & v' & H1' & H2'). congruence. Qed.
  Lemma not_in_aio c fo d : mget c (sp_components p) = Some (false, fo) -> ~ in_aio p c d.
  Proof. intros H (f & v & H1 & _). congruence. Qed.
  Lemma not_in_own c fa d : mget c (sp_components p) = Some (fa, false) -> ~ in_own p c d.
  Proof. intros H (f & v & H1 & _). congruence. Qed.

  Lemma find_steady' c i t all one exact : steady E p (find_strings E p c i t all one exact).
  Proof. apply find_strings_steady. exact Hp. Qed.

  Lemma one_string_value exact c i t fa fo : mget c (sp_components p) = Some (fa, fo) ->
    value (one_string E p exact c i t) =
    (let! l := if fa then value (find_strings E p c i t true true exact) else Ok [] in
     match last (map Some l) None with
     | Some r => Ok (Some r)
     | None => let! l := if fo then value (find_strings E p c i t false true exact) else Ok [] in Ok (last (map Some l) None)
     end).
  Proof.
    intros Hc. unfold one_string. rewrite Hc. cbn [fst snd].
    assert (Hsk : forall all, value (pbind (find_strings E p c i t all true exact) (fun l => skip (last (map Some l) None))) =
      let! l := value (find_strings E p c i t all true exact) in Ok (last (map Some l) None)).
    { intros all. rewrite (value_bind E p); [reflexivity | apply find_steady' | intros; apply steady_ret]. }
    rewrite (value_bind E p).
    - destruct fa.
      + rewrite Hsk. destruct (value (find_strings E p c i t true true exact)) as [l|e| |]; cbn [bind]; try reflexivity.
        destruct (last (map Some l) None) as [x|]; [reflexivity|]. destruct fo; [apply Hsk | reflexivity].
      + change (value (skip None)) with (@Ok perror _ (@None (ustr * ustr))). cbn [bind map last]. destruct fo; [apply Hsk | reflexivity].
    - destruct fa; [|apply steady_ret]. apply steady_bind; [apply find_steady' | intros; apply steady_ret].
    - intros [x|] _; [apply steady_ret|]. destruct fo; [|apply steady_ret]. apply steady_bind; [apply find_steady' | intros; apply steady_ret].
  Qed.
  Lemma strings_value c i t fa fo : mget c (sp_components p) = Some (fa, fo) ->
    value (strings E p c i t) =
    (let! l := if fa then value (find_strings E p c i t true false false) else Ok [] in
     match l with
     | _ :: _ => Ok l
     | [] => if fo then value (find_strings E p c i t false false false) else Ok []
     end).
  Proof.
    intros Hc. unfold strings. rewrite Hc. cbn [fst snd]. rewrite (value_bind E p).
    - destruct fa; cbn [bind].
      + destruct (value (find_strings E p c i t true false false)) as [[|x l]|e| |]; cbn [bind]; try reflexivity. destruct fo; reflexivity.
      + change (value (skip [])) with (@Ok perror _ (@nil (ustr * ustr))). cbn [bind]. destruct fo; reflexivity.
    - destruct fa; [apply find_steady' | apply steady_ret].
    - intros [|x l] _; [|apply steady_ret]. destruct fo; [apply find_steady' | apply steady_ret].
  Qed.

  Lemma one_row {A B} (R : A -> B -> Prop) rows l : Forall2 R rows l -> List.length rows = 1 ->
    exists r x, rows = [r] /\ l = [x] /\ R r x.
  Proof.
    intros Hf Hl. destruct Hf as [|r x rows l Hr Hf]; [discriminate Hl|]. destruct Hf; [|discriminate Hl]. eauto.
  Qed.

  Lemma one_string_answer exact c i t : known p c -> no_wildcard t -> exists o,
    value (one_string E p exact c i t) = Ok o /\
    match o with
    | None => forall d, source p c d -> no_level d c i t exact
    | Some x => exists d a r, answering p c i t exact d a /\ hit d c i (fit exact a) r /\ answer_of E r x /\
        (index_order E -> forall r', hit d c i (fit exact a) r' -> tag_le (pr_tag r) (pr_tag r') = true)
    end.
  Proof.
    intros Hk Hw. apply mget_keys in Hk. destruct Hk as ((fa & fo) & Hc). rewrite (one_string_value exact c i t fa fo Hc).
    assert (Hown : (forall d', in_aio p c d' -> no_level d' c i t exact) -> exists o,
      (let! l := if fo then value (find_strings E p c i t false true exact) else Ok [] in Ok (last (map Some l) None)) = Ok o /\
      match o with
      | None => forall d, source p c d -> no_level d c i t exact
      | Some x => exists d a r, answering p c i t exact d a /\ hit d c i (fit exact a) r /\ answer_of E r x /\
        (index_order E -> forall r', hit d c i (fit exact a) r' -> tag_le (pr_tag r) (pr_tag r') = true)
      end).
    { intros Hna. destruct fo.
      - destruct (own_find c i t fa true exact Hc Hw) as (d & l & Hd & -> & H). cbn [bind]. eexists; split; [reflexivity|].
        destruct H as [(-> & Hno)|(a & rows & Hfl & _ & Hf & Hh & Hone)].
        + cbn [map last]. intros d' [Hd'|Hd']; [apply Hna; exact Hd'|]. rewrite (in_own_unique c d' d Hd' Hd). exact Hno.
        + destruct (one_row _ _ _ Hf (proj1 Hone)) as (r & x & -> & -> & Hr). cbn [map last]. exists d, a, r.
          split; [right; auto|]. split; [apply Hh; left; reflexivity|]. split; [exact Hr|].
          intros Hidx r' Hr'. apply (proj2 Hone Hidx); [left; reflexivity | exact Hr'].
      - eexists; split; [reflexivity|]. cbn [map last]. intros d' [Hd'|Hd']; [apply Hna; exact Hd' | destruct (not_in_own c fa d' Hc Hd')]. }
    destruct fa.
    - destruct (aio_find c i t fo true exact Hc Hw) as (d & l & Hd & -> & H). cbn [bind].
      destruct H as [(-> & Hno)|(a & rows & Hfl & _ & Hf & Hh & Hone)].
      + cbn [map last]. apply Hown. intros d' Hd'. rewrite (in_aio_unique c d' d Hd' Hd). exact Hno.
      + destruct (one_row _ _ _ Hf (proj1 Hone)) as (r & x & -> & -> & Hr). cbn [map last]. eexists; split; [reflexivity|]. cbv beta iota.
        exists d, a, r. split; [left; auto|]. split; [apply Hh; left; reflexivity|]. split; [exact Hr|].
          intros Hidx r' Hr'. apply (proj2 Hone Hidx); [left; reflexivity | exact Hr'].
    - cbn [bind map last]. apply Hown. intros d' Hd'. destruct (not_in_aio c fo d' Hc Hd').
  Qed.

  Lemma strings_answer c i t : known p c -> no_wildcard t -> exists l,
    value (strings E p c i t) = Ok l /\
    ((l = [] /\ forall d, source p c d -> no_level d c i t false) \/
     exists d a rows rest, answering p c i t false d a /\ Permutation (rows ++ rest) (db_pattern d) /\
       (forall r, In r rows -> hit d c i (starts_with a) r) /\ (forall r, In r rest -> ~ hit d c i (starts_with a) r) /\
       Forall2 (answer_of E) rows l).
  Proof.
    intros Hk Hw. apply mget_keys in Hk. destruct Hk as ((fa & fo) & Hc). rewrite (strings_value c i t fa fo Hc).
    assert (Hown : (forall d', in_aio p c d' -> no_level d' c i t false) -> exists l,
      (if fo then value (find_strings E p c i t false false false) else Ok []) = Ok l /\
      ((l = [] /\ forall d, source p c d -> no_level d c i t false) \/
       exists d a rows rest, answering p c i t false d a /\ Permutation (rows ++ rest) (db_pattern d) /\
         (forall r, In r rows -> hit d c i (starts_with a) r) /\ (forall r, In r rest -> ~ hit d c i (starts_with a) r) /\
         Forall2 (answer_of E) rows l)).
    { intros Hna. destruct fo.
      - destruct (own_find c i t fa false false Hc Hw) as (d & l & Hd & -> & H). eexists; split; [reflexivity|].
        destruct H as [(-> & Hno)|(a & rows & Hfl & _ & Hf & Hh & (rest & Hperm & Hrest))].
        + left. split; [reflexivity|]. intros d' [Hd'|Hd']; [apply Hna; exact Hd'|]. rewrite (in_own_unique c d' d Hd' Hd). exact Hno.
        + right. exists d, a, rows, rest. split; [right; auto|]. auto.
      - eexists; split; [reflexivity|]. left. split; [reflexivity|].
        intros d' [Hd'|Hd']; [apply Hna; exact Hd' | destruct (not_in_own c fa d' Hc Hd')]. }
    destruct fa.
    - destruct (aio_find c i t fo false false Hc Hw) as (d & l & Hd & -> & H). cbn [bind].
      destruct H as [(-> & Hno)|(a & rows & Hfl & Hne & Hf & Hh & (rest & Hperm & Hrest))].
      + apply Hown. intros d' Hd'. rewrite (in_aio_unique c d' d Hd' Hd). exact Hno.
      + destruct l as [|x l]; [inversion Hf; subst; contradiction|]. eexists; split; [reflexivity|]. right.
        exists d, a, rows, rest. split; [left; auto|]. auto.
    - cbn [bind]. apply Hown. intros d' Hd'. destruct (not_in_aio c fo d' Hc Hd').
  Qed.
End Lookup.

Lemma unknown_component E p c i t exact st : ~ known p c -> snd (one_string E p exact c i t st) = Err (PComponentNotFound c) /\
  snd (strings E p c i t st) = Err (PComponentNotFound c).
Proof.
  intros H. unfold known in H. rewrite <- mget_None_keys in H. unfold one_string, strings. rewrite H. split; reflexivity.
Qed.
