(** Proofs for C97: which queries the calls make. *)
From Coq Require Import Sorted.
From Verif Require Import Base BaseFacts RegistryModel ProviderModel ProviderSpec ProviderProofs ProviderProofs2 QueryModel QuerySpec QueryProofs.

Lemma before_hyphens t : match before_last_hyphen t with Some a => hyphens t = S (hyphens a) | None => hyphens t = 0 end.
Proof.
  pose proof (hyphen_split t) as H. destruct (before_last_hyphen t) as [a|].
  - destruct H as (r & -> & Hr). unfold hyphens. rewrite count_occ_app. cbn [count_occ]. destruct (N.eq_dec (ch "-") (ch "-")); [|congruence].
    apply (count_occ_not_In N.eq_dec) in Hr. lia.
  - unfold hyphens. now apply (count_occ_not_In N.eq_dec) in H.
Qed.
(** The levels of a tag exist, and are no more than its subtags. *)
Fixpoint levels (fuel : nat) (t : ustr) : list ustr :=
  match fuel with
  | O => []
  | S f => match t with [] => [] | _ => t :: levels f (match before_last_hyphen t with None => [] | Some a => a end) end
  end.
Lemma nil_levels : are_levels [] [].
Proof.
  split; [|constructor]. intros a. split; [intros [] | intros (Ha & [->|(r & Hr)]); [apply Ha; reflexivity | destruct a; discriminate Hr]].
Qed.
Lemma levels_are : forall fuel t, List.length t < fuel -> are_levels t (levels fuel t) /\ List.length (levels fuel t) <= S (hyphens t).
Proof.
  induction fuel as [|f IH]; intros t Hf; [lia|]. destruct t as [|x t']; [split; [apply nil_levels | cbn; lia]|].
  cbn [levels]. set (t := x :: t') in *. set (par := match before_last_hyphen t with None => [] | Some a => a end).
  assert (Hpar : List.length par < List.length t /\ forall a, a <> [] -> (ancestor a t <-> a = t \/ ancestor a par)).
  { subst par. pose proof (hyphen_split t) as H. destruct (before_last_hyphen t) as [a|].
    - destruct H as (r & Hr & Hi). split; [rewrite Hr, app_length; cbn; lia|]. intros b _. exact (ancestor_parent t a r b Hr Hi).
    - split; [cbn; lia|]. intros b Hb. rewrite (ancestor_alone t b H). split; [auto|]. intros [->|[->|(r & Hr)]]; auto; try contradiction.
      destruct b; discriminate Hr. }
  destruct Hpar as (Hlen & Hpar). destruct (IH par) as ((Hl & Hsort) & Hn); [lia|]. split; [split|].
  - intros a. cbn [In]. rewrite Hl. split.
    + intros [<-|(Ha & Hi)]; [split; [discriminate | left; reflexivity]|]. split; [exact Ha | apply Hpar; auto].
    + intros (Ha & Hi). apply Hpar in Hi; [|exact Ha]. destruct Hi as [->|Hi]; auto.
  - constructor; [exact Hsort|]. apply Forall_forall. intros a Ha. apply Hl in Ha. destruct Ha as (_ & Ha). apply ancestor_length in Ha. unfold longer. lia.
  - cbn [List.length]. subst par. pose proof (before_hyphens t) as H. destruct (before_last_hyphen t) as [a|].
    + lia.
    + destruct f; [cbn in *; lia|]. cbn. lia.
Qed.

(** ** Answers one after the other *)
Section Answers.
  Variable D : database.
  Lemma answered_app h p1 q1 : until_answered D h p1 q1 (Some []) -> forall p2 q2 r, until_answered D (h ++ q1) p2 q2 r ->
    until_answered D h (p1 ++ p2) (q1 ++ q2) r.
  Proof.
    intros H1. remember (Some []) as o eqn:Eo in H1. revert Eo. induction H1 as [h|h q p1 q1 r Hq H1 IH|h q p1 r Hq Hr]; intros Eo p2 q2 r' H2; cbn [app].
    - now rewrite app_nil_r in H2.
    - apply ua_next; [exact Hq|]. apply IH; [exact Eo|]. now rewrite <- app_assoc.
    - contradiction.
  Qed.
  Lemma answered_stop h p1 q1 r : until_answered D h p1 q1 r -> r <> Some [] -> forall p2, until_answered D h (p1 ++ p2) q1 r.
  Proof.
    induction 1 as [h|h q p1 q1 r Hq H1 IH|h q p1 r Hq Hr]; intros Hn p2; cbn [app].
    - contradiction.
    - apply ua_next; auto.
    - now apply ua_stop.
  Qed.
  Lemma answered_prefix h p1 q1 r : until_answered D h p1 q1 r -> exists rest, p1 = q1 ++ rest.
  Proof.
    induction 1 as [h|h q p1 q1 r Hq H1 (rest & IH)|h q p1 r Hq Hr].
    - now exists [].
    - exists rest. cbn. now f_equal.
    - now exists p1.
  Qed.
End Answers.

Lemma map_rows_says E rows : let F := fun row => let! s := get_text row 0 in let! raw := get_text row 1 in let! t := registry_tag E raw in Ok (s, t) in
  (exists l, rows_say E rows l /\ map_rows F rows = Ok l) \/ ((forall l, ~ rows_say E rows l) /\ exists e, map_rows F rows = Err e).
Proof.
  intros F. induction rows as [|row rows IH]; [left; exists []; split; [constructor | reflexivity]|].
  assert (Hrow : (exists x, row_says E row x /\ F row = Ok x) \/ ((forall x, ~ row_says E row x) /\ exists e, F row = Err e)).
  { unfold F, get_text, row_says. destruct row as [|[s|n] row]; cbn [nth_error bind].
    - right. split; [intros x (raw & rest & H & _); discriminate H | eauto].
    - destruct row as [|[raw|n] row]; cbn [nth_error bind].
      + right. split; [intros x (raw & rest & H & _); discriminate H | eauto].
      + unfold registry_tag. destruct (pe_canon E raw) as [t|] eqn:Ec; cbn [bind].
        * left. exists (s, t). split; [|reflexivity]. now exists raw, row.
        * right. split; [|eauto]. intros x (raw' & rest & H & Hc). injection H as _ <- _. congruence.
      + right. split; [intros x (raw & rest & H & _); discriminate H | eauto].
    - right. split; [intros x (raw & rest & H & _); discriminate H | eauto]. }
  cbn [map_rows]. destruct Hrow as [(x & Hx & ->)|(Hx & e & ->)]; cbn [bind].
  - destruct IH as [(l & Hl & ->)|(Hl & e & ->)]; cbn [bind].
    + left. exists (x :: l). split; [now constructor | reflexivity].
    + right. split; [|eauto]. intros l H. inversion H; subst. now apply (Hl l').
  - right. split; [|eauto]. intros l H. inversion H; subst. now apply (Hx y).
Qed.

(** ** What computations add *)
Section Adds.
  Variable E : penv.
  Variable D : database.
  Variable p : sprovider.
  Hypothesis Hp : provider_ok p.

  Definition adds {A} (m : QM A) (R : list qcall -> list qcall -> pout A -> Prop) : Prop := forall h st, queries_ok (ps_queries st) ->
    exists qs st' x, m (h, st) = ((h ++ qs, st'), x) /\ queries_ok (ps_queries st') /\ ps_details st' = ps_details st /\ R h qs x.
  Lemma adds_ret {A} (x : pout A) (R : list qcall -> list qcall -> pout A -> Prop) : (forall h, R h [] x) -> adds (qret x) R.
  Proof. intros H h st Hq. exists [], st, x. rewrite app_nil_r. auto. Qed.
  Lemma adds_more {A} (m : QM A) (R R' : list qcall -> list qcall -> pout A -> Prop) : adds m R -> (forall h qs x, R h qs x -> R' h qs x) -> adds m R'.
  Proof. intros H HR h st Hq. destruct (H h st Hq) as (qs & st' & x & H1 & H2 & H3 & H4). exists qs, st', x. auto. Qed.
  Lemma adds_bind {A B} (m : QM A) (f : A -> QM B) R (S : A -> list qcall -> list qcall -> pout B -> Prop) (T : list qcall -> list qcall -> pout B -> Prop) : adds m R -> (forall a, adds (f a) (S a)) ->
    (forall h q1 a q2 x, R h q1 (Ok a) -> S a (h ++ q1) q2 x -> T h (q1 ++ q2) x) ->
    (forall h q1 e, R h q1 (Err e) -> T h q1 (Err e)) -> (forall h q1, R h q1 Panic -> T h q1 Panic) -> (forall h q1, R h q1 NoFuel -> T h q1 NoFuel) ->
    adds (qbind m f) T.
  Proof.
    intros Hm Hf H1 H2 H3 H4 h st Hq. unfold qbind. destruct (Hm h st Hq) as (q1 & st1 & x & -> & Hq1 & Hd1 & HR). destruct x as [a|e| |].
    - destruct (Hf a (h ++ q1) st1 Hq1) as (q2 & st2 & y & -> & Hq2 & Hd2 & HS). exists (q1 ++ q2), st2, y. rewrite app_assoc.
      split; [reflexivity|]. split; [exact Hq2|]. split; [congruence|]. now apply H1 with a.
    - exists q1, st1, (Err e). auto.
    - exists q1, st1, Panic. auto.
    - exists q1, st1, NoFuel. auto.
  Qed.
  Lemma adds_select f q ps : adds (q_select D f q ps) (fun h qs x => qs = [mk_qcall f q ps] /\ x = match D h (mk_qcall f q ps) with Some rows => Ok rows | None => Err PSqlite end).
  Proof. intros h st Hq. unfold q_select. cbn [fst snd]. eauto 10. Qed.

  (** The file used for a component. *)
  Definition file_of (c : ustr) (files : bool * bool) (all : bool) : option ustr :=
    if all && fst files then Some aio else if snd files then Some c else None.
  Lemma connection_is c files all : mget c (sp_components p) = Some files ->
    match file_of c files all with
    | Some f => exists d, connection p c all = Ok (f, (d, us "1.0"))
    | None => connection p c all = Err (PComponentNotFound c)
    end.
  Proof.
    intros Hc. unfold connection, file_of. rewrite Hc. destruct (proj2 Hp c files Hc) as (Ha & Ho). destruct (all && fst files) eqn:Ea.
    - apply andb_prop in Ea. destruct (Ha (proj2 Ea)) as (d & ->). now exists d.
    - destruct (snd files); [|reflexivity]. destruct (Ho eq_refl) as (d & ->). now exists d.
  Qed.
  Lemma adds_method {A} c files all k (m : ustr -> sql -> QM A) (R : ustr -> list qcall -> list qcall -> pout A -> Prop) : plain k ->
    mget c (sp_components p) = Some files -> (forall f, file_of c files all = Some f -> adds (m f (kind_sql k)) (R f)) ->
    adds (qbind (qret (connection p c all)) (fun '(f, (_, v)) => qbind (quietly (get_query (kind_key k) v (kind_sql k))) (fun q => m f q)))
      (fun h qs x => match file_of c files all with Some f => R f h qs x | None => qs = [] /\ x = Err (PComponentNotFound c) end).
  Proof.
    intros Hk Hc Hm h st Hq. pose proof (connection_is c files all Hc) as Hcon. unfold qbind at 1, qret. destruct (file_of c files all) as [f|] eqn:Ef.
    - destruct Hcon as (d & ->). unfold qbind, quietly. cbn [snd fst]. unfold get_query, make_query. rewrite ueqb_refl.
      destruct (mget (kind_key k) (ps_queries st)) as [q|] eqn:Eq; cbn [fst snd].
      + destruct (Hq _ _ Eq) as (k' & Hk' & Hkey & ->). rewrite <- (kind_key_inj k k' Hk Hk' Hkey). exact (Hm f eq_refl h st Hq).
      + destruct (Hm f eq_refl h (mk_pstate (minsert (kind_key k) (kind_sql k) (ps_queries st)) (ps_details st))) as (qs & st' & x & H1 & H2 & H3 & H4).
        { intros key q H. cbn [ps_queries] in H. rewrite mget_minsert in H.
          destruct (ueqb_spec key (kind_key k)) as [->|Hn]; [injection H as <-; exists k; auto | exact (Hq key q H)]. }
        exists qs, st', x. auto.
    - rewrite Hcon. exists [], st, (Err (PComponentNotFound c)). rewrite app_nil_r. auto.
  Qed.

  (** ** Lookups *)
  Definition level_read (r : option (list (list cell))) : pout (list (ustr * ustr)) :=
    match r with
    | None => Err PSqlite
    | Some rows => map_rows (fun row => let! s := get_text row 0 in let! raw := get_text row 1 in let! t := registry_tag E raw in Ok (s, t)) rows
    end.
  Lemma level_read_nil r : level_read r = Ok [] <-> r = Some [].
  Proof.
    split; [|intros ->; reflexivity]. destruct r as [rows|]; [|discriminate]. cbn [level_read].
    destruct (map_rows_says E rows) as [(l & Hl & ->)|(_ & e & ->)]; [|discriminate]. intros [= ->]. inversion Hl. reflexivity.
  Qed.
  Lemma level_read_quiet r : level_read r <> Panic /\ level_read r <> NoFuel.
  Proof.
    destruct r as [rows|]; cbn [level_read]; [|split; discriminate].
    destruct (map_rows_says E rows) as [(l & Hl & ->)|(_ & e & ->)]; split; discriminate.
  Qed.
  Lemma adds_loop one exact f c i : forall fuel t, List.length t < fuel ->
    adds (q_find_loop E D fuel f (SqlPattern one exact) c i exact t)
      (fun h qs x => exists r, until_answered D h (map (level_query one exact f c i) (levels fuel t)) qs r /\ x = level_read r).
  Proof.
    induction fuel as [|fuel IH]; intros t Hf; [lia|]. destruct t as [|y t']; [apply adds_ret; intros h; exists (Some []); split; [constructor | reflexivity]|].
    cbn [q_find_loop levels map]. set (t := y :: t') in *.
    assert (Hpar : before_last_hyphen (if exact then t else t ++ [ch "%"]) = before_last_hyphen t)
      by (destruct exact; [reflexivity | apply hyphen_after; discriminate]). cbv zeta. rewrite Hpar.
    set (par := match before_last_hyphen t with None => [] | Some a => a end).
    assert (Hl : List.length par < fuel).
    { subst par. pose proof (hyphen_split t) as H. destruct (before_last_hyphen t) as [a|].
      - destruct H as (r & Hr & _). rewrite Hr, app_length in Hf. cbn in Hf. lia.
      - subst t. cbn in *. lia. }
    change (mk_qcall f (SqlPattern one exact) [i; if exact then t else t ++ [ch "%"]; c]) with (level_query one exact f c i t).
    intros h st Hq. unfold qbind at 1, q_select. cbn [fst snd].
    change (mk_qcall f (SqlPattern one exact) [i; if exact then t else t ++ [ch "%"]; c]) with (level_query one exact f c i t).
    set (q := level_query one exact f c i t). destruct (D h q) as [rows|] eqn:EDq.
    - unfold qbind, qret. change (map_rows _ rows) with (level_read (Some rows)).
      destruct (level_read (Some rows)) as [[|z zs]|e| |] eqn:Er.
      + pose proof (proj1 (level_read_nil (Some rows)) Er) as Hr. injection Hr as ->.
        destruct (IH par Hl (h ++ [q]) st Hq) as (qs & st' & x & H1 & H2 & H3 & r & H4 & H5). rewrite H1.
        exists (q :: qs), st', x. rewrite <- app_assoc. split; [reflexivity|]. split; [exact H2|]. split; [exact H3|]. exists r. split; [|exact H5].
        now apply ua_next.
      + exists [q], st, (Ok (z :: zs)). split; [reflexivity|]. split; [exact Hq|]. split; [reflexivity|]. exists (Some rows). split; [|now rewrite Er].
        apply ua_stop; [exact EDq|]. intros H. rewrite (proj2 (level_read_nil (Some rows)) H) in Er. discriminate Er.
      + exists [q], st, (Err e). split; [reflexivity|]. split; [exact Hq|]. split; [reflexivity|]. exists (Some rows). split; [|now rewrite Er].
        apply ua_stop; [exact EDq|]. intros H. rewrite (proj2 (level_read_nil (Some rows)) H) in Er. discriminate Er.
      + now destruct (proj1 (level_read_quiet (Some rows))).
      + now destruct (proj2 (level_read_quiet (Some rows))).
    - exists [q], st, (Err PSqlite). split; [reflexivity|]. split; [exact Hq|]. split; [reflexivity|]. exists None. split; [|reflexivity].
      apply ua_stop; [exact EDq | discriminate].
  Qed.
  Lemma adds_find c files i t all one exact f : mget c (sp_components p) = Some files -> file_of c files all = Some f ->
    adds (q_find_strings E D p c i t all one exact)
      (fun h qs x => exists r, until_answered D h (map (level_query one exact f c i) (levels (S (List.length t)) t)) qs r /\ x = level_read r).
  Proof.
    intros Hc Hf. unfold q_find_strings.
    assert (Hm : forall f', file_of c files all = Some f' -> adds (q_find_loop E D (S (List.length t)) f' (kind_sql (KPattern all one exact)) c i exact t)
      (fun h qs x => exists r, until_answered D h (map (level_query one exact f' c i) (levels (S (List.length t)) t)) qs r /\ x = level_read r))
      by (intros f' _; apply adds_loop; lia).
    pose proof (adds_method c files all (KPattern all one exact) (fun f q => q_find_loop E D (S (List.length t)) f q c i exact t) _ Logic.I Hc Hm) as H.
    rewrite Hf in H. exact H.
  Qed.
End Adds.
