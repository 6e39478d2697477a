(** Proofs about the errors of opening a provider. *)
From Verif Require Import Base BaseFacts RegistryModel ProviderModel ProviderSpec ProviderProofs ProviderProofs4 ErrorModel OpenModel OpenSpec.

Lemma umem_spec x l : reflect (In x l) (umem x l).
Proof. destruct (umem x l) eqn:E; constructor; [apply umem_In | apply umem_nIn]; exact E. Qed.
Definition types : list ustr := [us "INTEGER"; us "REAL"; us "TEXT"; us "DATE"].
Definition plain_req (r : ustr * ustr * N * N) : Prop := In (snd (fst (fst r))) types /\ (snd (fst r) = 0%N \/ snd (fst r) = 1%N).
Lemma required_plain t cols : In (t, cols) required_tables -> Forall plain_req cols.
Proof.
  assert (H : forallb (fun x : ustr * list (ustr * ustr * N * N) => forallb (fun r =>
    umem (snd (fst (fst r))) types && ((snd (fst r) =? 0)%N || (snd (fst r) =? 1)%N)) (snd x)) required_tables = true) by (vm_compute; reflexivity).
  intros Hi. apply Forall_forall. intros r Hr. pose proof (proj1 (forallb_forall _ _) (proj1 (forallb_forall _ _) H _ Hi) _ Hr) as Hx. cbv beta in Hx.
  apply andb_prop in Hx. destruct Hx as (H1 & H2). split.
  - destruct (umem_spec (snd (fst (fst r))) types) as [Hm|Hm]; [exact Hm | discriminate H1].
  - apply orb_prop in H2. destruct H2 as [H2|H2]; apply N.eqb_eq in H2; auto.
Qed.
Lemma required_distinct t cols : In (t, cols) required_tables -> NoDup (map (fun r => fst (fst (fst r))) cols).
Proof.
  assert (H : forallb (fun x : ustr * list (ustr * ustr * N * N) =>
    (fix nd (l : list ustr) := match l with [] => true | a :: r => negb (umem a r) && nd r end) (map (fun r => fst (fst (fst r))) (snd x))) required_tables = true)
    by (vm_compute; reflexivity).
  intros Hi. pose proof (proj1 (forallb_forall _ _) H _ Hi) as Hx. cbn [snd] in Hx. clear -Hx.
  induction (map (fun r => fst (fst (fst r))) cols) as [|a l IH]; [constructor|]. apply andb_prop in Hx. destruct Hx as (H1 & H2).
  constructor; [|exact (IH H2)]. intros Ha. apply negb_true_iff in H1. destruct (umem_spec a l) as [?|Hn]; [discriminate H1 | contradiction].
Qed.

(** One column. *)
Definition col_reports (t : ustr) (req : ustr * ustr * N * N) (col : column) (e : schema_error) : Prop :=
  let '(c, ty, nn, pk) := req in
  match e with
  | SSqlite => cl_default col <> None /\ (ty = us "INTEGER" \/ ty = us "REAL")
  | SMissingColumn t' c' => t' = t /\ c' = c /\ cl_name col <> c
  | SColumnProperty t' c' p => t' = t /\ c' = c /\ cl_name col = c /\
      ((p = ty /\ cl_type col <> ty) \/
       (cl_type col = ty /\
        ((p = us "NOT NULL" /\ nn = 1%N /\ cl_notnull col <> 1%N) \/ (p = us "NULL" /\ nn = 0%N /\ cl_notnull col <> 0%N) \/
         (p = us "PRIMARY KEY" /\ nn = 1%N /\ cl_pk col <> pk) \/ (p = [] /\ nn = 0%N /\ cl_pk col <> pk))))
  | SColumnDefault t' c' d => t' = t /\ c' = c /\ d = us "NULL" /\ cl_name col = c /\ cl_default col <> None /\ (ty = us "TEXT" \/ ty = us "DATE")
  | _ => False
  end.
Lemma columns_check_err t col c ty nn pk e : plain_req (c, ty, nn, pk) -> columns_check t col c ty nn pk = Err e -> col_reports t (c, ty, nn, pk) col e.
Proof.
  intros (Hty & Hnn) H. cbn [fst snd] in Hty, Hnn. unfold columns_check in H. cbn [col_reports].
  destruct (ueqb_spec (cl_name col) c) as [E1|E1]; cbn [negb] in H; [|injection H as <-; auto].
  destruct (ueqb_spec (cl_type col) ty) as [E2|E2]; cbn [negb] in H; [|injection H as <-; auto 6].
  destruct (N.eqb_spec (cl_notnull col) nn) as [E3|E3]; cbn [negb] in H.
  2:{ injection H as <-. repeat (split; [solve [auto]|]). right. split; [exact E2|]. destruct Hnn as [->| ->]; cbn; auto. }
  destruct (N.eqb_spec (cl_pk col) pk) as [E4|E4]; cbn [negb] in H.
  2:{ injection H as <-. repeat (split; [solve [auto]|]). right. split; [exact E2|]. destruct Hnn as [->| ->]; cbn; auto 6. }
  destruct (cl_default col) as [v|]; [|discriminate H].
  destruct (ueqb_spec ty (us "INTEGER")) as [->|N1]; cbn [orb] in H; [injection H as <-; split; [discriminate | auto]|].
  destruct (ueqb_spec ty (us "REAL")) as [->|N2]; [injection H as <-; split; [discriminate | auto]|].
  injection H as <-. repeat (split; [solve [auto]|]). split; [discriminate|].
  destruct Hty as [<-|[<-|[<-|[<-|[]]]]]; [contradiction | contradiction | auto | auto].
Qed.
Lemma check_rows_err t rows : forall required e, Forall plain_req required -> check_rows t rows required = Err e ->
  exists n req col, nth_error required n = Some req /\ nth_error rows n = Some col /\ table_fits (firstn n required) (firstn n rows) /\ col_reports t req col e.
Proof.
  induction rows as [|col rows IH]; intros [|[[[c ty] nn] pk] required] e Hp H; try discriminate H. cbn [check_rows] in H.
  inversion Hp as [|? ? Hp1 Hp2]; subst. destruct (columns_check t col c ty nn pk) as [[]|e'| |] eqn:Ec; cbn [bind] in H; try discriminate H.
  - apply columns_check_ok in Ec. destruct (IH _ _ Hp2 H) as (n & req & col' & H1 & H2 & H3 & H4). exists (S n), req, col'. repeat (split; [assumption|]). split; [|exact H4].
    intros [|k] r x Hr Hx; cbn [firstn nth_error] in Hr, Hx; [injection Hr as <-; injection Hx as <-; exact Ec | exact (H3 k r x Hr Hx)].
  - injection H as <-. exists 0, (c, ty, nn, pk), col. repeat (split; [reflexivity|]). split; [|exact (columns_check_err _ _ _ _ _ _ _ Hp1 Ec)].
    intros [|k] r x Hr; discriminate Hr.
Qed.
Lemma check_table_err sq s t cols e : In (t, cols) required_tables -> check_rows t (sc_columns s t) cols = Err e -> schema_reports s (schema_of sq e).
Proof.
  intros Hi H. destruct (check_rows_err _ _ _ _ (required_plain _ _ Hi) H) as (n & [[[c ty] nn] pk] & col & H1 & H2 & H3 & H4).
  assert (Hr : required_at s t (c, ty, nn, pk) col) by (exists n, cols; auto). cbn [col_reports] in H4.
  destruct e as [t'|t' c'|t' c' p|t' c' d|x y|]; cbn [schema_of schema_reports]; try contradiction.
  - destruct H4 as (-> & -> & H4). exists ty, nn, pk, col. auto.
  - destruct H4 as (-> & -> & H5 & H6). exists ty, nn, pk, col. auto.
  - destruct H4 as (-> & -> & -> & H5 & H6 & H7). split; [reflexivity|]. exists ty, nn, pk, col. auto.
  - right. exists t, c, ty, nn, pk, col. destruct H4. auto.
Qed.
Lemma table_exists_err sq s t e : t = us "metadata" \/ In t (map fst required_tables) -> table_exists (sc_tables s) t = Err e -> schema_reports s (schema_of sq e).
Proof.
  intros Ht H. unfold table_exists in H. destruct (umem_spec t (sc_tables s)) as [Hm|Hm]; [discriminate H|]. injection H as <-. cbn. split; assumption.
Qed.
Lemma bind_Err {E A B} (x : outcome E A) (f : A -> outcome E B) e : (let! a := x in f a) = Err e -> x = Err e \/ exists a, x = Ok a /\ f a = Err e.
Proof. destruct x; cbn [bind]; intros H; try discriminate H; [right; eauto | left; congruence]. Qed.
Lemma verify_schema_err sq s e : verify_schema s = Err e -> schema_reports s (schema_of sq e).
Proof.
  unfold verify_schema. destruct (sc_readable s) eqn:Er; cbn [negb]; [|intros H; injection H as <-; left; exact Er].
  destruct (umem_spec (us "metadata") (sc_tables s)) as [Hm|Hm]; cbn [negb]; [|intros H; injection H as <-; cbn; auto].
  destruct (ueqb_spec (last (sc_versions s) []) (us "1.0")) as [Ev|Ev].
  - intros H. repeat (apply bind_Err in H; destruct H as [H|([] & _ & H)]);
      first [apply (table_exists_err sq) in H; [exact H | right; vm_compute; auto 8]
            |apply (check_table_err sq) in H; [exact H | vm_compute; auto 8] | discriminate H].
  - destruct (sc_path s) as [path|] eqn:Ep; [|discriminate]. intros H. injection H as <-. cbn [schema_of schema_reports].
    split; [exact Ep|]. split; [reflexivity|]. destruct (sc_versions s) as [|v vs] eqn:Evs; [left; reflexivity|]. right.
    assert (Hne : v :: vs <> []) by discriminate. exists (removelast (v :: vs)), (last (v :: vs) []). split; [apply app_removelast_last; exact Hne | exact Ev].
Qed.

(** ** The directory *)
Definition item_holds (items : list (ustr + fsitem)) (name : ustr) (d : db) : Prop :=
  exists it, In (inr it) items /\ fi_extension it = Some (us "sqlite3") /\ en_stem (fi_entry it) = Some name /\ en_db (fi_entry it) = Some d.
Lemma add_items_err sq path ok items : forall p e, add_items sq path ok items p = Err e ->
  (exists w, e = QeIo w /\ In (inl w) items) \/
  (exists w d, e = QeSqlite3 w /\ item_holds items (us "__all_in_one__") d /\ ok d = false) \/
  exists name d x, e = QeSchemaInvalid x /\ item_holds items name d /\ schema_reports (db_schema d) x.
Proof.
  induction items as [|[w|it] rest IH]; intros p e H; cbn [add_items] in H; [discriminate H | injection H as <-; left; exists w; split; [reflexivity | left; reflexivity]|].
  assert (Hup : forall name d, item_holds rest name d -> item_holds (inr it :: rest) name d).
  { intros name d (it' & H1 & H2). exists it'. split; [right; exact H1 | exact H2]. }
  assert (Hrest : forall q, add_items sq path ok rest q = Err e ->
    (exists w, e = QeIo w /\ In (inl w) (inr it :: rest)) \/
    (exists w d, e = QeSqlite3 w /\ item_holds (inr it :: rest) (us "__all_in_one__") d /\ ok d = false) \/
    exists name d x, e = QeSchemaInvalid x /\ item_holds (inr it :: rest) name d /\ schema_reports (db_schema d) x).
  { intros q Hq. destruct (IH q e Hq) as [(w & H1 & H2)|[(w & d & H1 & H2 & H3)|(name & d & x & H1 & H2 & H3)]].
    - left. exists w. split; [exact H1 | right; exact H2].
    - right. left. exists w, d. auto.
    - right. right. exists name, d, x. auto. }
  destruct (fi_extension it) as [x|] eqn:Ex; [|exact (Hrest _ H)]. destruct (ueqb_spec x (us "sqlite3")) as [->|Hx]; [|exact (Hrest _ H)].
  apply bind_Err in H. destruct H as [H|(q & _ & H)]; [|exact (Hrest _ H)].
  destruct (add_entries ok [fi_entry it] p) as [q|e'| |] eqn:Ea; cbn [map_err] in H; try discriminate H. injection H as <-.
  cbn [add_entries] in Ea. destruct (en_stem (fi_entry it)) as [name|] eqn:Es; [|discriminate Ea].
  destruct (en_db (fi_entry it)) as [d|] eqn:Ed; [|discriminate Ea].
  assert (Hh : item_holds (inr it :: rest) name d) by (exists it; split; [left; reflexivity | auto]).
  apply bind_Err in Ea. destruct Ea as [Ea|(v & _ & Ea)].
  - destruct (verify_schema (db_schema d)) as [v|e''| |] eqn:Ev; cbn [map_err] in Ea; try discriminate Ea. injection Ea as <-.
    right. right. exists name, d, (schema_of sq e''). split; [reflexivity|]. split; [exact Hh | exact (verify_schema_err sq _ _ Ev)].
  - destruct (ueqb_spec name aio) as [->|Hn]; [|discriminate Ea]. destruct (ok d) eqn:Eo; cbn [negb] in Ea; [discriminate Ea|]. injection Ea as <-.
    right. left. exists sq, d. auto.
Qed.
Lemma minsert_nonempty {V} k (v : V) m : minsert k v m <> [].
Proof. destruct m as [|[a b] m]; cbn [minsert]; [discriminate|]. destruct (ueqb k a); discriminate. Qed.
Lemma add_aio_nonempty rows : forall m, add_aio rows m = [] -> rows = [] /\ m = [].
Proof.
  induction rows as [|r rows IH]; intros m H; cbn [add_aio] in H; [auto|]. apply IH in H. destruct H as (_ & H). destruct (minsert_nonempty _ _ _ H).
Qed.
Lemma add_items_empty sq path ok items : forall p q, add_items sq path ok items p = Ok q -> sp_components q = [] ->
  sp_components p = [] /\ forall name d, item_holds items name d -> name = us "__all_in_one__" /\ db_component d = [].
Proof.
  induction items as [|[w|it] rest IH]; intros p q H Hq; cbn [add_items] in H.
  - injection H as <-. split; [exact Hq | intros name d (it & [] & _)].
  - discriminate H.
  - assert (Hskip : add_items sq path ok rest p = Ok q -> (fi_extension it <> Some (us "sqlite3") \/ en_db (fi_entry it) = None) ->
      sp_components p = [] /\ forall name d, item_holds (inr it :: rest) name d -> name = us "__all_in_one__" /\ db_component d = []).
    { intros Hr Hne. destruct (IH _ _ Hr Hq) as (H1 & H2). split; [exact H1|]. intros name d (it' & [Hi|Hi] & Hx & Hs & Hd).
      - injection Hi as <-. destruct Hne as [Hne|Hne]; [contradiction | rewrite Hne in Hd; discriminate Hd].
      - apply H2. exists it'. auto. }
    destruct (fi_extension it) as [x|] eqn:Ex; [|apply Hskip; [exact H | left; discriminate]].
    destruct (ueqb_spec x (us "sqlite3")) as [->|Hx]; [|apply Hskip; [exact H | left; congruence]].
    apply bind_Ok in H. destruct H as (p' & Ha & H). destruct (add_entries ok [fi_entry it] p) as [q'|e'| |] eqn:Ea; cbn [map_err] in Ha; try discriminate Ha. injection Ha as ->.
    cbn [add_entries] in Ea. destruct (en_stem (fi_entry it)) as [name|] eqn:Es; [|discriminate Ea].
    destruct (en_db (fi_entry it)) as [d|] eqn:Ed; [|injection Ea as <-; apply Hskip; [exact H | right; reflexivity]].
    apply bind_Ok in Ea. destruct Ea as (v & _ & Ea). destruct (IH _ _ H Hq) as (H1 & H2).
    destruct (ueqb_spec name aio) as [->|Hn].
    + destruct (negb (ok d)); [discriminate Ea|]. injection Ea as <-. cbn [sp_components] in H1. apply add_aio_nonempty in H1. destruct H1 as (H0 & H1).
      split; [exact H1|]. intros name d' (it' & [Hi|Hi] & Hx & Hs & Hd).
      * injection Hi as <-. rewrite Es in Hs. injection Hs as <-. rewrite Ed in Hd. injection Hd as <-. auto.
      * apply H2. exists it'. auto.
    + injection Ea as <-. cbn [sp_components] in H1. destruct (minsert_nonempty _ _ _ H1).
Qed.
Lemma open_reports sq ok f e : provider_open sq ok f = Err e -> opening_reports ok f e.
Proof.
  unfold provider_open. destruct (fs_path f) as [path|] eqn:Ep; [|intros H; injection H as <-; exact Ep].
  destruct (fs_is_dir f) eqn:Ed; cbn [negb]; [|intros H; injection H as <-; split; assumption].
  destruct (fs_read f) as [w|items] eqn:Er; [intros H; injection H as <-; left; exact Er|].
  assert (Hh : forall name d, item_holds items name d <-> holds f name d).
  { intros name d. split.
    - intros (it & H1 & H2 & H3). exists it. split; [exists items; auto | exact H3].
    - intros (it & (items' & H1 & H2 & H3) & H4). rewrite Er in H1. injection H1 as <-. exists it. auto. }
  intros H. apply bind_Err in H. destruct H as [H|(p & Hp & H)].
  - destruct (add_items_err _ _ _ _ _ _ H) as [(w & -> & Hw)|[(w & d & -> & Hd & Ho)|(name & d & x & -> & Hd & Hx)]].
    + right. exists items. auto.
    + exists d. split; [apply Hh; exact Hd | exact Ho].
    + exists name, d. split; [apply Hh; exact Hd | exact Hx].
  - destruct (sp_components p) as [|x l] eqn:Ec; [|discriminate H]. injection H as <-. split; [exact Ep|]. split; [exact Ed|].
    intros name d Hd. apply Hh in Hd. exact (proj2 (add_items_empty _ _ _ _ _ _ Hp Ec) name d Hd).
Qed.

(** ** When the sentences are true *)
Lemma thinned_in {A} (l m : list A) : thinned l m -> forall x, In x l -> In x m.
Proof. induction 1 as [m|a l m H IH|a l m H IH]; intros x Hx; [destruct Hx | destruct Hx as [->|Hx]; [left; reflexivity | right; auto] | right; auto]. Qed.
Lemma thinned_skip {A} (n : nat) : forall (had more req : list A) c x, NoDup req -> thinned had req -> (forall y, In y more -> ~ In y req) ->
  nth_error req n = Some c -> nth_error (had ++ more) n = Some x -> x <> c -> firstn n (had ++ more) = firstn n req -> ~ In c (had ++ more).
Proof.
  induction n as [|n IH]; intros had more req c x Hnd Ht Hm Hc Hx Hne Hf Hin.
  - destruct req as [|r req]; [discriminate Hc|]. injection Hc as ->. apply in_app_or in Hin. destruct Hin as [Hin|Hin]; [|destruct (Hm c Hin); left; reflexivity].
    inversion Hnd as [|? ? Hn _]; subst. inversion Ht as [|? ? ? Ht'|? ? ? Ht']; subst; [destruct Hin| |apply Hn; exact (thinned_in _ _ Ht' _ Hin)].
    cbn in Hx. injection Hx as ->. contradiction.
  - destruct req as [|r req]; [discriminate Hc|]. cbn [nth_error] in Hc. inversion Hnd as [|? ? Hn Hnd']; subst.
    destruct had as [|h had].
    + cbn [app] in *. apply (Hm c Hin). right. exact (nth_error_In _ _ Hc).
    + cbn [app firstn] in Hf. injection Hf as -> Hf. cbn [app nth_error] in Hx.
      assert (Ht2 : thinned had req). { inversion Ht as [|? ? ? Ht'|? ? ? Ht']; subst; [exact Ht'|]. destruct Hn. apply (thinned_in _ _ Ht'). left. reflexivity. }
      cbn [app] in Hin. destruct Hin as [->|Hin]; [exact (Hn (nth_error_In _ _ Hc))|].
      refine (IH had more req c x Hnd' Ht2 _ Hc Hx Hne Hf Hin). intros y Hy Hi. apply (Hm y Hy). right. exact Hi.
Qed.
Lemma fits_names n : forall req cols r col, nth_error req n = Some r -> nth_error cols n = Some col -> table_fits (firstn n req) (firstn n cols) ->
  firstn n (map cl_name cols) = firstn n (map (fun r : ustr * ustr * N * N => fst (fst (fst r))) req).
Proof.
  induction n as [|n IH]; intros [|r0 req] [|c0 cols] r col Hr Hc H; try discriminate; [reflexivity|]. cbn [map firstn]. f_equal.
  - pose proof (H 0 r0 c0 eq_refl eq_refl) as Hf. destruct r0 as [[[a b] c] d]. exact (proj1 Hf).
  - apply (IH req cols r col Hr Hc). intros k x y Hx Hy. exact (H (S k) x y Hx Hy).
Qed.
Lemma key_required t cols c ty nn pk : In (t, cols) required_tables -> In (c, ty, nn, pk) cols ->
  (c = us "rowID" /\ pk = 1%N /\ nn = 1%N) \/ (c <> us "rowID" /\ pk = 0%N).
Proof.
  assert (H : forallb (fun x : ustr * list (ustr * ustr * N * N) => forallb (fun r => let '(c, ty, nn, pk) := r in
    (ueqb c (us "rowID") && (pk =? 1)%N && (nn =? 1)%N) || (negb (ueqb c (us "rowID")) && (pk =? 0)%N)) (snd x)) required_tables = true) by (vm_compute; reflexivity).
  intros H1 H2. pose proof (proj1 (forallb_forall _ _) (proj1 (forallb_forall _ _) H _ H1) _ H2) as Hx. cbv beta iota in Hx.
  destruct (ueqb_spec c (us "rowID")) as [E|E]; cbn [andb orb negb] in Hx.
  - left. rewrite orb_false_r in Hx. apply andb_prop in Hx. destruct Hx as (Hp & Hq). apply N.eqb_eq in Hp, Hq. auto.
  - right. apply N.eqb_eq in Hx. auto.
Qed.
Lemma types_words ty : In ty types -> ty <> us "NOT NULL" /\ ty <> us "NULL" /\ ty <> us "PRIMARY KEY" /\ ty <> [].
Proof. intros [<-|[<-|[<-|[<-|[]]]]]; repeat split; discriminate. Qed.
Lemma says_of_reports s e : tidy s -> schema_reports s e -> schema_says s e.
Proof.
  intros (Ho & Hk & Hv) H. destruct e as [w|t|path v|path|t c|t c p|t c d|t c]; cbn [schema_reports schema_says] in *; try exact Logic.I; try contradiction.
  - apply H.
  - destruct H as (Hp & -> & [Hn|(vs & v' & Hvs & Hne)]); [contradiction|]. split; [exact Hp|]. exists v'. split; [rewrite Hvs; apply in_or_app; right; left; reflexivity | exact Hne].
  - destruct H as (ty & nn & pk & col & (n & cols & Hi & Hr & Hc & Hf) & Hne). destruct (Ho _ _ Hi) as (had & more & Hn & Ht & Hm).
    intros col' Hin Heq. assert (Hx : In c (had ++ more)) by (rewrite <- Hn, <- Heq; apply in_map; exact Hin). revert Hx.
    apply (thinned_skip n had more (map (fun r : ustr * ustr * N * N => fst (fst (fst r))) cols) c (cl_name col) (required_distinct _ _ Hi) Ht Hm).
    + exact (map_nth_error (fun r : ustr * ustr * N * N => fst (fst (fst r))) _ _ Hr).
    + rewrite <- Hn. exact (map_nth_error _ _ _ Hc).
    + exact Hne.
    + rewrite <- Hn. exact (fits_names n _ _ _ _ Hr Hc Hf).
  - destruct H as (ty & nn & pk & col & (n & cols & Hi & Hr & Hc & Hf) & Hname & H). exists col. split; [exact (nth_error_In _ _ Hc)|]. split; [exact Hname|].
    pose proof (proj1 (Forall_forall _ _) (required_plain _ _ Hi) _ (nth_error_In _ _ Hr)) as (Hty & _). cbn [fst snd] in Hty.
    pose proof (types_words ty Hty) as (W1 & W2 & W3 & W4).
    assert (Hkey : cl_pk col <> pk -> nn = 1%N /\ cl_pk col = 0%N /\ pk = 1%N).
    { intros Hne. destruct (key_required _ _ _ _ _ _ Hi (nth_error_In _ _ Hr)) as [(-> & -> & ->)|(Hrow & ->)];
        destruct (Hk _ _ _ Hi (nth_error_In _ _ Hc)) as [H0|(H0 & H1)]; auto; [contradiction | contradiction | congruence]. }
    intros Hhas. destruct H as [(-> & Hty')|(Ety & [(-> & -> & Hnn)|[(-> & -> & Hnn)|[(-> & -> & Hnn)|(-> & -> & Hnn)]]])];
      destruct Hhas as [(Ex & Hx)|[(Ex & Hx)|[(Ex & Hx)|[Ex|Ex]]]]; try discriminate Ex; try congruence; destruct (Hkey Hnn) as (Z1 & Z2 & Z3); congruence.
  - destruct H as (-> & ty & nn & pk & col & (n & cols & Hi & Hr & Hc & Hf) & Hname & Hd & _). exists col. split; [exact (nth_error_In _ _ Hc)|]. split; [exact Hname|].
    intros [(_ & Hx)|(Hx & _)]; [contradiction | apply Hx; reflexivity].
Qed.
Lemma holds_orderly f name d : orderly f -> holds f name d -> tidy (db_schema d).
Proof.
  intros Ho (it & Hi & _ & Hd). destruct (Ho it Hi) as (name' & d' & _ & Hd' & Ht & _). rewrite Hd in Hd'. injection Hd' as <-. exact Ht.
Qed.
Lemma opening_says_of ok f e : orderly f -> opening_reports ok f e -> opening_says f e.
Proof.
  intros Ho H. destruct e as [w|w|path|path| |path|e]; cbn [opening_reports opening_says] in *; try exact H; try exact Logic.I.
  - destruct H as (Hp & _ & H). split; [exact Hp|]. intros it Hi. destruct (Ho it Hi) as (name & d & Hs & Hd & _ & Hc).
    destruct (H name d) as (Hn & He); [exists it; auto|]. exact (Hc Hn He).
  - destruct H as (name & d & Hh & He). exists name, d. split; [exact Hh|]. exact (says_of_reports _ _ (holds_orderly _ _ _ Ho Hh) He).
Qed.
Lemma add_items_entries sq path ok items : forall p, add_items sq path ok (map inr items) p =
  map_err (sqlite3_of sq path) (add_entries ok (map fi_entry (filter (fun it => match fi_extension it with Some x => ueqb x (us "sqlite3") | None => false end) items)) p).
Proof.
  induction items as [|it items IH]; intros p; [reflexivity|]. cbn [map add_items filter].
  destruct (fi_extension it) as [x|]; [|apply IH]. destruct (ueqb x (us "sqlite3")); [|apply IH]. cbn [map].
  set (rest := map fi_entry _) in *.
  assert (H : add_entries ok (fi_entry it :: rest) p = (let! q := add_entries ok [fi_entry it] p in add_entries ok rest q)).
  { cbn [add_entries]. destruct (en_stem (fi_entry it)) as [name|]; [|reflexivity]. destruct (en_db (fi_entry it)) as [d|]; [|reflexivity].
    destruct (verify_schema (db_schema d)); cbn [map_err bind]; try reflexivity. destruct (ueqb name aio); [|reflexivity]. destruct (negb (ok d)); reflexivity. }
  rewrite H. destruct (add_entries ok [fi_entry it] p) as [q|e| |]; cbn [map_err bind]; try reflexivity. apply IH.
Qed.
Lemma open_try_new sq ok f path items : fs_path f = Some path -> fs_is_dir f = true -> fs_read f = inr (map inr items) ->
  provider_open sq ok f = map_err (sqlite3_of sq path)
    (provider_try_new ok (map fi_entry (filter (fun it => match fi_extension it with Some x => ueqb x (us "sqlite3") | None => false end) items))).
Proof.
  intros Hp Hd Hr. unfold provider_open, provider_try_new. rewrite Hp, Hd, Hr. cbn [negb]. rewrite add_items_entries.
  set (o := add_entries _ _ _). destruct o as [p|e| |]; cbn [map_err bind]; try reflexivity. destruct (sp_components p); reflexivity.
Qed.
