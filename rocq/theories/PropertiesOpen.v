(** Properties of opening a sqlite3 provider: C76. *)
From Verif Require Import Base BaseFacts RegistryModel ProviderModel ProviderSpec ErrorModel OpenModel OpenSpec OpenProofs PropertiesProvider.

(** ** C76: the errors of opening a provider tell the truth. *)

Definition dir_of (items : list (ustr + fsitem)) : fs := mk_fs (Some (us "l10n")) true (inr items).
Definition file_of (e : entry) : ustr + fsitem := inr (mk_fsitem (Some (us "sqlite3")) e).
Definition with_schema (s : schema) : fs := dir_of [file_of (mk_entry (Some (us "app")) (Some (mk_db s [] [] [])))].
(** The schema of schema.sql with other columns of a table, or other versions. *)
Definition with_columns (t : ustr) (change : list column -> list column) : schema :=
  mk_schema (sc_tables schema_ex) (fun t' => if ueqb t' t then change (sc_columns schema_ex t') else sc_columns schema_ex t') [us "1.0"] (Some (us "app.sqlite3")) true.
Definition exchange (l : list column) : list column := match l with a :: b :: c :: r => a :: c :: b :: r | _ => l end.
Definition second_key (l : list column) : list column :=
  match l with a :: b :: r => a :: mk_column (cl_name b) (cl_type b) (cl_notnull b) (cl_default b) 2 :: r | _ => l end.
Definition no_version : schema := mk_schema (sc_tables schema_ex) (sc_columns schema_ex) [] (Some (us "app.sqlite3")) true.

(** False: a file that cannot be opened, or an __all_in_one__ file without components, is no file; a column in another place is
    missing; a second primary key lacks the property of being one; a file without a version has an unsupported one, though there
    is an error for that. *)
Theorem C76_opening_refuted :
  (exists f e, provider_open [] (fun _ => true) f = Err e /\ (exists p, e = QeNoSqlite3Files p) /\ ~ opening_says f e) /\
  (exists f e, provider_open [] (fun _ => true) f = Err e /\ (exists t c, e = QeSchemaInvalid (SeMissingColumn t c)) /\ ~ opening_says f e) /\
  (exists f e, provider_open [] (fun _ => true) f = Err e /\ (exists t c p, e = QeSchemaInvalid (SeColumnProperty t c p)) /\ ~ opening_says f e) /\
  (exists f e, provider_open [] (fun _ => true) f = Err e /\ (exists p v, e = QeSchemaInvalid (SeVersion p v)) /\ ~ opening_says f e /\
     exists p, opening_says f (QeSchemaInvalid (SeMissingVersion p))).
Proof.
  assert (Hone : forall s name d, holds (with_schema s) name d -> db_schema d = s).
  { intros s name d (it & (items & Hr & Hi & _) & _ & Hd). injection Hr as <-. destruct Hi as [Hi|[]]. injection Hi as <-. cbn in Hd. injection Hd as <-. reflexivity. }
  split; [|split; [|split]].
  - exists (dir_of [file_of (mk_entry (Some (us "app")) None)]). eexists. split; [vm_compute; reflexivity|]. split; [eexists; reflexivity|]. intros (_ & H).
    apply (H (mk_fsitem (Some (us "sqlite3")) (mk_entry (Some (us "app")) None))). eexists. split; [reflexivity|]. split; [left; reflexivity | reflexivity].
  - exists (with_schema (with_columns (us "language") exchange)). eexists. split; [vm_compute; reflexivity|]. split; [do 2 eexists; reflexivity|]. intros (name & d & Hh & Hs).
    rewrite (Hone _ _ _ Hh) in Hs. refine (Hs (mk_column (us "tag") (us "TEXT") 1 None 0) _ eq_refl). vm_compute. auto.
  - exists (with_schema (with_columns (us "language") second_key)). eexists. split; [vm_compute; reflexivity|]. split; [do 3 eexists; reflexivity|]. intros (name & d & Hh & Hs).
    rewrite (Hone _ _ _ Hh) in Hs. destruct Hs as (col & Hin & Hn & Hp). apply Hp. right. right. left. split; [reflexivity|].
    vm_compute in Hin. destruct Hin as [<-|[<-|[<-|[<-|[]]]]]; try discriminate Hn. discriminate.
  - exists (with_schema no_version). eexists. split; [vm_compute; reflexivity|]. split; [do 2 eexists; reflexivity|]. split.
    + intros (name & d & Hh & Hs). rewrite (Hone _ _ _ Hh) in Hs. destruct Hs as (_ & v' & [] & _).
    + exists (us "app.sqlite3"), (us "app"), (mk_db no_version [] [] []). split; [|split; reflexivity].
      eexists. split; [eexists; split; [reflexivity|]; split; [left; reflexivity | reflexivity] | split; reflexivity].
Qed.
Print Assumptions C76_opening_refuted.

(** What every error means; and the sentences are true of directories of which every file can be opened, has its columns in the
    order of schema.sql, though some may be missing, no key but rowID, and a version. *)
Theorem C76_opening_partial : forall sq comp_ok f e, provider_open sq comp_ok f = Err e ->
  opening_reports comp_ok f e /\ (orderly f -> opening_says f e).
Proof. intros sq ok f e H. apply open_reports in H. split; [exact H|]. intros Ho. exact (opening_says_of ok f e Ho H). Qed.
Print Assumptions C76_opening_partial.

(** The errors documented for a path that does not exist, for a file without version and for a default of a wrong type do not
    occur. *)
Theorem C76_never : forall sq comp_ok f e, provider_open sq comp_ok f = Err e ->
  (forall p, e <> QeNotExists p) /\ (forall p, e <> QeSchemaInvalid (SeMissingVersion p)) /\ forall t c, e <> QeSchemaInvalid (SeColumnMismatch t c).
Proof.
  intros sq ok f e H. apply open_reports in H. split; [|split].
  - intros p ->. exact H.
  - intros p ->. destruct H as (name & d & _ & []).
  - intros t c ->. destruct H as (name & d & _ & []).
Qed.
Print Assumptions C76_never.

(** In a directory that can be read, files with another extension do not matter, and the result is that of [provider_try_new]
    for the others, with the error converted. *)
Theorem C76_extension : forall sq comp_ok f path items, fs_path f = Some path -> fs_is_dir f = true -> fs_read f = inr (map inr items) ->
  exists es, provider_open sq comp_ok f = map_err (sqlite3_of sq path) (provider_try_new comp_ok es) /\
    forall e, In e es <-> exists it, In it items /\ fi_extension it = Some (us "sqlite3") /\ fi_entry it = e.
Proof.
  intros sq ok f path items Hp Hd Hr. eexists. split; [exact (open_try_new sq ok f path items Hp Hd Hr)|]. intros e. rewrite in_map_iff. split.
  - intros (it & He & Hi). apply filter_In in Hi. destruct Hi as (Hi & Hx). exists it. split; [exact Hi|]. split; [|exact He].
    destruct (fi_extension it) as [x|]; [|discriminate Hx]. apply ueqb_eq in Hx. congruence.
  - intros (it & Hi & Hx & He). exists it. split; [exact He|]. apply filter_In. split; [exact Hi|]. rewrite Hx. apply ueqb_refl.
Qed.
Print Assumptions C76_extension.

Example C76_example :
  (* a column is missing in the middle *)
  provider_open [] (fun _ => true) (with_schema (with_columns (us "pattern") (fun l => firstn 2 l ++ skipn 3 l))) =
    Err (QeSchemaInvalid (SeMissingColumn (us "pattern") (us "identifier"))) /\
  (* a type is another one *)
  provider_open [] (fun _ => true) (with_schema (with_columns (us "languageData")
    (map (fun c => mk_column (cl_name c) (if ueqb (cl_name c) (us "ratio") then us "TEXT" else cl_type c) (cl_notnull c) (cl_default c) (cl_pk c))))) =
    Err (QeSchemaInvalid (SeColumnProperty (us "languageData") (us "ratio") (us "REAL"))) /\
  (* other files are ignored, an error of the file system is not *)
  provider_open [] (fun _ => true) (dir_of [inr (mk_fsitem (Some (us "txt")) (mk_entry None None)); inr (mk_fsitem None (mk_entry None None))]) =
    Err (QeNoSqlite3Files (us "l10n")) /\
  provider_open [] (fun _ => true) (dir_of [inr (mk_fsitem (Some (us "txt")) (mk_entry None None)); inl (us "denied")]) = Err (QeIo (us "denied")) /\
  sqlite3_text (QeIo (us "denied")) = us "ProviderSqlite3Error::Io: [denied]." /\
  provider_open [] (fun _ => true) (mk_fs (Some (us "l10n")) false (inr [])) = Err (QeNotDirectory (us "l10n")) /\
  (* and the tidy case *)
  orderly (with_schema (with_columns (us "pattern") (fun l => firstn 2 l ++ skipn 3 l))).
Proof.
  do 6 (split; [vm_compute; reflexivity|]). intros it (items & Hr & Hi & _). injection Hr as <-. destruct Hi as [Hi|[]]. injection Hi as <-.
  exists (us "app"). eexists. split; [reflexivity|]. split; [reflexivity|]. split; [|discriminate]. cbn [db_schema]. split; [|split; [|discriminate]].
  - intros t cols Hin. unfold required_tables in Hin.
    destruct Hin as [H|[H|[H|[H|[H|[]]]]]]; injection H as <- <-; (eexists; exists []; rewrite app_nil_r; split; [vm_compute; reflexivity|]; split; [|intros c []]);
      vm_compute; repeat (apply th_keep || apply th_end || apply th_drop).
  - intros t cols col Hin Hc. unfold required_tables in Hin.
    destruct Hin as [H|[H|[H|[H|[H|[]]]]]]; injection H as <- _; vm_compute in Hc;
      repeat (destruct Hc as [<-|Hc]; [first [left; reflexivity | right; split; reflexivity]|]); destruct Hc.
Qed.
