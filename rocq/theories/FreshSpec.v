(** What a provider and a localiser are meant to answer while the files change (C112). *)
From Verif Require Import Base CommandModel FormatterModel LocaliserModel RegistryModel CallsModel LocCallsModel ProviderModel ProviderSpec QueryModel QuerySpec AskModel
  SystemModel.

(** The content of the files at some time. *)
Definition contents := ustr -> db.
(** The provider, had it been opened when the files had this content: it has the files and components of [p]. *)
Definition files_at (w : contents) (p : sprovider) : sprovider :=
  mk_sprovider (sp_components p) (map (fun x => (fst x, (w (fst x), snd (snd x)))) (sp_connections p)).
(** What this provider answers to its first call. *)
Definition anew (E : penv) (p : sprovider) (w : contents) (x : pcall) : pout panswer := result E (files_at w p) [] x.

(** Queries, made one after the other, were all answered from this content. *)
Definition from_content (E : penv) (D : database) (w : contents) (h qs : list qcall) : Prop := forall r q r', qs = r ++ q :: r' ->
  D (h ++ r) q = match select E (qc_file q) (w (qc_file q)) (qc_sql q) (qc_params q) with Ok rows => Some rows | _ => None end.
(** Calls, for each of which the files had one content from its begin to its end. *)
Fixpoint sees (E : penv) (D : database) (p : sprovider) (s : qstate) (h : list (contents * pcall)) : Prop :=
  match h with
  | [] => True
  | (w, x) :: h' => (exists qs, new_queries s (q_pcall E D p x s) qs /\ from_content E D w (fst s) qs) /\ sees E D p (fst (q_pcall E D p x s)) h'
  end.

(** The content of which the provider knows the details: that of the first call which needed details and could get them. *)
Definition since (E : penv) (p : sprovider) (k : option contents) (e : contents * pcall) : option contents :=
  match k, snd e with
  | None, (CallIdentifier _ _ | CallComponent _ | CallRepository) =>
      match anew E p (fst e) CallRepository with Ok _ => Some (fst e) | _ => None end
  | _, _ => k
  end.
Definition known_of (E : penv) (p : sprovider) (h : list (contents * pcall)) : option contents := fold_left (since E p) h None.
Definition or_now (k : option contents) (w : contents) : contents := match k with Some v => v | None => w end.

(** The default language of another content in details of an identifier. *)
Definition with_default (t : ustr) (y : pout panswer) : pout panswer :=
  match y with Ok (AnIdentifier d) => Ok (AnIdentifier (mk_idetails (id_languages d) t)) | _ => y end.
(** The answer to a call when the files contain [w]: strings are those of now; details of components and of the repository are
    those of the time when they became known; of the details of an identifier the languages are those of now, the default
    language is of that time. *)
Definition expected (E : penv) (p : sprovider) (k : option contents) (w : contents) (x : pcall) (y : pout panswer) : Prop :=
  match x with
  | CallString _ _ _ | CallExact _ _ _ | CallStrings _ _ _ => y = anew E p w x
  | CallComponent _ | CallRepository => y = anew E p (or_now k w) x
  | CallIdentifier c i =>
      match k with
      | None => y = anew E p w x
      | Some v =>
          match anew E p v (CallComponent c) with
          | Ok (AnComponent cd) => forall u, (forall f, db_pattern (u f) = db_pattern (w f)) -> (exists a, anew E p u (CallComponent c) = Ok a) ->
              y = with_default (cd_default cd) (anew E p u x)
          | Err e => y = Err e
          | _ => False
          end
      end
  end.

(** ** The localiser *)
(** A provider with the strings of [w] and the default languages of [v]. *)
Definition two_times (E : penv) (p : sprovider) (v w : contents) : provider perror :=
  mk_provider (pv_string (sqlite_provider E (files_at w p))) (pv_default (sqlite_provider E (files_at v p))).
(** A localiser with another provider. *)
Definition over (L : lenv perror) (pv : provider perror) : lenv perror :=
  mk_lenv (le_icu L) (le_fmt L) (le_reg L) (le_locale L) pv (le_script L) (le_fuel L).
(** The calls of a localiser, for each of which the files had one content, and their results. *)
Fixpoint lsees (E : penv) (D : database) (p : sprovider) (L : lenv perror) (s : qstate) (st : lstate) (h : list (contents * lcall))
  (rs : list (option (lout (PE := perror) (ustr * ustr)))) : Prop :=
  match h, rs with
  | [], [] => True
  | (w, x) :: h', r :: rs' =>
      let y := xlstep L (without_effects (le_reg L)) (query_provider E D p) st x s in
      (exists qs, fst (fst y) = fst s ++ qs /\ from_content E D w (fst s) qs) /\ r = snd (snd y) /\ lsees E D p L (fst y) (fst (snd y)) h' rs'
  | _, _ => False
  end.
(** The same calls, each made with a provider that has the strings of its time. Its default languages are those of the time of
    one call, the same for all later calls; before, those of the time of the call itself. *)
Inductive in_time (E : penv) (p : sprovider) (L : lenv perror) : option contents -> lstate -> list (contents * lcall) ->
  list (option (lout (PE := perror) (ustr * ustr))) -> Prop :=
| it_end k st : in_time E p L k st [] []
| it_call k k' st w x h rs : k' = k \/ (k = None /\ k' = Some w) ->
    let y := lstep (over L (two_times E p (or_now k w) w)) st x in
    in_time E p L k' (fst y) h rs -> in_time E p L k st ((w, x) :: h) (snd y :: rs).
(** The settings after a call, when nothing is remembered. *)
Definition settings_after (L : lenv perror) (st : lstate) (x : lcall) : lstate := match x with CallDefaults t f ca => loc_defaults L st t f ca | _ => st end.
