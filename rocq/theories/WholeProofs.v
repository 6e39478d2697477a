(** The localiser over the sqlite3 provider with threads: programs that ask the provider step by step, and those that ask it at once. *)
From Verif Require Import Base BaseFacts LexerModel TreeModel ValueModel CommandModel IsoModel FormatterModel RegistryModel ProviderModel ProviderSpec LocaliserModel SystemModel ProviderSyncModel
  ProviderSyncProofs SyncModel SyncSpec SyncProofs3 WholeModel WholeSpec.
Local Opaque us.

Section Sim.
  Variables (E : penv) (p : sprovider) (ic : icu) (fe : fmtenv) (reg : cregistry) (locale : ustr -> ustr) (script : ustr -> option ustr) (fuel : nat).
  Definition L : lenv perror := system E p ic fe reg locale script fuel.
  Local Notation text := (outcome (localiser_error perror) (ustr * ustr)).
  Local Notation prog := (SyncModel.prog (PE := perror)).
  Local Notation sthread := (sthread (PE := perror)).
  Definition broken : option text := Some (Err (LProvider PSqlite)).
  Definition answer_of (c : pcall) : pout panswer := result E p [] c.

  (** The program [f] does what [q] does, apart from the time it takes to ask the provider. If SQLite fails while it asks it gives up. *)
  Inductive sim : fprog -> prog -> Prop :=
  | si_ret r : sim (FRet r) (PRet r)
  | si_tag k k' : (forall t, sim (k t) (k' t)) -> sim (FTag k) (PTag k')
  | si_fallback k k' : (forall t, sim (k t) (k' t)) -> sim (FFallback k) (PFallback k')
  | si_caching k k' : (forall t, sim (k t) (k' t)) -> sim (FCaching k) (PCaching k')
  | si_set_tag t k k' : sim k k' -> sim (FSetTag t k) (PSetTag t k')
  | si_hold k k' : (forall t, sim (k t) (k' t)) -> sim (FHoldTag k) (PHoldTag k')
  | si_script s k k' : sim k k' -> sim (FSetScript s k) (PSetScript s k')
  | si_set_fallback b k k' : sim k k' -> sim (FSetFallback b k) (PSetFallback b k')
  | si_set_caching b k k' : sim k k' -> sim (FSetCaching b k) (PSetCaching b k')
  | si_lookup t key k k' : (forall o b, sim (k o b) (k' o b)) -> sim (FLookup t key k) (PLookup t key k')
  | si_lookup_format t key vals k k' : (forall x, sim (k x) (k' x)) -> sim (FLookupFormat t key vals k) (PLookupFormat t key vals k')
  | si_add b key s t k k' : sim k k' -> sim (FAdd b key s t k) (PAdd b key s t k')
  | si_put b t key fm k k' : sim k k' -> sim (FPut b t key fm k) (PPut b t key fm k')
  | si_use t key vals k k' : (forall r, sim (k r) (k' r)) -> sim (FUse t key vals k) (PUse t key vals k')
  | si_ask c k q : is_script q = false -> k (Err PSqlite) = FRet broken -> sim (k (answer_of c)) q -> sim (FAsk c k) q.

  Lemma answer_string c i t : (let! a := answer_of (CallString c i t) in match a with AnString o => Ok o | _ => Panic end) = snd (string_ E p c i t pstate_new).
  Proof.
    unfold answer_of, result. cbn [prun fold_left pcall_run]. unfold pbind, skip, pret. destruct (string_ E p c i t pstate_new) as (s & [o|e| |]); reflexivity.
  Qed.
  Lemma answer_default c : (let! a := answer_of (CallComponent c) in match a with AnComponent cd => Ok (cd_default cd) | _ => Panic end) =
    let! cd := snd (component_details E p c pstate_new) in Ok (cd_default cd).
  Proof.
    unfold answer_of, result. cbn [prun fold_left pcall_run]. unfold pbind at 1. destruct (component_details E p c pstate_new) as (s & [o|e| |]); reflexivity.
  Qed.

  Lemma sim_string c i t k q : is_script q = false -> k (Err PSqlite) = FRet broken -> sim (k (pv_string (le_provider L) c i t)) q -> sim (ask_string E c i t k) q.
  Proof.
    intros Hq Hk H. unfold ask_string. change (pv_string (le_provider L) c i t) with
      (match pe_canon E t with Some t' => if ueqb t t' then snd (string_ E p c i t pstate_new) else Ok None | None => Ok None end) in H.
    destruct (pe_canon E t) as [t'|]; [|exact H]. destruct (ueqb t t'); [|exact H]. apply si_ask; [exact Hq|exact Hk|]. rewrite answer_string. exact H.
  Qed.
  Lemma sim_default c k q : is_script q = false -> k (Err PSqlite) = FRet broken -> sim (k (pv_default (le_provider L) c)) q -> sim (ask_default c k) q.
  Proof. intros Hq Hk H. unfold ask_default. apply si_ask; [exact Hq|exact Hk|]. rewrite answer_default. exact H. Qed.
  Lemma sim_find c i t fb k q : is_script q = false -> k (Err (LProvider PSqlite)) = FRet broken -> sim (k (find_string L c i t fb)) q -> sim (whole_find E c i t fb k) q.
  Proof.
    intros Hq Hk H. unfold whole_find. apply sim_string; [exact Hq|exact Hk|]. unfold find_string in H.
    destruct (pv_string (le_provider L) c i t) as [[x|]|e| |]; try exact H. cbn [map_err bind] in H. destruct fb; [|exact H]. cbn [negb] in *.
    apply sim_default; [exact Hq|exact Hk|]. destruct (pv_default (le_provider L) c) as [d|e| |]; try exact H. cbn [map_err bind] in H.
    apply sim_string; [exact Hq|exact Hk|]. destruct (pv_string (le_provider L) c i d) as [[x|]|e| |]; exact H.
  Qed.

  Lemma sim_format c i vals t fb ca k k' : (forall r, sim (k r) (k' r)) -> (forall r, is_script (k' r) = false) -> k (Err (LProvider PSqlite)) = FRet broken ->
    sim (whole_format E L c i vals t fb ca k) (sync_format L c i vals t fb ca k').
  Proof.
    intros Hk Hs Hb. unfold whole_format, sync_format. apply si_lookup_format. intros [r|b]; [apply Hk|].
    assert (Hr : forall s t', sim (if ca then FAdd b (combined c i) s t' (k (Ok (s, t'))) else k (Ok (s, t')))
      (if ca then PAdd b (combined c i) s t' (k' (Ok (s, t'))) else k' (Ok (s, t')))) by (intros s t'; destruct ca; [apply si_add|]; apply Hk).
    assert (Hn : forall s t', is_script (if ca then PAdd b (combined c i) s t' (k' (Ok (s, t'))) else k' (Ok (s, t'))) = false) by (intros s t'; destruct ca; [reflexivity|apply Hs]).
    apply sim_find; [|exact Hb|].
    - destruct (find_string L c i t fb) as [[[|x s] t']|e| |]; try apply Hs; [apply Hn|].
      destruct (formatter_try_new _ _ _ _ _ _ _) as [fm|e| |]; try apply Hs; [destruct ca; [reflexivity|apply Hs]|]. destruct e; try apply Hs; apply Hn.
    - destruct (find_string L c i t fb) as [[[|x s] t']|e| |]; try apply Hk; [apply Hr|].
      destruct (formatter_try_new _ _ _ _ _ _ _) as [fm|e| |]; try apply Hk; [destruct ca; [apply si_put, si_use|]; apply Hk|]. destruct e; try apply Hk; apply Hr.
  Qed.
  Lemma sim_literal c i t fb ca k k' : (forall r, sim (k r) (k' r)) -> (forall r, is_script (k' r) = false) -> k (Err (LProvider PSqlite)) = FRet broken ->
    sim (whole_literal E c i t fb ca k) (sync_literal L c i t fb ca k').
  Proof.
    intros Hk Hs Hb. unfold whole_literal, sync_literal. apply si_lookup. intros [[s t'|fm]|] b; try apply Hk. apply sim_find; [|exact Hb|].
    - destruct (find_string L c i t fb) as [[s t']|e| |]; try apply Hs. destruct ca; [reflexivity|apply Hs].
    - destruct (find_string L c i t fb) as [[s t']|e| |]; try apply Hk. destruct ca; [apply si_add|]; apply Hk.
  Qed.
  Lemma data_script t fb ca : forall d k', is_script (sync_data L d t fb ca k') = false.
  Proof.
    fix IH 1. intros [c i [vs|]] k'; cbn [sync_data]; [|reflexivity]. generalize (@nil (ustr * pvalue)). induction vs as [|[ph v] vs IHvs]; intros new; [reflexivity|].
    destruct v; try apply IHvs. apply IH.
  Qed.
  Lemma sim_data t fb ca : forall d k k', (forall r, sim (k r) (k' r)) -> (forall r, is_script (k' r) = false) -> k (Err (LProvider PSqlite)) = FRet broken ->
    sim (whole_data E L d t fb ca k) (sync_data L d t fb ca k').
  Proof.
    fix IH 1. intros [c i [vs|]] k k' Hk Hs Hb; cbn [whole_data sync_data]; [|now apply sim_literal]. generalize (@nil (ustr * pvalue)).
    induction vs as [|[ph v] vs IHvs]; intros new; [now apply sim_format|]. destruct v; try apply IHvs. apply IH.
    - intros [[s t']|e| |]; [apply IHvs|apply Hk ..].
    - intros [[s t']|e| |]; [|apply Hs ..]. clear IHvs. generalize (minsert ph (VLocalised s t') new). induction vs as [|[ph1 v1] vs IHvs]; intros new1; [reflexivity|].
      destruct v1; try apply IHvs. apply data_script.
    - exact Hb.
  Qed.
  Lemma sim_call c : sim (whole_call E L c) (sync_call L c).
  Proof.
    destruct c; cbn [whole_call sync_call].
    - apply si_fallback. intros fb. apply si_caching. intros cb. apply sim_format; [intros r; apply si_ret|reflexivity|reflexivity].
    - apply si_tag. intros t. apply si_fallback. intros fb. apply si_caching. intros cb. apply sim_format; [intros r; apply si_ret|reflexivity|reflexivity].
    - apply si_fallback. intros fb. apply si_caching. intros cb. apply sim_literal; [intros r; apply si_ret|reflexivity|reflexivity].
    - apply si_tag. intros t. apply si_fallback. intros fb. apply si_caching. intros cb. apply sim_literal; [intros r; apply si_ret|reflexivity|reflexivity].
    - apply si_fallback. intros fb. apply si_caching. intros cb. apply sim_data; [intros r; apply si_ret|reflexivity|reflexivity].
    - apply si_tag. intros t. apply si_fallback. intros fb. apply si_caching. intros cb. apply sim_data; [intros r; apply si_ret|reflexivity|reflexivity].
    - assert (H1 : sim (match caching with Some b => FSetCaching b (FRet None) | None => FRet None end) (match caching with Some b => PSetCaching b (PRet None) | None => PRet None end))
        by (destruct caching; [apply si_set_caching|]; apply si_ret).
      assert (H2 : sim (match fallback with Some b => FSetFallback b (match caching with Some b => FSetCaching b (FRet None) | None => FRet None end)
          | None => match caching with Some b => FSetCaching b (FRet None) | None => FRet None end end)
        (match fallback with Some b => PSetFallback b (match caching with Some b => PSetCaching b (PRet None) | None => PRet None end)
          | None => match caching with Some b => PSetCaching b (PRet None) | None => PRet None end end)) by (destruct fallback; [apply si_set_fallback|]; exact H1).
      destruct tag as [t|]; [|exact H2]. apply si_set_tag, si_hold. intros t'. apply si_script. exact H2.
  Qed.

  (** ** Steps *)
  Definition asking (f : fprog) : bool := match f with FAsk _ _ | FWait _ _ => true | _ => false end.
  Lemma insertion_sim g w t key o k k' : sim k k' -> exists g' f' q', whole_insertion g w t key o k = (g', f') /\ insertion g w t key o k' = (g', q') /\ sim f' q'.
  Proof. intros H. destruct o as [st|]; cbn; eexists _, _, _; (split; [reflexivity|split; [reflexivity|]]); [exact H|apply si_ret]. Qed.
  (** A step that is not one of the provider. *)
  Lemma sim_step f q g pc ok : sim f q -> asking f = false ->
    match fprog_step E p L f g pc ok with
    | None => prog_step L q g = None
    | Some (g', pc', f') => pc' = pc /\ exists q', prog_step L q g = Some (g', q') /\ sim f' q'
    end.
  Proof.
    intros H Ha. destruct H; try discriminate Ha; cbn [fprog_step prog_step].
    - reflexivity.
    - split; [reflexivity|]. eexists. split; [reflexivity|auto].
    - split; [reflexivity|]. eexists. split; [reflexivity|auto].
    - split; [reflexivity|]. eexists. split; [reflexivity|auto].
    - destruct (sy_readers g); [|reflexivity]. split; [reflexivity|]. eexists. split; [reflexivity|auto].
    - split; [reflexivity|]. eexists. split; [reflexivity|auto].
    - split; [reflexivity|]. eexists. split; [reflexivity|auto].
    - split; [reflexivity|]. eexists. split; [reflexivity|auto].
    - split; [reflexivity|]. eexists. split; [reflexivity|auto].
    - destruct (sy_poisoned g); (split; [reflexivity|]; eexists; split; [reflexivity|]); [apply si_ret|auto].
    - destruct (sy_poisoned g); [split; [reflexivity|]; eexists; split; [reflexivity|apply si_ret]|].
      destruct (cached (sy_ls g) t key) as [[w t'|fm]|]; [split; [reflexivity|]; eexists; split; [reflexivity|auto]| |split; [reflexivity|]; eexists; split; [reflexivity|auto]].
      destruct (use_formatter L g t key fm vals) as (g' & r). split; [reflexivity|]. eexists. split; [reflexivity|auto].
    - destruct (sy_poisoned g); [split; [reflexivity|]; eexists; split; [reflexivity|apply si_ret]|].
      destruct (insertion_sim g (negb b) t key (add_string_to_cache (sy_ls g) b key s t) k k' H) as (g' & f' & q' & -> & -> & Hs). split; [reflexivity|]. exists q'. split; [reflexivity|exact Hs].
    - destruct (sy_poisoned g); [split; [reflexivity|]; eexists; split; [reflexivity|apply si_ret]|].
      destruct (insertion_sim g (negb b) t key (insert_formatter (sy_ls g) b t key fm) k k' H) as (g' & f' & q' & -> & -> & Hs). split; [reflexivity|]. exists q'. split; [reflexivity|exact Hs].
    - destruct (sy_poisoned g); [split; [reflexivity|]; eexists; split; [reflexivity|apply si_ret]|].
      destruct (cached (sy_ls g) t key) as [[w t'|fm]|]; [split; [reflexivity|]; eexists; split; [reflexivity|auto]| |split; [reflexivity|]; eexists; split; [reflexivity|apply si_ret]].
      destruct (use_formatter L g t key fm vals) as (g' & r). split; [reflexivity|]. eexists. split; [reflexivity|auto].
  Qed.
End Sim.
