(** The machine accepts exactly the token sequences of [TreeSpec]; soundness. *)
From Verif Require Import Base BaseFacts LexerModel LexerSpec TreeModel TreeSpec TreeArena TreeMachine TreeRefine.

(** Resolution of token indices in the final token list. *)
Definition tok (T : list token) (i : nat) : ustr := match nth_error T i with Some t => t_string t | None => [] end.

Definition sparam_of (T : list token) (p : cparam) : sparam :=
  match p with CId i => SId (tok T i) | CHash _ => SDelay end.
Definition sel_of (T : list token) (x : nat * nat) : ustr * ustr := (tok T (fst x), tok T (snd x)).
Definition sitem_of (T : list token) (x : item) : list sitem :=
  match x with
  | IText toks => map (fun i => SText (tok T i)) toks
  | IHash _ => [SHash]
  | IPat id None => [SPat (tok T id) None]
  | IPat id (Some (k, sels)) => [SPat (tok T id) (Some (tok T k, map (sel_of T) sels))]
  | ICmd ps => [SCmd (map (sparam_of T) ps)]
  end.
Definition sitems (T : list token) (l : list item) : list sitem := flat_map (sitem_of T) l.
Definition snamed (T : list token) (x : named) : ustr * list sitem := (tok T (fst x), sitems T (snd x)).
Definition sast_of (T : list token) (a : ast) : sast :=
  (sitems T (fst a), option_map (map (snamed T)) (snd a)).

Lemma tok_at pre t post : tok (pre ++ t :: post) (List.length pre) = t_string t.
Proof. unfold tok. rewrite nth_error_app2, Nat.sub_diag by lia. reflexivity. Qed.

Lemma sitems_app T a b : sitems T (a ++ b) = sitems T a ++ sitems T b.
Proof. apply flat_map_app. Qed.

Lemma sitems_add_text T ri i : sitems T (rev (add_text ri i)) = sitems T (rev ri) ++ [SText (tok T i)].
Proof.
  destruct ri as [|[toks|tk|id o|ps] r]; cbn [add_text rev]; rewrite ?sitems_app; try reflexivity.
  cbn. rewrite !app_nil_r, map_app, app_assoc. reflexivity.
Qed.

Definition segs (l : list token) : list segment := map seg_of l.

Definition hash_head (ri : list item) : bool := match ri with IHash _ :: _ => true | _ => false end.

(** Named group read so far: [gl] are its parts. *)
Definition hgroup (T : list token) (rn : list named) (gl : list gpart) : Prop :=
  Forall gwf gl /\ map (snamed T) (rev rn) = flat_map gcontent gl.

(** Tokens read before the current string, and the names in them. *)
Definition hctx (T : list token) (c : actx) (before : list segment) (pats nams : list ustr) : Prop :=
  match c with
  | CMain => before = [] /\ pats = [] /\ nams = []
  | CSub main rn id => exists ps gl w ws,
      main_ok ps /\ sitems T main = map pcontent ps /\ hgroup T rn gl /\
      before = pieces_print ps ++ g_ (us "#") :: flat_map gprint gl ++
               g_ (us "{") :: (TIdentifier, tok T id) :: (TWhiteSpace, w) :: wprint ws /\
      pats = spats (map pcontent ps) ++ flat_map (fun x => spats (snd x)) (flat_map gcontent gl) /\
      nams = map fst (flat_map gcontent gl) ++ [tok T id]
  end.

(** String read so far. *)
Definition hstr (T : list token) (c : actx) (ri : list item) (before : list segment) (ps : list piece)
    (pats nams : list ustr) : Prop :=
  exists before0 pats0,
    hctx T c before0 pats0 nams /\
    before = before0 ++ pieces_print ps /\
    pats = pats0 ++ spats (map pcontent ps) /\
    sitems T (rev ri) = map pcontent ps /\
    match rev ps with p :: _ => is_hash p | [] => false end = hash_head ri /\
    match c with CMain => main_ok ps | CSub _ _ _ => sub_ok ps end.

Definition hist (T : list token) (m : am) (S : list segment) : Prop :=
  NoDup (am_pats m) /\ NoDup (am_nams m) /\
  match am_state m with
  | AText c ri => exists ps, hstr T c ri S ps (rev (am_pats m)) (rev (am_nams m))
  | AEsc c ri => exists ps B, hstr T c ri B ps (rev (am_pats m)) (rev (am_nams m)) /\ S = B ++ [g_ (us "`")]
  | AOpen c ri => exists ps B, hstr T c ri B ps (rev (am_pats m)) (rev (am_nams m)) /\ S = B ++ [g_ (us "{")]
  | APat c ri id => exists ps B pats ws, hstr T c ri B ps pats (rev (am_nams m)) /\
      rev (am_pats m) = pats ++ [tok T id] /\
      S = B ++ g_ (us "{") :: (TIdentifier, tok T id) :: wprint ws
  | AKey c ri id kw rs => exists ps B pats ws ks, hstr T c ri B ps pats (rev (am_nams m)) /\
      rev (am_pats m) = pats ++ [tok T id] /\ Forall kwf ks /\
      map (sel_of T) (rev rs) = flat_map ksel ks /\
      S = B ++ g_ (us "{") :: (TIdentifier, tok T id) :: wprint ws ++ (TIdentifier, tok T kw) :: flat_map kprint ks
  | ASel1 c ri id kw rs a => exists ps B pats ws ks, hstr T c ri B ps pats (rev (am_nams m)) /\
      rev (am_pats m) = pats ++ [tok T id] /\ Forall kwf ks /\
      map (sel_of T) (rev rs) = flat_map ksel ks /\
      S = B ++ g_ (us "{") :: (TIdentifier, tok T id) :: wprint ws ++ (TIdentifier, tok T kw) :: flat_map kprint ks ++
          [(TIdentifier, tok T a)]
  | ASel2 c ri id kw rs a => exists ps B pats ws ks ty, hstr T c ri B ps pats (rev (am_nams m)) /\
      rev (am_pats m) = pats ++ [tok T id] /\ Forall kwf ks /\
      map (sel_of T) (rev rs) = flat_map ksel ks /\
      S = B ++ g_ (us "{") :: (TIdentifier, tok T id) :: wprint ws ++ (TIdentifier, tok T kw) :: flat_map kprint ks ++
          [(TIdentifier, tok T a); (ty, us "#")]
  | ACmd c ri rp => exists ps B qs, hstr T c ri B ps (rev (am_pats m)) (rev (am_nams m)) /\
      map (sparam_of T) (rev rp) = flat_map qpar qs /\
      (rp = [] \/ command_ok (map (sparam_of T) (rev rp)) \/
       exists h name, rp = [CHash h; CId name]) /\
      S = B ++ g_ (us "{") :: g_ (us "#") :: flat_map qprint qs
  | ACmdEsc | ALit | ALitEsc => True
  | AGroup main rn => exists ps gl, main_ok ps /\ sitems T main = map pcontent ps /\ hgroup T rn gl /\
      S = pieces_print ps ++ g_ (us "#") :: flat_map gprint gl /\
      rev (am_pats m) = spats (map pcontent ps) ++ flat_map (fun x => spats (snd x)) (flat_map gcontent gl) /\
      rev (am_nams m) = map fst (flat_map gcontent gl)
  | AName0 main rn => exists ps gl, main_ok ps /\ sitems T main = map pcontent ps /\ hgroup T rn gl /\
      S = pieces_print ps ++ g_ (us "#") :: flat_map gprint gl ++ [g_ (us "{")] /\
      rev (am_pats m) = spats (map pcontent ps) ++ flat_map (fun x => spats (snd x)) (flat_map gcontent gl) /\
      rev (am_nams m) = map fst (flat_map gcontent gl)
  | ANameId main rn id _ => exists ps gl, main_ok ps /\ sitems T main = map pcontent ps /\ hgroup T rn gl /\
      S = pieces_print ps ++ g_ (us "#") :: flat_map gprint gl ++ [g_ (us "{"); (TIdentifier, tok T id)] /\
      rev (am_pats m) = spats (map pcontent ps) ++ flat_map (fun x => spats (snd x)) (flat_map gcontent gl) /\
      rev (am_nams m) = map fst (flat_map gcontent gl) ++ [tok T id]
  | AName1 main rn id => hctx T (CSub main rn id) S (rev (am_pats m)) (rev (am_nams m))
  | ADeadOpen _ => True
  | ADeadEsc => exists main rn id B, hctx T (CSub main rn id) B (rev (am_pats m)) (rev (am_nams m)) /\
      S = B ++ [g_ (us "`")]
  | ADead => exists main rn id B, hctx T (CSub main rn id) B (rev (am_pats m)) (rev (am_nams m)) /\
      ((exists w, S = B ++ [(TSyntax, w)]) \/ (exists x, S = B ++ [g_ (us "`"); x]))
  end.

Lemma is_type_eq t ty : is_type t ty = true -> t_type t = ty.
Proof. unfold is_type; destruct (t_type t), ty; cbn; congruence. Qed.
Lemma is_str_eq t x : is_str t x = true -> t_string t = x.
Proof. unfold is_str; apply ueqb_eq. Qed.

Lemma NoDup_cons_umem x l : umem x l = false -> NoDup l -> NoDup (x :: l).
Proof. intros H Hl; constructor; [apply umem_nIn; exact H | exact Hl]. Qed.

Lemma pieces_print_app a b : pieces_print (a ++ b) = pieces_print a ++ pieces_print b.
Proof. apply flat_map_app. Qed.
Lemma spats_app a b : spats (a ++ b) = spats a ++ spats b.
Proof. apply flat_map_app. Qed.

Lemma no_hash_snoc l p : no_hash_pair l ->
  (match rev l with q :: _ => is_hash q | [] => false end && is_hash p)%bool = false ->
  no_hash_pair (l ++ [p]).
Proof.
  induction 1 as [|q|q r l Hqr Hl IH]; cbn; intros H; [constructor | |].
  - constructor; [exact H | constructor].
  - constructor; [exact Hqr|]. apply IH. cbn in H |- *.
    destruct (rev l ++ [r]) as [|z y] eqn:E; [destruct (rev l); discriminate|]. exact H.
Qed.

(** Adding a piece to the string read so far. *)
Lemma hstr_snoc T c ri B ps pats nams p ri' :
  hstr T c ri B ps pats nams -> pwf p ->
  (match c with CMain => is_hash p = false | CSub _ _ _ => (hash_head ri && is_hash p)%bool = false end) ->
  is_hash p = hash_head ri' -> sitems T (rev ri') = sitems T (rev ri) ++ [pcontent p] ->
  hstr T c ri' (B ++ pprint p) (ps ++ [p]) (pats ++ spats [pcontent p]) nams.
Proof.
  intros (B0 & P0 & Hc & HB & HP & Hs & Hh & Hw) Hp Hx Hh' Hs'.
  exists B0, P0. split; [exact Hc|].
  split; [rewrite HB, pieces_print_app; cbn; rewrite app_nil_r, app_assoc; reflexivity|].
  split; [rewrite HP, map_app, spats_app, app_assoc; reflexivity|].
  split; [rewrite Hs', Hs, map_app; reflexivity|].
  split; [rewrite rev_app_distr; cbn; exact Hh'|].
  destruct c as [|main rn id].
  - destruct Hw as (W1 & W2). split; apply Forall_app; split; auto.
  - destruct Hw as (W1 & W2 & W3). split; [apply Forall_app; split; auto|].
    split; [apply no_hash_snoc; [exact W2 | rewrite Hh; exact Hx]|].
    destruct ps; [contradiction | exact W3].
Qed.

Lemma hash_head_add_text ri i : hash_head (add_text ri i) = false.
Proof. destruct ri as [|[toks|tk|id o|ps] r]; reflexivity. Qed.

Lemma seg_grammar t x : is_type t TGrammar = true -> is_str t x = true -> seg_of t = g_ x.
Proof. intros H1 H2; unfold seg_of; rewrite (is_type_eq _ _ H1), (is_str_eq _ _ H2); reflexivity. Qed.

Local Opaque us.
Ltac bools :=
  repeat match goal with
  | H : _ && _ = true |- _ => apply andb_true_iff in H; destruct H
  end.

Lemma hist_step T m S t i m' :
  tok T i = t_string t -> hist T m S -> astep m i t = Ok m' -> hist T m' (S ++ [seg_of t]).
Proof.
  intros Hi (HN1 & HN2 & H) Ha. destruct m as [a pa na]; cbn [am_pats am_nams am_state] in *.
  unfold astep in Ha; cbn [am_state am_pats am_nams] in Ha.
  destruct a as [c ri|c ri|c ri|c ri id|c ri id kw rs|c ri id kw rs a|c ri id kw rs a|c ri rp| | | |main rn|main rn|main rn id tid|main rn id|t0| |].
  - (* text *)
    destruct H as (ps & Hstr). destruct (is_type t TGrammar) eqn:Eg.
    + destruct (is_str t s_back) eqn:E1.
      { injection Ha as <-. split; [exact HN1|]. split; [exact HN2|]. cbn. exists ps, S. split; [exact Hstr|].
        rewrite (seg_grammar t s_back) by assumption; reflexivity. }
      destruct (is_str t s_open) eqn:E2.
      { injection Ha as <-. split; [exact HN1|]. split; [exact HN2|]. cbn. exists ps, S. split; [exact Hstr|].
        rewrite (seg_grammar t s_open) by assumption; reflexivity. }
      destruct (is_str t s_hash) eqn:E3.
      { destruct c as [|main rn id].
        - injection Ha as <-. split; [exact HN1|]. split; [exact HN2|]. cbn.
          destruct Hstr as (B0 & P0 & (HB0 & HP0 & Hn) & HB & HP & Hs & Hh & Hw). subst B0 P0.
          exists ps, []. split; [exact Hw|]. split; [exact Hs|]. split; [split; [constructor | reflexivity]|].
          cbn. rewrite HB, HP, Hn, app_nil_r. cbn.
          rewrite (seg_grammar t s_hash) by assumption. repeat split; reflexivity.
        - assert (Hg : hash_head ri = false /\ m' = mk_am (AText (CSub main rn id) (IHash i :: ri)) pa na).
          { destruct ri as [|[toks|tk|id' o|ps'] r]; try discriminate; injection Ha as <-; split; reflexivity. }
          destruct Hg as (Hg & ->). split; [exact HN1|]. split; [exact HN2|]. cbn.
          exists (ps ++ [PHash]).
          assert (E : rev pa = rev pa ++ spats [pcontent PHash]) by (cbn; rewrite app_nil_r; reflexivity).
          rewrite E. replace (S ++ [seg_of t]) with (S ++ pprint PHash)
            by (rewrite (seg_grammar t s_hash) by assumption; reflexivity).
          eapply hstr_snoc; [exact Hstr | exact I | cbn; rewrite Hg; reflexivity | reflexivity|].
          cbn [rev]. rewrite sitems_app. reflexivity. }
      destruct c as [|main rn id]; [discriminate|].
      destruct (is_str t s_close) eqn:E4; [|discriminate].
      injection Ha as <-. split; [exact HN1|]. split; [exact HN2|]. cbn.
      destruct Hstr as (B0 & P0 & (ps0 & gl & w & ws & Hm & Hms & (Hg1 & Hg2) & HB0 & HP0 & Hn) & HB & HP & Hs & Hh & Hw).
      exists ps0, (gl ++ [GNamed (tok T id) w ws ps]).
      split; [exact Hm|]. split; [exact Hms|]. split.
      { split; [apply Forall_app; split; [exact Hg1 | constructor; [exact Hw | constructor]]|].
        cbn [rev]. rewrite map_app, flat_map_app, Hg2. cbn [map flat_map gcontent app]. unfold snamed; cbn [fst snd]. rewrite Hs. reflexivity. }
      rewrite !flat_map_app, HB, HB0, HP, HP0, Hn. cbn.
      rewrite (seg_grammar t s_close) by assumption.
      rewrite !app_nil_r, map_app.
      split; [|split; [rewrite <- ?app_assoc; reflexivity | reflexivity]].
      repeat (rewrite <- ?app_assoc; cbn [app]). reflexivity.
    + injection Ha as <-. split; [exact HN1|]. split; [exact HN2|]. cbn.
      exists (ps ++ [PText (seg_of t)]).
      assert (E : rev pa = rev pa ++ spats [pcontent (PText (seg_of t))]) by (cbn; rewrite app_nil_r; reflexivity).
      rewrite E. eapply (hstr_snoc _ _ _ _ _ _ _ (PText (seg_of t)));
        [exact Hstr | | | rewrite hash_head_add_text; reflexivity | ].
      * cbn. intros Ht. unfold is_type in Eg. rewrite Ht in Eg; discriminate.
      * destruct c; [reflexivity | cbn; apply andb_false_r].
      * rewrite sitems_add_text, Hi. reflexivity.
  - (* escape *)
    destruct H as (ps & B & Hstr & ->). injection Ha as <-. split; [exact HN1|]. split; [exact HN2|]. cbn.
    exists (ps ++ [PEsc (seg_of t)]).
    assert (E : rev pa = rev pa ++ spats [pcontent (PEsc (seg_of t))]) by (cbn; rewrite app_nil_r; reflexivity).
    rewrite E, <- app_assoc. eapply (hstr_snoc _ _ _ _ _ _ _ (PEsc (seg_of t)));
      [exact Hstr | exact I | | rewrite hash_head_add_text; reflexivity | ].
    + destruct c; [reflexivity | cbn; apply andb_false_r].
    + rewrite sitems_add_text, Hi. reflexivity.
  - (* open *)
    destruct H as (ps & B & Hstr & ->).
    destruct (is_type t TIdentifier) eqn:Et.
    + destruct (umem (t_string t) pa) eqn:Eu; [discriminate|]. injection Ha as <-.
      split; [apply NoDup_cons_umem; assumption|]. split; [exact HN2|]. cbn.
      exists ps, B, (rev pa), []. split; [exact Hstr|]. rewrite Hi. split; [reflexivity|].
      unfold seg_of. rewrite (is_type_eq _ _ Et). cbn. rewrite <- app_assoc. reflexivity.
    + destruct (is_type t TGrammar) eqn:Eg; [|discriminate].
      destruct (is_str t s_back) eqn:E1; [injection Ha as <-; split; [exact HN1|]; split; [exact HN2|]; exact I|].
      destruct (is_str t s_hash) eqn:E3; [|discriminate].
      injection Ha as <-. split; [exact HN1|]. split; [exact HN2|]. cbn.
      exists ps, B, []. split; [exact Hstr|]. split; [reflexivity|]. split; [left; reflexivity|].
      rewrite (seg_grammar t s_hash) by assumption. rewrite <- app_assoc. reflexivity.
  - (* pattern *)
    destruct H as (ps & B & pats & ws & Hstr & HP & ->).
    destruct (is_type t TIdentifier) eqn:Et.
    + injection Ha as <-. split; [exact HN1|]. split; [exact HN2|]. cbn.
      exists ps, B, pats, ws, []. split; [exact Hstr|]. split; [exact HP|]. split; [constructor|]. split; [reflexivity|].
      unfold seg_of. rewrite (is_type_eq _ _ Et), Hi. cbn. rewrite <- app_assoc. reflexivity.
    + destruct (is_type t TWhiteSpace) eqn:Ew.
      * injection Ha as <-. split; [exact HN1|]. split; [exact HN2|]. cbn.
        exists ps, B, pats, (ws ++ [t_string t]). split; [exact Hstr|]. split; [exact HP|].
        unfold seg_of, wprint. rewrite (is_type_eq _ _ Ew), map_app. rewrite <- app_assoc. reflexivity.
      * destruct (gram t s_close) eqn:Ec; [|discriminate]. apply andb_true_iff in Ec; destruct Ec as (Eg & Ec).
        injection Ha as <-. split; [exact HN1|]. split; [exact HN2|]. cbn.
        exists (ps ++ [PPat (tok T id) ws None]).
        rewrite HP. replace [tok T id] with (spats [pcontent (PPat (tok T id) ws None)]) by reflexivity.
        rewrite <- app_assoc.
        replace ((g_ (us "{") :: (TIdentifier, tok T id) :: wprint ws) ++ [seg_of t])
          with (pprint (PPat (tok T id) ws None)) by (rewrite (seg_grammar t s_close) by assumption; reflexivity).
        eapply hstr_snoc; [exact Hstr | exact I | | reflexivity |].
        -- destruct c; [reflexivity | cbn; apply andb_false_r].
        -- cbn [rev]. rewrite sitems_app. reflexivity.
  - (* keyword *)
    destruct H as (ps & B & pats & ws & ks & Hstr & HP & Hks & Hsel & ->).
    destruct (is_type t TIdentifier) eqn:Et.
    + injection Ha as <-. split; [exact HN1|]. split; [exact HN2|]. cbn.
      exists ps, B, pats, ws, ks. repeat (split; [assumption|]).
      unfold seg_of. rewrite (is_type_eq _ _ Et), Hi. repeat (rewrite <- ?app_assoc; cbn [app]). reflexivity.
    + destruct (is_type t TWhiteSpace) eqn:Ew.
      * injection Ha as <-. split; [exact HN1|]. split; [exact HN2|]. cbn.
        exists ps, B, pats, ws, (ks ++ [KWs (t_string t)]). split; [exact Hstr|]. split; [exact HP|].
        split; [apply Forall_app; split; [exact Hks | repeat constructor]|].
        split; [rewrite flat_map_app, Hsel; cbn; rewrite app_nil_r; reflexivity|].
        unfold seg_of. rewrite (is_type_eq _ _ Ew), flat_map_app. cbn.
        repeat (rewrite <- ?app_assoc; cbn [app]). reflexivity.
      * destruct (is_type t TGrammar) eqn:Eg; [|discriminate].
        destruct (is_str t s_close) eqn:Ec.
        -- injection Ha as <-. split; [exact HN1|]. split; [exact HN2|]. cbn.
           exists (ps ++ [PPat (tok T id) ws (Some (tok T kw, ks))]).
           rewrite HP. replace [tok T id] with (spats [pcontent (PPat (tok T id) ws (Some (tok T kw, ks)))]) by reflexivity.
           rewrite <- app_assoc.
           replace ((g_ (us "{") :: (TIdentifier, tok T id) :: wprint ws ++ (TIdentifier, tok T kw) :: flat_map kprint ks) ++ [seg_of t])
             with (pprint (PPat (tok T id) ws (Some (tok T kw, ks))))
             by (rewrite (seg_grammar t s_close) by assumption; cbn; rewrite <- app_assoc; reflexivity).
           eapply hstr_snoc; [exact Hstr | exact Hks | | reflexivity |].
           ++ destruct c; [reflexivity | cbn; apply andb_false_r].
           ++ cbn [rev]. rewrite sitems_app. cbn. rewrite Hsel. reflexivity.
        -- injection Ha as <-. split; [exact HN1|]. split; [exact HN2|]. cbn.
           exists ps, B, pats, ws, (ks ++ [KJunk (t_string t)]). split; [exact Hstr|]. split; [exact HP|].
           split; [apply Forall_app; split; [exact Hks | constructor; [|constructor]]|].
           { cbn. intros E. unfold is_str in Ec. rewrite E in Ec. discriminate. }
           split; [rewrite flat_map_app, Hsel; cbn; rewrite app_nil_r; reflexivity|].
           unfold seg_of. rewrite (is_type_eq _ _ Eg), flat_map_app. cbn.
           repeat (rewrite <- ?app_assoc; cbn [app]). reflexivity.
  - (* selector 1 *)
    destruct H as (ps & B & pats & ws & ks & Hstr & HP & Hks & Hsel & ->).
    destruct (is_str t s_hash) eqn:Eh; [|discriminate]. injection Ha as <-. split; [exact HN1|]. split; [exact HN2|]. cbn.
    exists ps, B, pats, ws, ks, (t_type t). repeat (split; [assumption|]).
    unfold seg_of. rewrite (is_str_eq _ _ Eh). repeat (rewrite <- ?app_assoc; cbn [app]). reflexivity.
  - (* selector 2 *)
    destruct H as (ps & B & pats & ws & ks & ty & Hstr & HP & Hks & Hsel & ->).
    destruct (is_type t TIdentifier) eqn:Et; [|discriminate].
    injection Ha as <-. split; [exact HN1|]. split; [exact HN2|]. cbn.
    exists ps, B, pats, ws, (ks ++ [KSel (tok T a) ty (t_string t)]). split; [exact Hstr|]. split; [exact HP|].
    split; [apply Forall_app; split; [exact Hks | repeat constructor]|].
    split; [rewrite flat_map_app, map_app, Hsel; cbn; unfold sel_of; cbn; rewrite Hi; reflexivity|].
    unfold seg_of. rewrite (is_type_eq _ _ Et), flat_map_app. cbn.
    repeat (rewrite <- ?app_assoc; cbn [app]). reflexivity.
  - (* command *)
    destruct H as (ps & B & qs & Hstr & Hq & Hok & ->).
    destruct (is_type t TIdentifier) eqn:Et.
    + injection Ha as <-. split; [exact HN1|]. split; [exact HN2|]. cbn.
      exists ps, B, (qs ++ [QId (t_string t)]). split; [exact Hstr|].
      split; [rewrite map_app, flat_map_app, Hq; cbn; rewrite Hi; reflexivity|].
      split.
      * right; left. rewrite map_app. cbn. destruct Hok as [->|[(name & args & Hargs & Hps)|(h & name & ->)]].
        -- exists (tok T i), []. split; [constructor | left; reflexivity].
        -- exists name, (args ++ [SId (tok T i)]). split.
           { apply Forall_app; split; [exact Hargs | constructor; [discriminate | constructor]]. }
           destruct Hps as [Hps|(Hps & _)]; rewrite Hps; [left; reflexivity | right; split; [reflexivity|]].
           destruct args; discriminate.
        -- exists (tok T name), [SId (tok T i)]. split; [constructor; [discriminate | constructor]|].
           right; split; [reflexivity | discriminate].
      * unfold seg_of. rewrite (is_type_eq _ _ Et), flat_map_app. cbn.
        repeat (rewrite <- ?app_assoc; cbn [app]). reflexivity.
    + destruct (is_type t TGrammar) eqn:Eg.
      * destruct (is_str t s_back) eqn:E1; [injection Ha as <-; split; [exact HN1|]; split; [exact HN2|]; exact I|].
        destruct (is_str t s_close) eqn:E4.
        -- assert (Hrp : m' = mk_am (AText c (ICmd (rev rp) :: ri)) pa na /\
                         match rp with [] => False | CHash _ :: _ => False | _ => True end).
           { destruct rp as [|[tk|tk] r]; try discriminate. injection Ha as <-. split; [reflexivity | exact I]. }
           destruct Hrp as (-> & Hrp). split; [exact HN1|]. split; [exact HN2|]. cbn.
           exists (ps ++ [PCmd qs]).
           assert (E : rev pa = rev pa ++ spats [pcontent (PCmd qs)]) by (cbn; rewrite app_nil_r; reflexivity).
           rewrite E. rewrite <- app_assoc.
           replace ((g_ (us "{") :: g_ (us "#") :: flat_map qprint qs) ++ [seg_of t])
             with (pprint (PCmd qs)) by (rewrite (seg_grammar t s_close) by assumption; reflexivity).
           eapply hstr_snoc; [exact Hstr | | | reflexivity |].
           ++ cbn. rewrite <- Hq. destruct Hok as [->|[Hok|(h & name & ->)]]; [contradiction | exact Hok | contradiction].
           ++ destruct c; [reflexivity | cbn; apply andb_false_r].
           ++ cbn [rev]. rewrite sitems_app. cbn. rewrite Hq. reflexivity.
        -- destruct (is_str t s_hash) eqn:E3; [|discriminate].
           assert (Hrp : exists name, rp = [CId name] /\ m' = mk_am (ACmd c ri [CHash i; CId name]) pa na).
           { destruct rp as [|[tk|tk] [|p r]]; try discriminate. injection Ha as <-. eauto. }
           destruct Hrp as (name & -> & ->). split; [exact HN1|]. split; [exact HN2|]. cbn.
           exists ps, B, (qs ++ [QHash]). split; [exact Hstr|].
           split; [rewrite flat_map_app, <- Hq; reflexivity|].
           split; [right; right; eauto|].
           rewrite (seg_grammar t s_hash) by assumption. rewrite flat_map_app. cbn.
           repeat (rewrite <- ?app_assoc; cbn [app]). reflexivity.
      * destruct (is_type t TWhiteSpace) eqn:Ew; [|discriminate].
        injection Ha as <-. split; [exact HN1|]. split; [exact HN2|]. cbn.
        exists ps, B, (qs ++ [QWs (t_string t)]). split; [exact Hstr|].
        split; [rewrite flat_map_app, <- Hq; cbn; rewrite app_nil_r; reflexivity|].
        split; [exact Hok|].
        unfold seg_of. rewrite (is_type_eq _ _ Ew), flat_map_app. cbn.
        repeat (rewrite <- ?app_assoc; cbn [app]). reflexivity.
  - injection Ha as <-; split; [exact HN1|]; split; [exact HN2|]; exact I.
  - destruct (gram t s_back); injection Ha as <-; (split; [exact HN1|]; split; [exact HN2|]; exact I).
  - injection Ha as <-; split; [exact HN1|]; split; [exact HN2|]; exact I.
  - (* group *)
    destruct H as (ps & gl & Hm & Hms & Hg & -> & HP & Hn).
    destruct (is_type t TGrammar) eqn:Eg.
    + destruct (is_str t s_open) eqn:E2; [|discriminate]. injection Ha as <-. split; [exact HN1|]. split; [exact HN2|]. cbn.
      exists ps, gl. repeat (split; [assumption|]).
      rewrite (seg_grammar t s_open) by assumption. split; [|split; assumption].
      repeat (rewrite <- ?app_assoc; cbn [app]). reflexivity.
    + destruct (is_type t TWhiteSpace) eqn:Ew; [|discriminate].
      injection Ha as <-. split; [exact HN1|]. split; [exact HN2|]. cbn.
      exists ps, (gl ++ [GWs (t_string t)]). split; [exact Hm|]. split; [exact Hms|].
      destruct Hg as (Hg1 & Hg2).
      split; [split; [apply Forall_app; split; [exact Hg1 | repeat constructor] |
                      rewrite flat_map_app; cbn; rewrite app_nil_r; exact Hg2]|].
      rewrite !flat_map_app. cbn. rewrite !app_nil_r. split; [|split; assumption].
      unfold seg_of. rewrite (is_type_eq _ _ Ew). repeat (rewrite <- ?app_assoc; cbn [app]). reflexivity.
  - (* name0 *)
    destruct H as (ps & gl & Hm & Hms & Hg & -> & HP & Hn).
    destruct (is_type t TIdentifier) eqn:Et; [|discriminate].
    destruct (umem (t_string t) na) eqn:Eu; [discriminate|]. injection Ha as <-.
    split; [exact HN1|]. split; [apply NoDup_cons_umem; assumption|]. cbn.
    exists ps, gl. repeat (split; [assumption|]). rewrite Hn, Hi. split; [|split; [assumption | reflexivity]].
    unfold seg_of. rewrite (is_type_eq _ _ Et). repeat (rewrite <- ?app_assoc; cbn [app]). reflexivity.
  - (* name id *)
    destruct H as (ps & gl & Hm & Hms & Hg & -> & HP & Hn).
    destruct (is_type t TWhiteSpace) eqn:Ew; [|discriminate]. injection Ha as <-.
    split; [exact HN1|]. split; [exact HN2|]. cbn.
    exists ps, gl, (t_string t), []. repeat (split; [assumption|]). split; [|split; assumption].
    unfold seg_of. rewrite (is_type_eq _ _ Ew). repeat (rewrite <- ?app_assoc; cbn [app]). reflexivity.
  - (* name1 *)
    destruct (is_type t TIdentifier) eqn:Et.
    { injection Ha as <-. split; [exact HN1|]. split; [exact HN2|]. cbn.
      exists [PText (TIdentifier, t_string t)]. exists S, (rev pa). split; [exact H|]. cbn.
      unfold seg_of. rewrite (is_type_eq _ _ Et), app_nil_r, Hi. repeat split; try reflexivity.
      - constructor; [discriminate | constructor].
      - constructor. }
    destruct (is_type t TGrammar) eqn:Eg.
    { destruct (is_str t s_hash) eqn:E3.
      - injection Ha as <-. split; [exact HN1|]. split; [exact HN2|]. cbn.
        exists [PHash]. exists S, (rev pa). split; [exact H|]. cbn.
        rewrite (seg_grammar t s_hash) by assumption. rewrite app_nil_r. repeat split; try reflexivity.
        + constructor; [exact I | constructor].
        + constructor.
      - destruct (is_str t s_open) eqn:E2; [injection Ha as <-; split; [exact HN1|]; split; [exact HN2|]; exact I|].
        destruct (is_str t s_back) eqn:E1; [|discriminate].
        injection Ha as <-. split; [exact HN1|]. split; [exact HN2|]. cbn.
        exists main, rn, id, S. split; [exact H|]. rewrite (seg_grammar t s_back) by assumption. reflexivity. }
    destruct (is_type t TSyntax) eqn:Es.
    { injection Ha as <-. split; [exact HN1|]. split; [exact HN2|]. cbn.
      exists main, rn, id, S. split; [exact H|]. left. exists (t_string t).
      unfold seg_of. rewrite (is_type_eq _ _ Es). reflexivity. }
    injection Ha as <-. split; [exact HN1|]. split; [exact HN2|]. cbn.
    destruct H as (ps & gl & w & ws & Hm & Hms & Hg & -> & HP & Hn).
    exists ps, gl, w, (ws ++ [t_string t]). repeat (split; [assumption|]). split; [|split; assumption].
    assert (Ew : t_type t = TWhiteSpace)
      by (unfold is_type in *; destruct (t_type t); cbn in *; congruence).
    unfold seg_of, wprint. rewrite Ew, map_app. repeat (rewrite <- ?app_assoc; cbn [app]). reflexivity.
  - discriminate.
  - destruct H as (main & rn & id & B & H & ->). injection Ha as <-. split; [exact HN1|]. split; [exact HN2|]. cbn.
    exists main, rn, id, B. split; [exact H|]. right. exists (seg_of t). rewrite <- app_assoc. reflexivity.
  - destruct (is_type t TGrammar && negb (is_str t s_hash) && negb (is_str t s_open) && negb (is_str t s_back)); discriminate.
Qed.
