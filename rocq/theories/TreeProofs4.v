(** The tree parser on strings: lexer and parser composed. *)
From Verif Require Import Base BaseFacts LexerModel LexerSpec LexerProofs LexerProofs2 IcuExample TreeModel TreeSpec TreeArena TreeMachine TreeRefine
  TreeRefine3 TreeGrammar TreeGrammar2 TreeProofs TreeProofs2 TreeProofs3 DocSpec DocProofs.

Lemma tree_of_string d s g l : s <> [] -> g <> [] -> segmentation d g s l ->
  exists ts, map seg_of ts = l /\ tokenise d s g = Ok ts /\ tree_try_new d s g = parse_tokens ts.
Proof.
  intros Hs Hg Hl. exists (decorate d 0 0 0 (runs d g s)). rewrite decorate_seg. split; [symmetry; apply segmentation_unique; exact Hl|].
  unfold tree_try_new. rewrite tokenise_runs by assumption. split; reflexivity.
Qed.

Lemma tree_string_inv d s g o : tree_try_new d s g = o -> (forall e, o <> Err (TreeLexer e)) ->
  exists ts, tokenise d s g = Ok ts /\ parse_tokens ts = o /\ segmentation d g s (map seg_of ts) /\ s <> [] /\ g <> [].
Proof.
  intros H Ho. unfold tree_try_new in H. destruct (tokenise d s g) as [ts|e| |] eqn:E; cbn in H.
  - exists ts. split; [reflexivity|]. split; [exact H|]. split; [apply (tokenise_segmentation _ _ _ _ E)|].
    apply tokenise_Ok in E. split; apply E.
  - exfalso. apply (Ho e). symmetry; exact H.
  - exfalso. destruct g as [|g0 g]; [discriminate|]. destruct s as [|c s]; [discriminate|]. rewrite tokenise_runs in E by discriminate. discriminate.
  - exfalso. destruct g as [|g0 g]; [discriminate|]. destruct s as [|c s]; [discriminate|]. rewrite tokenise_runs in E by discriminate. discriminate.
Qed.

(** C06 *)
Theorem tree_panic_iff d s g : tree_try_new d s g = Panic <->
  s <> [] /\ g <> [] /\ exists l, segmentation d g s l /\ panicking l.
Proof.
  split.
  - intros H. destruct (tree_string_inv d s g Panic H) as (ts & _ & Hp & Hl & Hs & Hg); [intros e; discriminate|].
    split; [exact Hs|]. split; [exact Hg|]. exists (map seg_of ts). split; [exact Hl|].
    rewrite parse_refines in Hp. apply aparse_panic. destruct (aparse ts); [discriminate | discriminate | reflexivity | discriminate].
  - intros (Hs & Hg & l & Hl & Hp). destruct (tree_of_string d s g l Hs Hg Hl) as (ts & <- & _ & ->).
    rewrite parse_refines. apply aparse_panic in Hp. rewrite Hp. reflexivity.
Qed.

Theorem tree_terminates d s g : tree_try_new d s g <> NoFuel.
Proof.
  intros H. destruct (tree_string_inv d s g NoFuel H) as (ts & _ & Hp & _); [intros e; discriminate|].
  rewrite parse_refines in Hp. pose proof (aparse_fuel ts). destruct (aparse ts); try discriminate. contradiction.
Qed.

Lemma panicking_hash l : panicking l -> In (g_ (us "#")) l.
Proof.
  intros H. destruct H as [B P N qs name x rest Ho _ _|B P N id w ws y x rest Ho _ _ _ _].
  - apply in_or_app; right. right; left; reflexivity.
  - apply in_or_app; left. destruct Ho. apply in_or_app; right. left; reflexivity.
Qed.

Theorem tree_no_hash_no_panic d s g : ~ In 35%N s -> tree_try_new d s g <> Panic.
Proof.
  intros Hs H. apply tree_panic_iff in H. destruct H as (_ & _ & l & (Hc & _ & _) & Hp). apply Hs. rewrite <- Hc.
  apply panicking_hash in Hp. apply in_concat. exists (us "#"). split; [|left; reflexivity].
  apply in_map_iff. exists (g_ (us "#")). split; [reflexivity | exact Hp].
Qed.

(** Acceptance. *)
Theorem tree_accept_iff d s g : (exists tr, tree_try_new d s g = Ok tr) <->
  s <> [] /\ g <> [] /\ exists c, cwf c /\ segmentation d g s (cprint c).
Proof.
  split.
  - intros (tr & H). destruct (tree_string_inv d s g _ H) as (ts & _ & Hp & Hl & Hs & Hg); [intros e; discriminate|].
    apply parse_sound in Hp. destruct Hp as (_ & _ & _ & c & Hc & Hseg & _). split; [exact Hs|]. split; [exact Hg|].
    exists c. rewrite <- Hseg. auto.
  - intros (Hs & Hg & c & Hc & Hl). destruct (tree_of_string d s g _ Hs Hg Hl) as (ts & Hts & _ & ->).
    destruct (parse_complete ts c Hc Hts) as (tr & H & _). exists tr; exact H.
Qed.

Theorem tree_sound d s g tr : tree_try_new d s g = Ok tr ->
  wf_arena tr /\ tokenise d s g = Ok (tr_tokens tr) /\
  exists c, cwf c /\ segmentation d g s (cprint c) /\ tree_is tr (ccontent c).
Proof.
  intros H. destruct (tree_string_inv d s g _ H) as (ts & Ht & Hp & Hl & _); [intros e; discriminate|].
  apply parse_sound in Hp. destruct Hp as (H1 & H2 & _ & c & H4 & H5 & H6). split; [exact H1|]. rewrite H2. split; [exact Ht|].
  exists c. rewrite <- H5. auto.
Qed.

Theorem tree_reads d s g c tr : tree_try_new d s g = Ok tr -> cwf c -> segmentation d g s (cprint c) -> tree_is tr (ccontent c).
Proof.
  intros H Hc Hl. destruct (tree_sound _ _ _ _ H) as (_ & _ & c' & Hc' & Hl' & Hi).
  rewrite (unambiguous c c' Hc Hc'); [exact Hi|]. rewrite (segmentation_unique _ _ _ _ Hl), (segmentation_unique _ _ _ _ Hl'). reflexivity.
Qed.

(** C11 *)
Theorem tree_dup_pattern d s g B P N id rest : s <> [] -> g <> [] ->
  open_string B P N -> In id P -> segmentation d g s (B ++ g_ (us "{") :: (TIdentifier, id) :: rest) ->
  tree_try_new d s g = Err (UniquePattern id).
Proof.
  intros Hs Hg Ho Hin Hl. destruct (tree_of_string d s g _ Hs Hg Hl) as (ts & Hts & _ & ->).
  rewrite parse_refines, (aparse_dup_pattern ts B P N id rest Ho Hin Hts). reflexivity.
Qed.
Theorem tree_dup_named d s g B P N id rest : s <> [] -> g <> [] ->
  open_group B P N -> NoDup P -> NoDup N -> In id N -> segmentation d g s (B ++ g_ (us "{") :: (TIdentifier, id) :: rest) ->
  tree_try_new d s g = Err (UniqueNamed id).
Proof.
  intros Hs Hg Ho HP HN Hin Hl. destruct (tree_of_string d s g _ Hs Hg Hl) as (ts & Hts & _ & ->).
  rewrite parse_refines, (aparse_dup_named ts B P N id rest Ho HP HN Hin Hts). reflexivity.
Qed.

(** C12 *)
Theorem tree_unterminated d s g l : s <> [] -> g <> [] -> segmentation d g s l -> unterminated l ->
  tree_try_new d s g = Err EndedAbruptly.
Proof.
  intros Hs Hg Hl Hu. destruct (tree_of_string d s g _ Hs Hg Hl) as (ts & Hts & _ & ->).
  rewrite parse_refines, aparse_unterminated; [reflexivity|]. unfold segs. rewrite Hts. exact Hu.
Qed.

Lemma maximal_app_l a b : maximal (a ++ b) -> maximal a.
Proof.
  induction a as [|x a IH]; intros H; [constructor|]. destruct a as [|y a]; [constructor|].
  cbn in *. inversion H; subst. constructor; auto.
Qed.

Lemma segmentation_prefix d g a b : Forall (good_segment d g) (a ++ b) -> maximal (a ++ b) ->
  segmentation d g (List.concat (map snd a)) a.
Proof. intros H1 H2. apply Forall_app in H1. split; [reflexivity|]. split; [apply H1|]. eapply maximal_app_l; exact H2. Qed.

(** A string accepted as a whole and cut between two of its tokens. *)
Theorem tree_prefix d s g tr a b : tree_try_new d s g = Ok tr -> a <> [] -> map seg_of (tr_tokens tr) = a ++ b ->
  let p := List.concat (map snd a) in
  (exists tr', tree_try_new d p g = Ok tr') \/ (unterminated a /\ tree_try_new d p g = Err EndedAbruptly).
Proof.
  intros H Ha Hab p. destruct (tree_sound _ _ _ _ H) as (_ & Htok & c & Hc & Hl & _).
  assert (Hlt : cprint c = a ++ b).
  { rewrite <- Hab. eapply tokenise_unique; [exact Htok | exact Hl]. }
  destruct Hl as (Hl1 & Hl2 & Hl3). rewrite Hlt in Hl2, Hl3.
  pose proof (segmentation_prefix _ _ _ _ Hl2 Hl3) as Hp.
  assert (Hg : g <> []) by (apply tokenise_Ok in Htok; apply Htok).
  assert (Hpn : p <> []).
  { destruct a as [|x a]; [contradiction|]. inversion Hl2 as [|? ? (Hx & _) _]; subst. unfold p. cbn. destruct (snd x); [contradiction | discriminate]. }
  destruct (prefix_cases c a b Hc Hlt) as [(c' & Hc' & ->)|Hu].
  - left. apply tree_accept_iff. split; [exact Hpn|]. split; [exact Hg|]. exists c'. split; [exact Hc' | exact Hp].
  - right. split; [exact Hu|]. apply (tree_unterminated d p g a); assumption.
Qed.

(** C10: literal text in the main string. *)
Section WithIcu.
  Variable d : icu.
  Hypothesis Hd : icu_ok d.

  Definition placeholders (m : dstr) : list ustr := spats (str_content m).

  Lemma main_open m : main_wf d m -> NoDup (placeholders m) -> open_string (pieces_print (to_pieces d m)) (placeholders m) [].
  Proof.
    intros (H1 & H2) Hn. split; [|split; [exact Hn | constructor]]. left.
    unfold placeholders. rewrite <- (str_spats d m H1). constructor. split; [apply str_pwf; assumption|].
    unfold to_pieces. apply Forall_app. split; [apply text_no_hash|].
    clear -H2. induction H2 as [|(x, w) l H _ IH]; [constructor|]. cbn [flat_map fst snd] in *. apply Forall_app. split; [|exact IH].
    constructor; [|apply text_no_hash]. destruct (is_hash (to_piece x)) eqn:E; [|reflexivity]. apply to_piece_hash in E. contradiction.
  Qed.

  Lemma grammar_ne : l10n_grammar <> [].
  Proof. discriminate. Qed.

  Theorem literal_rejected m rest : main_wf d m -> NoDup (placeholders m) ->
    tree_try_new d (strprint m ++ us "{`" ++ rest) l10n_grammar = Err EndedAbruptly.
  Proof.
    intros Hm Hn. eapply tree_unterminated; [|exact grammar_ne|apply runs_segmentation|].
    - destruct (strprint m); discriminate.
    - rewrite str_runs; [|exact Hd|apply Hm|cbn; auto].
      change (us "{`" ++ rest) with (123%N :: 96%N :: rest). rewrite !runs_gram by (try exact Hd; cbn; auto).
      eapply (un_literal _ (placeholders m) []). apply main_open; assumption.
  Qed.

  Theorem command_literal_rejected m name w c rest : main_wf d m -> NoDup (placeholders m) -> is_ident d name -> is_ws1 d w ->
    tree_try_new d (strprint m ++ us "{#" ++ name ++ w ++ us "`" ++ c :: rest) l10n_grammar = Err EndedAbruptly.
  Proof.
    intros Hm Hn Hname Hw. eapply tree_unterminated; [|exact grammar_ne|apply runs_segmentation|].
    - destruct (strprint m); discriminate.
    - rewrite str_runs; [|exact Hd|apply Hm|cbn; auto].
      change (us "{#" ++ ?x) with (123%N :: 35%N :: x). rewrite !runs_gram by (try exact Hd; cbn; auto).
      rewrite runs_ident; [|exact Hname|apply head_ws; exact Hw].
      change (us "`" ++ ?x) with (96%N :: x).
      rewrite runs_ws; [|exact Hw|apply head_gram; [exact Hd | cbn; auto | discriminate]].
      rewrite runs_gram by (try exact Hd; cbn; auto).
      pose proof (runs_nonempty d l10n_grammar (c :: rest)) as Hne.
      destruct (runs d l10n_grammar (c :: rest)) as [|y rest']; [exfalso; apply Hne; [discriminate | reflexivity]|].
      apply (un_command_literal _ (placeholders m) [] [QId name; QWs w] y rest'); [apply main_open; assumption|].
      right; left. exists name, []. split; [constructor|]. left; reflexivity.
  Qed.
End WithIcu.

(** C54 *)
Lemma lengths_sums ts : forall l, fold_left (fun l t => mk_lengths (l_bytes l + t_length_bytes t) (l_characters l + t_length_characters t)
       (l_graphemes l + t_length_graphemes t) (S (l_tokens l))) ts l =
  mk_lengths (l_bytes l + sum (map t_length_bytes ts)) (l_characters l + sum (map t_length_characters ts))
    (l_graphemes l + sum (map t_length_graphemes ts)) (l_tokens l + List.length ts).
Proof.
  induction ts as [|t ts IH]; intros l; unfold sum in *; cbn [fold_left map fold_right List.length].
  - rewrite !Nat.add_0_r. now destruct l.
  - rewrite IH. cbn [l_bytes l_characters l_graphemes l_tokens]. f_equal; lia.
Qed.
Theorem tree_lengths d s g tr : tree_try_new d s g = Ok tr ->
  l_bytes (tr_lengths tr) = blen s /\ l_characters (tr_lengths tr) = List.length s /\
  l_graphemes (tr_lengths tr) = sum (map t_length_graphemes (tr_tokens tr)) /\
  l_tokens (tr_lengths tr) = List.length (tr_tokens tr).
Proof.
  intros H. destruct (tree_string_inv d s g _ H) as (ts & Ht & Hp & _); [intros e; discriminate|].
  rewrite parse_refines in Hp. destruct (aparse ts) as [a|e| |]; cbn in Hp; try discriminate. injection Hp as <-.
  destruct (lossless _ _ _ _ Ht) as (Hs & _ & _ & Hl & _). unfold tree_of. cbn [tr_lengths tr_tokens]. unfold lengths_of. 
  rewrite lengths_sums. cbn [l_bytes l_characters l_graphemes l_tokens Nat.add].
  assert (E : sum (map t_length_bytes ts) = blen s /\ sum (map t_length_characters ts) = List.length s).
  { rewrite <- Hs. clear - Hl. induction ts as [|t ts IH]; [split; reflexivity|]. unfold sum in *. cbn [map fold_right List.concat].
    destruct (Hl t (or_introl eq_refl)) as (H1 & H2 & _). destruct IH as (E1 & E2); [intros t' Ht'; apply Hl; now right|].
    rewrite H1, H2, E1, E2, blen_app, app_length. split; reflexivity. }
  destruct E as (-> & ->). repeat split.
Qed.
