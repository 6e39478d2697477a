(** Documented pattern strings: their tokens and their acceptance by the parser. *)
From Verif Require Import Base BaseFacts LexerModel LexerSpec LexerProofs IcuExample TreeModel TreeSpec TreeArena TreeMachine TreeRefine
  TreeRefine3 TreeGrammar TreeGrammar2 TreeProofs TreeProofs2 TreeProofs3 DocSpec.

Local Notation rn d := (runs d l10n_grammar).

Lemma in_open : In 123%N l10n_grammar. Proof. vm_compute; auto. Qed.
Lemma in_close : In 125%N l10n_grammar. Proof. vm_compute; auto. Qed.
Lemma in_hash : In 35%N l10n_grammar. Proof. vm_compute; auto. Qed.
Lemma in_back : In 96%N l10n_grammar. Proof. vm_compute; auto. Qed.
#[local] Hint Resolve in_open in_close in_hash in_back : core.

Lemma us_open : us "{" = [123%N]. Proof. reflexivity. Qed.
Lemma us_close : us "}" = [125%N]. Proof. reflexivity. Qed.
Lemma us_hash : us "#" = [35%N]. Proof. reflexivity. Qed.
Lemma us_back : us "`" = [96%N]. Proof. reflexivity. Qed.

Local Opaque l10n_grammar us.

Section WithIcu.
  Variable d : icu.
  Hypothesis Hd : icu_ok d.

  Lemma gram_type c : In c l10n_grammar -> char_type d l10n_grammar c = TGrammar.
  Proof.
    intros H. destruct (Hd c H) as (H1 & H2). unfold char_type. rewrite H1, H2.
    rewrite (proj2 (char_mem_In _ _) H). reflexivity.
  Qed.

  Lemma runs_gram c s : In c l10n_grammar -> rn d (c :: s) = g_ [c] :: rn d s.
  Proof.
    intros H. rewrite runs_cons, (gram_type c H). destruct (rn d s) as [|(ty, w) l]; cbn; [reflexivity|].
    destruct ty; reflexivity.
  Qed.

  (** What follows a text: nothing or a grammar character. *)
  Definition stop (s : ustr) : Prop := match s with [] => True | c :: _ => In c l10n_grammar end.

  Lemma runs_text w s : stop s -> rn d (w ++ s) = rn d w ++ rn d s.
  Proof.
    intros H. destruct s as [|c s]; [change (rn d []) with (@nil segment); rewrite !app_nil_r; reflexivity|]. cbn in H.
    rewrite (runs_gram c s H).
    induction w as [|x w IH]; [cbn [app]; rewrite runs_gram by exact H; reflexivity|].
    change ((x :: w) ++ c :: s) with (x :: (w ++ c :: s)). rewrite !runs_cons, IH.
    destruct (rn d w) as [|(ty, v) l]; cbn.
    - destruct (char_type d l10n_grammar x); reflexivity.
    - destruct (_ && _)%bool; reflexivity.
  Qed.

  Lemma ident_class c : white_space d c = false /\ syntax d c = false -> class_of d l10n_grammar c TIdentifier.
  Proof. intros (H1 & H2). constructor; assumption. Qed.

  Definition head_not (ty : ttype) (s : ustr) : Prop :=
    match s with [] => True | c :: _ => char_type d l10n_grammar c <> ty end.

  Lemma runs_word ty w s : w <> [] -> Forall (fun c => class_of d l10n_grammar c ty) w -> ty <> TGrammar -> head_not ty s ->
    rn d (w ++ s) = (ty, w) :: rn d s.
  Proof.
    intros H1 H2 H3 H4. rewrite (runs_block d l10n_grammar ty w s); [|split; [exact H1|]; split; [exact H2 | intros E; contradiction]].
    destruct s as [|c s]; [reflexivity|]. cbn in H4. rewrite runs_cons.
    destruct (rn d s) as [|(ty', w') l]; cbn.
    - replace (ttype_eqb ty (char_type d l10n_grammar c)) with false; [reflexivity|].
      symmetry. apply ttype_eqb_neq. congruence.
    - destruct (ttype_eqb (char_type d l10n_grammar c) ty' && _)%bool eqn:E.
      + replace (ttype_eqb ty (char_type d l10n_grammar c)) with false; [reflexivity|].
        symmetry. apply ttype_eqb_neq. congruence.
      + replace (ttype_eqb ty (char_type d l10n_grammar c)) with false; [reflexivity|].
        symmetry. apply ttype_eqb_neq. congruence.
  Qed.

  Lemma runs_ident w s : is_ident d w -> head_not TIdentifier s -> rn d (w ++ s) = (TIdentifier, w) :: rn d s.
  Proof.
    intros (H1 & H2) H3. apply runs_word; auto; [|discriminate]. eapply Forall_impl; [|exact H2]. intros c; apply ident_class.
  Qed.
  Lemma runs_ws w s : is_ws1 d w -> head_not TWhiteSpace s -> rn d (w ++ s) = (TWhiteSpace, w) :: rn d s.
  Proof.
    intros (H1 & H2) H3. apply runs_word; auto; [|discriminate]. eapply Forall_impl; [|exact H2]. intros c H. constructor; exact H.
  Qed.

  Lemma head_gram ty c s : In c l10n_grammar -> ty <> TGrammar -> head_not ty (c :: s).
  Proof. intros H1 H2. cbn. rewrite gram_type by exact H1. congruence. Qed.
  Lemma head_stop ty s : stop s -> ty <> TGrammar -> head_not ty s.
  Proof. destruct s; [intros; exact I|]. intros H; apply head_gram; exact H. Qed.
  Lemma head_ident w s : is_ident d w -> head_not TWhiteSpace (w ++ s).
  Proof.
    intros (H1 & H2). destruct w as [|c w]; [contradiction|]. inversion H2 as [|? ? (H3 & H4) _]; subst. cbn. unfold char_type.
    rewrite H3, H4. discriminate.
  Qed.
  Lemma head_ws w s : is_ws1 d w -> head_not TIdentifier (w ++ s).
  Proof.
    intros (H1 & H2). destruct w as [|c w]; [contradiction|]. inversion H2 as [|? ? H3 _]; subst. cbn. unfold char_type.
    rewrite H3. discriminate.
  Qed.

  (** ** From documented syntax to token-level syntax *)
  Definition to_piece (x : dsyn) : piece :=
    match x with
    | DEsc c => PEsc (g_ [c])
    | DHash => PHash
    | DPlace id None => PPat id [] None
    | DPlace id (Some (w, k, sels)) =>
        PPat id [w] (Some (k, flat_map (fun x => [KWs (fst x); KSel (fst (snd x)) TGrammar (snd (snd x))]) sels))
    | DCmd name delay ps =>
        PCmd (QId name :: match delay with None => [] | Some [] => [QHash] | Some w => [QWs w; QHash] end ++
              flat_map (fun p => [QWs (fst p); QId (snd p)]) ps)
    end.
  Definition text_pieces (w : ustr) : list piece := map PText (rn d w).
  Definition to_pieces (s : dstr) : list piece :=
    text_pieces (ds_text s) ++ flat_map (fun x => to_piece (fst x) :: text_pieces (snd x)) (ds_rest s).
  Definition ws_part (w : ustr) : list gpart := match w with [] => [] | _ => [GWs w] end.
  Definition to_gparts (x : dnamed) : list gpart := GNamed (dn_id x) (dn_ws x) [] (to_pieces (dn_str x)) :: ws_part (dn_after x).
  Definition to_cst (e : doc) : cst :=
    mk_cst (to_pieces (d_main e)) (option_map (fun g => ws_part (fst g) ++ flat_map to_gparts (snd g)) (d_group e)).

  Lemma sels_runs sels s : Forall (fun x => is_ws1 d (fst x) /\ is_ident d (fst (snd x)) /\ is_ident d (snd (snd x))) sels ->
    stop s -> head_not TIdentifier (flat_map selprint sels ++ s) /\
    rn d (flat_map selprint sels ++ s) =
    flat_map kprint (flat_map (fun x => [KWs (fst x); KSel (fst (snd x)) TGrammar (snd (snd x))]) sels) ++ rn d s.
  Proof.
    intros H Hs. induction H as [|(w, (a, b)) sels (H1 & H2 & H3) _ (IH1 & IH2)]; cbn [fst snd] in *.
    - split; [apply head_stop; [exact Hs | discriminate] | reflexivity].
    - unfold selprint; cbn [flat_map fst snd]. fold selprint. rewrite <- !app_assoc.
      split; [apply head_ws; exact H1|].
      rewrite runs_ws by (auto; apply head_ident; assumption).
      rewrite us_hash. rewrite runs_ident by (auto; apply head_gram; auto; discriminate).
      cbn [app]. rewrite runs_gram by auto. rewrite runs_ident by auto. rewrite IH2. cbn [flat_map kprint app fst snd]. rewrite us_hash. reflexivity.
  Qed.

  Lemma params_runs ps s : Forall (fun p => is_ws1 d (fst p) /\ is_ident d (snd p)) ps ->
    stop s -> head_not TIdentifier (flat_map (fun p => fst p ++ snd p) ps ++ s) /\
    rn d (flat_map (fun p => fst p ++ snd p) ps ++ s) =
    flat_map qprint (flat_map (fun p => [QWs (fst p); QId (snd p)]) ps) ++ rn d s.
  Proof.
    intros H Hs. induction H as [|(w, a) ps (H1 & H2) _ (IH1 & IH2)]; cbn [fst snd] in *.
    - split; [apply head_stop; [exact Hs | discriminate] | reflexivity].
    - cbn [flat_map fst snd]. rewrite <- !app_assoc. split; [apply head_ws; exact H1|].
      rewrite runs_ws by (auto; apply head_ident; assumption).
      rewrite runs_ident by auto. rewrite IH2. reflexivity.
  Qed.

  Lemma syn_runs x s : syn_wf d x -> rn d (synprint x ++ s) = pprint (to_piece x) ++ rn d s.
  Proof.
    intros Hx. destruct x as [c| |id [[[w k] sels]|]|name delay ps]; cbn [syn_wf synprint to_piece] in *.
    - rewrite us_back. cbn [app]. rewrite !runs_gram by auto. cbn [pprint]. rewrite us_back. reflexivity.
    - rewrite us_hash. cbn [app]. rewrite runs_gram by auto. cbn [pprint]. rewrite us_hash. reflexivity.
    - destruct Hx as (H1 & H2 & H3 & H4). rewrite us_open, us_close. rewrite <- !app_assoc. cbn [app].
      rewrite runs_gram by auto. destruct (sels_runs sels (125%N :: s) H4 in_close) as (H5 & H6).
      rewrite runs_ident by (auto; apply head_ws; assumption).
      rewrite runs_ws by (auto; apply head_ident; assumption).
      rewrite runs_ident by auto. rewrite H6, runs_gram by auto.
      cbn [pprint wprint map app]. rewrite us_open, us_close. rewrite <- !app_assoc. reflexivity.
    - rewrite us_open, us_close. rewrite <- !app_assoc. cbn [app]. rewrite runs_gram by auto.
      rewrite runs_ident by (auto; apply head_gram; auto; discriminate). rewrite runs_gram by auto.
      cbn [pprint wprint map app]. rewrite us_open, us_close. reflexivity.
    - destruct Hx as (H1 & H2 & H3). rewrite us_open, us_close, us_hash. rewrite <- !app_assoc. cbn [app].
      rewrite !runs_gram by auto. destruct (params_runs ps (125%N :: s) H3 in_close) as (H5 & H6).
      destruct delay as [w|]; cbn [app].
      + destruct H2 as (H2 & H2'). rewrite <- !app_assoc. cbn [app]. destruct w as [|c w].
        * cbn [app]. rewrite runs_ident by (auto; apply head_gram; auto; discriminate). rewrite runs_gram by auto.
          rewrite H6, runs_gram by auto. cbn [pprint flat_map qprint app]. rewrite us_open, us_close, us_hash. rewrite <- !app_assoc. reflexivity.
        * assert (Hw : is_ws1 d (c :: w)) by (split; [discriminate | exact H2]).
          rewrite runs_ident by (auto; apply head_ws; assumption). 
          rewrite runs_ws by (auto; apply head_gram; auto; discriminate). rewrite runs_gram by auto.
          rewrite H6, runs_gram by auto. cbn [pprint flat_map qprint app]. rewrite us_open, us_close, us_hash. rewrite <- !app_assoc. reflexivity.
      + rewrite runs_ident by auto. rewrite H6, runs_gram by auto.
        cbn [pprint flat_map qprint app]. rewrite us_open, us_close, us_hash. rewrite <- !app_assoc. reflexivity.
  Qed.

  Lemma text_pieces_print w : pieces_print (text_pieces w) = rn d w.
  Proof. unfold pieces_print, text_pieces. induction (rn d w); cbn; congruence. Qed.

  Lemma pieces_print_app a b : pieces_print (a ++ b) = pieces_print a ++ pieces_print b.
  Proof. apply flat_map_app. Qed.

  Lemma syn_stop x s : stop (synprint x ++ s).
  Proof. destruct x as [c| |id [[[w k] sels]|]|name delay ps]; unfold synprint; rewrite ?us_back, ?us_hash, ?us_open; cbn; auto. Qed.

  Lemma rest_stop l s : stop s -> stop (flat_map (fun x : dsyn * ustr => synprint (fst x) ++ snd x) l ++ s).
  Proof. intros H. destruct l as [|(x, w) l]; [exact H|]. cbn [flat_map fst snd]. rewrite <- !app_assoc. apply syn_stop. Qed.

  Lemma str_runs st s : str_wf d st -> stop s -> rn d (strprint st ++ s) = pieces_print (to_pieces st) ++ rn d s.
  Proof.
    intros (_ & Hr) Hs. unfold strprint, to_pieces. rewrite <- app_assoc, pieces_print_app, text_pieces_print.
    rewrite runs_text by (apply rest_stop; exact Hs). rewrite <- app_assoc. f_equal.
    induction Hr as [|(x, w) l (H1 & H2) _ IH]; [reflexivity|]. cbn [flat_map fst snd] in *.
    rewrite <- !app_assoc. rewrite syn_runs by exact H1. rewrite runs_text by (apply rest_stop; exact Hs).
    rewrite IH. cbn [app]. unfold pieces_print; cbn [flat_map]. rewrite flat_map_app. rewrite <- !app_assoc.
    rewrite <- text_pieces_print. reflexivity.
  Qed.

  Lemma wsp_runs w s : is_ws d w -> head_not TWhiteSpace s -> rn d (w ++ s) = flat_map gprint (ws_part w) ++ rn d s.
  Proof.
    intros H1 H2. destruct w as [|c w]; [reflexivity|]. rewrite runs_ws; [reflexivity | split; [discriminate | exact H1] | exact H2].
  Qed.

  Lemma named_runs x s : named_wf d x -> head_not TWhiteSpace s ->
    rn d (namedprint x ++ s) = flat_map gprint (to_gparts x) ++ rn d s.
  Proof.
    intros (H1 & H2 & H3 & H4 & H5) Hs. unfold namedprint, to_gparts. rewrite us_open, us_close. rewrite <- !app_assoc. cbn [app].
    rewrite runs_gram by auto. rewrite runs_ident by (auto; apply head_ws; assumption).
    rewrite runs_ws; [|exact H2|].
    - rewrite str_runs by (cbn [stop]; auto). rewrite runs_gram by auto. rewrite wsp_runs by assumption.
      cbn [flat_map gprint wprint map app]. rewrite us_open, us_close. rewrite <- !app_assoc. reflexivity.
    - destruct x as [id ws [t r] af]; cbn in *. destruct t as [|c t].
      + unfold strprint; cbn. apply head_stop; [|discriminate]. apply rest_stop. cbn [stop]; auto.
      + cbn. unfold char_type. rewrite H5. destruct (syntax d c); [destruct (char_mem c l10n_grammar)|]; discriminate.
  Qed.

  Lemma doc_runs e : doc_wf d e -> rn d (dprint e) = cprint (to_cst e).
  Proof.
    intros ((Hm & _) & Hg). unfold dprint, cprint, to_cst. cbn [c_main c_group].
    destruct (d_group e) as [(w, l)|]; cbn [option_map fst snd].
    - destruct Hg as (H1 & H2 & H3). rewrite us_hash. cbn [app]. rewrite str_runs by (cbn [stop]; auto). f_equal.
      rewrite runs_gram by auto. f_equal. rewrite flat_map_app. rewrite wsp_runs; [|exact H1|].
      + f_equal. clear H1 H2. induction H3 as [|x l Hx Hl IH]; [reflexivity|]. cbn [flat_map]. rewrite named_runs; [|exact Hx|].
        * rewrite flat_map_app, IH. reflexivity.
        * destruct l; [exact I|]. cbn [flat_map]. unfold namedprint. rewrite us_open. apply head_gram; auto; discriminate.
      + destruct l; [contradiction|]. cbn [flat_map]. unfold namedprint. rewrite us_open. apply head_gram; auto; discriminate.
    - rewrite str_runs; [reflexivity | exact Hm | exact I].
  Qed.

  (** ** Well-formedness *)
  Lemma runs_text_class w : is_text w -> Forall (fun x => fst x <> TGrammar) (rn d w).
  Proof.
    intros H. pose proof (runs_good d l10n_grammar w) as Hg. pose proof (runs_concat d l10n_grammar w) as Hc.
    apply Forall_forall. intros (ty, v) Hin E. cbn in E. subst ty.
    rewrite Forall_forall in Hg. specialize (Hg _ Hin). destruct Hg as (Hne & Hall & _). cbn in *.
    destruct v as [|c v]; [contradiction|]. inversion Hall as [|? ? Hcl _]; subst.
    inversion Hcl; subst. unfold is_text in H. rewrite Forall_forall in H. apply (H c); [|assumption].
    rewrite <- Hc. apply in_concat. exists (c :: v). split; [|left; reflexivity]. apply in_map_iff. exists (TGrammar, c :: v). auto.
  Qed.

  Lemma text_pwf w : is_text w -> Forall pwf (text_pieces w).
  Proof. intros H. unfold text_pieces. apply Forall_map. eapply Forall_impl; [|apply runs_text_class; exact H]. intros a Ha; exact Ha. Qed.

  Lemma syn_pwf x : syn_wf d x -> pwf (to_piece x).
  Proof.
    intros Hx. destruct x as [c| |id [[[w k] sels]|]|name delay ps]; cbn [syn_wf to_piece pwf] in *; try exact I.
    - apply Forall_forall. intros y Hy. apply in_flat_map in Hy. destruct Hy as (z & _ & [<-|[<-|[]]]); exact I.
    - assert (Hps : flat_map qpar (flat_map (fun p : ustr * ustr => [QWs (fst p); QId (snd p)]) ps) = map (fun p => SId (snd p)) ps).
      { clear. induction ps; cbn; congruence. }
      exists name, (map (fun p => SId (snd p)) ps). split; [apply Forall_forall; intros y Hy; apply in_map_iff in Hy; destruct Hy as (z & <- & _); discriminate|].
      destruct Hx as (_ & Hx & _). destruct delay as [w|].
      + right. destruct Hx as (_ & Hx). split; [|destruct ps; [contradiction | discriminate]].
        cbn. rewrite flat_map_app, Hps. destruct w; reflexivity.
      + left. cbn. rewrite Hps. reflexivity.
  Qed.

  Lemma str_pwf st : str_wf d st -> Forall pwf (to_pieces st).
  Proof.
    intros (H1 & H2). unfold to_pieces. apply Forall_app. split; [apply text_pwf; exact H1|].
    induction H2 as [|(x, w) l (H3 & H4) _ IH]; [constructor|]. cbn [flat_map fst snd] in *.
    apply Forall_app. split; [|exact IH]. constructor; [apply syn_pwf; exact H3 | apply text_pwf; exact H4].
  Qed.

  Lemma text_no_hash w : Forall (fun p => is_hash p = false) (text_pieces w).
  Proof. unfold text_pieces. apply Forall_map. apply Forall_forall. intros; reflexivity. Qed.

  Lemma to_piece_hash x : is_hash (to_piece x) = true -> x = DHash.
  Proof. destruct x as [c| |id [[[w k] sels]|]|name delay ps]; cbn; congruence. Qed.

  Lemma nhp_text t l : Forall (fun p => is_hash p = false) t -> no_hash_pair l -> no_hash_pair (t ++ l).
  Proof.
    induction 1 as [|p t Hp _ IH]; intros Hl; [exact Hl|]. specialize (IH Hl). cbn [app].
    destruct (t ++ l) as [|q r]; [constructor|]. constructor; [rewrite Hp; reflexivity | exact IH].
  Qed.

  Lemma rest_nhp l : hash_apart l ->
    no_hash_pair (flat_map (fun x => to_piece (fst x) :: text_pieces (snd x)) l).
  Proof.
    induction l as [|(x, w) l IH]; intros H; [constructor|]. cbn [flat_map fst snd].
    assert (Hl : hash_apart l).
    { cbn in H. destruct x as [c| |id kw|name delay ps]; auto. destruct w; auto. destruct l as [|([]&?) l]; auto. contradiction. }
    specialize (IH Hl). cbn [app].
    destruct (text_pieces w ++ flat_map (fun x => to_piece (fst x) :: text_pieces (snd x)) l) as [|q r] eqn:E; [constructor|].
    constructor; [|rewrite <- E; apply nhp_text; [apply text_no_hash | exact IH]].
    destruct (is_hash (to_piece x)) eqn:Ex; [|reflexivity]. destruct (is_hash q) eqn:Eq; [|reflexivity]. exfalso.
    apply to_piece_hash in Ex. subst x.
    destruct (text_pieces w) as [|q' t] eqn:Et.
    - cbn in E. assert (Hw : w = []).
      { destruct w as [|c w]; [reflexivity|]. unfold text_pieces in Et. pose proof (runs_nonempty d l10n_grammar (c :: w)) as Hn.
        destruct (rn d (c :: w)); [exfalso; apply Hn; [discriminate | reflexivity] | discriminate]. }
      subst w. destruct l as [|(y, v) l]; [discriminate|]. cbn in E. injection E as Eq' _. subst q.
      apply to_piece_hash in Eq. subst y. cbn in H. exact H.
    - injection E as -> _. pose proof (text_no_hash w) as Hn. rewrite Et in Hn. inversion Hn; congruence.
  Qed.

  Lemma sub_sub_ok st : str_wf d st -> starts_plain d st -> hash_apart (ds_rest st) -> sub_ok (to_pieces st).
  Proof.
    intros Hw Hs Ha. split; [apply str_pwf; exact Hw|]. split.
    - unfold to_pieces. apply nhp_text; [apply text_no_hash | apply rest_nhp; exact Ha].
    - destruct st as [t r]. unfold to_pieces, starts_plain in *. cbn [ds_text ds_rest] in *. destruct t as [|c t].
      + cbn. destruct r as [|([]&?) r]; try contradiction. exact I.
      + unfold text_pieces. pose proof (runs_good d l10n_grammar (c :: t)) as Hg. pose proof (runs_concat d l10n_grammar (c :: t)) as Hc.
        destruct (rn d (c :: t)) as [|(ty, v) l]; [discriminate|]. cbn.
        inversion Hg as [|? ? (Hne & Hall & _) _]; subst. cbn in *. destruct v as [|c' v]; [contradiction|].
        injection Hc as -> _. inversion Hall as [|? ? Hcl _]; subst. destruct Hs as (H1 & H2). inversion Hcl; subst; try congruence. exact I.
  Qed.

  (** ** Content *)
  Lemma syn_pcontent x : syn_wf d x -> pcontent (to_piece x) = syn_content x.
  Proof.
    intros _. destruct x as [c| |id [[[w k] sels]|]|name delay ps]; cbn; try reflexivity.
    - do 3 f_equal. induction sels as [|(w', (a, b)) sels IH]; cbn; congruence.
    - f_equal. f_equal. rewrite flat_map_app. f_equal; [destruct delay as [[|]|]; reflexivity|].
      induction ps; cbn; congruence.
  Qed.

  Lemma spats_app' a b : spats (a ++ b) = spats a ++ spats b.
  Proof. apply flat_map_app. Qed.

  Lemma text_spats w : spats (map pcontent (text_pieces w)) = [].
  Proof. unfold text_pieces. induction (rn d w); cbn; auto. Qed.

  Lemma str_spats st : str_wf d st -> spats (map pcontent (to_pieces st)) = spats (str_content st).
  Proof.
    intros (_ & H). unfold to_pieces, str_content. rewrite map_app, spats_app', text_spats. cbn [app].
    change (spats (SText (ds_text st) :: ?x)) with (spats x).
    induction H as [|(x, w) l (H1 & _) _ IH]; [reflexivity|]. cbn [flat_map fst snd app] in *.
    change (to_piece x :: text_pieces w ++ ?y) with ([to_piece x] ++ text_pieces w ++ y).
    rewrite !map_app, !spats_app', text_spats, IH. cbn [map app]. rewrite syn_pcontent by exact H1.
    change (syn_content x :: SText w :: ?y) with ([syn_content x] ++ [SText w] ++ y). rewrite !spats_app'. reflexivity.
  Qed.

  (** Joining texts. *)
  Definition jt (w : ustr) (l : list sitem) : list sitem :=
    match l with
    | SText w' :: r => SText (w ++ w') :: r
    | _ => match w with [] => l | _ => SText w :: l end
    end.
  Lemma join_text w l : join (SText w :: l) = jt w (join l). Proof. cbn. destruct (join l) as [|[] ?]; reflexivity. Qed.
  Lemma jt_app a b l : jt a (jt b l) = jt (a ++ b) l.
  Proof.
    destruct l as [|[w| |id kw|ps] l]; destruct a, b; cbn; rewrite ?app_nil_r, <- ?app_assoc; reflexivity.
  Qed.
  Lemma jt_nil l : jt [] l = l. Proof. destruct l as [|[] l]; reflexivity. Qed.

  Lemma join_runs w l : join (map pcontent (text_pieces w) ++ l) = join (SText w :: l).
  Proof.
    rewrite join_text. rewrite <- (runs_concat d l10n_grammar w) at 2. unfold text_pieces.
    induction (rn d w) as [|(ty, v) r IH]; [cbn; rewrite jt_nil; reflexivity|].
    cbn [map app List.concat snd]. change (pcontent (PText (ty, v))) with (SText v). rewrite join_text, IH, jt_app. reflexivity.
  Qed.

  Lemma join_syn x l l' : join l = join l' -> join (syn_content x :: l) = join (syn_content x :: l').
  Proof. intros H. destruct x as [c| |id [[[w k] sels]|]|name delay ps]; cbn; rewrite H; reflexivity. Qed.

  Lemma str_join st : str_wf d st -> join (map pcontent (to_pieces st)) = join (str_content st).
  Proof.
    intros (_ & H). unfold to_pieces, str_content. rewrite map_app, join_runs. rewrite !join_text. f_equal.
    induction H as [|(x, w) l (H1 & _) _ IH]; [reflexivity|]. cbn [flat_map fst snd map app] in *.
    rewrite syn_pcontent by exact H1. apply join_syn. rewrite map_app, join_runs, !join_text. f_equal. exact IH.
  Qed.

  Lemma ws_part_content w : flat_map gcontent (ws_part w) = [].
  Proof. destruct w; reflexivity. Qed.

  Lemma group_content l : flat_map gcontent (flat_map to_gparts l) = map (fun x => (dn_id x, map pcontent (to_pieces (dn_str x)))) l.
  Proof.
    induction l as [|x l IH]; [reflexivity|]. cbn [flat_map map]. rewrite flat_map_app, IH. unfold to_gparts at 1. cbn [flat_map gcontent].
    rewrite ws_part_content. reflexivity.
  Qed.

  Lemma doc_cwf e : doc_wf d e -> unique_names e -> supported d e -> cwf (to_cst e).
  Proof.
    intros ((Hm & Hh) & Hg) (N1 & N2) Hs. unfold cwf, to_cst. cbn [c_main c_group].
    split; [|split].
    - split; [apply str_pwf; exact Hm|]. unfold to_pieces. apply Forall_app. split; [apply text_no_hash|].
      clear -Hh. induction Hh as [|(x, w) l H _ IH]; [constructor|]. cbn [flat_map fst snd] in *. apply Forall_app. split; [|exact IH].
      constructor; [|apply text_no_hash]. destruct (is_hash (to_piece x)) eqn:E; [|reflexivity]. apply to_piece_hash in E. contradiction.
    - destruct (d_group e) as [(w, l)|] eqn:E; cbn [option_map fst snd]; [|exact I]. unfold supported in Hs. rewrite E in Hs.
      destruct Hg as (_ & _ & Hg). apply Forall_app. split; [destruct w; repeat constructor|].
      clear -Hg Hs Hd. induction Hg as [|x l Hx _ IH]; [constructor|]. inversion Hs as [|? ? (S1 & S2) S3]; subst. cbn [flat_map].
      apply Forall_app. split; [|apply IH; exact S3]. destruct Hx as (_ & _ & Hx & _). constructor.
      + cbn [gwf]. apply sub_sub_ok; assumption.
      + destruct (dn_after x); repeat constructor.
    - unfold placeholder_names, string_names, group_of, ccontent, doc_content in *. cbn [fst snd c_main c_group] in *.
      rewrite str_spats by exact Hm. destruct (d_group e) as [(w, l)|] eqn:E; cbn [option_map fst snd] in *; [|auto].
      rewrite flat_map_app, ws_part_content, group_content. cbn [app]. destruct Hg as (_ & _ & Hg).
      assert (E1 : flat_map (fun x => spats (snd x)) (map (fun x => (dn_id x, map pcontent (to_pieces (dn_str x)))) l) =
                   flat_map (fun x => spats (snd x)) (map named_content l)).
      { clear -Hg. induction Hg as [|x l (_ & _ & Hx & _) _ IH]; [reflexivity|]. cbn [map flat_map snd]. rewrite IH. f_equal. apply str_spats; exact Hx. }
      assert (E2 : map fst (map (fun x => (dn_id x, map pcontent (to_pieces (dn_str x)))) l) = map fst (map named_content l)).
      { rewrite !map_map. reflexivity. }
      rewrite E1, E2. auto.
  Qed.

  Lemma doc_joined e : doc_wf d e -> joined (ccontent (to_cst e)) = joined (doc_content e).
  Proof.
    intros ((Hm & _) & Hg). unfold joined, ccontent, doc_content, to_cst. cbn [c_main c_group fst snd].
    rewrite str_join by exact Hm. f_equal. destruct (d_group e) as [(w, l)|]; [|reflexivity]. cbn [option_map snd fst].
    rewrite flat_map_app, ws_part_content, group_content. cbn [app]. f_equal. rewrite !map_map. destruct Hg as (_ & _ & Hg).
    apply map_ext_in. intros x Hx. cbn [fst snd named_content]. rewrite Forall_forall in Hg. destruct (Hg x Hx) as (_ & _ & H & _).
    rewrite str_join by exact H. reflexivity.
  Qed.

  Theorem doc_accepted e : doc_wf d e -> unique_names e -> supported d e -> dprint e <> [] ->
    exists tr a, tree_try_new d (dprint e) l10n_grammar = Ok tr /\ tree_is tr a /\ joined a = joined (doc_content e) /\
      List.concat (map t_string (tr_tokens tr)) = dprint e.
  Proof.
    intros H1 H2 H3 H4. unfold tree_try_new.
    rewrite tokenise_runs by (auto; intros E; pose proof in_open as Ho; rewrite E in Ho; destruct Ho). cbn [map_err bind].
    set (ts := decorate d 0 0 0 (rn d (dprint e))).
    assert (Hs : map seg_of ts = cprint (to_cst e)) by (unfold ts; rewrite decorate_seg; apply doc_runs; exact H1).
    destruct (parse_complete ts (to_cst e) (doc_cwf e H1 H2 H3) Hs) as (tr & Ht & Htk & _ & Hi).
    exists tr, (ccontent (to_cst e)). split; [exact Ht|]. split; [exact Hi|]. split; [apply doc_joined; exact H1|].
    rewrite Htk. unfold ts. rewrite decorate_string. apply runs_concat.
  Qed.
End WithIcu.
