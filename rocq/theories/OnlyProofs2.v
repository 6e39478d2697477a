(** A documented string for every reading. *)
From Verif Require Import Base BaseFacts LexerModel LexerSpec LexerProofs IcuExample TreeModel TreeSpec TreeArena TreeMachine TreeProofs
  TreeProofs4 DocSpec DocProofs DocProofs2 OnlySpec OnlyProofs.

Local Opaque l10n_grammar us.
Notation chars l := (List.concat (map (@snd ttype ustr) l)).

Lemma chars_app a b : chars (a ++ b) = chars a ++ chars b.
Proof. now rewrite map_app, concat_app. Qed.

(** ** The documented form *)
Definition orsp (w : ustr) : ustr := match w with [] => [ch " "] | _ => w end.
Fixpoint sels_of (acc : ustr) (l : list kpart) : list (ustr * (ustr * ustr)) :=
  match l with
  | [] => []
  | KWs w :: r => sels_of (acc ++ w) r
  | KJunk _ :: r => sels_of acc r
  | KSel a _ b :: r => (orsp acc, (a, b)) :: sels_of [] r
  end.
Fixpoint params_of (acc : ustr) (l : list cpart) : list (ustr * ustr) :=
  match l with
  | [] => []
  | QWs w :: r => params_of (acc ++ w) r
  | QHash :: r => params_of [] r
  | QId a :: r => (orsp acc, a) :: params_of [] r
  end.
Fixpoint head_of (l : list cpart) : option (ustr * list cpart) :=
  match l with
  | QWs _ :: r => head_of r
  | QId n :: r => Some (n, r)
  | _ => None
  end.
Fixpoint delay_of (acc : ustr) (l : list cpart) : option (ustr * list cpart) :=
  match l with
  | QWs w :: r => delay_of (acc ++ w) r
  | QHash :: r => Some (acc, r)
  | _ => None
  end.
Definition cmd_of (qs : list cpart) : dsyn :=
  match head_of qs with
  | Some (n, r) =>
      match delay_of [] r with
      | Some (w, r') => DCmd n (Some w) (params_of [] r')
      | None => DCmd n None (params_of [] r)
      end
  | None => DHash
  end.
Definition plain_of (p : piece) : option ustr :=
  match p with
  | PText x => Some (snd x)
  | PEsc (TGrammar, _) => None
  | PEsc x => Some (snd x)
  | _ => None
  end.
Definition syn_of (p : piece) : dsyn :=
  match p with
  | PEsc (_, c :: _) => DEsc c
  | PPat id _ None => DPlace id None
  | PPat id ws (Some (k, l)) => DPlace id (Some (orsp (List.concat ws), k, sels_of [] l))
  | PCmd qs => cmd_of qs
  | _ => DHash
  end.
Fixpoint dstr_of (l : list piece) : dstr :=
  match l with
  | [] => mk_dstr [] []
  | p :: r =>
      match plain_of p with
      | Some w => mk_dstr (w ++ ds_text (dstr_of r)) (ds_rest (dstr_of r))
      | None => mk_dstr [] ((syn_of p, ds_text (dstr_of r)) :: ds_rest (dstr_of r))
      end
  end.
Fixpoint group_parts (l : list gpart) : ustr * list dnamed :=
  match l with
  | [] => ([], [])
  | GWs w :: r => (w ++ fst (group_parts r), snd (group_parts r))
  | GNamed id w ws sub :: r => ([], mk_dnamed id (w ++ List.concat ws) (dstr_of sub) (fst (group_parts r)) :: snd (group_parts r))
  end.
Definition doc_of (c : cst) : doc :=
  mk_doc (dstr_of (c_main c))
    match c_group c with
    | None => None
    | Some l => match snd (group_parts l) with [] => None | _ => Some (group_parts l) end
    end.

Section WithIcu.
  Variable d : icu.
  Hypothesis Hd : icu_ok d.
  Hypothesis Hsp : white_space d (ch " ") = true.
  Notation good := (good_segment d l10n_grammar).

  Lemma good_ident w : good (TIdentifier, w) -> is_ident d w.
  Proof.
    intros (H1 & H2 & _). split; [exact H1|]. eapply Forall_impl; [|exact H2]. cbn [fst]. intros c Hc. inversion Hc; auto.
  Qed.
  Lemma good_ws w : good (TWhiteSpace, w) -> is_ws1 d w.
  Proof.
    intros (H1 & H2 & _). split; [exact H1|]. eapply Forall_impl; [|exact H2]. cbn [fst]. intros c Hc. inversion Hc; auto.
  Qed.
  Lemma good_text x : good x -> fst x <> TGrammar -> is_text (snd x) /\ snd x <> [].
  Proof.
    destruct x as [ty w]. intros (H1 & H2 & _) H. split; [|exact H1]. eapply Forall_impl; [|exact H2]. cbn [fst] in *.
    intros c Hc Hin. destruct (Hd c Hin) as (E1 & E2). inversion Hc; subst; congruence.
  Qed.
  Lemma good_gram w : good (TGrammar, w) -> exists c, w = [c] /\ In c l10n_grammar.
  Proof.
    intros (H1 & H2 & H3). specialize (H3 eq_refl). cbn [snd fst] in *. destruct w as [|c [|c' w]]; try discriminate.
    exists c. split; [reflexivity|]. inversion H2 as [|? ? Hc _]; subst. inversion Hc; auto.
  Qed.
  Lemma orsp_ws w : is_ws d w -> is_ws1 d (orsp w).
  Proof. destruct w; cbn [orsp]; intros H; [split; [discriminate|repeat constructor; exact Hsp]|split; [discriminate|exact H]]. Qed.
  Lemma ws_app a b : is_ws d a -> is_ws d b -> is_ws d (a ++ b).
  Proof. intros; now apply Forall_app. Qed.
  Lemma orsp_id w : w <> [] -> orsp w = w. Proof. destruct w; [congruence|reflexivity]. Qed.

  (** *** Selectors *)
  Lemma sels_content l : forall acc, map snd (sels_of acc l) = flat_map ksel l.
  Proof. induction l as [|[w|g|a ty b] l IH]; intros acc; cbn [sels_of flat_map ksel app map snd]; rewrite ?IH; reflexivity. Qed.
  Lemma sels_wf l : forall acc, is_ws d acc -> Forall good (flat_map kprint l) ->
    Forall (fun x => is_ws1 d (fst x) /\ is_ident d (fst (snd x)) /\ is_ident d (snd (snd x))) (sels_of acc l).
  Proof.
    induction l as [|[w|g|a ty b] l IH]; intros acc Ha H; cbn [sels_of flat_map kprint app] in *; [constructor| | |].
    - inversion H as [|? ? Hw Hl]; subst. apply IH; auto. apply ws_app; auto. now apply good_ws.
    - inversion H; auto.
    - inversion H as [|? ? H1 H']; subst. inversion H' as [|? ? _ H'']; subst. inversion H'' as [|? ? H2 H3]; subst.
      constructor; [|apply IH; [constructor|exact H3]]. cbn [fst snd]. auto using orsp_ws, good_ident.
  Qed.
  Lemma sels_print : forall l, ktidy l -> Forall good (flat_map kprint l) -> flat_map selprint (sels_of [] l) = chars (flat_map kprint l).
  Proof.
    fix IH 1. intros [|[w|g|a ty b] [|[w'|g'|a' ty' b'] l]] T H; try contradiction; [reflexivity|].
    cbn [ktidy] in T. cbn [flat_map kprint app] in H. inversion H as [|? ? Hw H']; subst. do 3 (inversion H' as [|? ? _ H'']; subst; clear H'; rename H'' into H').
    specialize (IH l T H'). cbn [sels_of flat_map kprint app map snd List.concat]. rewrite IH, orsp_id by apply (good_ws _ Hw).
    unfold selprint. cbn [fst snd app]. now rewrite <- !app_assoc.
  Qed.

  (** *** Parameters *)
  Lemma params_content l : forall acc, Forall (fun p => p <> SDelay) (flat_map qpar l) ->
    map (fun p => SId (snd p)) (params_of acc l) = flat_map qpar l.
  Proof.
    induction l as [|[w|a|] l IH]; intros acc H; cbn [params_of flat_map qpar app map snd] in *; auto.
    - f_equal. apply IH. now inversion H.
    - exfalso. inversion H; congruence.
  Qed.
  Lemma params_wf l : forall acc, is_ws d acc -> Forall good (flat_map qprint l) ->
    Forall (fun p => is_ws1 d (fst p) /\ is_ident d (snd p)) (params_of acc l).
  Proof.
    induction l as [|[w|a|] l IH]; intros acc Ha H; cbn [params_of flat_map qprint app] in *; [constructor| | |]; inversion H as [|? ? Hw Hl]; subst.
    - apply IH; auto. apply ws_app; auto. now apply good_ws.
    - constructor; [|apply IH; [constructor|exact Hl]]. cbn [fst snd]. auto using orsp_ws, good_ident.
    - apply IH; [constructor|exact Hl].
  Qed.
  Lemma params_print : forall l, atidy l -> Forall good (flat_map qprint l) ->
    flat_map (fun p => fst p ++ snd p) (params_of [] l) = chars (flat_map qprint l).
  Proof.
    fix IH 1. intros [|[w|a|] [|[w'|a'|] l]] T H; try contradiction; [reflexivity|].
    cbn [atidy] in T. cbn [flat_map qprint app] in H. inversion H as [|? ? Hw H']; subst. inversion H' as [|? ? _ H'']; subst.
    specialize (IH l T H''). cbn [params_of flat_map qprint app map snd List.concat fst]. rewrite IH, orsp_id by apply (good_ws _ Hw).
    cbn [app]. now rewrite <- !app_assoc.
  Qed.
  Lemma head_spec l : forall n t, flat_map qpar l = SId n :: t -> Forall good (flat_map qprint l) ->
    exists r, head_of l = Some (n, r) /\ flat_map qpar r = t /\ is_ident d n /\ Forall good (flat_map qprint r).
  Proof.
    induction l as [|[w|a|] l IH]; intros n t E H; cbn [head_of flat_map qpar qprint app] in *; try discriminate; inversion H as [|? ? Hw Hl]; subst.
    - now apply IH.
    - injection E as -> E. exists l. split; [reflexivity|]. split; [exact E|]. split; [now apply good_ident|exact Hl].
  Qed.
  Lemma delay_spec l : forall acc t, flat_map qpar l = SDelay :: t -> Forall good (flat_map qprint l) -> is_ws d acc ->
    exists w r, delay_of acc l = Some (w, r) /\ flat_map qpar r = t /\ is_ws d w /\ Forall good (flat_map qprint r).
  Proof.
    induction l as [|[w|a|] l IH]; intros acc t E H Ha; cbn [delay_of flat_map qpar qprint app] in *; try discriminate; inversion H as [|? ? Hw Hl]; subst.
    - apply IH; auto. apply ws_app; auto. now apply good_ws.
    - injection E as E. exists acc, l. auto.
  Qed.
  Lemma delay_none l : forall acc, Forall (fun p => p <> SDelay) (flat_map qpar l) -> delay_of acc l = None.
  Proof.
    induction l as [|[w|a|] l IH]; intros acc H; cbn [delay_of flat_map qpar app] in *; auto. inversion H; congruence.
  Qed.
  Lemma cmd_spec qs : command_ok (flat_map qpar qs) -> Forall good (flat_map qprint qs) ->
    syn_wf d (cmd_of qs) /\ syn_content (cmd_of qs) = SCmd (flat_map qpar qs) /\ cmd_of qs <> DHash.
  Proof.
    intros (n & args & Ha & [E|(E & Hne)]) H; destruct (head_spec _ _ _ E H) as (r & E1 & E2 & Hn & Hr); unfold cmd_of; rewrite E1, E.
    - rewrite (delay_none r []) by now rewrite E2. cbn [syn_wf syn_content app]. split; [|split; [|discriminate]].
      + split; [exact Hn|]. split; [exact I|]. apply params_wf; [constructor|exact Hr].
      + now rewrite params_content, E2 by now rewrite E2.
    - destruct (delay_spec r [] args E2 Hr ltac:(constructor)) as (w & r' & E3 & E4 & Hw & Hr'). rewrite E3. cbn [syn_wf syn_content app].
      assert (Hp : map (fun p => SId (snd p)) (params_of [] r') = args) by (rewrite params_content; [exact E4|now rewrite E4]).
      split; [|split; [now rewrite Hp|discriminate]]. split; [exact Hn|]. split; [|apply params_wf; [constructor|exact Hr']].
      split; [exact Hw|]. intros E5. rewrite E5 in Hp. apply Hne. now rewrite <- Hp.
  Qed.
  Lemma cmd_print qs : qtidy qs -> Forall good (flat_map qprint qs) -> synprint (cmd_of qs) = us "{" ++ us "#" ++ chars (flat_map qprint qs) ++ us "}".
  Proof.
    intros T H. unfold cmd_of. destruct qs as [|[w|a|] qs]; try contradiction. cbn [head_of]. cbn [flat_map qprint app] in H. inversion H as [|? ? _ Hq]; subst.
    destruct qs as [|[w'|a'|] qs]; try contradiction.
    - cbn. now rewrite app_nil_r.
    - destruct qs as [|[w''|a''|] qs]; try contradiction.
      + cbn [delay_of]. change (qtidy (QId a :: QWs w' :: QId a'' :: qs)) with (atidy (QWs w' :: QId a'' :: qs)) in T.
        cbn [synprint]. rewrite (params_print _ T Hq). cbn [flat_map qprint app map snd List.concat]. now rewrite <- !app_assoc.
      + cbn [delay_of app]. change (qtidy (QId a :: QWs w' :: QHash :: qs)) with (atidy qs) in T. cbn [flat_map qprint app] in Hq.
        inversion Hq as [|? ? _ Hq']; subst. inversion Hq' as [|? ? _ Hq'']; subst.
        cbn [synprint]. rewrite (params_print _ T Hq''). cbn [flat_map qprint app map snd List.concat]. now rewrite <- !app_assoc.
    - cbn [delay_of app]. change (qtidy (QId a :: QHash :: qs)) with (atidy qs) in T. cbn [flat_map qprint app] in Hq.
      inversion Hq as [|? ? _ Hq']; subst.
      cbn [synprint]. rewrite (params_print _ T Hq'). cbn [flat_map qprint app map snd List.concat]. now rewrite <- !app_assoc.
  Qed.

  (** *** Pieces *)
  Lemma plain_spec p w : pwf p -> Forall good (pprint p) -> plain_of p = Some w ->
    is_text w /\ w <> [] /\ pcontent p = SText w /\ (ptidy p -> chars (pprint p) = w).
  Proof.
    intros Hw Hg E. destruct p as [x|x| |id ws kw|qs]; try discriminate; cbn [pprint pwf plain_of pcontent ptidy] in *.
    - injection E as <-. inversion Hg as [|? ? Hx _]; subst. destruct (good_text x Hx Hw). repeat split; auto. intros _. cbn. apply app_nil_r.
    - inversion Hg as [|? ? _ Hg']; subst. inversion Hg' as [|? ? Hx _]; subst. destruct x as [ty v].
      assert (ty <> TGrammar) by (intros ->; discriminate). assert (v = w) by (destruct ty; cbn in E; congruence). subst v.
      destruct (good_text (ty, w) Hx H). cbn [fst snd] in *. repeat split; auto. intros ->. congruence.
  Qed.

  Lemma ws_good ws : Forall good (wprint ws) -> is_ws d (List.concat ws).
  Proof.
    induction ws as [|w ws IH]; intros H; [constructor|]. cbn [wprint map] in H. inversion H as [|? ? Hw Hl]; subst. cbn [List.concat].
    apply ws_app; [now apply good_ws|now apply IH].
  Qed.
  Lemma chars_wprint ws : chars (wprint ws) = List.concat ws.
  Proof. unfold wprint. rewrite map_map. cbn [snd]. now rewrite map_id. Qed.

  Lemma syn_spec p : pwf p -> Forall good (pprint p) -> plain_of p = None ->
    syn_wf d (syn_of p) /\ pcontent p = syn_content (syn_of p) /\ (syn_of p = DHash <-> is_hash p = true) /\
    (ptidy p -> maximal (pprint p) -> chars (pprint p) = synprint (syn_of p)).
  Proof.
    intros Hw Hg E. destruct p as [x|x| |id ws kw|qs]; try discriminate; cbn [pprint pwf pcontent ptidy is_hash] in *.
    - destruct x as [ty v]. assert (ty = TGrammar) by (destruct ty; cbn in E; congruence).
      subst ty. inversion Hg as [|? ? _ Hg']; subst. inversion Hg' as [|? ? Hx _]; subst. destruct (good_gram _ Hx) as (c & -> & Hc).
      cbn [syn_of syn_wf syn_content snd]. repeat split; try discriminate; auto.
    - repeat split; auto.
    - inversion Hg as [|? ? _ Hg']; subst. inversion Hg' as [|? ? Hid Hg'']; subst. apply Forall_app in Hg'' as (Hws & Hg3).
      apply Forall_app in Hg3 as (Hk & _). destruct kw as [[k l]|]; cbn [syn_of syn_wf syn_content].
      + inversion Hk as [|? ? Hk1 Hk2]; subst. split; [|split; [|split]].
        * split; [now apply good_ident|]. split; [now apply orsp_ws, ws_good|]. split; [now apply good_ident|]. apply sels_wf; [constructor|exact Hk2].
        * now rewrite sels_content.
        * split; discriminate.
        * intros T M. assert (Hne : List.concat ws <> []).
          { destruct ws as [|w ws].
            - exfalso. cbn [wprint map app] in M. inversion M as [| |? ? ? _ M']; subst. inversion M' as [| |? ? ? [E1|E1] _]; subst; cbn in E1; congruence.
            - cbn [wprint map] in Hws. inversion Hws as [|? ? Hw1 _]; subst. destruct (good_ws _ Hw1) as (Hn & _). cbn. destruct w; [congruence|discriminate]. }
          cbn [synprint]. rewrite orsp_id by exact Hne. rewrite (sels_print _ T Hk2). cbn [map snd List.concat]. unfold g_. cbn [snd].
          rewrite !chars_app, chars_wprint. cbn [map snd List.concat]. rewrite app_nil_r. now rewrite <- !app_assoc.
      + split; [now apply good_ident|]. split; [reflexivity|]. split; [split; discriminate|].
        intros -> _. cbn [synprint wprint map app List.concat snd g_]. now rewrite app_nil_r.
    - inversion Hg as [|? ? _ Hg']; subst. inversion Hg' as [|? ? _ Hg'']; subst. apply Forall_app in Hg'' as (Hq & _).
      destruct (cmd_spec qs Hw Hq) as (H1 & H2 & H3). split; [exact H1|]. split; [symmetry; exact H2|]. split; [split; [intros H; now destruct H3|discriminate]|].
      intros T _. cbn [syn_of]. rewrite (cmd_print qs T Hq). cbn [map snd List.concat]. unfold g_. cbn [snd]. rewrite chars_app. cbn. now rewrite app_nil_r.
  Qed.

  (** *** Strings *)
  Lemma maximal_app a b : maximal (a ++ b) -> maximal a /\ maximal b.
  Proof.
    induction a as [|x a IH]; cbn [app]; intros H; [split; [constructor|exact H]|]. destruct a as [|y a].
    - split; [constructor|]. cbn [app] in H. inversion H; subst; [constructor|assumption].
    - cbn [app] in *. inversion H as [| |? ? ? H1 H2]; subst. destruct (IH H2). split; [constructor; assumption|assumption].
  Qed.
  Lemma spats_cons x l : spats (x :: l) = spats [x] ++ spats l.
  Proof. cbn. now rewrite app_nil_r. Qed.

  Lemma dstr_spec l : Forall pwf l -> Forall good (pieces_print l) ->
    str_wf d (dstr_of l) /\ join (str_content (dstr_of l)) = join (map pcontent l) /\
    spats (str_content (dstr_of l)) = spats (map pcontent l) /\
    (Forall (fun p => is_hash p = false) l -> Forall (fun x => fst x <> DHash) (ds_rest (dstr_of l))) /\
    (Forall ptidy l -> maximal (pieces_print l) -> strprint (dstr_of l) = chars (pieces_print l)) /\
    (no_hash_pair l -> hash_apart (ds_rest (dstr_of l))).
  Proof.
    induction l as [|p l IH]; intros Hw Hg.
    - repeat split; try constructor; auto.
    - inversion Hw as [|? ? Hp Hl]; subst. unfold pieces_print in Hg. cbn [flat_map] in Hg. apply Forall_app in Hg as (Gp & Gl).
      destruct (IH Hl Gl) as ((W1 & W2) & J & P & N & T & A). clear IH.
      assert (Hnp : no_hash_pair (p :: l) -> no_hash_pair l) by (intros H; inversion H; subst; auto; constructor).
      destruct (plain_of p) as [w|] eqn:E; cbn [dstr_of]; rewrite E.
      + destruct (plain_spec p w Hp Gp E) as (Hw1 & Hw2 & Hc & Ht). cbn [ds_text ds_rest map]. rewrite Hc. repeat split; cbn [ds_text ds_rest].
        * apply Forall_app. auto.
        * exact W2.
        * unfold str_content in *. cbn [ds_text ds_rest]. rewrite !join_text in *. rewrite <- J. now rewrite jt_app.
        * rewrite spats_cons. rewrite <- P. reflexivity.
        * intros H. inversion H. auto.
        * intros H M. inversion H as [|? ? Hpt Hlt]; subst. unfold pieces_print in *. cbn [flat_map] in *. apply maximal_app in M as (M1 & M2).
          rewrite chars_app, (Ht Hpt), <- (T Hlt M2). unfold strprint. cbn [ds_text ds_rest]. now rewrite app_assoc.
        * intros H. auto.
      + destruct (syn_spec p Hp Gp E) as (Hw1 & Hc & Hh & Ht). cbn [ds_text ds_rest map]. rewrite Hc. repeat split; cbn [ds_text ds_rest].
        * constructor.
        * constructor; auto.
        * unfold str_content in *. cbn [ds_text ds_rest flat_map fst snd app]. rewrite join_text, jt_nil. now apply join_syn.
        * unfold str_content in *. cbn [ds_text ds_rest flat_map fst snd app]. rewrite (spats_cons (SText [])), (spats_cons (syn_content _)), P.
          symmetry. rewrite spats_cons. reflexivity.
        * intros H. inversion H as [|? ? H1 H2]; subst. constructor; [cbn; intros E1; apply Hh in E1; congruence|auto].
        * intros H M. inversion H as [|? ? Hpt Hlt]; subst. unfold pieces_print in *. cbn [flat_map] in *. apply maximal_app in M as (M1 & M2).
          rewrite chars_app, (Ht Hpt M1), <- (T Hlt M2). unfold strprint. cbn [ds_text ds_rest flat_map fst snd app]. now rewrite <- app_assoc.
        * intros H. specialize (A (Hnp H)).
          destruct (is_hash p) eqn:Ep.
          -- rewrite (proj2 Hh eq_refl). destruct l as [|q l]; [exact I|]. inversion H as [| |? ? ? Hq _]; subst. rewrite Ep in Hq. cbn [andb] in Hq.
             inversion Hl as [|? ? Hqw _]; subst. unfold pieces_print in Gl. cbn [flat_map] in Gl. apply Forall_app in Gl as (Gq & _).
             cbn [dstr_of] in A |- *. destruct (plain_of q) as [v|] eqn:Eq; cbn [ds_text ds_rest] in A |- *.
             ++ destruct (plain_spec q v Hqw Gq Eq) as (_ & Hv & _). destruct v as [|c v]; [congruence|]. cbn. exact A.
             ++ destruct (syn_spec q Hqw Gq Eq) as (_ & _ & Hqh & _). destruct (syn_of q) eqn:Es; try exact A.
                rewrite (proj1 Hqh eq_refl) in Hq. discriminate.
          -- destruct (syn_of p) eqn:Es; try exact A. exfalso. discriminate (proj1 Hh eq_refl).
  Qed.

  Lemma dstr_starts l : sub_ok l -> Forall good (pieces_print l) -> starts_plain d (dstr_of l).
  Proof.
    intros (_ & _ & H) G. destruct l as [|[[[] w]|x| |id ws kw|qs] l]; try contradiction; unfold starts_plain; cbn [dstr_of plain_of snd ds_text ds_rest syn_of].
    - unfold pieces_print in G. cbn [flat_map pprint app] in G. inversion G as [|? ? Hw _]; subst. destruct (good_ident w Hw) as (H1 & H2).
      destruct w as [|c w]; [congruence|]. cbn. inversion H2; auto.
    - exact I.
  Qed.

  (** *** Groups *)
  Definition sup (x : dnamed) : Prop := starts_plain d (dn_str x) /\ hash_apart (ds_rest (dn_str x)).
  Lemma group_spec l : Forall gwf l -> Forall good (flat_map gprint l) ->
    is_ws d (fst (group_parts l)) /\ Forall (named_wf d) (snd (group_parts l)) /\ Forall sup (snd (group_parts l)) /\
    map (fun x => (fst x, join (snd x))) (map named_content (snd (group_parts l))) = map (fun x => (fst x, join (snd x))) (flat_map gcontent l) /\
    flat_map (fun x => spats (snd x)) (map named_content (snd (group_parts l))) = flat_map (fun x => spats (snd x)) (flat_map gcontent l) /\
    (Forall gtidy l -> maximal (flat_map gprint l) ->
       fst (group_parts l) ++ flat_map namedprint (snd (group_parts l)) = chars (flat_map gprint l)) /\
    (Exists is_named l -> snd (group_parts l) <> []).
  Proof.
    induction l as [|x l IH]; intros Hw Hg.
    - repeat split; try constructor. intros H. inversion H.
    - inversion Hw as [|? ? Hx Hl]; subst. cbn [flat_map] in Hg. apply Forall_app in Hg as (Gx & Gl).
      destruct (IH Hl Gl) as (W & Nw & S & C & P & T & X). clear IH. destruct x as [w|id w ws sub]; cbn [group_parts fst snd flat_map gcontent app].
      + cbn [gprint] in Gx. inversion Gx as [|? ? Gw _]; subst. repeat split; auto.
        * apply ws_app; [now apply good_ws|exact W].
        * intros H M. inversion H; subst. cbn [gprint app] in M. change ((TWhiteSpace, w) :: flat_map gprint l) with ([(TWhiteSpace, w)] ++ flat_map gprint l) in M.
          apply maximal_app in M as (_ & M). cbn [gprint app map snd List.concat]. rewrite <- (T H3 M). now rewrite app_assoc.
        * intros H. inversion H as [? ? H'|? ? H']; subst; [destruct H'|auto].
      + cbn [gwf] in Hx. cbn [gprint] in Gx. inversion Gx as [|? ? _ G1]; subst. inversion G1 as [|? ? Gid G2]; subst. inversion G2 as [|? ? Gw G3]; subst.
        apply Forall_app in G3 as (Gws & G4). apply Forall_app in G4 as (Gs & _).
        destruct (dstr_spec sub (proj1 Hx) Gs) as (Sw & Sj & Sp & _ & St & Sa). pose proof (dstr_starts sub Hx Gs) as Ss.
        repeat split.
        * constructor.
        * constructor; [|exact Nw]. unfold named_wf. cbn [dn_id dn_ws dn_str dn_after]. split; [now apply good_ident|]. split; [|split; [exact Sw|split; [exact W|]]].
          -- destruct (good_ws _ Gw) as (Hn & Hws). split; [destruct w; [congruence|discriminate]|]. apply ws_app; [exact Hws|now apply ws_good].
          -- unfold starts_plain in Ss. destruct (ds_text (dstr_of sub)); [exact I|tauto].
        * constructor; [|exact S]. split; [exact Ss|]. apply Sa. apply Hx.
        * cbn [map named_content dn_id dn_str fst snd]. rewrite C, Sj. reflexivity.
        * cbn [map flat_map named_content dn_id dn_str fst snd]. rewrite P, Sp. reflexivity.
        * intros H M. inversion H as [|? ? Hs Hlt]; subst. apply maximal_app in M as (M1 & M2). cbn [gtidy] in Hs. cbn [gprint] in M1.
          apply (maximal_app [_; _; _]) in M1 as (_ & M1). apply maximal_app in M1 as (_ & M1). apply maximal_app in M1 as (M1 & _).
          cbn [app flat_map]. unfold namedprint at 1. cbn [dn_id dn_ws dn_str dn_after]. rewrite (St Hs M1).
          rewrite chars_app, <- (T Hlt M2). cbn [gprint map snd List.concat]. unfold g_. cbn [snd]. rewrite !chars_app, chars_wprint. cbn [map snd List.concat].
          rewrite app_nil_r. now rewrite <- !app_assoc.
        * discriminate.
  Qed.

  (** *** The whole *)
  Lemma map_fst_join (l l' : list (ustr * list sitem)) :
    map (fun x => (fst x, join (snd x))) l = map (fun x => (fst x, join (snd x))) l' -> map fst l = map fst l'.
  Proof. intros H. apply (f_equal (map fst)) in H. now rewrite !map_map in H. Qed.

  Theorem doc_of_spec s c : reading d s c ->
    doc_wf d (doc_of c) /\ unique_names (doc_of c) /\ supported d (doc_of c) /\
    same_content (doc_content (doc_of c)) (ccontent c) /\ (tidy c -> dprint (doc_of c) = s).
  Proof.
    intros (((Hm & Hh) & Hg & U1 & U2) & (Hs & G & M)). destruct c as [m g]. cbn [c_main c_group] in *. unfold cprint in *. cbn [c_main c_group] in *.
    apply Forall_app in G as (Gm & Gg). destruct (dstr_spec m Hm Gm) as (Sw & Sj & Sp & Sh & St & _).
    unfold doc_of. cbn [c_main c_group].
    destruct g as [g|].
    - inversion Gg as [|? ? _ Gg']; subst. destruct (group_spec g Hg Gg') as (W & Nw & S & C & P & T & X).
      set (e := mk_doc (dstr_of m) match snd (group_parts g) with [] => None | _ => Some (group_parts g) end).
      assert (Eg : group_of (doc_content e) = map named_content (snd (group_parts g))).
      { unfold e, doc_content, group_of. cbn [snd d_group]. destruct (group_parts g) as [w [|x l]]; reflexivity. }
      assert (Ec : group_of (ccontent (mk_cst m (Some g))) = flat_map gcontent g) by reflexivity.
      repeat split.
      + exact (proj1 Sw).
      + exact (proj2 Sw).
      + now apply Sh.
      + cbn [d_group e]. destruct (group_parts g) as [w [|x l]]; [exact I|]. cbn [fst snd] in *. repeat split; [exact W|discriminate|exact Nw].
      + unfold placeholder_names in *. rewrite Eg, P. rewrite Ec in U1. cbn [doc_content e fst d_main]. rewrite Sp. exact U1.
      + unfold string_names in *. rewrite Eg. rewrite Ec in U2. now rewrite (map_fst_join _ _ C).
      + unfold supported. cbn [d_group e]. destruct (group_parts g) as [w [|x l]]; [exact I|]. exact S.
      + exact Sj.
      + rewrite Eg, Ec. exact C.
      + intros (Tm & Te & Tg). apply maximal_app in M as (M1 & M2). apply (maximal_app [_]) in M2 as (_ & M2).
        unfold dprint, e. cbn [d_main d_group]. rewrite (St Tm M1). specialize (T Tg M2). specialize (X Te).
        rewrite chars_app. f_equal. cbn [map snd List.concat]. rewrite <- T. destruct (group_parts g) as [w [|x l]]; [now destruct X|]. reflexivity.
    - unfold placeholder_names, string_names, group_of in U1, U2. cbn [ccontent c_main c_group fst snd option_map flat_map map] in U1, U2. repeat split.
      + exact (proj1 Sw).
      + exact (proj2 Sw).
      + now apply Sh.
      + unfold placeholder_names, group_of. cbn [doc_content d_main d_group fst snd option_map flat_map]. rewrite Sp. exact U1.
      + constructor.
      + exact Sj.
      + intros (Tm & _). rewrite !app_nil_r in *. unfold dprint. cbn [d_main d_group]. rewrite app_nil_r. rewrite (St Tm M). exact Hs.
  Qed.

  (** *** Accepted strings *)
  Lemma accepted_reading s tr : tree_try_new d s l10n_grammar = Ok tr -> exists c, reading d s c.
  Proof.
    intros H. destruct (proj1 (tree_accept_iff d s l10n_grammar)) as (_ & _ & c & Hc & Hs); [eauto|]. exists c. split; assumption.
  Qed.
  Theorem documented_iff s c : reading d s c -> s <> [] -> documented d s <-> tidy c.
  Proof.
    intros Hc Hs. split.
    - intros (e & H1 & H2 & H3). assert (Hr : reading d s (to_cst d e)).
      { assert (Hacc : exists tr, tree_try_new d (dprint e) l10n_grammar = Ok tr).
        { rewrite H3. apply tree_accept_iff. split; [exact Hs|]. split; [intros E; pose proof in_open as Ho; rewrite E in Ho; destruct Ho|]. exists c. exact Hc. }
        apply doc_accepted_iff in Hacc; auto; [|now rewrite H3]. split; [now apply doc_cwf|]. rewrite <- H3, <- (doc_runs d Hd e H1). apply runs_segmentation. }
      rewrite (reading_unique _ _ _ _ Hc Hr). now apply to_cst_tidy.
    - intros T. destruct (doc_of_spec s c Hc) as (H1 & H2 & _ & _ & H5). exists (doc_of c). auto.
  Qed.
End WithIcu.
