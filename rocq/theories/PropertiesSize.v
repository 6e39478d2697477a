(** Property theorems C83: the length of formatted texts (crates/localiser/src/formatter.rs). *)
From Verif Require Import Base BaseFacts LexerModel LexerSpec IcuExample TreeModel TreeSpec DocSpec DocCheck ValueModel CommandModel
  IsoModel FormatterModel FormatterSpec FormatterProofs4 FormatterProofs5 FmtExample PropertiesFormatter SizeSpec SizeProofs.

(** No power of the sizes of the pattern string and the values bounds the text. *)
Theorem C83_power_refuted : forall fe reg tag locale c p, exists s vals fm t,
  formatter_try_new icu_ex l10n_grammar fe reg tag locale s = Ok fm /\ gives fe reg fm vals (Ok t) /\
  c * (List.length s + values_size vals) ^ p < List.length t.
Proof.
  intros fe reg tag locale c p. destruct (outgrows c p) as (k & Hk). destruct (family fe reg tag locale k) as (fm & Hfm & Hg).
  exists (dprint (fdoc k)), (fvals k), fm, (zs (2 ^ S k - 1)). split; [exact Hfm|]. split; [exact Hg|].
  unfold zs at 1. rewrite repeat_length. eapply Nat.le_lt_trans; [|exact Hk]. apply Nat.mul_le_mono_l, Nat.pow_le_mono_l.
  pose proof (fdoc_len k). pose proof (fvals_len k). lia.
Qed.
Print Assumptions C83_power_refuted.

(** Strings whose size grows with the square of [k] have texts that double with every [k]. *)
Theorem C83_doubling_refuted : forall fe reg tag locale k, exists s vals fm t,
  formatter_try_new icu_ex l10n_grammar fe reg tag locale s = Ok fm /\ gives fe reg fm vals (Ok t) /\
  List.length s + values_size vals <= 100 * (S k * S k) /\ List.length t = 2 ^ S k - 1.
Proof.
  intros fe reg tag locale k. destruct (family fe reg tag locale k) as (fm & Hfm & Hg).
  exists (dprint (fdoc k)), (fvals k), fm, (zs (2 ^ S k - 1)). split; [exact Hfm|]. split; [exact Hg|].
  split; [pose proof (fdoc_len k); pose proof (fvals_len k); lia|apply repeat_length].
Qed.
Print Assumptions C83_doubling_refuted.

Example C83_refuted_example :
  dprint (fdoc 2) = us "{xaaaaa select aaa#aaa}#{a z}{aa z{xa select a#a}{xaa select a#a}}{aaa z{xaaa select aa#aa}{xaaaa select aa#aa}}" /\
  fvals 1 = [(us "xa", VString (us "a")); (us "xaa", VString (us "a")); (us "xaaa", VString (us "aa"))] /\
  text_ex (dprint (fdoc 2)) (fvals 2) = Ok (us "zzzzzzz") /\
  match text_ex (dprint (fdoc 6)) (fvals 6) with Ok t => List.length t = 127 | _ => False end.
Proof. split; [|split; [|split]]; vm_compute; reflexivity. Qed.

(** Plain strings: never more than the pattern string and the values together. *)
Theorem C83_plain_partial : forall d fe reg tag locale s, icu_ok d -> main_wf d s -> NoDup (spats (str_content s)) ->
  plain s -> ds_rest s <> [] ->
  exists fm, formatter_try_new d l10n_grammar fe reg tag locale (strprint s) = Ok fm /\
    forall fm' vals t, after_formatting fe reg fm fm' -> gives fe reg fm' vals (Ok t) ->
      List.length t <= List.length (strprint s) + values_size vals.
Proof.
  intros d fe reg tag locale s Hd Hw Hn Hp Hr. destruct (plain_format d fe reg tag locale Hd s Hw Hn Hp Hr) as (fm & Hfm & Hall).
  exists fm. split; [exact Hfm|]. intros fm' vals t Haf (fuel & Hg & _). destruct fuel as [|f].
  - unfold format in Hg. cbn in Hg. discriminate.
  - rewrite (Hall fm' vals (S f) Haf) in Hg by lia. now apply plain_len.
Qed.
Print Assumptions C83_plain_partial.

Example C83_plain_example :
  let vals := [(us "b", VString (us "Bob")); (us "a", VTagged (us "Alice") (us "en"))] in
  text_ex (strprint greeting) vals = Ok (us "Hi Alice & Bob! #1") /\
  List.length (us "Hi Alice & Bob! #1") = 18 /\ List.length (strprint greeting) = 17 /\ values_size vals = 10.
Proof. repeat split; vm_compute; reflexivity. Qed.

(** Strings nested to depth [h]: with at most [w] items in a string and [m] characters for an item that is not one of the
    named strings, at most [m * w ^ (h + 1)] characters. *)
Theorem C83_nested_partial : forall d g fe reg tag locale s a fm fm' vals t h m w,
  content_of d g s a -> hash_in_plurals_only a -> formatter_try_new d g fe reg tag locale s = Ok fm ->
  after_formatting fe reg fm fm' -> gives fe reg fm' vals (Ok t) ->
  pieces_within fe reg locale vals a m -> items_within a w -> nested a h (fst a) ->
  List.length t <= m * w ^ S h.
Proof.
  intros d g fe reg tag locale s a fm fm' vals t h m w Ha Hh Hfm Haf Hg Hm Hw Hne.
  apply (format_iff d g fe reg tag locale s a fm fm' vals t Ha Hh Hfm Haf) in Hg.
  exact (nested_bound fe reg locale vals a m w Hm Hw by_selector (fun _ _ _ H => H) h (us "_") (fst a) None t (or_introl eq_refl) Hne Logic.I Hg).
Qed.
Print Assumptions C83_nested_partial.

(** Whatever the nesting, the number of named strings takes the place of its depth. *)
Theorem C83_strings_partial : forall d fe reg tag locale s a fm fm' vals t m w, icu_ok d ->
  content_of d l10n_grammar s a -> hash_in_plurals_only a -> formatter_try_new d l10n_grammar fe reg tag locale s = Ok fm ->
  after_formatting fe reg fm fm' -> gives fe reg fm' vals (Ok t) ->
  pieces_within fe reg locale vals a m -> items_within a w ->
  List.length t <= m * w ^ S (List.length (group_of a)).
Proof.
  intros d fe reg tag locale s a fm fm' vals t m w Hd Ha Hh Hfm Haf Hg Hm Hw.
  assert (Hs : s <> []) by (intros ->; discriminate Hfm).
  destruct (proj1 (build_iff d fe reg tag locale Hd s a Ha Hs) (ex_intro _ fm Hfm)) as (_ & Hb).
  apply (format_iff d l10n_grammar fe reg tag locale s a fm fm' vals t Ha Hh Hfm Haf) in Hg.
  destruct (try_new_inv d l10n_grammar fe reg tag locale s a fm Ha Hfm) as (Hc & _ & _).
  exact (whole_bound fe reg locale vals a m w t Hm Hw Hc Hb Hg).
Qed.
Print Assumptions C83_strings_partial.

(** Two named strings, the second standing twice for the first: depth 2. *)
Definition c83_a : sast :=
  ([SPat (us "p") (Some (us "select", [(us "c", us "c")]))],
   Some [(us "b", [SText (us "word")]);
         (us "c", [SText (us "is"); SPat (us "q") (Some (us "select", [(us "b", us "b")])); SPat (us "r") (Some (us "select", [(us "b", us "b")]))])]).
Definition c83_vals : amap pvalue := [(us "p", VString (us "c")); (us "q", VString (us "b")); (us "r", VString (us "b"))].
Example C83_example : nested c83_a 2 (fst c83_a) /\ items_within c83_a 3 /\ pieces_within env_ex [] (us "en") c83_vals c83_a 4 /\
  text_ex (us "{p select c#c}#{b word}{c is{q select b#b}{r select b#b}}") c83_vals = Ok (us "iswordword").
Proof.
  split; [|split; [|split]].
  - constructor. intros ph kw sels sel body [[= <- <- <-]|[]] [<-|[]] Hin.
    cbn in Hin. destruct Hin as [E|[E|[E|[]]]]; vm_compute in E; try discriminate; injection E as <-.
    constructor. intros ph kw sels sel body [E|[[= <- <- <-]|[[= <- <- <-]|[]]]] Hsel Hin; try discriminate E;
      destruct Hsel as [<-|[]]; cbn in Hin; destruct Hin as [E|[E|[E|[]]]]; vm_compute in E; try discriminate; injection E as <-;
      constructor; constructor; try constructor; intros (? & ? & ? & ? & _); discriminate.
  - intros name body [[= <- <-]|[[= <- <-]|[[= <- <-]|[]]]]; cbn; lia.
  - split.
    + intros name body x s Hin Hx Hb Hh Hr. cbn in Hin.
      destruct Hin as [[= <- <-]|[[= <- <-]|[[= <- <-]|[]]]]; cbn in Hx;
      repeat (destruct Hx as [<-|Hx]; [first [exfalso; apply Hb; do 3 eexists; split; [reflexivity|now left] | inversion Hr; subst; cbn; lia]|]); destruct Hx.
    + intros ph v dec f Hv Hn _. apply mget_In in Hv. cbn in Hv.
      destruct Hv as [[= <- <-]|[[= <- <-]|[[= <- <-]|[]]]]; inversion Hn.
  - vm_compute. reflexivity.
Qed.
