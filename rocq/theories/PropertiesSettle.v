(** C94: what a formatter remembers from one call to the next (crates/localiser/src/formatter.rs, localiser.rs). *)
From Verif Require Import Base BaseFacts LexerModel LexerSpec IcuExample TreeModel TreeSpec ValueModel CommandModel IsoModel FormatterModel FormatterSpec
  FormatterRefine2 FormatterProofs4 FmtExample RegistryModel LocaliserModel SettleSpec SettleProofs SettleProofs2.

(** Whatever was formatted before: the result is the same but for open places, of which there are only as many as number signs.
    Where they are depends only on the pattern string and the values. *)
Theorem C94_open : forall fe reg fm vals fuel, exists r,
  (forall l i, r = Ok l -> In (PcOpen i) l -> i < List.length (fm_numbers fm)) /\
  forall fm1, after_formatting fe reg fm fm1 -> snd (format fuel fe reg fm1 vals) = completed (fm_numbers fm1) r.
Proof.
  intros fe reg fm vals fuel. destruct (shape fe reg fm vals fuel) as (r & Ho & H). exists r. split; [|exact H].
  intros l i -> Hi. exact (Ho i Hi).
Qed.
Print Assumptions C94_open.

(** So whether formatting succeeds, and with which error it fails, does not depend on what was formatted before. *)
Theorem C94_outcome : forall fe reg fm fm1 fm2 vals fuel, after_formatting fe reg fm fm1 -> after_formatting fe reg fm fm2 ->
  same_outcome (snd (format fuel fe reg fm1 vals)) (snd (format fuel fe reg fm2 vals)).
Proof.
  intros fe reg fm fm1 fm2 vals fuel H1 H2. destruct (shape fe reg fm vals fuel) as (r & _ & H). rewrite (H _ H1), (H _ H2). apply same_completed.
Qed.
Print Assumptions C94_outcome.

(** What is remembered is nothing or a numeral of the locale, for each number sign. Nothing else changes. *)
Theorem C94_memory : forall d g fe reg tag locale s a fm fm1, content_of d g s a -> formatter_try_new d g fe reg tag locale s = Ok fm ->
  after_formatting fe reg fm fm1 ->
  fm1 = mk_formatter (fm_tag fm) (fm_locale fm) (fm_patterns fm) (fm_numbers fm1) (fm_selectors fm) /\
  List.length (fm_numbers fm1) = List.length (fm_numbers fm) /\ forall x, In x (fm_numbers fm1) -> x = [] \/ numeral fe (fm_locale fm) x.
Proof.
  intros d g fe reg tag locale s a fm fm1 Ha Hf H. destruct (after_numbers _ _ _ _ H) as (ns & -> & Hl & Hn). split; [reflexivity|]. split; [exact Hl|].
  intros x Hx. apply In_nth_error in Hx as (i & Hi). destruct (Hn i x Hi) as [H0|H0]; [left|now right].
  destruct (try_new_inv d g fe reg tag locale s a fm Ha Hf) as (_ & Hrep & _). destruct (fr_empty _ _ _ _ _ Hrep) as (k & Hk). rewrite Hk in H0.
  apply nth_error_In in H0. exact (repeat_spec _ _ _ H0).
Qed.
Print Assumptions C94_memory.

(** Formatting with the same values again leaves the formatter as it is: all results but the first are the same. *)
Theorem C94_settles : forall fe reg fm vals fuel n,
  fst (format fuel fe reg (fst (format fuel fe reg fm vals)) vals) = fst (format fuel fe reg fm vals) /\
  repeated (fun fm => format fuel fe reg fm vals) n (fst (format fuel fe reg fm vals)) =
    repeat (snd (format fuel fe reg (fst (format fuel fe reg fm vals)) vals)) n.
Proof. intros fe reg fm vals fuel n. split; [apply settled|apply again_settled]. Qed.
Print Assumptions C94_settles.

(** The same of the localiser: a call for a single string that is repeated has the same result from the second time on, in
    whatever state the localiser is, whatever is in the cache, and also if it fails or panics. *)
Theorem C94_localiser : forall PE (E : lenv PE) st c n, single c ->
  repeated (fun st => lstep E st c) n (fst (lstep E st c)) = repeat (snd (lstep E (fst (lstep E st c)) c)) n.
Proof. intros PE E st c n Hc. exact (calls_steady E c st Hc n). Qed.
Print Assumptions C94_localiser.

(** A number that is shown before it is given: nothing the first time, from then on the number of the last time. *)
Definition s_early : ustr := us "{s select one#one}{n plural one#one other#other}#{one x#}{other o}".
Definition v_early (n : N) : amap pvalue := [(us "n", VUnsigned n); (us "s", VString (us "one"))].
Definition texts_ex (s : ustr) (l : list (amap pvalue)) : list (fout ustr) :=
  match build_ex s with Ok fm => snd (fold_left (fun x vals => let (fm', r) := format 8 env_ex reg_ex (fst x) vals in (fm', snd x ++ [r])) l (fm, [])) | _ => [] end.
Example C94_example :
  texts_ex s_early [v_early 1; v_early 1; v_early 1; v_early 2; v_early 2] = [Ok (us "xx1"); Ok (us "x1x1"); Ok (us "x1x1"); Ok (us "x1o"); Ok (us "x1o")] /\
  (exists fm, build_ex s_early = Ok fm /\ fm_numbers fm = [[]] /\ fm_numbers (fst (format 8 env_ex reg_ex fm (v_early 1))) = [us "1"] /\
     snd (format 8 env_ex reg_ex fm (v_early 1)) = completed [[]] (Ok [PcText (us "x"); PcOpen 0; PcText (us "x"); PcText (us "1")])).
Proof.
  split; [vm_compute; reflexivity|]. exists (match build_ex s_early with Ok fm => fm | _ => mk_formatter [] [] [] [] [] end).
  split; [vm_compute; reflexivity|]. split; [vm_compute; reflexivity|]. split; vm_compute; reflexivity.
Qed.

(** The same through a localiser. With localisation data as a value it can take longer: the third text is another one. *)
Definition s_later : ustr := us "{v select xx1#xx1 x1x1#x1x1}#{one y#}{other o}{xx1 first}{x1x1 z{s select one#one}{n plural one#one other#other}}".
Definition loc_early : lenv unit := mk_lenv icu_ex env_ex reg_ex (fun t => t)
  (mk_provider (fun c i t => Ok (Some (if ueqb i (us "early") then s_early else s_later, us "en"))) (fun _ => Ok (us "en"))) (fun _ => None) 8.
Definition d_later : ldata := LData (us "app") (us "later") (Some [(us "v", VData (LData (us "app") (us "early") (Some (v_early 1)))); (us "n", VUnsigned 1); (us "s", VString (us "one"))]).
Example C94_localiser_example :
  repeated (fun st => lstep loc_early st (CallFormat (us "app") (us "early") (v_early 1) (us "en") None None)) 3 (localiser_new loc_early true true (us "en")) =
    [Some (Ok (us "xx1", us "en")); Some (Ok (us "x1x1", us "en")); Some (Ok (us "x1x1", us "en"))] /\
  repeated (fun st => lstep loc_early st (CallData d_later (us "en") None None)) 4 (localiser_new loc_early true true (us "en")) =
    [Some (Ok (us "first", us "en")); Some (Ok (us "zyy1", us "en")); Some (Ok (us "zy1y1", us "en")); Some (Ok (us "zy1y1", us "en"))].
Proof. split; vm_compute; reflexivity. Qed.
