(** Properties C52 and C53: the localiser over the sqlite3 provider, from the rows of the database to the text returned. *)
From Coq Require Import Sorted.
From Verif Require Import Base BaseFacts LexerModel LexerSpec IcuExample TreeModel TreeSpec DocSpec ValueModel CommandModel FormatterModel FormatterSpec FmtExample
  FormatterProofs4 FormatterProofs5 RegistryModel ProviderModel ProviderSpec ProviderProofs ProviderProofs2 ProviderProofs8 LocaliserModel LocaliserSpec LocaliserProofs
  DocCheck SystemModel SystemSpec SystemProofs PropertiesProvider PropertiesLocaliser.

(** ** For examples: rows in the order of the index; tags of letters, digits and hyphens are canonical. *)
Definition tag_char (c : uchar) : bool := ((ch "a" <=? c) && (c <=? ch "z") || (ch "A" <=? c) && (c <=? ch "Z") || (ch "0" <=? c) && (c <=? ch "9") || (c =? ch "-"))%N.
Definition canon_sys (t : ustr) : option ustr := if forallb tag_char t then Some t else None.
Definition env_sys : penv := mk_penv canon_sys (fun _ _ _ => true) (fun _ _ _ l => fold_right put [] l) (fun _ _ _ l => l) (fun _ _ _ l => l).
Definition dir_sys : list entry := [file "app"
  [row "app" "greet" "en-ZA" "Howzit {name}"; row "app" "greet" "en" "Hello {name}!"; row "app" "bye" "en" "Bye"; row "app" "bye" "fr" "Salut";
   row "app" "esc" "en" "`{name`}"]
  [wrote "app" "en" "Ann"; wrote "app" "fr" "Cy"] [main "app" "en"]].
Definition prov_sys : sprovider := prov dir_sys.
Definition sys_ex : lenv perror := system env_sys prov_sys icu_ex env_ex [(us "file_path", file_path)] (fun t => t) (fun _ => None) 8.
Definition sys_start : lstate := localiser_new sys_ex true true (us "en").
Definition sys_after (h : list lcall) (c : lcall) := snd (lstep sys_ex (lrun sys_ex sys_start h) c).

Lemma put_sorted r l : StronglySorted (fun a b => tag_le (pr_tag a) (pr_tag b) = true) l -> StronglySorted (fun a b => tag_le (pr_tag a) (pr_tag b) = true) (put r l).
Proof.
  intros Hs. induction l as [|r' l IH]; cbn [put]; [repeat constructor|]. inversion Hs as [|x m Hm Hall]; subst. destruct (tag_le (pr_tag r) (pr_tag r')) eqn:Et.
  - constructor; [exact Hs|]. constructor; [exact Et|]. apply Forall_forall. intros y Hy. apply (tag_le_trans _ _ _ Et). exact (proj1 (Forall_forall _ _) Hall y Hy).
  - constructor; [exact (IH Hm)|]. apply Forall_forall. intros y Hy. apply (Permutation_in y (put_perm r l)) in Hy.
    destruct Hy as [<-|Hy]; [exact (tag_le_total _ _ Et) | exact (proj1 (Forall_forall _ _) Hall y Hy)].
Qed.
Lemma put_head r l : Forall (fun y => tag_le (pr_tag r) (pr_tag y) = true) l -> put r l = r :: l.
Proof. intros H. destruct l as [|y l]; [reflexivity|]. cbn [put]. inversion H as [|x m Hx _]; subst. rewrite Hx. reflexivity. Qed.
Lemma filter_put f r l : StronglySorted (fun a b => tag_le (pr_tag a) (pr_tag b) = true) l -> filter f (put r l) = if f r then put r (filter f l) else filter f l.
Proof.
  intros Hs. induction l as [|r' l IH]; cbn [put filter]; [destruct (f r); reflexivity|]. inversion Hs as [|x m Hm Hall]; subst.
  destruct (tag_le (pr_tag r) (pr_tag r')) eqn:Et; cbn [filter].
  - destruct (f r) eqn:Hr; [|reflexivity]. symmetry. apply put_head. apply Forall_forall. intros y Hy.
    assert (Hy' : In y (r' :: l)) by (destruct (f r'); [destruct Hy as [<-|Hy]; [left; reflexivity|]|]; right; apply filter_In in Hy; apply Hy).
    destruct Hy' as [<-|Hy']; [exact Et|]. apply (tag_le_trans _ _ _ Et). exact (proj1 (Forall_forall _ _) Hall y Hy').
  - rewrite (IH Hm). destruct (f r), (f r'); try reflexivity. cbn [put]. rewrite Et. reflexivity.
Qed.
Lemma sys_sorted l : StronglySorted (fun a b => tag_le (pr_tag a) (pr_tag b) = true) (fold_right put [] l).
Proof. induction l as [|r l IH]; cbn [fold_right]; [constructor | apply put_sorted; exact IH]. Qed.
Lemma sys_perm l : Permutation (fold_right put [] l) l.
Proof. induction l as [|r l IH]; cbn [fold_right]; [apply Permutation_refl|]. eapply Permutation_trans; [apply put_perm | apply perm_skip; exact IH]. Qed.
Lemma sys_filter f l : fold_right put [] (filter f l) = filter f (fold_right put [] l).
Proof.
  induction l as [|r l IH]; cbn [filter fold_right]; [reflexivity|]. rewrite (filter_put f r _ (sys_sorted l)), <- IH. destruct (f r); reflexivity.
Qed.
Lemma sys_connection n d v : mget n (sp_connections prov_sys) = Some (d, v) ->
  n = us "app" /\ Some d = en_db (hd (mk_entry None None) dir_sys).
Proof. intros H. apply mget_In in H. vm_compute in H. destruct H as [[= <- <- _]|[]]. split; vm_compute; reflexivity. Qed.
Lemma sys_fine : database_fine env_sys dir_sys prov_sys.
Proof.
  assert (Hrows : forall n d v, mget n (sp_connections prov_sys) = Some (d, v) -> forall r, In r (db_pattern d) -> canon_sys (pr_tag r) = Some (pr_tag r)).
  { intros n d v Hd r Hr. apply sys_connection in Hd as (_ & [= ->]). cbn in Hr. repeat (destruct Hr as [<-|Hr]; [vm_compute; reflexivity|]). destruct Hr. }
  assert (Hw : forall t, canon_sys t = Some t -> no_wildcard t).
  { intros t H. unfold canon_sys in H. destruct (forallb tag_char t) eqn:Ef; [|discriminate]. pose proof (proj1 (forallb_forall _ _) Ef) as Hall.
    split; intros Hi; apply Hall in Hi; vm_compute in Hi; discriminate Hi. }
  split; [apply prov_made; vm_compute; reflexivity| | | |exact Hw].
  - split; [split; [|split]; intros; cbn; [apply sys_perm | apply Permutation_refl | apply Permutation_refl]|]. split; [intros f q ps; reflexivity|].
    intros n d v Hd. split; [intros r Hr; cbn [pe_canon env_sys]; rewrite (Hrows n d v Hd r Hr); discriminate|].
    apply sys_connection in Hd as (_ & [= ->]). split; intros r Hr; cbn in Hr; repeat (destruct Hr as [<-|Hr]; [vm_compute; discriminate|]); destruct Hr.
  - intros n d v Hd. exists (fold_right put [] (db_pattern d)). split; [apply sys_perm|]. intros q ps f. cbn. apply sys_filter.
  - intros n d v Hd r Hr. pose proof (Hrows n d v Hd r Hr) as Hc. split; [exact Hc | exact (Hw _ Hc)].
Qed.

(** ** C52: the localiser over the provider. The full claim - no call panics, and calls return what they return without a cache -
    is false for the reasons of C28 and C32: here with a component that is not fully translated. *)
Theorem C52_system_refuted :
  let h := [CallLiteral (us "app") (us "bye") (us "fr") None None] in
  sys_after h (CallLiteral (us "app") (us "esc") (us "fr") None None) = Some Panic /\
  uncached_result sys_ex (lrun sys_ex sys_start h) (CallLiteral (us "app") (us "esc") (us "fr") None None) = Some (Ok (us "`{name`}", us "en")).
Proof. split; vm_compute; reflexivity. Qed.
Print Assumptions C52_system_refuted.

(** What holds: under conditions on the files and on the strings stored in them, and for harmless requests, the cache changes
    nothing, except that a call may panic if a string is not found in the language asked for. *)
Theorem C52_transparent_partial : forall E es p ic fe reg locale script fuel fallback caching tag h c,
  let L := system E p ic fe reg locale script fuel in
  database_fine E es p -> icu_ok ic -> stored_hash_ok ic p ->
  harmless L (history_requests L (localiser_new L fallback caching tag) (h ++ [c])) ->
  let st := lrun L (localiser_new L fallback caching tag) h in
  snd (lstep L st c) = uncached_result L st c \/
  (snd (lstep L st c) = Some Panic /\ ~ same_language L (history_requests L (localiser_new L fallback caching tag) (h ++ [c]))).
Proof.
  intros E es p ic fe reg locale script fuel fb ca tag h c L Hdb Hic Hh. apply C28_transparent_partial; [exact Hic | |].
  - exact (sqlite_again E es p Hdb ic fe reg locale script fuel).
  - exact (sqlite_hash E es p Hdb ic fe reg locale script fuel Hh).
Qed.
Print Assumptions C52_transparent_partial.

(** No call panics if every string asked for is stored in the language asked for, and neither commands nor the parser panic. *)
Theorem C52_no_panic_partial : forall E es p ic fe reg locale script fuel fallback caching tag h c,
  let L := system E p ic fe reg locale script fuel in
  database_fine E es p -> icu_ok ic -> commands_calm reg -> stored_parse ic p ->
  all_translated E p (history_requests L (localiser_new L fallback caching tag) (h ++ [c])) ->
  snd (lstep L (lrun L (localiser_new L fallback caching tag) h) c) <> Some Panic.
Proof.
  intros E es p ic fe reg locale script fuel fb ca tag h c L Hdb Hic Hc Hpa Ht. apply C32_no_panic_partial; [exact Hic | |].
  - exact (sqlite_calm E es p Hdb ic fe reg locale script fuel Hc Hpa).
  - exact (translated_language E es p Hdb ic fe reg locale script fuel _ Ht).
Qed.
Print Assumptions C52_no_panic_partial.

(** ** C53: from the database to the text. In every history of harmless requests for strings stored in the languages asked
    for, [literal] returns the stored string and [format] its text, with the language asked for. *)
Theorem C53_stored_partial : forall E es p ic fe reg locale script fuel fallback caching tag h c i t fb ca r,
  let L := system E p ic fe reg locale script fuel in let st := lrun L (localiser_new L fallback caching tag) h in
  database_fine E es p -> icu_ok ic -> stored_hash_ok ic p -> translated E p c i t r ->
  (let rs := history_requests L (localiser_new L fallback caching tag) (h ++ [CallLiteral c i t fb ca]) in
   harmless L rs -> all_translated E p rs -> snd (lstep L st (CallLiteral c i t fb ca)) = Some (Ok (pr_string r, t))) /\
  (forall vals w, string_gives L vals (pr_string r) t w ->
   let rs := history_requests L (localiser_new L fallback caching tag) (h ++ [CallFormat c i vals t fb ca]) in
   harmless L rs -> all_translated E p rs -> snd (lstep L st (CallFormat c i vals t fb ca)) = Some (Ok (w, t))).
Proof.
  intros E es p ic fe reg locale script fuel fallback caching tag h c i t fb ca r L st Hdb Hic Hh Hr.
  assert (Hf : forall b, found L c i t b (pr_string r) t) by (intros b; exact (translated_found E es p Hdb ic fe reg locale script fuel c i t r b Hr)).
  split.
  - intros rs Hrs Ht. destruct (C52_transparent_partial E es p ic fe reg locale script fuel fallback caching tag h _ Hdb Hic Hh Hrs) as [H|(_ & H)].
    + unfold st. fold L in H. rewrite H, uncached_pure. cbn [pure_call]. f_equal. apply find_string_iff. apply Hf.
    + destruct (H (translated_language E es p Hdb ic fe reg locale script fuel _ Ht)).
  - intros vals w Hw rs Hrs Ht. destruct (C52_transparent_partial E es p ic fe reg locale script fuel fallback caching tag h _ Hdb Hic Hh Hrs) as [H|(_ & H)].
    + unfold st. fold L in H. rewrite H, uncached_pure. cbn [pure_call]. f_equal. apply pure_format_iff; [exact Hic|]. exists (pr_string r). split; [apply Hf | exact Hw].
    + destruct (H (translated_language E es p Hdb ic fe reg locale script fuel _ Ht)).
Qed.
Print Assumptions C53_stored_partial.

(** The text of a stored string: without grammar characters itself; with them escaped, the unescaped text; with placeholders,
    the string with the values in their place; for other documented strings the documented text, if the recursion goes deep enough. *)
Theorem C53_text_plain : forall PE (L : lenv PE) vals s t, no_syntax s -> string_gives L vals s t s.
Proof. intros PE L vals s t. apply sg_plain. Qed.
Theorem C53_text_escaped : forall PE (L : lenv PE) vals t w, icu_ok (le_icu L) -> 0 < le_fuel L -> string_gives L vals (escape w) t w.
Proof. intros PE L vals t w Hic Hf. exact (escaped_gives L Hic vals t w Hf). Qed.
Theorem C53_text_placeholders : forall PE (L : lenv PE) vals s t w, icu_ok (le_icu L) -> 0 < le_fuel L -> main_wf (le_icu L) s ->
  NoDup (spats (str_content s)) -> FormatterSpec.plain s -> ds_rest s <> [] -> plain_text vals s = Ok w -> string_gives L vals (strprint s) t w.
Proof. intros PE L vals s t w Hic. exact (plain_gives L Hic vals s t w). Qed.
Theorem C53_text_documented_partial : forall E p ic fe reg locale script s t a fm vals w, icu_ok ic ->
  content_of ic localiser_grammar s a -> hash_in_plurals_only a -> own_branches a -> categories_covered fe (locale t) vals a ->
  formatter_try_new ic localiser_grammar fe reg t (locale t) s = Ok fm -> documented_text fe reg (locale t) vals a w ->
  exists n, forall fuel, n <= fuel -> string_gives (system E p ic fe reg locale script fuel) vals s t w.
Proof.
  intros E p ic fe reg locale script s t a fm vals w Hic Ha Hh Ho Hc Hb Hw.
  destruct (proj2 (format_documented ic fe reg t (locale t) s a fm fm vals w Ha Hh Ho Hc Hb (af_fresh _ _ _)) Hw) as (n & Hn & _). exists n. intros fuel Hle.
  apply sg_format with fm; [exact (built_syntax (system E p ic fe reg locale script fuel) Hic t s fm Hb) | exact Hb|].
  exact (format_more n fuel fe reg fm vals (Ok w) Hle Hn ltac:(discriminate)).
Qed.
Print Assumptions C53_text_plain.
Print Assumptions C53_text_escaped.
Print Assumptions C53_text_placeholders.
Print Assumptions C53_text_documented_partial.

(** A string that is not stored for the language asked for, nor for an ancestor: with fallback on, the string stored for the
    default language of the component is returned. *)
Theorem C53_fallback : forall E es p ic fe reg locale script fuel c i t cd r st ca h,
  let L := system E p ic fe reg locale script fuel in
  database_fine E es p -> icu_ok ic -> pe_canon E t = Some t -> (forall d, source p c d -> no_level d c i t false) ->
  result E p h (CallComponent c) = Ok (AnComponent cd) -> translated E p c i (cd_default cd) r ->
  uncached_result L st (CallLiteral c i t (Some true) ca) = Some (Ok (pr_string r, cd_default cd)) /\
  uncached_result L st (CallLiteral c i t (Some false) ca) = Some (Err (LStringNotFound c i t false)) /\
  forall vals w, string_gives L vals (pr_string r) (cd_default cd) w ->
    uncached_result L st (CallFormat c i vals t (Some true) ca) = Some (Ok (w, cd_default cd)).
Proof.
  intros E es p ic fe reg locale script fuel c i t cd r st ca h L Hdb Hic Hct Hno Hcd Htr.
  assert (Hk : known p c) by apply (tr_known _ _ _ _ _ _ Htr). pose proof (made_ok es p (df_made _ _ _ Hdb)) as Hp.
  assert (Hn : pv_string (le_provider L) c i t = Ok None).
  { unfold L. rewrite (sqlite_canonical E p ic fe reg locale script fuel c i t Hct).
    destruct (one_string_answer E p Hp (df_env _ _ _ Hdb) false c i t Hk (df_wildcard _ _ _ Hdb t Hct)) as (o & Ho & Ha). unfold string_. rewrite Ho.
    destruct o as [x|]; [exfalso|reflexivity]. destruct Ha as (d & a & r' & Ha & _). destruct Ha as [(Hs & Ha)|(_ & Hs & Ha)];
      destruct Ha as (A1 & A2 & A3 & _); (eapply (Hno d); [|exact A1|exact A2|exact A3]); [left | right]; exact Hs. }
  assert (Hd : pv_default (le_provider L) c = Ok (cd_default cd)).
  { rewrite (result_component E p Hp) in Hcd. apply bind_Ok in Hcd. destruct Hcd as (cd' & Hv & [= ->]). cbn. unfold value in Hv. rewrite Hv. reflexivity. }
  assert (Hf : found L c i t true (pr_string r) (cd_default cd)).
  { destruct (translated_found E es p Hdb ic fe reg locale script fuel c i (cd_default cd) r false Htr) as [H|d H Hb _ _]; [|discriminate Hb].
    exact (fd_default L c i t true _ _ (cd_default cd) Hn eq_refl Hd H). }
  rewrite !uncached_pure. cbn [pure_call unwrap_or]. split; [|split].
  - f_equal. apply find_string_iff. exact Hf.
  - f_equal. unfold find_string. rewrite Hn. reflexivity.
  - intros vals w Hw. rewrite uncached_pure. cbn [pure_call unwrap_or]. f_equal. apply pure_format_iff; [exact Hic|]. exists (pr_string r). split; [exact Hf | exact Hw].
Qed.
Print Assumptions C53_fallback.

(** ** Examples *)
Example C53_example :
  let h := [CallFormat (us "app") (us "greet") bob (us "en") None None; CallLiteral (us "app") (us "bye") (us "fr") None None] in
  sys_after h (CallFormat (us "app") (us "greet") [(us "name", VString (us "Ann"))] (us "en") None None) = Some (Ok (us "Hello Ann!", us "en")) /\
  sys_after h (CallFormat (us "app") (us "greet") bob (us "en-ZA") None None) = Some (Ok (us "Howzit Bob", us "en-ZA")) /\
  sys_after h (CallFormat (us "app") (us "esc") bob (us "en") None None) = Some (Ok (us "{name}", us "en")) /\
  sys_after [] (CallFormat (us "app") (us "esc") bob (us "ja") None None) = Some (Ok (us "{name}", us "en")).
Proof. vm_compute. repeat split. Qed.
Definition dir_count : list entry := [file "app"
  [row "app" "count" "en" "{n plural one#one other#other}#{one one file}{other # files}"] [wrote "app" "en" "Ann"] [main "app" "en"]].
Example C53_example_plural :
  let L := system env_sys (prov dir_count) icu_ex env_ex reg_ex (fun t => t) (fun _ => None) 8 in
  snd (lstep L (localiser_new L true true (us "en")) (CallFormat (us "app") (us "count") [(us "n", VUnsigned 3)] (us "en-GB") None None)) = Some (Ok (us "3 files", us "en")).
Proof. vm_compute. reflexivity. Qed.

(** The conditions of the theorems hold of the example. *)
Definition sys_rows : list prow := match en_db (hd (mk_entry None None) dir_sys) with Some d => db_pattern d | None => [] end.
Definition row_clear (i t s : ustr) (r : prow) : bool :=
  implb (ueqb (pr_identifier r) i) (implb (like (t ++ [ch "%"]) (pr_tag r)) (ueqb (firstn (List.length t) (pr_tag r)) t) && implb (ueqb (pr_tag r) t) (ueqb (pr_string r) s)).
Lemma sys_translated i t s : In (mk_prow (us "app") i t s) sys_rows -> forallb tag_char t = true -> t <> [] -> forallb (row_clear i t s) sys_rows = true ->
  translated env_sys prov_sys (us "app") i t (mk_prow (us "app") i t s).
Proof.
  intros Hin Htag Hne Hall.
  assert (Hsrc : forall d, source prov_sys (us "app") d -> db_pattern d = sys_rows).
  { unfold sys_rows. intros d [(f & v & _ & Hd)|(f & v & _ & Hd)]; apply sys_connection in Hd as (_ & <-); reflexivity. }
  assert (Hsrc' : forall d, source prov_sys (us "app") d -> Some d = en_db (hd (mk_entry None None) dir_sys)).
  { intros d [(f & v & _ & Hd)|(f & v & _ & Hd)]; apply sys_connection in Hd; apply Hd. }
  assert (Hcan : pe_canon env_sys t = Some t) by (cbn [pe_canon env_sys]; unfold canon_sys; rewrite Htag; reflexivity).
  assert (Hw : no_wildcard t) by (apply (df_wildcard _ _ _ sys_fine); exact Hcan).
  assert (Hclear : forall r, In r sys_rows -> pr_identifier r = i ->
    (like (t ++ [ch "%"]) (pr_tag r) = true -> firstn (List.length t) (pr_tag r) = t) /\ (pr_tag r = t -> pr_string r = s)).
  { intros r Hr <-. apply (proj1 (forallb_forall _ _) Hall) in Hr. unfold row_clear in Hr. rewrite ueqb_refl in Hr. cbn [implb] in Hr.
    apply Bool.andb_true_iff in Hr. destruct Hr as (Hr1 & Hr2). split.
    - intros Hl. rewrite Hl in Hr1. apply ueqb_eq. exact Hr1.
    - intros Ht. rewrite Ht, ueqb_refl in Hr2. apply ueqb_eq. exact Hr2. }
  split.
  - vm_compute. left. reflexivity.
  - intros d d' H1 H2. apply Hsrc' in H1, H2. congruence.
  - assert (Hex : exists d, source prov_sys (us "app") d) by (eexists; right; exists false, (us "1.0"); split; vm_compute; reflexivity).
    destruct Hex as (d & Hd). exists d. split; [exact Hd|]. split; [rewrite (Hsrc d Hd); exact Hin | repeat split].
  - intros d r' Hs (H1 & H2 & H3 & H4). rewrite (Hsrc d Hs) in H1. exact (proj2 (Hclear r' H1 H3) (eq_sym H4)).
  - intros f one exact ps l. apply sys_sorted.
  - intros d r' Hs (H1 & H2 & H3 & H4). rewrite (Hsrc d Hs) in H1. exists (skipn (List.length t) (pr_tag r')).
    pose proof (proj1 (Hclear r' H1 H3) (proj2 (like_prefix t Hw (pr_tag r')) H4)) as Hfn. rewrite <- Hfn at 1. symmetry. apply firstn_skipn.
  - split; [exact Hne | exact Hcan].
Qed.
Lemma sys_hash : stored_hash_ok icu_ex prov_sys.
Proof.
  intros r a (n & d & v & Hd & Hr) Ha. apply sys_connection in Hd as (_ & [= ->]). apply (no_hash_in_plurals _ _ _ _) with (2 := Ha).
  intros Hh. cbn in Hr. repeat (destruct Hr as [<-|Hr]; [vm_compute in Hh; intuition discriminate|]). destruct Hr.
Qed.
Example C53_applies : exists r, pr_string r = us "Hello {name}!" /\
  snd (lstep sys_ex (lrun sys_ex sys_start [CallFormat (us "app") (us "greet") bob (us "en") None None; CallLiteral (us "app") (us "bye") (us "fr") None None])
    (CallFormat (us "app") (us "greet") [(us "name", VString (us "Ann"))] (us "en") None None)) = Some (Ok (us "Hello Ann!", us "en")).
Proof.
  assert (H1 : translated env_sys prov_sys (us "app") (us "greet") (us "en") (row "app" "greet" "en" "Hello {name}!")).
  { apply sys_translated; [unfold sys_rows; cbn; right; left; reflexivity | reflexivity | discriminate | vm_compute; reflexivity]. }
  assert (H2 : translated env_sys prov_sys (us "app") (us "bye") (us "fr") (row "app" "bye" "fr" "Salut")).
  { apply sys_translated; [unfold sys_rows; cbn; right; right; right; left; reflexivity | reflexivity | discriminate | vm_compute; reflexivity]. }
  exists (row "app" "greet" "en" "Hello {name}!"). split; [reflexivity|].
  apply (C53_stored_partial env_sys dir_sys prov_sys icu_ex env_ex [(us "file_path", file_path)] (fun t => t) (fun _ => None) 8 true true (us "en") _ (us "app") (us "greet") (us "en") None None _
    sys_fine icu_ex_ok sys_hash H1).
  - apply (C53_text_placeholders perror sys_ex [(us "name", VString (us "Ann"))] (mk_dstr (us "Hello ") [(DPlace (us "name") None, us "!")]) (us "en")).
    + exact icu_ex_ok.
    + cbn. lia.
    + apply mainb_ok. vm_compute. reflexivity.
    + vm_compute. constructor; [intros [] | constructor].
    + repeat constructor.
    + discriminate.
    + vm_compute. reflexivity.
  - match goal with |- harmless ?L ?rs => remember rs as q eqn:Eq end. vm_compute in Eq. subst q. split; [|split].
    + intros q [<-|[<-|[<-|[]]]] H; vm_compute in H; intuition discriminate.
    + intros q q' s t' Hq Hq' K1 K2 K3 K4 _. exfalso. destruct Hq as [<-|[<-|[<-|[]]]], Hq' as [<-|[<-|[<-|[]]]]; discriminate.
    + intros q q' Hq Hq' _ _ _ H. destruct Hq as [<-|[<-|[<-|[]]]]; vm_compute in H; discriminate.
  - match goal with |- all_translated _ _ ?rs => remember rs as q eqn:Eq end. vm_compute in Eq. subst q.
    intros q [<-|[<-|[<-|[]]]]; eexists; [exact H1 | exact H2 | exact H1].
Qed.
