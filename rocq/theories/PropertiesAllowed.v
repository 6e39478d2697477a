(** C116: a text has no characters but those of the strings stored and of what is supplied for it. *)
From Verif Require Import Base BaseFacts LexerModel LexerSpec IcuExample TreeModel TreeSpec ValueModel CommandModel IsoModel FormatterModel FormatterSpec FmtExample
  RegistryModel ProviderModel ProviderSpec LocaliserModel LocaliserSpec LocaliserProofs SystemModel SystemSpec SystemProofs SettleSpec SyncModel SyncSpec
  InterfereSpec AllowedSpec AllowedProofs AllowedProofs2
  PropertiesFormatter PropertiesLocaliser PropertiesSystem ProviderSyncModel WholeModel WholeSpec PropertiesWhole PropertiesInterfere.

(** Whatever was asked for before, with whatever values: if the strings of the provider, numerals, dates and times, the answers of
    commands and the values of this call have only characters of a set, so has the text of this call. *)
Theorem C116_calls : forall P PE (E : lenv PE) fallback caching tag h c, surroundings_allowed P E -> call_allowed P c ->
  result_allowed P (snd (lstep E (lrun E (localiser_new E fallback caching tag) h) c)).
Proof. intros P PE E fb ca tag h c HA. exact (calls_allowed P E HA fb ca tag h c). Qed.
Print Assumptions C116_calls.

(** So each character of a text has an origin, without any condition: a string of the provider, a text given to this very call, a
    numeral, a date or time, or the answer of a command. *)
Definition given (c : lcall) (x : ustr) : Prop :=
  match c with
  | CallFormat _ _ vals _ _ _ | CallFormatDefaults _ _ vals => exists ph v, mget ph vals = Some v /\ text_in v x
  | CallData d _ _ _ | CallDataDefaults d => text_in (VData d) x
  | CallLiteral _ _ _ _ _ | CallLiteralDefaults _ _ | CallDefaults _ _ _ => False
  end.
Theorem C116_origin : forall PE (E : lenv PE) fallback caching tag h c x t u,
  snd (lstep E (lrun E (localiser_new E fallback caching tag) h) c) = Some (Ok (x, t)) -> In u x ->
  (exists comp i l s l', pv_string (le_provider E) comp i l = Ok (Some (s, l')) /\ In u s) \/
  (exists y, given c y /\ In u y) \/
  (exists locale y, numeral (le_fmt E) locale y /\ In u y) \/
  (exists locale m y, shown (le_fmt E) locale m y /\ In u y) \/
  (exists name f ps y, mget name (le_reg E) = Some f /\ f ps = Ok y /\ In u y).
Proof.
  intros PE E fb ca tag h c x t u Hx. revert u. apply Forall_forall. refine (C116_calls _ PE E fb ca tag h c _ _ x t Hx).
  - constructor.
    + intros comp i l s l' H. apply Forall_forall. intros u Hu. left. exists comp, i, l, s, l'. auto.
    + intros locale y H. apply Forall_forall. intros u Hu. right. right. left. exists locale, y. auto.
    + intros locale m y H. apply Forall_forall. intros u Hu. right. right. right. left. exists locale, m, y. auto.
    + intros name f ps y H _ Hy. apply Forall_forall. intros u Hu. right. right. right. right. exists name, f, ps, y. auto.
  - destruct c; cbn [call_allowed]; try exact Logic.I.
    1, 2: intros ph v Hv y Hy; apply Forall_forall; intros u Hu; right; left; exists y; split; [exists ph, v; auto|exact Hu].
    1, 2: intros y Hy; apply Forall_forall; intros u Hu; right; left; exists y; split; [exact Hy|exact Hu].
Qed.
Print Assumptions C116_origin.

(** The same of threads, under every schedule; the other threads may be given anything. *)
Theorem C116_threads : forall P PE (E : lenv PE) fallback caching tag h calls sch c r, surroundings_allowed P E -> call_allowed P c ->
  returned (sys_run E (SyncModel.sys_start (lrun E (localiser_new E fallback caching tag) h) calls) sch) c r -> result_allowed P r.
Proof.
  intros P PE E fb ca tag h calls sch c r HA Hc (th & Hth & Hd). exact (threads_allowed P E HA fb ca tag h calls sch th c r Hth Hd Hc).
Qed.
Print Assumptions C116_threads.

(** The commands of the library bring in no characters but those of "an". *)
Theorem C116_built_in : forall (P : N -> Prop) f ps x, f = english_a_or_an \/ f = file_path -> P (ch "a") -> P (ch "n") ->
  Forall (value_allowed P) ps -> f ps = Ok x -> allowed P x.
Proof.
  intros P f ps x Hf Ha Hn Hp Hx. assert (Hpar : forall s, command_parameter ps = Ok s -> allowed P s).
  { intros s H. unfold command_parameter in H. destruct ps as [|v ps]; [discriminate H|]. destruct v; try discriminate H. destruct ps as [|v ps]; [discriminate H|]. destruct v; try discriminate H.
    injection H as <-. inversion Hp as [|? ? _ Hp1]; subst. inversion Hp1 as [|? ? Hv _]; subst. apply Hv. now constructor. }
  destruct Hf as [-> | ->]; [|exact (Hpar x Hx)]. unfold english_a_or_an in Hx. destruct (command_parameter ps) as [s| | |]; try discriminate Hx. cbn [bind] in Hx.
  destruct s as [|u s]; [discriminate Hx|]. cbn [hd_error unwrap bind] in Hx. destruct (existsb (N.eqb u) (us "aeiou")); injection Hx as <-; repeat constructor; assumption.
Qed.
Print Assumptions C116_built_in.

(** With the sqlite3 provider: what counts is the rows stored; alone, and for threads over the provider with all steps of all calls,
    whether SQLite fails or not. *)
Theorem C116_system : forall P E es p ic fe reg locale script fuel fallback caching tag h,
  let L := system E p ic fe reg locale script fuel in let st := lrun L (localiser_new L fallback caching tag) h in
  database_fine E es p -> (forall r, stored_row p r -> allowed P (pr_string r)) ->
  (forall loc x, numeral fe loc x -> allowed P x) -> (forall loc m x, shown fe loc m x -> allowed P x) ->
  (forall name f ps x, mget name reg = Some f -> Forall (value_allowed P) ps -> f ps = Ok x -> allowed P x) ->
  (forall c, call_allowed P c -> result_allowed P (snd (lstep L st c))) /\
  (forall calls evs c r, call_allowed P c -> came_back (whole_run E p L (whole_start st calls) evs) c r -> result_allowed P r).
Proof.
  intros P E es p ic fe reg locale script fuel fb ca tag h L st Hdb Hs Hn Hm Hc.
  assert (HA : surroundings_allowed P L).
  { constructor; [|exact Hn|exact Hm|exact Hc]. intros c i t s t' H. destruct (sqlite_stored E es p Hdb ic fe reg locale script fuel c i t s t' H) as (r & Hr & <- & _). exact (Hs r Hr). }
  split; [intros c Hca; exact (C116_calls P perror L fb ca tag h c HA Hca)|].
  intros calls evs c r Hca Hb. destruct (C111_failing E es p ic fe reg locale script fuel st calls evs (df_made _ _ _ Hdb)) as (calls' & sch & _ & _ & H).
  destruct (H c r Hb) as [Hr|(-> & _)]; [exact (C116_threads P perror L fb ca tag h calls' sch c r HA Hca Hr)|]. intros x t [=].
Qed.
Print Assumptions C116_system.

(** *** Examples: no character [<] *)
Definition no_angle (u : N) : Prop := u <> ch "<".
Definition no_angles (s : ustr) : bool := forallb (fun u => negb (u =? ch "<")%N) s.
Lemma no_angles_allowed s : no_angles s = true -> allowed no_angle s.
Proof.
  intros H. apply Forall_forall. intros u Hu ->. unfold no_angles in H. rewrite forallb_forall in H. specialize (H _ Hu). vm_compute in H. discriminate H.
Qed.
Lemma digits_allowed fuel : forall n, allowed no_angle (digits fuel n).
Proof.
  assert (Hd : forall m, (m < 10)%N -> no_angle (48 + m)%N) by (intros m Hm H; change (ch "<") with 60%N in H; lia).
  induction fuel as [|fuel IH]; intros n; cbn [digits]; [constructor|]. destruct (N.ltb_spec n 10) as [Hn|Hn].
  - constructor; [now apply Hd|constructor].
  - apply Forall_app. split; [apply IH|]. constructor; [|constructor]. apply Hd. now apply N.mod_lt.
Qed.
Ltac pieces := repeat match goal with
  | |- allowed _ (_ ++ _) => apply Forall_app; split
  | |- Forall _ (_ ++ _) => apply Forall_app; split
  | |- context [if ?b then _ else _] => destruct b
  end; try apply digits_allowed; try (apply no_angles_allowed; reflexivity).
Definition strings_safe : list (ustr * ustr) :=
  [(us "stale", stale); (us "greet", us "Hello {name}!"); (us "fruit", us "{#english_a_or_an# x} {x}"); (us "dogs", us "{n plural one#one other#other}#{one # dog}{other # dogs}")].
Definition loc_safe : lenv unit := mk_lenv icu_ex env_ex reg_ex (fun t => t)
  (mk_provider (fun _ i t => Ok (match mget i strings_safe with Some s => Some (s, t) | None => None end)) (fun _ => Ok (us "en"))) (fun _ => None) 8.
Lemma date_allowed d : allowed no_angle (show_date d).
Proof. unfold show_date, show_N. pieces. Qed.
Lemma time_allowed t : allowed no_angle (show_time t).
Proof. unfold show_time, show_N. pieces. Qed.
Lemma safe_allowed : surroundings_allowed no_angle loc_safe.
Proof.
  constructor.
  - intros c i t s t' H. change (Ok (match mget i strings_safe with Some s => Some (s, t) | None => None end) = Ok (E := unit) (Some (s, t'))) in H. destruct (mget i strings_safe) as [s0|] eqn:Es; [|discriminate H]. injection H as <- _. apply no_angles_allowed.
    apply mget_In in Es. assert (K : forallb (fun x => no_angles (snd x)) strings_safe = true) by (vm_compute; reflexivity). rewrite forallb_forall in K. exact (K _ Es).
  - intros locale x (f & dec & Hf & ->). cbn in Hf. injection Hf as <-. unfold show_decimal, show_N. pieces.
  - intros locale [d|t|d t] x (f & Hf & Hx).
    + change (Some (fun d => Some (show_date d)) = Some f) in Hf. assert (Ef : f = fun d => Some (show_date d)) by congruence. rewrite Ef in Hx. assert (Ex : x = show_date d) by congruence.
      rewrite Ex. apply date_allowed.
    + change (Some show_time = Some f) in Hf. assert (Ef : f = show_time) by congruence. rewrite Ef in Hx. rewrite <- Hx. apply time_allowed.
    + change (Some (fun d t => Some (show_date d ++ us " " ++ show_time t)) = Some f) in Hf. assert (Ef : f = fun d t => Some (show_date d ++ us " " ++ show_time t)) by congruence. rewrite Ef in Hx.
      assert (Ex : x = show_date d ++ us " " ++ show_time t) by congruence. rewrite Ex. apply Forall_app. split; [apply date_allowed|]. apply Forall_app. split; [now apply no_angles_allowed|apply time_allowed].
  - intros name f ps x Hf. apply C116_built_in; [|intros H; vm_compute in H; discriminate H|intros H; vm_compute in H; discriminate H].
    change (mget name reg_ex = Some f) in Hf. apply mget_In in Hf. destruct Hf as [Hf|[Hf|[]]]; [left|right]; congruence.
Qed.
(** Earlier calls are given [<b>], also in data and as a number for a number sign that is seen later. The later ones do not show it. *)
Definition greets_safe (n : string) : lcall := CallFormatDefaults (us "app") (us "greet") [(us "name", VString (us n))].
Definition fruit_safe (n : string) : lcall := CallDataDefaults (LData (us "app") (us "greet") (Some [(us "name", VData (LData (us "app") (us "fruit") (Some [(us "x", VString (us n))])))])).
Example C116_example :
  let st := lrun loc_safe (localiser_new loc_safe true true (us "en")) [greets_safe "<b>"; fruit_safe "<b>"; count (us "stale") 1] in
  surroundings_allowed no_angle loc_safe /\
  call_allowed no_angle (fruit_safe "apple") /\ snd (lstep loc_safe st (fruit_safe "apple")) = Some (Ok (us "Hello an apple!", us "en")) /\
  call_allowed no_angle (count (us "stale") 5) /\ snd (lstep loc_safe st (count (us "stale") 5)) = Some (Ok (us "o x 1 y", us "en")) /\
  ~ call_allowed no_angle (fruit_safe "<b>") /\ snd (lstep loc_safe st (fruit_safe "<b>")) = Some (Ok (us "Hello a <b>!", us "en")).
Proof.
  cbv zeta. split; [exact safe_allowed|]. split; [|split; [vm_compute; reflexivity|split; [|split; [vm_compute; reflexivity|split; [|vm_compute; reflexivity]]]]].
  - intros x Hx. inversion Hx as [? ? H|? ? ? ? v ? Hi H]; subst; [discriminate H|]. destruct Hi as [[= _ <-]|[]].
    inversion H as [? ? H0|? ? ? ? v ? Hi H0]; subst; [discriminate H0|]. destruct Hi as [[= _ <-]|[]]. inversion H0 as [? ? H1|]; subst. injection H1 as <-. now apply no_angles_allowed.
  - intros ph v Hv x Hx. cbn [count] in Hv. apply mget_In in Hv. destruct Hv as [[= _ <-]|[[= _ <-]|[]]]; inversion Hx as [? ? H|]; subst; [discriminate H|]. injection H as <-. now apply no_angles_allowed.
  - intros H. assert (K : allowed no_angle (us "<b>")) by (apply H; eapply ti_data; [now left|]; eapply ti_data; [now left|]; now constructor).
    inversion K as [|u l Hu _]; subst. now apply Hu.
Qed.
