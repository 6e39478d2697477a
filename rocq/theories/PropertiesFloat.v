(** Property C80: the ratios of the statistics, as numbers of type [f32]. *)
From Coq Require Import SpecFloat QArith Qabs.
From Verif Require Import Base BaseFacts ProviderModel ProviderSpec ProviderProofs ProviderProofs7 ProviderProofs8 PropertiesProvider
  FloatModel FloatSpec FloatProofs RatioProofs.

(** What is expected of the ratio [r] of a language with [n] strings where the default language has [d]: it is a number; it is
    zero just if there are no strings, and one for equal numbers; it is not above (below) one if there are not more (fewer)
    strings; it is within one part in 2^22 of the quotient, and nearest to it among the numbers of the type if both counts
    are below 2^24. *)
Definition ratio_fits (n d : N) (r : spec_float) : Prop := exists q, is_number r q /\ in_f32 q /\
  (q == 0 <-> n = 0%N)%Q /\ (n = d -> q == 1)%Q /\ ((n <= d)%N -> q <= 1)%Q /\ ((d <= n)%N -> 1 <= q)%Q /\
  let exact := (inject_Z (Z.of_N n) / inject_Z (Z.of_N d))%Q in
  (Qabs (q - exact) <= exact * (1 # 2 ^ 22))%Q /\ ((n < 2 ^ 24)%N -> (d < 2 ^ 24)%N -> nearest exact q).
(** The numbers of [usize]. *)
Definition word (n : N) : Prop := (n < 2 ^ 64)%N.

(** In full: every ratio is a number. A component whose default language has a contributor but no strings has others. *)
Definition ratios_are_numbers : Prop := forall E es p h c cd t x, made es p -> order_ok E -> result E p h (CallComponent c) = Ok (AnComponent cd) ->
  mget t (cd_languages cd) = Some x -> exists q, is_number (f32_ratio (lg_ratio x)) q.
Definition empty_default : list entry :=
  [file "app" [row "app" "greet" "de" "Hallo"] [wrote "app" "en" "Ann"; wrote "app" "de" "Bo"] [main "app" "en"]].
Definition ratios_of (es : list entry) (c : ustr) : list (ustr * spec_float) :=
  match result env_stored (prov es) [] (CallComponent c) with
  | Ok (AnComponent cd) => map (fun x => (fst x, f32_ratio (lg_ratio (snd x)))) (cd_languages cd)
  | _ => []
  end.
Theorem C80_refuted : exists E es p h c cd t x, made es p /\ order_ok E /\ result E p h (CallComponent c) = Ok (AnComponent cd) /\
  mget t (cd_languages cd) = Some x /\ f32_ratio (lg_ratio x) = S754_nan /\ ~ exists q, is_number (f32_ratio (lg_ratio x)) q.
Proof.
  exists env_stored, empty_default, (prov empty_default), [], (us "app"). eexists. exists (us "en"). eexists. split; [apply prov_made; vm_compute; reflexivity|].
  split; [exact (proj1 (stored_fine (prov empty_default)))|]. split; [vm_compute; reflexivity|]. split; [vm_compute; reflexivity|]. split; [vm_compute; reflexivity|].
  vm_compute f32_ratio. intros (q & H). inversion H.
Qed.
Print Assumptions C80_refuted.
Example C80_refuted_example : ratios_of empty_default (us "app") = [(us "en", S754_nan); (us "de", S754_infinity false)].
Proof. vm_compute. reflexivity. Qed.

(** If the default language has a string, every ratio is as expected. *)
Theorem C80_component_partial : forall E es p h c cd t x, made es p -> order_ok E -> result E p h (CallComponent c) = Ok (AnComponent cd) ->
  mget t (cd_languages cd) = Some x -> (0 < stored p c (cd_default cd))%N -> word (stored p c (cd_default cd)) -> word (stored p c t) ->
  ratio_fits (stored p c t) (stored p c (cd_default cd)) (f32_ratio (lg_ratio x)).
Proof.
  intros E es p h c cd t x Hm Ho H Hx Hd Wd Wt. destruct (C38_component_partial E es p h c cd Hm Ho H) as (_ & _ & Hdata & _).
  destruct (Hdata t x Hx) as (_ & -> & _). exact (ratio_number _ _ Wt (conj Hd Wd)).
Qed.
Print Assumptions C80_component_partial.
(** A language with more strings has no smaller ratio. *)
Theorem C80_order : forall E es p h c cd t x t' x' q q', made es p -> order_ok E -> result E p h (CallComponent c) = Ok (AnComponent cd) ->
  mget t (cd_languages cd) = Some x -> mget t' (cd_languages cd) = Some x' ->
  (0 < stored p c (cd_default cd))%N -> word (stored p c (cd_default cd)) -> word (stored p c t') ->
  (stored p c t <= stored p c t')%N -> is_number (f32_ratio (lg_ratio x)) q -> is_number (f32_ratio (lg_ratio x')) q' -> (q <= q')%Q.
Proof.
  intros E es p h c cd t x t' x' q q' Hm Ho H Hx Hx' Hd Wd Wt Hle. destruct (C38_component_partial E es p h c cd Hm Ho H) as (_ & _ & Hdata & _).
  destruct (Hdata t x Hx) as (_ & -> & _). destruct (Hdata t' x' Hx') as (_ & -> & _). exact (ratio_mono _ _ _ _ _ Hle Wt (conj Hd Wd)).
Qed.
Print Assumptions C80_order.
Example C80_example : ratios_of dir_ex (us "app") =
  [(us "en", S754_finite false 8388608 (-23)); (us "en-ZA", S754_finite false 8388608 (-24)); (us "fr", S754_finite false 8388608 (-24));
   (us "en-GB", S754_finite false 8388608 (-24)); (us "de", S754_finite false 8388608 (-23))] /\
  (scaled 8388608 (-23) == 1)%Q /\ (scaled 8388608 (-24) == 1 # 2)%Q /\ f32_ratio (Some (1%N, 3%N)) = S754_finite false 11184811 (-25).
Proof. repeat split; vm_compute; reflexivity. Qed.

(** The ratios of the repository: all zero if there is no default language; else as expected, if it has a string. *)
Theorem C80_repository_partial : forall E es p h rd t x, made es p -> order_ok E -> result E p h CallRepository = Ok (AnRepository rd) ->
  mget t (rd_languages rd) = Some x ->
  (rd_default rd = None -> f32_ratio (lg_ratio x) = S754_zero false) /\
  forall d, rd_default rd = Some d -> exists y, mget d (rd_languages rd) = Some y /\
    ((0 < lg_count y)%N -> word (lg_count y) -> word (lg_count x) -> ratio_fits (lg_count x) (lg_count y) (f32_ratio (lg_ratio x))).
Proof.
  intros E es p h rd t x Hm Ho H Hx. split.
  - intros Hd. pose proof (made_ok es p Hm) as Hp. rewrite (result_repository E p Hp) in H. apply bind_Ok in H. destruct H as (rd' & Hrd & H).
    injection H as ->. destruct (repository_details_value E p Hp Ho rd Hrd) as (L & cds & Hv & _). unfold ProviderProofs.value in Hv.
    destruct (build_details E p pstate_new) as (st & r) eqn:Eb. cbn [snd] in Hv. subst r.
    rewrite (build_details_ratios E p _ _ _ Eb Hd t x Hx). reflexivity.
  - intros d Hd. destruct (C39_repository_partial E es p h rd Hm Ho H) as (cds & _ & _ & _ & _ & _ & _ & _ & _ & _ & _ & Hdata).
    destruct (Hdata t x Hx) as (_ & Hr & _). destruct (Hr d Hd) as (y & Hy & ->). exists y. split; [exact Hy|].
    intros Pd Wd Wx. exact (ratio_number _ _ Wx (conj Pd Wd)).
Qed.
Print Assumptions C80_repository_partial.
Definition app_dir : list entry :=
  [file "application" [row "application" "a" "en" "A"; row "application" "b" "en" "B"; row "application" "c" "en" "C"; row "application" "a" "de" "A"]
     [wrote "application" "en" "Ann"; wrote "application" "de" "Bo"] [main "application" "en"]].
Definition all_ratios (es : list entry) : list (ustr * spec_float) :=
  match result env_stored (prov es) [] CallRepository with
  | Ok (AnRepository rd) => map (fun x => (fst x, f32_ratio (lg_ratio (snd x)))) (rd_languages rd)
  | _ => []
  end.
Example C80_repository_example : all_ratios app_dir = [(us "en", S754_finite false 8388608 (-23)); (us "de", S754_finite false 11184811 (-25))] /\
  map snd (all_ratios dir_ex) = repeat (S754_zero false) 5.
Proof. split; vm_compute; reflexivity. Qed.
