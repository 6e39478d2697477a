(** The tests that come with the library, with the model in place of the program: crates/lexer/tests/tokenise.rs,
    crates/utility/src/language.rs 400-470, crates/utility/src/tagged_string.rs 110-135, crates/provider/sqlite3/tests/sqlite3.rs,
    crates/localiser/tests/localiser.rs, and the example of crates/localiser/src/command.rs 12-33. No property rests on this
    file; it compares the model with what the authors of the library saw it do. *)
From Verif Require Import Base LexerModel ValueModel CommandModel FormatterModel RegistryModel ProviderModel LocaliserModel SystemModel
  ErrorModel L10nData IcuExample FmtExample.

Definition map_outcome {E A B} (f : A -> B) (x : outcome E A) : outcome E B := let! a := x in Ok (f a).

(** ** crates/lexer/tests/tokenise.rs *)
(** A segmenter that knows that the final consonant U+11A8 belongs to the syllable before it. *)
Definition syllable_breaks (s : ustr) : nat := S (List.length (filter (fun c => negb (c =? 4520)%N) s)).
Definition icu_tests : icu := mk_icu pattern_white_space pattern_syntax syllable_breaks.
Definition totals (ts : list token) : list nat :=
  let number ty := List.length (filter (fun t => ttype_eqb (t_type t) ty) ts) in
  [list_sum (map t_length_bytes ts); list_sum (map t_length_characters ts); list_sum (map t_length_graphemes ts); List.length ts;
   number TGrammar; number TSyntax; number TWhiteSpace; number TIdentifier].
(** 20-62 *)
Example tokenise_single_byte_character_string :
  map_outcome totals (tokenise icu_tests (us "String contains a {placeholder}.") (us "{}")) = Ok [32; 32; 32; 10; 2; 1; 3; 4].
Proof. vm_compute. reflexivity. Qed.
(** 64-107 *)
Example tokenise_multi_byte_character_string :
  map_outcome totals (tokenise icu_tests (us "Earth = " ++ [127757%N] ++ us ". " ++ [44032; 4520]%N) (us "{}")) =
    Ok [20; 13; 12; 8; 0; 2; 3; 3].
Proof. vm_compute. reflexivity. Qed.

(** ** crates/utility/src/language.rs *)
(** What ICU makes of the tags of the tests. *)
Definition canon_tests (s : ustr) : option ustr :=
  if ueqb s (us "en_ZA") then Some (us "en-ZA") else if ueqb s (us "hnfg_lku") then None else Some s.
Definition locid_tests : locid := mk_locid canon_tests canon_tests.
Definition registry_tests : lregistry := fst (tag locid_tests lreg_new (us "en_ZA")).
(** 410-418 *)
Example tests_tag : map_outcome r_tag (snd (tag locid_tests lreg_new (us "en_ZA"))) = Ok (us "en-ZA").
Proof. vm_compute. reflexivity. Qed.
(** 420-431 *)
Example tests_icu_language : exists t, snd (tag locid_tests lreg_new (us "en_ZA")) = Ok t /\
  map_outcome r_tag (snd (icu_language locid_tests registry_tests t)) = Ok (us "en-ZA").
Proof. eexists. split; vm_compute; reflexivity. Qed.
(** 433-459 *)
Example tests_lists : List.length (list_tags registry_tests) = 1 /\ List.length (list_all registry_tests) = 2 /\
  List.length (list_deprecated registry_tests) = 1.
Proof. vm_compute. repeat split. Qed.
(** 461-469 *)
Example tests_invalid_tag : snd (tag locid_tests lreg_new (us "hnfg_lku")) = Err IcuLocid.
Proof. vm_compute. reflexivity. Qed.

(** ** crates/provider/sqlite3/tests/sqlite3.rs *)
Definition env_tests : penv := mk_penv canon_tests (fun _ _ _ => true) (fun _ _ _ l => l) (fun _ _ _ l => l) (fun _ _ _ l => l).
Definition opened (es : list entry) : sprovider :=
  match provider_try_new (fun _ => true) es with Ok p => p | _ => mk_sprovider [] [] end.
(** The files of crates/provider/sqlite3/l10n. *)
Definition provider_tests : sprovider := opened [sqlite3_file; application_file; aio_file].
Definition path_conversion : ustr := us "Conversion to {`PathBuf`} error.".
Definition asked (c : pcall) : pout panswer := snd (pcall_run env_tests provider_tests c pstate_new).
Example tests_opened : exists p, provider_try_new (fun _ => true) [sqlite3_file; application_file; aio_file] = Ok p.
Proof. eexists. vm_compute. reflexivity. Qed.
(** 20-33, with the tag of crates/provider/sqlite3/src/provider.rs 73 *)
Example strings_for_en : asked (CallStrings (us "i18n_provider_sqlite3") (us "path_conversion") (us "en")) =
  Ok (AnStrings [(path_conversion, us "en-ZA")]).
Proof. vm_compute. reflexivity. Qed.
(** 55-64 *)
Example strings_for_qz : asked (CallStrings (us "i18n_provider_sqlite3") (us "path_conversion") (us "qz")) = Ok (AnStrings []).
Proof. vm_compute. reflexivity. Qed.
(** 66-79 *)
Example one_string_en : asked (CallString (us "i18n_provider_sqlite3") (us "path_conversion") (us "en")) =
  Ok (AnString (Some (path_conversion, us "en-ZA"))).
Proof. vm_compute. reflexivity. Qed.
(** 81-94 *)
Example exact_string : asked (CallExact (us "i18n_provider_sqlite3") (us "path_conversion") (us "en-ZA")) =
  Ok (AnString (Some (path_conversion, us "en-ZA"))).
Proof. vm_compute. reflexivity. Qed.
(** 96-105 *)
Example exact_string_fail : asked (CallExact (us "i18n_provider_sqlite3") (us "path_conversion") (us "en")) = Ok (AnString None).
Proof. vm_compute. reflexivity. Qed.
(** 107-117 *)
Example tests_identifier_details : exists d, asked (CallIdentifier (us "application") (us "example")) = Ok (AnIdentifier d) /\
  id_default d = us "en-US" /\ List.length (id_languages d) = 2.
Proof. eexists. split; [vm_compute; reflexivity|]. vm_compute. repeat split. Qed.
(** 119-132 *)
Example tests_component_details : exists d, asked (CallComponent (us "i18n_provider_sqlite3")) = Ok (AnComponent d) /\
  cd_default d = us "en-ZA" /\ List.length (cd_languages d) = 2 /\ cd_total d = 26%N.
Proof. eexists. split; [vm_compute; reflexivity|]. vm_compute. repeat split. Qed.
(** 134-163 *)
Example tests_repository_details : exists d, asked CallRepository = Ok (AnRepository d) /\
  rd_default d = Some (us "en-US") /\ List.length (rd_languages d) = 3 /\ rd_total d = 30%N /\
  List.length (rd_components d) = 2 /\ List.length (rd_contributors d) = 2.
Proof. eexists. split; [vm_compute; reflexivity|]. vm_compute. repeat split. Qed.

(** ** crates/localiser/tests/localiser.rs *)
(** The file of crates/localiser/l10n; no commands. *)
Definition system_tests : lenv perror := system env_tests (opened [localiser_file]) icu_tests env_ex [] (fun t => t) (fun _ => None) 8.
Definition localiser_tests : lstate := localiser_new system_tests true true (us "en-ZA").
Definition text (c : lcall) : option ustr :=
  match snd (lstep system_tests localiser_tests c) with Some (Ok (s, _)) => Some s | _ => None end.
Definition string_value (n s : string) : ustr * pvalue := (us n, VString (us s)).
Definition values_tests : amap pvalue :=
  [string_value "component" "i18n_localiser"; string_value "identifier" "string_not_found"; string_value "language_tag" "en-ZA";
   string_value "fallback" "true"].
Definition not_found_text : ustr :=
  u8 "No string was found for the component ‘i18n_localiser’ with identifier ‘string_not_found’ for the language tag ‘en-ZA’. Fallback was used: True.".
Definition cache_entry_pattern : ustr :=
  u8 "Unable to get the string for the component ‘{component}’ with the identifier ‘{identifier}’ as the cache entry requires values for formatting.".
(** 21-68 *)
Example tests_format : text (CallFormat (us "i18n_localiser") (us "string_not_found") values_tests (us "en-ZA") None None) = Some not_found_text.
Proof. vm_compute. reflexivity. Qed.
(** 70-104 *)
Example tests_format_with_defaults :
  text (CallFormatDefaults (us "i18n_localiser") (us "cache_entry")
    [string_value "component" "i18n_localiser"; string_value "identifier" "cache_entry"]) =
  Some (u8 "Unable to get the string for the component ‘i18n_localiser’ with the identifier ‘cache_entry’ as the cache entry requires values for formatting.").
Proof. vm_compute. reflexivity. Qed.
(** 106-165 *)
Example tests_literal : text (CallLiteral (us "i18n_localiser") (us "cache_entry") (us "en-ZA") None None) = Some cache_entry_pattern /\
  text (CallLiteralDefaults (us "i18n_localiser") (us "cache_entry")) = Some cache_entry_pattern.
Proof. vm_compute. repeat split. Qed.
(** 167-268 *)
Example tests_format_localisation_data :
  let data := LData (us "i18n_localiser") (us "string_not_found") (Some values_tests) in
  text (CallData data (us "en-ZA") None None) = Some not_found_text /\ text (CallDataDefaults data) = Some not_found_text.
Proof. vm_compute. repeat split. Qed.
(** 270-340 *)
Example tests_format_error :
  let data := error_data (XLocaliser (LeStringNotFound (us "application") (us "not_exists") (us "en-ZA") false)) in
  let expected := u8 "LocaliserError::StringNotFound: ‘No string was found for the component ‘application’ with identifier ‘not_exists’ for the language tag ‘en-ZA’. Fallback was used: False.’." in
  text (CallData data (us "en-ZA") None None) = Some expected /\ text (CallDataDefaults data) = Some expected.
Proof. vm_compute. repeat split. Qed.

(** ** crates/localiser/src/command.rs 12-33 *)
Example command_registry : let registry := fst (creg_insert creg_new (us "file_path") file_path) in
  snd (creg_insert creg_new (us "file_path") file_path) = Ok tt /\ List.length (creg_list registry) = 1 /\
  exists f, creg_command registry (us "file_path") = Ok f /\
    f [VString (us "file_path"); VString (us "tests/command.rs")] = Ok (us "tests/command.rs").
Proof. split; [vm_compute; reflexivity|]. split; [vm_compute; reflexivity|]. eexists. split; [vm_compute; reflexivity|vm_compute; reflexivity]. Qed.
