{
 "claims": [
  {
   "property": "C01",
   "status": "proved",
   "theorems": [
    "C01_lossless"
   ],
   "note": ""
  },
  {
   "property": "C02",
   "status": "proved",
   "theorems": [
    "C02_homogeneous",
    "C02_class_functional"
   ],
   "note": ""
  },
  {
   "property": "C03",
   "status": "proved",
   "theorems": [
    "C03_unique",
    "C03_retokenise"
   ],
   "note": ""
  },
  {
   "property": "C04",
   "status": "partial",
   "theorems": [
    "C04_grapheme_positions_partial",
    "C04_total_partial",
    "C04_total_graphemes_refuted"
   ],
   "note": "Position law proved. The claim about the whole string is false when a cluster straddles two tokens (witness: full stop + U+0301); proved when no cluster straddles a boundary."
  },
  {
   "property": "C05",
   "status": "proved",
   "theorems": [
    "C05_construction",
    "C05_iteration",
    "C05_fused"
   ],
   "note": ""
  },
  {
   "property": "C06",
   "status": "partial",
   "theorems": [
    "C06_never_panics_refuted",
    "C06_panics_exactly_partial",
    "C06_no_hash_partial",
    "C06_terminates"
   ],
   "note": "False as stated (four witness strings panic). Proved: the exact set of token sequences that panic, absence of panics without a number sign, and termination for all strings."
  },
  {
   "property": "C07",
   "status": "proved",
   "theorems": [
    "C07_well_formed_tree"
   ],
   "note": ""
  },
  {
   "property": "C10",
   "status": "partial",
   "theorems": [
    "C10_literal_text_refuted",
    "C10_literal_always_rejected",
    "C10_literal_parameter_always_rejected"
   ],
   "note": "False: proved that every string with a literal text pattern in the main string is rejected, whatever precedes and follows it."
  },
  {
   "property": "C11",
   "status": "proved",
   "theorems": [
    "C11_unique_identifiers",
    "C11_duplicate_placeholder",
    "C11_duplicate_string"
   ],
   "note": ""
  },
  {
   "property": "C12",
   "status": "proved",
   "theorems": [
    "C12_unterminated_rejected",
    "C12_cut_strings"
   ],
   "note": ""
  },
  {
   "property": "C13",
   "status": "proved",
   "theorems": [
    "C13_shape",
    "C13_unambiguous",
    "C13_accepted_iff"
   ],
   "note": ""
  },
  {
   "property": "C14",
   "status": "partial",
   "theorems": [
    "C14_documented_refuted",
    "C14_empty_refuted",
    "C14_accepted_iff_partial",
    "C14_meaning_partial"
   ],
   "note": "False as stated; the accepted documented strings are characterised exactly (iff), and their trees carry the documented meaning."
  },
  {
   "property": "C08",
   "status": "partial",
   "theorems": [
    "C08_plain_text_tree",
    "C08_grammar_detected",
    "C08_empty_text_refuted",
    "C08_localiser"
   ],
   "note": "Proved for non-empty strings: accepted, without grammar. The empty string is refused by the lexer. The localiser returns all of them, also the empty one, unchanged."
  },
  {
   "property": "C09",
   "status": "proved",
   "theorems": [
    "C09_escape_round_trip",
    "C09_localiser"
   ],
   "note": "For the formatter with at least one grammar character; for the localiser for all texts."
  },
  {
   "property": "C15",
   "status": "proved",
   "theorems": [
    "C15_substitution"
   ],
   "note": ""
  },
  {
   "property": "C16",
   "status": "partial",
   "theorems": [
    "C16_select_refuted",
    "C16_C17_implemented_text_partial",
    "C16_C17_documented_text_partial",
    "C16_C17_documented_content"
   ],
   "note": "False: the selector is taken as the name of the branch. Proved: the exact text for all accepted strings, values and histories, and its equality with the documented text when selectors and branches have the same names."
  },
  {
   "property": "C17",
   "status": "partial",
   "theorems": [
    "C17_fallback_refuted",
    "C17_branch_refuted",
    "C16_C17_implemented_text_partial",
    "C16_C17_documented_text_partial",
    "C16_C17_documented_content"
   ],
   "note": "False: no fallback to other, and the selector is taken as the branch. Proved: the exact text, and its equality with the documented text when selectors and branches have the same names and the categories have selectors."
  },
  {
   "property": "C18",
   "status": "partial",
   "theorems": [
    "C18_diverges_refuted",
    "C18_terminates_partial"
   ],
   "note": "False for a select placeholder with selector and value _. Proved for all other cases, with a bound on the depth."
  },
  {
   "property": "C19",
   "status": "partial",
   "theorems": [
    "C19_stale_number_refuted",
    "C19_history_partial"
   ],
   "note": "False when a number sign stands in a string that is a branch of select. Proved otherwise."
  },
  {
   "property": "C20",
   "status": "partial",
   "theorems": [
    "C20_panic_refuted",
    "C20_build_partial",
    "C20_format_partial",
    "C20_built_in_build",
    "C20_built_in_format_partial"
   ],
   "note": "The built-in english_a_or_an panics on an empty string. Proved: nothing else panics."
  },
  {
   "property": "C43",
   "status": "partial",
   "theorems": [
    "C43_documented_example_refuted",
    "C43_built_iff_partial"
   ],
   "note": "False for the example of the documentation itself. Proved: exactly which strings can be built."
  },
  {
   "property": "C44",
   "status": "partial",
   "theorems": [
    "C44_options_refuted",
    "C44_options_always_rejected"
   ],
   "note": "False: every option in every string is refused."
  },
  {
   "property": "C45",
   "status": "partial",
   "theorems": [
    "C45_plural_other",
    "C45_select_other_refuted"
   ],
   "note": "Proved for plural and ordinal; false for select."
  },
  {
   "property": "C21",
   "status": "partial",
   "theorems": [
    "C21_date_forms_partial",
    "C21_accepted_iff",
    "C21_valid",
    "C21_no_panic",
    "C21_date_refuted"
   ],
   "note": "Documented forms are read correctly except a year alone with plus sign (witness +12345 read as 1234). Rejection of other strings is false (witnesses). Exactly the accepted strings are characterised. No panics: proved."
  },
  {
   "property": "C22",
   "status": "partial",
   "theorems": [
    "C22_time_forms_partial",
    "C22_nanoseconds_partial",
    "C22_accepted_iff",
    "C22_reduced_forms",
    "C22_time_refuted",
    "C22_seconds_always_rejected",
    "C22_zone_ignored",
    "C22_range",
    "C22_no_panic"
   ],
   "note": "hh:mm:ss without fraction is always refused; a fraction is taken as a number of nanoseconds, correct for nine digits. Exactly the accepted strings are characterised."
  },
  {
   "property": "C23",
   "status": "proved",
   "theorems": [
    "C23_lookup",
    "C23_insert",
    "C23_list"
   ],
   "note": ""
  },
  {
   "property": "C24",
   "status": "partial",
   "theorems": [
    "C24_panic_refuted",
    "C24_file_path_partial",
    "C24_english_partial",
    "C24_article",
    "C24_results"
   ],
   "note": "False for the empty vector and, for english_a_or_an, an empty first parameter; proved for all others."
  },
  {
   "property": "C25",
   "status": "proved",
   "theorems": [
    "C25_canonical"
   ],
   "note": "Assumes that canonical forms of icu_locid are canonical."
  },
  {
   "property": "C26",
   "status": "partial",
   "theorems": [
    "C26_shared",
    "C26_list",
    "C26_list_deprecated_refuted",
    "C26_list_deprecated_partial",
    "C26_list_all_partial"
   ],
   "note": "Sharing and list() proved. list_deprecated(), also as part of list_all(), returns canonical tags, one per distinct non-canonical string asked for."
  },
  {
   "property": "C27",
   "status": "partial",
   "theorems": [
    "C27_canonical",
    "C27_no_deadlock",
    "C27_terminates",
    "C27_alone",
    "C27_shared_refuted"
   ],
   "note": "Canonical values, absence of deadlock and termination proved for all schedules; sharing is false, two threads can both create the tag."
  },
  {
   "property": "C46",
   "status": "proved",
   "theorems": [
    "C46_icu_language"
   ],
   "note": "Assumes that canonical tags are locales."
  },
  {
   "property": "C28",
   "status": "partial",
   "theorems": [
    "C28_transparent_refuted",
    "C28_transparent_partial",
    "C28_no_caching"
   ],
   "note": "False (four witnesses). Proved for every history under named conditions that exclude exactly those circumstances; without requests for caching it holds always."
  },
  {
   "property": "C29",
   "status": "partial",
   "theorems": [
    "C29_keys_refuted",
    "C29_keys_partial"
   ],
   "note": "False for component names with slashes; proved for all others."
  },
  {
   "property": "C30",
   "status": "proved",
   "theorems": [
    "C30_literal",
    "C30_format"
   ],
   "note": "For strings that are not in the cache; the panic of C32 is the only other outcome."
  },
  {
   "property": "C31",
   "status": "proved",
   "theorems": [
    "C31_history",
    "C31_with_defaults"
   ],
   "note": ""
  },
  {
   "property": "C32",
   "status": "partial",
   "theorems": [
    "C32_panic_refuted",
    "C32_literal_panics_partial",
    "C32_format_panics_partial",
    "C32_no_panic_partial"
   ],
   "note": "False (witness). Proved: exactly when a call panics, and that none does if every string is found in the language asked for."
  },
  {
   "property": "C33",
   "status": "proved",
   "theorems": [
    "C33_inside_out",
    "C33_cached_partial"
   ],
   "note": "Without a cache for all data; with a cache under the conditions of C28."
  },
  {
   "property": "C34",
   "status": "partial",
   "theorems": [
    "C34_specific_refuted",
    "C34_specific_partial",
    "C34_letters"
   ],
   "note": "False (two witnesses). Proved: the exact level at which a lookup answers, and the claim itself when one file holds the component and no stored language extends an ancestor, or when SQLite answers in index order."
  },
  {
   "property": "C35",
   "status": "partial",
   "theorems": [
    "C35_exact_refuted",
    "C35_exact_partial"
   ],
   "note": "False: subtags are removed also for exact matches. Proved: what is returned, and the claim itself if there are no strings for proper ancestors."
  },
  {
   "property": "C36",
   "status": "partial",
   "theorems": [
    "C36_boundaries_refuted",
    "C36_boundaries_partial"
   ],
   "note": "False: a request for fi is answered with fil. Proved for stored languages of which subtags end where those of the tag end."
  },
  {
   "property": "C37",
   "status": "proved",
   "theorems": [
    "C37_strings",
    "C37_unknown"
   ],
   "note": ""
  },
  {
   "property": "C38",
   "status": "partial",
   "theorems": [
    "C38_component_refuted",
    "C38_component_partial"
   ],
   "note": "False: languages without contributor are not counted, one written in two ways is counted twice. Proved otherwise."
  },
  {
   "property": "C39",
   "status": "partial",
   "theorems": [
    "C39_repository_refuted",
    "C39_repository_partial",
    "C39_succeeds"
   ],
   "note": "False if a component counts a language twice. Proved otherwise."
  },
  {
   "property": "C40",
   "status": "proved",
   "theorems": [
    "C40_no_panic",
    "C40_try_new",
    "C40_try_new_refuted"
   ],
   "note": "Making a provider panics if the name of a file is not UTF-8; nothing else panics."
  },
  {
   "property": "C41",
   "status": "partial",
   "theorems": [
    "C41_schema_refuted",
    "C41_schema_partial"
   ],
   "note": "False: tables with missing last columns are accepted. Proved: exactly what is accepted."
  },
  {
   "property": "C42",
   "status": "proved",
   "theorems": [
    "C42_search",
    "C42_terminates"
   ],
   "note": ""
  },
  {
   "property": "C47",
   "status": "proved",
   "theorems": [
    "C47_history"
   ],
   "note": ""
  },
  {
   "property": "C48",
   "status": "partial",
   "theorems": [
    "C48_again_refuted",
    "C48_again_partial"
   ],
   "note": "False for stored tags that are not canonical; proved otherwise, if SQLite returns the rows of a table in one order."
  },
  {
   "property": "C49",
   "status": "proved",
   "theorems": [
    "C49_components"
   ],
   "note": ""
  },
  {
   "property": "C50",
   "status": "partial",
   "theorems": [
    "C50_identifier_refuted",
    "C50_identifier_partial"
   ],
   "note": "False: for a component without own file the error for an unknown identifier says that the component was not found. Proved: the details that are returned."
  },
  {
   "property": "C51",
   "status": "partial",
   "theorems": [
    "C51_separate_refuted",
    "C51_separate_partial",
    "C51_identifier_partial",
    "C51_fine_partial",
    "C39_succeeds"
   ],
   "note": "False: a component without default language makes the details of all others fail (witness). Proved: if there are details they are given by the rows of the component alone, and there are if all components have default languages with contributors."
  },
  {
   "property": "C52",
   "status": "partial",
   "theorems": [
    "C52_system_refuted",
    "C52_transparent_partial",
    "C52_no_panic_partial"
   ],
   "note": "False for the reasons of C28 and C32 (witness with a database). Proved under conditions on the files, the strings and the requests."
  },
  {
   "property": "C53",
   "status": "partial",
   "theorems": [
    "C53_stored_refuted",
    "C53_stored_partial",
    "C53_text_plain",
    "C53_text_escaped",
    "C53_text_placeholders",
    "C53_text_documented_partial",
    "C53_fallback",
    "C53_fallback_history_partial"
   ],
   "note": "False if the cache has a string of another component under the same key, if SQLite gives the row of another language first, and of select placeholders (three witnesses). Proved for directories read without problem and requests for strings that are stored unambiguously; the documented text with the restrictions of C16 and C17."
  },
  {
   "property": "C54",
   "status": "proved",
   "theorems": [
    "C54_lengths"
   ],
   "note": ""
  },
  {
   "property": "C55",
   "status": "partial",
   "theorems": [
    "C55_errors_refuted",
    "C55_english_partial",
    "C55_italian_partial",
    "C55_italian_alone_partial",
    "C55_other",
    "C55_custom"
   ],
   "note": "False: the errors of the lexer, of the tree, of commands and some of the formatter, of ICU data and of the sqlite3 provider are not localised with the shipped databases, and none is in Italian with the lexer database in the directory but the errors of the schema. Proved: exactly what is localised, to what, for every tag and directory."
  },
  {
   "property": "C56",
   "status": "partial",
   "theorems": [
    "C56_display_refuted",
    "C56_display_partial"
   ],
   "note": "False: some errors have another text (the column and table of a mismatch are exchanged in Display). Proved for the others."
  },
  {
   "property": "C57",
   "status": "partial",
   "theorems": [
    "C57_names_refuted",
    "C57_names_partial",
    "C57_different"
   ],
   "note": "False for some errors; proved: exactly which are named wrongly, and that different variants have different data."
  },
  {
   "property": "C58",
   "status": "partial",
   "theorems": [
    "C58_opens",
    "C58_one_breaks_all",
    "C58_lexer_partial",
    "C58_details_refuted",
    "C58_details_partial"
   ],
   "note": "False with the lexer database, whose rows name the component i18b_lexer: no details at all. Proved for directories without it."
  },
  {
   "property": "C60",
   "status": "partial",
   "theorems": [
    "C60_readable_refuted",
    "C60_readable_partial",
    "C60_translated_refuted",
    "C60_translated_partial",
    "C60_placeholders_refuted",
    "C60_placeholders_partial"
   ],
   "note": "False for some strings; proved: exactly which cannot be formatted, which are not translated, and that the placeholders agree but for one string."
  },
  {
   "property": "C61",
   "status": "proved",
   "theorems": [
    "C61_decimal",
    "C61_date_time"
   ],
   "note": "About the functions reading and using the options; by C44 no pattern string with options gets there. The locale with the calendar is the subject of C62."
  },
  {
   "property": "C62",
   "status": "partial",
   "theorems": [
    "C62_calendar_refuted",
    "C62_calendar_partial"
   ],
   "note": "False if the calendar is not the first keyword, has two subtags, or if another extension follows; proved otherwise."
  },
  {
   "property": "C59",
   "status": "partial",
   "theorems": [
    "C59_data",
    "C59_default",
    "C59_no_panic",
    "C59_directions",
    "C59_table_refuted",
    "C59_table_partial"
   ],
   "note": "The lookup is proved in full. The table is not right: proved exactly which scripts of Unicode lack data, which codes do not exist, and of which the direction is wrong."
  },
  {
   "property": "C63",
   "status": "partial",
   "theorems": [
    "C63_results_refuted",
    "C63_results_partial",
    "C63_prepared_partial",
    "C63_isolated_partial",
    "C63_quiet_partial",
    "C63_no_caching",
    "C63_poisoned",
    "C63_entry",
    "C63_repaired",
    "C63_alone"
   ],
   "note": "False: races between lookup, insertion and use of a cache entry, and poisoning of the cache or of a formatter in it (C63_entry, C63_repaired: exactly when). Proved under every schedule: without caching; for a cache that knows the languages asked for, under the conditions of C28; there a panic of one call disturbs only calls for the same string in the same language (C63_isolated_partial), and no call panics if none panics alone (C63_quiet_partial); and that one thread alone gets what it gets without the feature."
  },
  {
   "property": "C64",
   "status": "proved",
   "theorems": [
    "C64_script",
    "C64_end"
   ],
   "note": "Under every schedule, for the locks as written; the type Localiser is not Sync, see DESIGN.md."
  },
  {
   "property": "C65",
   "status": "proved",
   "theorems": [
    "C65_no_deadlock",
    "C65_bound",
    "C65_all_finish"
   ],
   "note": "Under every schedule, for the locks as written; the type Localiser is not Sync, see DESIGN.md."
  },
  {
   "property": "C66",
   "status": "partial",
   "theorems": [
    "C66_settings_refuted",
    "C66_settings_partial"
   ],
   "note": "False: defaults sets language and fallback one after the other; proved if only one of them is changed."
  },
  {
   "property": "C67",
   "status": "partial",
   "theorems": [
    "C67_building_refuted",
    "C67_building_implemented",
    "C67_building_partial"
   ],
   "note": "False of three errors, whose real meaning is proved; all others are true."
  },
  {
   "property": "C68",
   "status": "proved",
   "theorems": [
    "C68_formatting"
   ],
   "note": "Every error of format, after any earlier calls."
  },
  {
   "property": "C69",
   "status": "partial",
   "theorems": [
    "C69_syntax_refuted",
    "C69_syntax_implemented",
    "C69_syntax_partial"
   ],
   "note": "False at the head of a named string and for literal text patterns; the real meaning of every error is proved, and that all others are true."
  },
  {
   "property": "C70",
   "status": "proved",
   "theorems": [
    "C70_answers",
    "C70_ends",
    "C70_no_panic"
   ],
   "note": "With the feature sync; files do not change meanwhile, SQLite may fail at any open or query."
  },
  {
   "property": "C71",
   "status": "partial",
   "theorems": [
    "C71_share_refuted",
    "C71_share_implemented",
    "C71_each",
    "C71_share_partial"
   ],
   "note": "False of exactly six types (Localiser, CommandRegistry and four errors); proved for all others."
  },
  {
   "property": "C72",
   "status": "partial",
   "theorems": [
    "C72_features_refuted",
    "C72_features_implemented",
    "C72_try_new",
    "C72_features_partial",
    "C72_no_numbers_partial"
   ],
   "note": "False: the default features leave the localiser's icu_compiled_data off, and the code asks for features blob, fs and extend that no crate has; what each build does is proved exactly."
  },
  {
   "property": "C73",
   "status": "partial",
   "theorems": [
    "C73_pointers_refuted",
    "C73_pointers_partial",
    "C73_pointer_partial"
   ],
   "note": "False if sync is requested of a lower crate only; exact condition proved."
  },
  {
   "property": "C74",
   "status": "partial",
   "theorems": [
    "C74_display_refuted",
    "C74_display_partial",
    "C74_tells_partial",
    "C74_causes",
    "C74_told_apart_partial",
    "C74_numbers"
   ],
   "note": "False: nine errors lack the names or have another in front, two mix their fields up, one has a line break; exact condition for the names, everything else proved."
  },
  {
   "property": "C75",
   "status": "partial",
   "theorems": [
    "C75_placeholders_refuted",
    "C75_placeholders_partial",
    "C75_strings_partial"
   ],
   "note": "False of exactly five strings and one message without string; proved exactly for all others."
  },
  {
   "property": "C76",
   "status": "partial",
   "theorems": [
    "C76_opening_refuted",
    "C76_opening_partial",
    "C76_never",
    "C76_extension"
   ],
   "note": "False: a file that cannot be opened counts as no file, exchanged columns as missing, a second key as none, no version as a wrong one; what every error means is proved, and the sentences for directories without these."
  },
  {
   "property": "C77",
   "status": "partial",
   "theorems": [
    "C77_errors_refuted",
    "C77_errors_partial",
    "C77_strings"
   ],
   "note": "False only for the details of an identifier that the all in one file does not have, of a component without own file; proved for every other error."
  },
  {
   "property": "C78",
   "status": "partial",
   "theorems": [
    "C78_errors_refuted",
    "C78_errors_partial",
    "C78_not_found",
    "C78_never",
    "C78_formatting_partial",
    "C78_stored"
   ],
   "note": "False of CacheEntry for strings with escapes only, and of strings with the same cache key; what every error means is proved for all histories, and the truth of all others if components have no slash and requests agree on fallback."
  },
  {
   "property": "C79",
   "status": "partial",
   "theorems": [
    "C79_order_refuted",
    "C79_order_partial",
    "C79_lookup",
    "C79_errors",
    "C79_values",
    "C79_data"
   ],
   "note": "False only of the choice of the error: with two wrong selectors it is a matter of chance which is reported; that everything else is the same for every order, and that every error there can be is true, is proved in full."
  },
  {
   "property": "C80",
   "status": "partial",
   "theorems": [
    "C80_refuted",
    "C80_component_partial",
    "C80_order",
    "C80_repository_partial"
   ],
   "note": "False only if the default language has a contributor but no strings (0/0 is not a number, the others are infinite); otherwise proved in full."
  },
  {
   "property": "C81",
   "status": "partial",
   "theorems": [
    "C81_original_refuted",
    "C81_original_partial"
   ],
   "note": "False of the documented example itself when SQLite returns rows in the order of the index: the American string is returned for British English. Proved: the original is returned if it is the only string of the language, or first in the order of the index."
  },
  {
   "property": "C82",
   "status": "partial",
   "theorems": [
    "C82_article_refuted",
    "C82_article_partial",
    "C82_file_path_refuted",
    "C82_file_path_partial"
   ],
   "note": "False: Apple gets a, and slashes are kept on systems with another separator. Proved exactly for which words and paths it is true."
  },
  {
   "property": "C83",
   "status": "partial",
   "theorems": [
    "C83_power_refuted",
    "C83_doubling_refuted",
    "C83_plain_partial",
    "C83_nested_partial",
    "C83_strings_partial"
   ],
   "note": "False of nested named strings: the text can be of length 2^k for a pattern string of length about 80 k^2. Proved: the sum of the lengths for plain strings, m * w^(h+1) for nesting to depth h, and m * w^(n+1) for n named strings."
  },
  {
   "property": "C84",
   "status": "proved",
   "theorems": [
    "C84_small",
    "C84_characters"
   ],
   "note": "Number of nodes, depth, order and completeness of the tokens; proved by an invariant of the parser's machine and the preorder layout of the nodes."
  },
  {
   "property": "C85",
   "status": "partial",
   "theorems": [
    "C85_values_partial",
    "C85_strings_partial",
    "C85_localiser_partial",
    "C85_data_refuted",
    "C85_data_partial"
   ],
   "note": "True of the formatter (the same result, error or text) and of format of the localiser. False of localisation data: a value that is not used but is itself localisation data without a string makes the call fail; proved for all other values."
  },
  {
   "property": "C86",
   "status": "partial",
   "theorems": [
    "C86_strings",
    "C86_languages_partial",
    "C86_localiser",
    "C86_text_refuted",
    "C86_text_partial",
    "C86_fallback_partial"
   ],
   "note": "True of string, string_exact_match and strings, and of the languages of an identifier. False of the text of a localiser with fallback: details of another component without default language make the call fail; proved if nothing falls back, or if both providers give details with the same default language."
  },
  {
   "property": "C87",
   "status": "partial",
   "theorems": [
    "C87_one_reading",
    "C87_printing_injective",
    "C87_documented_refuted",
    "C87_documented_iff_partial",
    "C87_normal_form_partial"
   ],
   "note": "Every accepted string has exactly one reading. False that only documented strings are accepted: ten witnesses (white space before a brace, escapes of ordinary text, stray grammar characters among selectors, parameters without white space, a group without strings). Proved: exactly which accepted strings are documented, and that each accepted string has a documented form with the same content and the same results of formatting."
  },
  {
   "property": "C88",
   "status": "partial",
   "theorems": [
    "C88_string",
    "C88_parts_refuted",
    "C88_parts_partial",
    "C88_result_partial",
    "C88_ready_partial"
   ],
   "note": "False: the number of a plural in the first part is shown by a select placeholder in the second. Proved if no branch of a select has a number sign; that a formatter for the whole can be built exactly if it can for both parts holds without this condition."
  },
  {
   "property": "C89",
   "status": "proved",
   "theorems": [
    "C89_concat",
    "C89_concat_only",
    "C89_merge",
    "C89_prefix",
    "C89_grammar",
    "C89_data"
   ],
   "note": ""
  },
  {
   "property": "C90",
   "status": "partial",
   "theorems": [
    "C90_memory_refuted",
    "C90_memory_partial",
    "C90_exact",
    "C90_stores",
    "C90_loses",
    "C90_tags",
    "C90_locales",
    "C90_details"
   ],
   "note": "False of the localiser: a plain string found by fallback is stored under the default language but sought under the language asked for, and may replace all strings stored for the default language. Proved of the localiser if strings are found in the language asked for or are to be formatted; which calls need no provider, what a call stores and what it loses is characterised exactly; proved in full of the registry and the provider."
  },
  {
   "property": "C91",
   "status": "proved",
   "theorems": [
    "C91_cache",
    "C91_registry",
    "C91_queries",
    "C91_threads",
    "C91_registry_threads",
    "C91_locales_threads",
    "C91_provider_threads"
   ],
   "note": ""
  },
  {
   "property": "C92",
   "status": "proved",
   "theorems": [
    "C92_build",
    "C92_no_content",
    "C92_format",
    "C92_unique",
    "C92_prefix",
    "C92_constant",
    "C92_stateless"
   ],
   "note": ""
  },
  {
   "property": "C93",
   "status": "proved",
   "theorems": [
    "C93_same",
    "C93_after",
    "C93_wordy",
    "C93_names"
   ],
   "note": ""
  },
  {
   "property": "C94",
   "status": "proved",
   "theorems": [
    "C94_open",
    "C94_outcome",
    "C94_memory",
    "C94_settles",
    "C94_localiser"
   ],
   "note": ""
  },
  {
   "property": "C95",
   "status": "proved",
   "theorems": [
    "C95_made",
    "C95_after",
    "C95_values",
    "C95_clean"
   ],
   "note": ""
  },
  {
   "property": "C96",
   "status": "partial",
   "theorems": [
    "C96_new",
    "C96_again",
    "C96_none",
    "C96_call",
    "C96_constant",
    "C96_stateless",
    "C96_once_refuted",
    "C96_once_partial"
   ],
   "note": "that commands without delay marker are called once is false: a string stored for another language may remove a formatter from the cache, after which they are called again and their text changes. C96_once_partial: true if every string is found in the language asked for or is one to be formatted. The other parts are proved in full"
  },
  {
   "property": "C97",
   "status": "partial",
   "theorems": [
    "C97_static",
    "C97_lookup",
    "C97_unknown",
    "C97_bound",
    "C97_details_once",
    "C97_details",
    "C97_details_later",
    "C97_twice_refuted",
    "C97_twice_partial",
    "C97_opened",
    "C97_spelt"
   ],
   "note": "that no call makes the same query twice is false: for an identifier that is not known of a component only in its own file the same query is sent to this file twice, and the queries of a language that the all in one file gives in two spellings are sent twice. C97_twice_partial: true otherwise. The other parts are proved in full"
  },
  {
   "property": "C98",
   "status": "partial",
   "theorems": [
    "C98_asks",
    "C98_remembered",
    "C98_data",
    "C98_now_refuted",
    "C98_now_partial",
    "C98_origin",
    "C98_static",
    "C98_answers",
    "C98_system",
    "C98_queries"
   ],
   "note": "that a call gives what the provider would say now is false with caching: a changed string is not seen, even by a call with caching off. C98_now_partial: true of a localiser for which caching was never on. The other parts are proved in full"
  },
  {
   "property": "C99",
   "status": "partial",
   "theorems": [
    "C99_strings",
    "C99_first",
    "C99_exact_refuted",
    "C99_exact_partial",
    "C99_listed_refuted",
    "C99_listed_partial",
    "C99_component_refuted",
    "C99_component_partial",
    "C99_default",
    "C99_repository",
    "C99_count"
   ],
   "note": "three parts are false: for a component in both files the exact match may be in the language wanted though string returns one in a less specific language, and a string may be returned in a language not listed for the identifier; and a language without contributor is not listed for the component. The _partial theorems: true if one file holds the component, the stored tags are canonical, and every language has a contributor. The other parts are proved in full"
  },
  {
   "property": "C100",
   "status": "partial",
   "theorems": [
    "C100_alone",
    "C100_ends",
    "C100_busy_memory",
    "C100_busy",
    "C100_busy_literal",
    "C100_same",
    "C100_reenter_refuted",
    "C100_reenter_partial",
    "C100_kept",
    "C100_meanwhile_refuted",
    "C100_meanwhile_partial",
    "C100_loop",
    "C100_settings",
    "C100_french",
    "C100_other"
   ],
   "note": "two parts are false: a delayed command that asks, with caching, for a string not remembered panics (BorrowMutError); and a string a command asked for in a call is thrown away when the formatter is added, if nothing was remembered in the language before. C100_reenter_partial: no borrow fails if delayed commands do not use the localiser, or if nothing is cached. C100_meanwhile_partial: remembered if the language had an entry before. The other parts are proved in full"
  },
  {
   "property": "C101",
   "status": "partial",
   "theorems": [
    "C101_same",
    "C101_alone",
    "C101_ends",
    "C101_busy",
    "C101_busy_literal",
    "C101_itself",
    "C101_poisons",
    "C101_poisoned",
    "C101_waits_refuted",
    "C101_waits_partial"
   ],
   "note": "one part is false: a delayed command that asks, with caching, for a string not remembered waits for ever for the cache its own thread reads. C101_waits_partial: the thread never waits if delayed commands do not use the localiser, or if nothing is cached. C101_busy is about calls in which no lock is poisoned. The other parts are proved in full"
  },
  {
   "property": "C102",
   "status": "partial",
   "theorems": [
    "C102_registered",
    "C102_reply",
    "C102_formatter",
    "C102_more",
    "C102_when",
    "C102_trace_refuted",
    "C102_trace_partial"
   ],
   "note": "the last part is false: a call of format that fails for want of a delayed command has put a formatter into the cache, and literal then fails. C102_trace_partial: it holds in the circumstances of C28. The other parts are proved in full"
  },
  {
   "property": "C103",
   "status": "proved",
   "theorems": [
    "C103_notebook",
    "C103_memory",
    "C103_transparent"
   ],
   "note": "the hypothesis provider_hash_ok (number signs in plural branches only) is part of the property; without it the text of a pattern may depend on earlier calls (C19)"
  },
  {
   "property": "C104",
   "status": "proved",
   "theorems": [
    "C104_right",
    "C104_only",
    "C104_follows"
   ],
   "note": "hypothesis locid_ok: canonical forms of icu_locid are canonical and are locales"
  },
  {
   "property": "C105",
   "status": "partial",
   "theorems": [
    "C105_listed_refuted",
    "C105_listed_partial"
   ],
   "note": "false: an alias is entered before its tag, a thread may get the tag through the alias and not find it in the list. It holds for a tag asked for as it is written, and at every moment when no thread is in a call of tag"
  },
  {
   "property": "C106",
   "status": "proved",
   "theorems": [
    "C106_waits",
    "C106_short",
    "C106_soon",
    "C106_ends"
   ],
   "note": "a turn at which a thread waits is not a step; std's Mutex is assumed to be one"
  },
  {
   "property": "C107",
   "status": "partial",
   "theorems": [
    "C107_one_refuted",
    "C107_spellings_refuted",
    "C107_settles_partial",
    "C107_known_partial",
    "C107_locales_partial",
    "C107_few_partial",
    "C107_few_locales_partial"
   ],
   "note": "false: two threads may both create a tag. From a moment when no thread is in a call of tag each string answered before has one reference for ever, and what was asked for before the threads began keeps its reference; the same for locales; a tag never has more references, nor locales, than there are threads"
  },
  {
   "property": "C108",
   "status": "proved",
   "theorems": [
    "C108_when",
    "C108_once",
    "C108_ill_formed",
    "C108_locales",
    "C108_threads",
    "C108_later",
    "C108_locale_threads",
    "C108_locale_later"
   ],
   "note": "C108_when and C108_ill_formed need locid_ok, the others nothing"
  },
  {
   "property": "C109",
   "status": "proved",
   "theorems": [
    "C109_exactly",
    "C109_depth"
   ],
   "note": "commands are total; # only in strings for plurals, as in C16 and C17"
  },
  {
   "property": "C110",
   "status": "partial",
   "theorems": [
    "C110_when",
    "C110_once_refuted",
    "C110_once_partial"
   ],
   "note": "false: a string found in another language than the one asked for (en for en-ZA) is fetched at each call, though caching is on. Proved when calls succeed and strings are found in the language asked for or are patterns; when a call makes queries is exact"
  },
  {
   "property": "C111",
   "status": "proved",
   "theorems": [
    "C111_exactly",
    "C111_every",
    "C111_failing",
    "C111_ends",
    "C111_no_caching",
    "C111_results"
   ],
   "note": "refinement both ways; C111_no_caching and C111_results carry C63 over to the whole system"
  },
  {
   "property": "C112",
   "status": "partial",
   "theorems": [
    "C112_provider",
    "C112_localiser",
    "C112_now_refuted",
    "C112_now_partial",
    "C112_text_partial"
   ],
   "note": "that a call answers as a provider opened now is false of details, and of the text when the default language was changed (C112_now_refuted). Proved exactly: what each call of the provider (C112_provider) and of the localiser (C112_localiser) answers. The claim itself holds of lookups and of details before they are known (C112_now_partial), and of texts without caching while default languages stay (C112_text_partial)."
  },
  {
   "property": "C113",
   "status": "partial",
   "theorems": [
    "C113_found",
    "C113_missing",
    "C113_literal",
    "C113_format",
    "C113_time_refuted",
    "C113_short_partial",
    "C113_first_partial",
    "C113_details",
    "C113_identifier"
   ],
   "note": "What is found was there during the call and what is there all the time is found; each part of details is of a time during the call; that the whole answer is of one time is false (exact lookups, lookups in two files, details), and proved for lookups of one query and those answered by the first."
  },
  {
   "property": "C114",
   "status": "proved",
   "theorems": [
    "C114_sums"
   ],
   "note": "Needs that the all in one file does not write a language in two ways; C114_spelling_example shows what happens otherwise (see C39)."
  },
  {
   "property": "C115",
   "status": "partial",
   "theorems": [
    "C115_number_refuted",
    "C115_values_partial",
    "C115_system_partial",
    "C115_numerals_partial",
    "C115_words_partial",
    "C115_panic_refuted",
    "C115_threads_partial",
    "C115_whole_partial"
   ],
   "note": "False for strings with a number sign in a branch of a select, which show the number of an earlier call (C115_number_refuted, see C19); proved if number signs stand in branches of plural placeholders only. Nested data must be the same or give a text in both histories (C115_nested_example). For all strings, if data is not nested, results are the same up to numerals (C115_numerals_partial). Threads: proved under every schedule if commands do not panic (C115_threads_partial; with the sqlite3 provider, C115_whole_partial), else false (C115_panic_refuted)."
  },
  {
   "property": "C116",
   "status": "proved",
   "theorems": [
    "C116_calls",
    "C116_origin",
    "C116_threads",
    "C116_built_in",
    "C116_system"
   ],
   "note": "Unconditional form in C116_origin. C116_system is over the sqlite3 provider, for whole threads too."
  }
 ]
}