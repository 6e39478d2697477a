{"id": "C01", "title": "Tokenising loses nothing", "statement": "Collecting all tokens of a LexerIterator over a non-empty string and concatenating their strings gives back exactly the string. The tokens are contiguous: the first starts at byte 0 and character 0, every token starts where the previous one ended, each length equals the UTF-8 byte length / character count of the token's own string, and the last end_byte is the byte length of the input.", "quantifier": "every non-empty string of Unicode code points, every non-empty grammar, every pair of ICU character sets", "why_tests_cant": "Unit tests check two strings; position bookkeeping can go wrong for any mix of multi-byte characters and class changes.", "anchors": ["crates/lexer/src/lexer.rs: LexerIterator::next", "crates/lexer/src/lexer.rs: LexerIterator::token", "crates/lexer/src/lexer.rs: Token"]}
{"id": "C02", "title": "Every token is non-empty and of one class", "statement": "Every token is non-empty and all of its characters have the class announced by token_type, where the class of a character is white space if it is in Pattern_White_Space, else grammar/syntax if in Pattern_Syntax (grammar when it is one of the grammar characters), else identifier. A Grammar token consists of exactly one character.", "quantifier": "every string, every grammar, every ICU data set, every token produced", "why_tests_cant": "The token type is carried across calls of next(); only an argument over all positions excludes a stale type.", "anchors": ["crates/lexer/src/lexer.rs: TokenType", "crates/lexer/src/lexer.rs: LexerIterator::token_type", "crates/lexer/src/lexer.rs: LexerIterator::next"]}
{"id": "C03", "title": "Tokenisation is maximal and unique", "statement": "Two neighbouring tokens never have the same class unless both are Grammar, and any segmentation of the string into homogeneous tokens with these two properties is the one produced by the lexer. In particular re-tokenising is deterministic and concatenating a well-formed token sequence and tokenising it again returns that sequence.", "quantifier": "every string and every candidate segmentation of it", "why_tests_cant": "Uniqueness quantifies over all other segmentations.", "anchors": ["crates/lexer/src/lexer.rs: LexerIterator::next"]}
{"id": "C04", "title": "Grapheme positions are consistent", "statement": "start_grapheme of every token is the sum of length_graphemes of all tokens before it. The total grapheme length reported through the tokens equals the number of grapheme clusters of the whole string.", "quantifier": "every string and every grapheme segmenter", "why_tests_cant": "Grapheme clusters can straddle a token boundary; sampled strings without combining marks never show the difference.", "anchors": ["crates/lexer/src/lexer.rs: LexerIterator::token", "crates/lexer/src/lexer.rs: Token::start_grapheme"]}
{"id": "C05", "title": "Lexer construction and iterator protocol", "statement": "try_new fails with NoGrammar exactly when the grammar is empty (whatever the string), with EmptyString exactly when the grammar is non-empty and the string empty, and otherwise succeeds. The iterator then yields at least one and at most as many tokens as the string has characters, and after the first None every further next() call returns None.", "quantifier": "every string, grammar and every number of next() calls after exhaustion", "why_tests_cant": "Quantifies over unbounded numbers of calls.", "anchors": ["crates/lexer/src/lexer.rs: LexerIterator::try_new", "crates/lexer/src/lexer.rs: LexerIterator::next"]}
{"id": "C06", "title": "Parsing a pattern string never panics", "statement": "For every string stored in a repository, building the syntax tree ends with either a tree or an error value; it never panics and it always terminates.", "quantifier": "every string over all Unicode characters", "why_tests_cant": "Panics hide behind unwrap() calls in particular state/node combinations; only exploring every state of the parser over every token sequence excludes them.", "anchors": ["crates/localiser/src/tree.rs: Tree::try_new", "crates/localiser/src/tree.rs: Tree::pattern_start", "crates/localiser/src/tree.rs: Tree::end_nested_state"]}
{"id": "C07", "title": "Accepted pattern strings give a well-formed tree", "statement": "Whenever parsing succeeds the node arena is a tree rooted at node 0: every node other than the root is listed exactly once as a child, by exactly the node it names as parent, children have larger indices than their parent, only container node types have children, only leaf types have tokens, every token index is valid, and node 1 is the main string.", "quantifier": "every string accepted by the parser", "why_tests_cant": "A structural invariant over arbitrarily long parses.", "anchors": ["crates/localiser/src/tree.rs: Tree::insert", "crates/localiser/src/tree.rs: Tree::create_node", "crates/localiser/src/tree.rs: Tree::add_token", "crates/localiser/src/tree.rs: Tree::try_new"]}
{"id": "C08", "title": "Plain text is formatted unchanged", "statement": "A string containing none of the four grammar characters is accepted, is reported as having no grammar, and its formatted text is the string itself, whatever placeholder values are given.", "quantifier": "every string without grammar characters and all value maps", "why_tests_cant": "Covers all strings, including arbitrary sequences of white space, punctuation and multi-byte characters.", "anchors": ["crates/localiser/src/tree.rs: Tree::try_new", "crates/localiser/src/tree.rs: Tree::has_grammar", "crates/localiser/src/formatter.rs: Formatter::format"]}
{"id": "C09", "title": "Escaping with backticks round-trips", "statement": "If every grammar character of a text is preceded by a backtick, formatting the resulting pattern string gives exactly the original text.", "quantifier": "every non-empty text over all Unicode characters", "why_tests_cant": "A round-trip law over all strings.", "anchors": ["crates/localiser/src/tree.rs: Tree::try_new (String state)", "crates/localiser/src/formatter.rs: Formatter::format", "crates/localiser/docs/pattern strings.asciidoc: literal"]}
{"id": "C10", "title": "Literal text patterns are accepted and produce their text", "statement": "A pattern of the documented form {`text`} is accepted and contributes text to the output; the same holds for a literal text parameter of a command.", "quantifier": "every text body and every surrounding pattern string", "why_tests_cant": "A universally quantified acceptance statement.", "anchors": ["crates/localiser/src/tree.rs: ParserState::LiteralText", "crates/localiser/docs/pattern strings.asciidoc: literal_text"]}
{"id": "C11", "title": "Placeholder and named string identifiers are unique", "statement": "In an accepted pattern string no two placeholders (main string and named strings together) have the same identifier and no two named strings have the same identifier; a duplicate is reported as UniquePattern / UniqueNamed.", "quantifier": "every accepted string", "why_tests_cant": "Quantifies over all pairs of placeholders anywhere in the string.", "anchors": ["crates/localiser/src/tree.rs: Tree::pattern_start", "crates/localiser/src/tree.rs: Tree::try_new (NamedString state)"]}
{"id": "C12", "title": "Unterminated patterns are rejected", "statement": "A string that ends while a pattern, command, literal or named string is still open is never accepted.", "quantifier": "every string and every position at which it is cut off", "why_tests_cant": "Every prefix of every pattern string.", "anchors": ["crates/localiser/src/tree.rs: Tree::try_new", "crates/localiser/src/error.rs: TreeError::EndedAbruptly"]}
{"id": "C13", "title": "Shape of accepted named strings", "statement": "In an accepted string the named group, if any, follows the main string, contains only named strings, and every named string consists of exactly one identifier followed by exactly one substring. Every placeholder node starts with its identifier, has an optional keyword, then only selectors with exactly two identifiers.", "quantifier": "every accepted string", "why_tests_cant": "The formatter indexes into these children without checks, so it must hold for all accepted inputs.", "anchors": ["crates/localiser/src/tree.rs: Tree::try_new (SubString, NamedString, Keyword states)", "crates/localiser/src/formatter.rs: Formatter::try_new"]}
{"id": "C14", "title": "Parser accepts the documented grammar", "statement": "Every pattern string derivable from the documented grammar (fragment without literal text) is accepted, including named strings whose substring starts with punctuation, an escape or a placeholder.", "quantifier": "every derivation of the documented grammar", "why_tests_cant": "Conformance over all derivations.", "anchors": ["crates/localiser/src/tree.rs: Tree::try_new", "crates/localiser/docs/pattern strings.asciidoc: Grammar"]}
{"id": "C15", "title": "Placeholders are substituted by their values", "statement": "For a pattern string made of text, escapes and plain placeholders, the formatted text is the concatenation of the texts with each placeholder replaced by the text of its value, in order; if a value is missing the result is an error naming the placeholder, never partial text.", "quantifier": "every such pattern string and every value map", "why_tests_cant": "End-to-end functional specification of lexer, parser and formatter over all inputs.", "anchors": ["crates/localiser/src/tree.rs: Tree::try_new", "crates/localiser/src/formatter.rs: Formatter::try_new", "crates/localiser/src/formatter.rs: Formatter::format", "crates/localiser/src/formatter.rs: Formatter::format_pattern"]}
{"id": "C16", "title": "Select patterns choose the branch of the value", "statement": "A select placeholder formats to the named string its selector points to for the given value.", "quantifier": "every select pattern with any selectors and branches and every value", "why_tests_cant": "Quantifies over all selector tables.", "anchors": ["crates/localiser/src/formatter.rs: Formatter::select", "crates/localiser/src/formatter.rs: pattern_selectors", "crates/localiser/docs/pattern strings.asciidoc: select"]}
{"id": "C17", "title": "Plural patterns choose the category's branch and show the number", "statement": "A plural/ordinal placeholder formats to the named string its selector points to for the plural category of the number, with every # in it replaced by the formatted number; when the category has no selector of its own, the mandatory selector other is used.", "quantifier": "every plural pattern, every number, every plural rule", "why_tests_cant": "Plural rules differ by language; the statement ranges over all of them.", "anchors": ["crates/localiser/src/formatter.rs: Formatter::format_pattern", "crates/localiser/src/formatter.rs: Formatter::find_number_sign", "crates/localiser/src/formatter.rs: plural_category", "crates/localiser/docs/pattern strings.asciidoc: plural"]}
{"id": "C18", "title": "Formatting terminates", "statement": "Formatting an accepted pattern string terminates for all values.", "quantifier": "every accepted pattern string and all values", "why_tests_cant": "Non-termination cannot be observed by a finite test; it arises from self-referring named strings.", "anchors": ["crates/localiser/src/formatter.rs: Formatter::format_pattern", "crates/localiser/src/formatter.rs: Formatter::select"]}
{"id": "C19", "title": "Formatting does not depend on earlier formatting", "statement": "The text produced by a (cached) formatter for given values is the same whatever it formatted before.", "quantifier": "every formatter and every history of earlier format calls", "why_tests_cant": "Quantifies over all histories.", "anchors": ["crates/localiser/src/formatter.rs: Formatter::format", "crates/localiser/src/formatter.rs: Formatter::update_number_part", "crates/localiser/src/localiser.rs: actual_format"]}
{"id": "C20", "title": "Formatting never panics", "statement": "For every accepted pattern string and all values, constructing the formatter and formatting end with a text or an error value (user defined commands excepted).", "quantifier": "every accepted pattern string, every value map", "why_tests_cant": "All unwrap/index sites must be covered for all trees and values.", "anchors": ["crates/localiser/src/formatter.rs: Formatter::try_new", "crates/localiser/src/formatter.rs: Formatter::format_pattern", "crates/localiser/src/formatter.rs: part_pattern", "crates/localiser/src/formatter.rs: part_command"]}
{"id": "C21", "title": "ISO date strings are read correctly", "statement": "A date string yyyy-mm-dd (with leading sign for expanded years) is decomposed into exactly that year, month and day, reduced precision forms yield the documented defaults, and any other string is rejected; no input panics.", "quantifier": "every date and every string", "why_tests_cant": "Round-trip over all dates plus rejection of all other strings.", "anchors": ["crates/localiser/src/formatter.rs: decompose_iso_date"]}
{"id": "C22", "title": "ISO time strings are read correctly", "statement": "A time string hh:mm:ss[.fraction] is decomposed into exactly that hour, minute, second and fraction of a second; strings without a fraction are accepted.", "quantifier": "every time of day and every fraction", "why_tests_cant": "Round-trip over all times and fractions of every length.", "anchors": ["crates/localiser/src/formatter.rs: decompose_iso_time"]}
{"id": "C23", "title": "Command registry behaves as a write-once map", "statement": "A registered command is returned by every later lookup of its name; registering a name again fails and changes nothing; looking up a name never registered fails; list() contains exactly the registered names, once each.", "quantifier": "every sequence of insert/command/list calls", "why_tests_cant": "Quantifies over all operation histories.", "anchors": ["crates/localiser/src/command.rs: CommandRegistry::insert", "crates/localiser/src/command.rs: CommandRegistry::command", "crates/localiser/src/command.rs: CommandRegistry::list"]}
{"id": "C24", "title": "Built-in commands never panic", "statement": "file_path and english_a_or_an return a string or an error for every parameter vector.", "quantifier": "every parameter vector of placeholder values", "why_tests_cant": "Empty vectors and empty strings are among infinitely many inputs.", "anchors": ["crates/localiser/src/command.rs: file_path", "crates/localiser/src/command.rs: english_a_or_an"]}
{"id": "C25", "title": "Language tags are canonicalised whatever the history", "statement": "tag(s) returns the canonical form of s for every well-formed s and fails for every other s, irrespective of all earlier calls; a failing call leaves the registry unchanged.", "quantifier": "every history of registry calls and every string", "why_tests_cant": "The registry is stateful; correctness must hold in every reachable state.", "anchors": ["crates/utility/src/language.rs: LanguageTagRegistry::tag"]}
{"id": "C26", "title": "Language tags are interned", "statement": "Two calls of tag() with strings of the same canonical form return the same reference, list() contains exactly the canonical forms requested so far, each once, list_deprecated() exactly the requested strings that were not canonical, and list_all() both.", "quantifier": "every history of registry calls", "why_tests_cant": "History dependent identity.", "anchors": ["crates/utility/src/language.rs: LanguageTagRegistry::tag", "crates/utility/src/language.rs: LanguageTagRegistry::list", "crates/utility/src/language.rs: LanguageTagRegistry::list_deprecated", "crates/utility/src/language.rs: LanguageTagRegistry::list_all"]}
{"id": "C27", "title": "Registry is correct under every thread schedule", "statement": "With the sync feature, under every interleaving of concurrent tag() calls each call returns the canonical value of its own argument, and all callers asking for the same tag share one reference.", "quantifier": "every number of threads and every interleaving of their critical sections", "why_tests_cant": "Tests sample only a few schedules.", "anchors": ["crates/utility/src/language.rs: LanguageTagRegistry::tag (feature sync)"]}
{"id": "C28", "title": "Caching is transparent", "statement": "With caching enabled, every format/literal call returns what it would return with caching disabled, whatever calls were made before.", "quantifier": "every history of format/literal calls and every provider", "why_tests_cant": "Quantifies over all histories.", "anchors": ["crates/localiser/src/localiser.rs: Localiser::actual_format", "crates/localiser/src/localiser.rs: Localiser::actual_literal", "crates/localiser/src/localiser.rs: Localiser::add_string_to_cache"]}
{"id": "C29", "title": "Distinct strings do not share a cache entry", "statement": "Two different (component, identifier) pairs never share a cache entry.", "quantifier": "every two pairs of component and identifier names", "why_tests_cant": "Injectivity over all pairs.", "anchors": ["crates/localiser/src/localiser.rs: Localiser::actual_format (cache key)", "crates/localiser/src/localiser.rs: Localiser::add_string_to_cache"]}
{"id": "C30", "title": "Fallback order of the localiser", "statement": "The string used is the provider's answer for the requested language if there is one; otherwise, if fallback is enabled, the provider's answer for the component's default language; otherwise the call fails with StringNotFound carrying the component, identifier, requested tag and fallback flag.", "quantifier": "every provider, every request, every flag combination", "why_tests_cant": "Decision table over all provider behaviours.", "anchors": ["crates/localiser/src/localiser.rs: Localiser::actual_format", "crates/localiser/src/localiser.rs: Localiser::actual_literal"]}
{"id": "C31", "title": "Defaults are updated field by field", "statement": "defaults() changes exactly the settings passed as Some and leaves the others, and the *_with_defaults methods behave exactly like the explicit methods with the current defaults.", "quantifier": "every sequence of defaults() calls", "why_tests_cant": "History property.", "anchors": ["crates/localiser/src/localiser.rs: Localiser::defaults", "crates/localiser/src/localiser.rs: Localiser::format_with_defaults", "crates/localiser/src/localiser.rs: Localiser::literal_with_defaults"]}
{"id": "C32", "title": "The localiser cache never panics", "statement": "No sequence of format/literal calls makes the localiser panic.", "quantifier": "every history of calls and every provider", "why_tests_cant": "The panic needs a particular history of partial hits in different languages.", "anchors": ["crates/localiser/src/localiser.rs: Localiser::add_string_to_cache"]}
{"id": "C33", "title": "Nested localisation data is formatted inside out", "statement": "Formatting LocalisationData formats every nested LocalisationData value first, in the same language and with the same settings, and substitutes the results; data without values is returned as the literal string.", "quantifier": "every nesting depth and every value map", "why_tests_cant": "Structural recursion over unbounded nesting.", "anchors": ["crates/localiser/src/localiser.rs: Localiser::actual_format_localisation_data", "crates/utility/src/types.rs: LocalisationData"]}
{"id": "C34", "title": "Most specific matching language wins", "statement": "string() returns a string of the requested tag if there is one, otherwise of the longest of its ancestor tags (right-most subtag removed repeatedly) having one, otherwise None; a returned string always belongs to the requested component and identifier, and to a language that is the searched tag or an extension of it.", "quantifier": "every database content and every tag", "why_tests_cant": "All tables and all tags with any number of subtags.", "anchors": ["crates/provider/sqlite3/src/provider.rs: find_strings", "crates/provider/sqlite3/src/provider.rs: string", "crates/provider/core/src/provider.rs: LocalisationProviderTrait"]}
{"id": "C35", "title": "Exact match is exact", "statement": "string_exact_match returns a string only if the database has one for exactly the requested language tag, and then that string.", "quantifier": "every database content and every tag", "why_tests_cant": "All tables.", "anchors": ["crates/provider/sqlite3/src/provider.rs: string_exact_match", "crates/provider/sqlite3/src/provider.rs: find_strings", "crates/provider/core/src/provider.rs: string_exact_match"]}
{"id": "C36", "title": "Prefix matching respects subtag boundaries", "statement": "A language returned for a requested tag is that tag, an ancestor, or a tag extending it (or an ancestor) by whole subtags; it is never an unrelated language whose code merely starts with the same letters.", "quantifier": "every database content and every tag", "why_tests_cant": "Needs an adversarial table.", "anchors": ["crates/provider/sqlite3/src/provider.rs: find_strings", "crates/provider/sqlite3/src/provider.rs: query_pattern"]}
{"id": "C37", "title": "strings() is complete for the level at which it answers", "statement": "strings() returns all rows of the component and identifier matching the first ancestor level with any match in the first data source having one, and nothing else; an empty result means no level matches.", "quantifier": "every database content and every tag", "why_tests_cant": "All tables.", "anchors": ["crates/provider/sqlite3/src/provider.rs: strings", "crates/provider/sqlite3/src/provider.rs: find_strings"]}
{"id": "C38", "title": "Component statistics are correct", "statement": "For each component the reported per-language counts are the numbers of strings stored, total_strings is their sum, the default language is one of the languages, contributors are listed without duplicates.", "quantifier": "every repository content", "why_tests_cant": "Aggregation over all tables.", "anchors": ["crates/provider/sqlite3/src/provider.rs: build_cache", "crates/provider/sqlite3/src/provider.rs: count", "crates/provider/sqlite3/src/provider.rs: contributors", "crates/provider/core/src/provider.rs: ComponentDetails"]}
{"id": "C39", "title": "Repository statistics aggregate the components", "statement": "Repository totals are the sums over the components, per-language counts are sums over components, every component is listed once, contributors are the duplicate free union, and the default language is that of the component application, if any.", "quantifier": "every repository content", "why_tests_cant": "Aggregation over all tables.", "anchors": ["crates/provider/sqlite3/src/provider.rs: build_cache", "crates/provider/sqlite3/src/provider.rs: repository_details", "crates/provider/core/src/provider.rs: RepositoryDetails"]}
{"id": "C40", "title": "Provider never panics on a missing data source", "statement": "For every combination of present and absent all-in-one and component files, string lookups end with a result or an error, never a panic.", "quantifier": "every repository directory content and every history of calls", "why_tests_cant": "Connection caching makes this history dependent.", "anchors": ["crates/provider/sqlite3/src/provider.rs: connection", "crates/provider/sqlite3/src/provider.rs: find_strings", "crates/provider/sqlite3/src/provider.rs: identifier_details"]}
{"id": "C41", "title": "Schema verification rejects incompatible tables", "statement": "verify_schema accepts a database only if every required table exists and has every required column in position with the required name, type, NOT NULL and primary key property.", "quantifier": "every database schema", "why_tests_cant": "All possible column lists.", "anchors": ["crates/provider/sqlite3/src/provider.rs: verify_schema", "crates/provider/sqlite3/src/provider.rs: columns_check", "crates/provider/sqlite3/src/provider.rs: table_exists"]}
{"id": "C42", "title": "Ancestor search always terminates", "statement": "The language fallback loop of the provider visits each ancestor of the requested tag at most once, from most to least specific, and terminates for every tag string.", "quantifier": "every tag string", "why_tests_cant": "Termination for unboundedly long tags.", "anchors": ["crates/provider/sqlite3/src/provider.rs: find_strings"]}
{"id": "C43", "title": "Documented pattern strings can be built", "statement": "A documented pattern string whose selectors have branches that are named strings of the same pattern string is accepted by the formatter.", "quantifier": "every pattern string of the documented grammar", "why_tests_cant": "Quantifies over all documented strings; a test only shows single strings.", "anchors": ["crates/localiser/src/formatter.rs: Formatter::try_new", "crates/localiser/src/formatter.rs: pattern_selectors", "crates/localiser/docs/pattern strings.asciidoc: Grammar"]}
{"id": "C44", "title": "Options of decimal and date_time are accepted", "statement": "The documented options group, sign, date, time and calendar of decimal and date_time placeholders are accepted with their documented values.", "quantifier": "every pattern string with such options", "why_tests_cant": "All options, values and surrounding strings.", "anchors": ["crates/localiser/src/formatter.rs: part_pattern", "crates/localiser/src/formatter.rs: pattern_selectors", "crates/localiser/docs/pattern strings.asciidoc: decimal, date_time"]}
{"id": "C45", "title": "The selector other is mandatory", "statement": "A plural, ordinal or select placeholder without the selector other is refused.", "quantifier": "every pattern string with such a placeholder anywhere", "why_tests_cant": "Quantifies over all strings and selector tables.", "anchors": ["crates/localiser/src/formatter.rs: part_pattern", "crates/localiser/docs/pattern strings.asciidoc: Additional conditions"]}
{"id": "C46", "title": "The locale of a language tag is found and cached", "statement": "icu_language never panics for a tag returned by the registry, returns the locale of that tag, and returns the same reference for the tag ever after.", "quantifier": "every history of registry calls and every tag returned by one of them", "why_tests_cant": "The panic is excluded only by an invariant over all histories.", "anchors": ["crates/utility/src/language.rs: LanguageTagRegistry::icu_language"]}
{"id": "C47", "title": "Provider answers do not depend on earlier calls", "statement": "Every method of the sqlite3 provider returns, for the same arguments, the same result whatever methods were called before; the caches of prepared queries and of details are invisible.", "quantifier": "every directory of database files, every history of calls and every call", "why_tests_cant": "The caches are filled step by step; all histories and contents have to be covered.", "anchors": ["crates/provider/sqlite3/src/provider.rs: find_strings", "crates/provider/sqlite3/src/provider.rs: ProviderSqlite3::component_details"]}
{"id": "C48", "title": "Asking in the answered language gives the answer again", "statement": "If string() answers a request with a string in language t, a request for t gives the same string.", "quantifier": "every directory, component, identifier and tag", "why_tests_cant": "The localiser stores strings under the language of the answer, so the law has to hold for all contents and tags.", "anchors": ["crates/provider/sqlite3/src/provider.rs: find_strings", "crates/provider/sqlite3/src/provider.rs: ProviderSqlite3::string"]}
{"id": "C49", "title": "A provider knows exactly the components of its directory", "statement": "The components of a new provider are those with an own file and those listed in the all in one file, once each, and each is connected to exactly those files.", "quantifier": "every directory of database files, in every order of its entries", "why_tests_cant": "All combinations of files and their contents.", "anchors": ["crates/provider/sqlite3/src/provider.rs: ProviderSqlite3::try_new"]}
{"id": "C50", "title": "Details of an identifier", "statement": "identifier_details returns the default language of the component and exactly the languages in which the identifier has a string; it fails with an error naming the cause otherwise.", "quantifier": "every directory, component and identifier", "why_tests_cant": "Depends on the contents of all tables.", "anchors": ["crates/provider/sqlite3/src/provider.rs: ProviderSqlite3::identifier_details"]}
{"id": "C51", "title": "Components are independent of each other", "statement": "The details of a component depend on the files holding that component only.", "quantifier": "every directory and every change to files of other components", "why_tests_cant": "Quantifies over all changes to other files.", "anchors": ["crates/provider/sqlite3/src/provider.rs: ProviderSqlite3::component_details", "crates/provider/sqlite3/src/provider.rs: repository_details"]}
{"id": "C52", "title": "The localiser over the sqlite3 provider is transparent and does not panic", "statement": "For a localiser over a sqlite3 provider no sequence of format and literal calls panics, and every call returns what it would return without a cache.", "quantifier": "every directory of database files, every registry of commands, every history of calls", "why_tests_cant": "Needs the laws of provider, cache, parser and formatter together, for all contents and histories.", "anchors": ["crates/localiser/src/localiser.rs: Localiser::format", "crates/localiser/src/localiser.rs: Localiser::literal", "crates/provider/sqlite3/src/provider.rs: string"]}
{"id": "C53", "title": "From the database to the text", "statement": "A string stored for the language asked for is what literal returns, with that language; format returns its text: the string itself without grammar characters, the unescaped text of an escaped string, the string with the values in place of the placeholders, the documented text. A string that is not stored for the language or an ancestor is replaced by that of the default language if fallback is on.", "quantifier": "every directory, every stored string, all values, every history of calls", "why_tests_cant": "End to end statement over all contents, values and histories.", "anchors": ["crates/localiser/src/localiser.rs: actual_format", "crates/localiser/src/localiser.rs: actual_literal", "crates/provider/sqlite3/src/provider.rs: find_strings"]}
{"id": "C54", "title": "The tree reports the lengths of the string", "statement": "The lengths kept with an accepted syntax tree are the byte length and the number of characters of the string, the number of its tokens, and the sum of the grapheme lengths of the tokens.", "quantifier": "every string, every grammar, every ICU data", "why_tests_cant": "The lengths are accumulated at ten places of the parser; a forgotten one shows only for strings reaching that place.", "anchors": ["crates/localiser/src/tree.rs: Tree::push_token", "crates/localiser/src/tree.rs: Tree::lengths"]}
{"id": "C55", "title": "Errors are localised with the databases that come with the library", "statement": "Every error of the library, given as localisation data to a localiser over the shipped databases, is localised: to the documented sentence in the language asked for, or in the default language.", "quantifier": "every error value, every directory with the shipped files, every language tag, every history", "why_tests_cant": "About a hundred error variants times languages times fallback; the result needs provider, parser and formatter together.", "anchors": ["crates/localiser/src/error.rs", "crates/provider/sqlite3/src/error.rs", "crates/provider/core/src/error.rs", "crates/lexer/src/error.rs", "crates/*/l10n/*.sqlite3"]}
{"id": "C56", "title": "The localised text of an error agrees with its Display", "statement": "The English text of an error localised with the shipped databases is the text of Display, but for the quotes around the message.", "quantifier": "every error value that is localised, every parameter text", "why_tests_cant": "The two texts are written at different places (Rust format strings, databases); a sample of variants misses the ones that differ.", "anchors": ["crates/localiser/src/error.rs: Display for LocaliserError", "crates/localiser/src/error.rs: LocalisationErrorTrait"]}
{"id": "C57", "title": "The localisation data of an error names its type and variant", "statement": "The localisation data of an error has the name of its type and of its variant as the placeholders type and variant; errors of different variants have different data.", "quantifier": "every error value", "why_tests_cant": "Every variant has its own hand-written arm.", "anchors": ["crates/localiser/src/error.rs: LocalisationErrorTrait", "crates/provider/core/src/error.rs", "crates/lexer/src/error.rs"]}
{"id": "C58", "title": "The shipped databases can be opened and give their details", "statement": "A provider can be made of any directory of the shipped databases, and gives the details of the repository and of all components.", "quantifier": "every non-empty directory of shipped files, every history of calls", "why_tests_cant": "The details of one component depend on all files of the directory: 63 directories times histories.", "anchors": ["crates/provider/sqlite3/src/provider.rs: ProviderSqlite3::try_new", "crates/provider/sqlite3/src/provider.rs: get_details", "crates/*/l10n/*.sqlite3"]}
{"id": "C60", "title": "The shipped strings are patterns, are translated, and have the same placeholders in all languages", "statement": "Every string of the shipped databases can be formatted, every English string has an Italian translation, and the translation has the same placeholders.", "quantifier": "every row of the shipped databases, every ICU data, every registry of commands, every locale", "why_tests_cant": "Needs the parser for every row and independence from registry, locale and data provider.", "anchors": ["crates/*/l10n/*.sqlite3", "crates/localiser/src/formatter.rs: Formatter::try_new"]}
{"id": "C61", "title": "The options of decimal and date_time mean what is documented", "statement": "A set of options is accepted exactly if all its names and values are documented, and the text is then that of ICU4X for exactly these options: sign and grouping of a number, lengths of date and time with medium as default, and the locale with the calendar.", "quantifier": "every set of options, every value, every locale, every ICU4X data", "why_tests_cant": "Five options with their values, in any order and combination, over all values of all types.", "anchors": ["crates/localiser/src/formatter.rs: part_pattern", "crates/localiser/src/formatter.rs: sign_display", "crates/localiser/src/formatter.rs: decimal_grouping_display", "crates/localiser/src/formatter.rs: date_length", "crates/localiser/src/formatter.rs: format_pattern"]}
{"id": "C62", "title": "The calendar option sets the calendar of the locale", "statement": "The locale used with the option calendar is the locale of the language tag with the value of its keyword ca exchanged, or added.", "quantifier": "every locale with Unicode extension keywords, every calendar", "why_tests_cant": "String surgery on arbitrary locales; the usual locales have no extension.", "anchors": ["crates/localiser/src/formatter.rs: part_pattern"]}
{"id": "C59", "title": "The script data of a language is that of its script, and is right", "statement": "The data returned for a language tag is that of the script named in the tag, or else of the likely script of the language; the data kept with the default language is always that of the current default; nothing panics. The eight line/letter directions are told apart. Every script of Unicode has data, under its ISO 15924 code, given once, and the direction of letters agrees with the bidirectional class.", "quantifier": "every language tag, every behaviour of the locale parser and expander, every sequence of changes of the defaults, every script", "why_tests_cant": "185 hand-written entries keyed by hand-typed codes; a typo makes a script silently unknown.", "anchors": ["crates/localiser/src/script.rs: DataProvider", "crates/utility/src/script.rs: ScriptDirection", "crates/localiser/src/localiser.rs: get_script_data", "crates/localiser/src/localiser.rs: script_data"]}
{"id": "C63", "title": "Threads using one localiser do not disturb each other", "statement": "With feature `sync`, every call of `format`, `literal`, `format_localisation_data` (also with defaults) that returns gives what it gives alone, for settings made by some thread; it does not panic because of what other threads do. One thread alone gets what it gets without the feature.", "quantifier": "every schedule of any number of threads each making any sequence of calls, every history before, every provider", "why_tests_cant": "Races need particular interleavings of the critical sections (lookup, insertion, use); a test run hits them by chance only.", "anchors": ["crates/localiser/src/localiser.rs: actual_format", "crates/localiser/src/localiser.rs: actual_literal", "crates/localiser/src/localiser.rs: actual_format_localisation_data", "crates/localiser/src/localiser.rs: add_string_to_cache"]}
{"id": "C64", "title": "Script data follow the language under concurrent changes", "statement": "With feature `sync`, whenever no thread is inside a call that sets the language, the script data kept by the localiser are those of its current language.", "quantifier": "every schedule of any number of threads each making any sequence of calls", "why_tests_cant": "Needs two `defaults` calls interleaved between the two locks.", "anchors": ["crates/localiser/src/localiser.rs: defaults"]}
{"id": "C65", "title": "The locks of the localiser do not deadlock", "statement": "With feature `sync`, in every reachable state all threads are finished or some thread can take a step, and the number of steps is bounded by the calls; a single thread never waits for itself.", "quantifier": "every schedule of any number of threads each making any sequence of calls", "why_tests_cant": "A deadlock shows up in rare schedules only, as a hanging test.", "anchors": ["crates/localiser/src/localiser.rs: defaults", "crates/localiser/src/localiser.rs: actual_format"]}
{"id": "C66", "title": "A call sees the settings of one moment", "statement": "With feature `sync`, a call with defaults uses a language and a fallback setting that the localiser had at one moment.", "quantifier": "every schedule of any number of threads each making any sequence of calls", "why_tests_cant": "Needs a call between two assignments of another thread's `defaults`.", "anchors": ["crates/localiser/src/localiser.rs: defaults", "crates/localiser/src/localiser.rs: literal_with_defaults"]}
{"id": "C67", "title": "Errors of building a formatter tell the truth", "statement": "When building a formatter from a pattern string the parser accepts fails, the error is true of the string: the placeholder, keyword, option, value, selector, named string or command it names stands there and has the defect stated.", "quantifier": "every pattern string, command registry, locale and Unicode data", "why_tests_cant": "There are too many ways to write a defective pattern; a test checks the error of the few it thought of, and none looks whether the names in the message occur in the string.", "anchors": ["crates/localiser/src/formatter.rs: try_new", "crates/localiser/src/error.rs: FormatterError"]}
{"id": "C68", "title": "Errors of formatting tell the truth", "statement": "When formatting fails, the error is true of the string and the values: the placeholder it names has no value, a value has a type its placeholder does not accept, what a value selects has no selector, the text of a value is no ISO date or time, or a delayed command fails with that error.", "quantifier": "every pattern string, all values, after any number of earlier calls", "why_tests_cant": "The state of the formatter left by earlier calls and all combinations of values matter.", "anchors": ["crates/localiser/src/formatter.rs: format", "crates/localiser/src/error.rs: FormatterError"]}
{"id": "C69", "title": "Syntax errors point at what is wrong", "statement": "When a pattern string is rejected, the error is true of it: the token reported is at the position reported and is the first that no accepted string could have there; the construct reported is the one it stands in; a reported duplicate is a duplicate; and a string said to have ended abruptly could have gone on to be accepted.", "quantifier": "every string, every Unicode data", "why_tests_cant": "That no accepted string continues with a token, or that one does, quantifies over all continuations.", "anchors": ["crates/localiser/src/tree.rs: try_new", "crates/localiser/src/error.rs: TreeError"]}
{"id": "C70", "title": "Threads that share a provider get the answers of a single user", "statement": "However the steps of the calls of several threads of one provider are interleaved, each call ends after a bounded number of its own steps, does not panic, and gives what it gives to the only user of the provider, or the error of SQLite if SQLite failed in this very call.", "quantifier": "every repository, any number of threads and calls, every interleaving, SQLite failing at any step", "why_tests_cant": "The interleavings of the cache of queries and of the details built once are unboundedly many and not under a test's control.", "anchors": ["crates/provider/sqlite3/src/provider.rs: find_strings", "crates/provider/sqlite3/src/provider.rs: build_cache", "crates/provider/sqlite3/src/provider.rs: component_details", "crates/provider/sqlite3/src/provider.rs: repository_details"]}
{"id": "C71", "title": "Feature sync makes the types usable by several threads", "statement": "With the feature sync every public type of the library can be given to another thread and shared between threads (is Send and Sync), as the documentation of the feature says, provided the types of the other libraries are.", "quantifier": "every type of the library, every behaviour of the types of other libraries", "why_tests_cant": "Send and Sync are properties of types, not of runs; no test names them.", "anchors": ["crates/localiser/src/localiser.rs: Localiser", "crates/localiser/src/command.rs: CommandRegistry", "crates/provider/core/src/error.rs: ProviderError", "crates/localiser/src/error.rs: CommandError", "crates/provider/sqlite3/src/provider.rs: LocalisationProviderSqlite3"]}
{"id": "C72", "title": "Features choose the source of data as documented", "statement": "With the default features (icu_compiled_data) the internal data of ICU4X can be chosen, loaded and used for formatting; with icu_blob and icu_fs a blob or file system provider can; with icu_extended the languages are locales.", "quantifier": "every combination of features of all crates, every ICU data, every pattern string and all values", "why_tests_cant": "A test is compiled with one set of features; the tests of the library enable one feature by a development dependency.", "anchors": ["crates/lexer/src/icu.rs: try_new", "crates/localiser/src/formatter.rs: fixed_decimal_formatter", "crates/localiser/Cargo.toml: features", "crates/utility/src/language.rs: IcuLanguage"]}
{"id": "C73", "title": "Features of the crates fit together", "statement": "In every build the crates agree on the shared pointers (Rc or Arc) that they pass to each other.", "quantifier": "every combination of features of all crates", "why_tests_cant": "The combinations are many, and one that does not fit does not compile.", "anchors": ["crates/lexer/Cargo.toml: features", "crates/localiser/Cargo.toml: features", "crates/localiser/src/tree.rs: try_new", "crates/lexer/src/lexer.rs: try_new"]}
{"id": "C74", "title": "Texts of errors tell the truth", "statement": "The Display text of every error begins with the names of its type and variant, says each field with its noun (component ‘c’, position 3), shows the text of the error it is due to in brackets, and ends with a full stop; errors of different variants have different texts.", "quantifier": "every error of every crate, every value of the fields, every chain of causes", "why_tests_cant": "There are some eighty variants with fields of any content, nested to any depth; no test formats them.", "anchors": ["crates/lexer/src/error.rs: fmt", "crates/provider/core/src/error.rs: fmt", "crates/provider/sqlite3/src/error.rs: fmt", "crates/localiser/src/error.rs: fmt", "crates/localiser/src/tree.rs: fmt"]}
{"id": "C75", "title": "Data of errors fits the strings", "statement": "The localisation data of an error gives a value for every placeholder of the string with its identifier in the files that come with the library, and for no other; every message has such a string.", "quantifier": "every error of every crate, every field, every string of the files in every language", "why_tests_cant": "The strings are in databases and the data in the code of several crates; no test brings them together for all errors.", "anchors": ["crates/localiser/src/error.rs: localisation_data", "crates/provider/sqlite3/src/error.rs: localisation_data", "crates/localiser/l10n/i18n_localiser.sqlite3", "crates/lexer/src/error.rs: localisation_data"]}
{"id": "C76", "title": "Errors of opening a provider tell the truth", "statement": "An error of try_new of the sqlite3 provider names a defect that the directory has: the path is not a directory or has no sqlite3 file, a file lacks the table, column, type or property named, has the version named, or is named after a component that it does not have; and the error documented for a situation is the one returned.", "quantifier": "every path, every directory content, every schema of every file, every error", "why_tests_cant": "The tests open correct files only; the defects of a schema are unbounded in number and combination.", "anchors": ["crates/provider/sqlite3/src/provider.rs: try_new", "crates/provider/sqlite3/src/provider.rs: verify_schema", "crates/provider/sqlite3/src/error.rs: Sqlite3Error", "crates/provider/sqlite3/src/error.rs: SchemaError"]}
{"id": "C77", "title": "Errors of the provider tell the truth", "statement": "ComponentNotFound is returned only for a component that no file has, DefaultLanguage only for one without default language, InvalidDefaultLanguage only if the default language is not among its languages, a registry error only because of a row with an invalid tag, a Sqlite error only if a query failed; methods that look for strings fail only for an unknown component, a failed query or a string with the identifier asked for.", "quantifier": "every content of every file, every history of calls, every call, every order of rows, every failure of SQLite", "why_tests_cant": "No test of the repository makes a query on defective content, and the contents and histories are unbounded.", "anchors": ["crates/provider/core/src/error.rs: ProviderError", "crates/provider/sqlite3/src/provider.rs: string", "crates/provider/sqlite3/src/provider.rs: identifier_details", "crates/provider/sqlite3/src/provider.rs: component_details"]}
{"id": "C78", "title": "Errors of the localiser tell the truth", "statement": "StringNotFound is returned only for a string asked for that the provider does not have, a provider error only if the provider failed for a string asked for, a formatter error only if the string asked for cannot be formatted, CacheEntry only for a string that requires values; over the sqlite3 provider the wrapped errors are true of the files.", "quantifier": "every provider, every history of calls with and without caching, every call, nested data to any depth, every error", "why_tests_cant": "The error depends on the cache, and so on the whole history; the tests call a method once.", "anchors": ["crates/localiser/src/localiser.rs: actual_format", "crates/localiser/src/localiser.rs: actual_literal", "crates/localiser/src/localiser.rs: actual_format_localisation_data", "crates/localiser/src/error.rs: LocaliserError"]}
{"id": "C79", "title": "The random order of hash maps does not matter", "statement": "Rust's HashMap goes through its entries in an order that differs from run to run. Whether a formatter can be built from a string, the formatter, the text for given values and the text of localisation data are the same for every such order; only the choice among several errors may differ, and whichever is reported is about something in the string.", "quantifier": "every order of every map of options and selectors (one order per pattern of the string), every string, language, registry, map of values, nested localisation data to any depth", "why_tests_cant": "A test runs with one or a few of the orders; it cannot choose the seed of the hash function.", "anchors": ["crates/localiser/src/formatter.rs: part_pattern", "crates/localiser/src/formatter.rs: pattern_selectors", "crates/localiser/src/formatter.rs: format_pattern", "crates/localiser/src/localiser.rs: actual_format_localisation_data"]}
{"id": "C80", "title": "The ratios of the statistics are right as f32 numbers", "statement": "The ratio reported for a language is a number of type f32: the one nearest to the quotient of its number of strings and that of the default language (for counts below 2^24, else within one part in 2^22), zero just if it has no strings, exactly one for the default language, never on the wrong side of one, and larger counts never give smaller ratios. If the repository has no default language all its ratios are 0.0.", "quantifier": "every repository content, every component and language, every pair of counts below 2^64", "why_tests_cant": "Rounding over all pairs of 64-bit counts.", "anchors": ["crates/provider/sqlite3/src/provider.rs: build_cache", "crates/provider/core/src/provider.rs: LanguageData", "crates/provider/core/src/provider.rs: RepositoryDetails"]}
{"id": "C81", "title": "Original strings serve the similar languages", "statement": "As documented with the example of the knight: if a string is stored for the default language of a component (say en-ZA) and neither for a requested tag of the same language (en-GB) nor for anything between the two, the original string is returned for the request.", "quantifier": "every repository content, component, identifier, default language and requested tag of the same language, after any calls", "why_tests_cant": "Depends on the order in which SQLite returns rows and on what else is stored.", "anchors": ["crates/provider/sqlite3/l10n/supported_languages.asciidoc", "crates/provider/sqlite3/src/provider.rs: string", "crates/provider/sqlite3/src/provider.rs: find_strings"]}
{"id": "C82", "title": "Built-in commands do what their documentation says", "statement": "english_a_or_an gives an for a word that starts with a vowel letter, capital or not, and a for every other word; file_path writes a path with the separator of the operating system.", "quantifier": "every word and every path, any further parameters", "why_tests_cant": "All strings; and the system on which the tests run has one separator.", "anchors": ["crates/localiser/src/command.rs: english_a_or_an", "crates/localiser/src/command.rs: file_path"]}
{"id": "C83", "title": "Formatted texts stay in proportion", "statement": "The length of a formatted text is bounded by a power of the lengths of the pattern string and of the values (for strings of text and plain placeholders by their sum), so that a small pattern string cannot fill the memory.", "quantifier": "every pattern string a formatter can be built from, all values, after any calls of format; nesting of named strings to any depth", "why_tests_cant": "Needs strings nested deeper and deeper; every single string has some length.", "anchors": ["crates/localiser/src/formatter.rs: format_pattern", "crates/localiser/src/formatter.rs: format_complex", "crates/localiser/docs/pattern strings.asciidoc"]}
{"id": "C84", "title": "Syntax trees are small, shallow and complete", "statement": "For every accepted string the tree has at most two nodes more than tokens (and than characters), every node reaches the root over at most six parents, the tokens of the nodes are in strictly increasing order (so no token belongs to two nodes), and every token that is neither white space nor grammar belongs to a node.", "quantifier": "every string, grammar and Unicode data", "why_tests_cant": "Depends on all strings; a text lost or counted twice shows only with the right nesting.", "anchors": ["crates/localiser/src/tree.rs: try_new", "crates/localiser/src/tree.rs: insert"]}
{"id": "C85", "title": "What a string does not use does not matter", "statement": "Formatting gives the same result whatever values are given for names that the pattern string does not mention, and whatever named strings it has that no selector leads to; so does localisation data with further values.", "quantifier": "every pattern string, all values, after any calls of format; every provider and localisation data", "why_tests_cant": "Speaks about pairs of runs, with arbitrary further values and strings.", "anchors": ["crates/localiser/src/formatter.rs: format_pattern", "crates/localiser/src/formatter.rs: format_command", "crates/localiser/src/localiser.rs: format_localisation_data"]}
{"id": "C86", "title": "The strings of a database are independent of each other", "statement": "string, string_exact_match and strings for an identifier of a component depend only on the rows of that identifier and component in the files holding the component, and so does the text a localiser returns for it; other strings, components, contributors and files make no difference.", "quantifier": "every two directories with the same rows for the strings asked for, every history of calls", "why_tests_cant": "Speaks about pairs of databases with arbitrary other content, and all histories.", "anchors": ["crates/provider/sqlite3/src/provider.rs: find_strings", "crates/provider/sqlite3/src/provider.rs: ProviderSqlite3::string", "crates/localiser/src/localiser.rs: actual_format"]}
{"id": "C87", "title": "Only documented pattern strings are accepted", "statement": "A string that the parser accepts is written according to the documented syntax, and can be read in one way only.", "quantifier": "every string, all Unicode data in which the grammar characters are syntax and the space is white space", "why_tests_cant": "A statement about everything that is not in the language; the strings wrongly accepted are infinitely many.", "anchors": ["crates/localiser/src/tree.rs: try_new", "crates/localiser/docs/pattern strings.asciidoc"]}
{"id": "C88", "title": "A pattern string is formatted part by part", "statement": "If a main string is the concatenation of two main strings with the same named strings, its text is the concatenation of their texts (the first error if one fails), and it can be formatted if and only if both can.", "quantifier": "every two documented strings over the same group without a name in common, all values, after any calls of format", "why_tests_cant": "Speaks about pairs of strings and their concatenation, with hidden state of the formatter in between.", "anchors": ["crates/localiser/src/formatter.rs: format_pattern", "crates/localiser/src/formatter.rs: try_new"]}
{"id": "C89", "title": "Tokens depend on nothing but the text around them", "statement": "The tokens of a concatenation are those of the two strings, with positions moved by the lengths of the first, if no token can contain the characters where they meet; otherwise exactly the two tokens that meet become one. So text appended to a string changes its last token at most. The order, repetitions and other characters of the grammar do not matter, nor Unicode data about other characters.", "quantifier": "all strings, grammars and Unicode data", "why_tests_cant": "Relates the tokens of any two strings to those of their concatenation, with all positions.", "anchors": ["crates/lexer/src/lexer.rs: LexerIterator::next", "crates/lexer/src/lexer.rs: token_type"]}
{"id": "C90", "title": "What is remembered is not fetched again", "statement": "A string that a localiser gave once with caching on is given again, formatted with any values, without asking the provider or parsing the pattern, whatever was asked for in between. A language tag or locale that a registry gave once is given again, under each of its spellings, without parsing. Once a provider has given details, those of components and of the repository are given without reading a file.", "quantifier": "all histories of calls of a localiser, a registry and a provider, all providers, patterns, values, files and Unicode data", "why_tests_cant": "Says that no history between two equal requests makes the second one go to the provider.", "anchors": ["crates/localiser/src/localiser.rs: format, literal, format_localisation_data", "crates/utility/src/language.rs: LanguageTagRegistry::tag", "crates/provider/sqlite3/src/provider.rs: repository_details"]}
{"id": "C91", "title": "Memory grows only with distinct requests", "statement": "However often and in whatever order requests are repeated, a localiser has no more strings in its cache than distinct requests were made, a registry no more tags, spellings and locales than distinct strings were asked for, and a provider keeps at most eighteen prepared queries.", "quantifier": "all histories of calls of a localiser, a registry and a provider", "why_tests_cant": "A bound on memory over histories of any length.", "anchors": ["crates/localiser/src/localiser.rs: add_string_to_cache", "crates/utility/src/language.rs: LanguageTagRegistry::tag", "crates/provider/sqlite3/src/provider.rs: LocalisationProviderSqlite3"]}
{"id": "C92", "title": "Commands are called when and as often as their text is needed", "statement": "Making a formatter calls every command without a delay marker exactly once, those of the named strings first, each string from left to right; its text is constant from then on, whatever becomes of the command. Formatting calls exactly the commands with a delay marker that are shown, each as often as it is shown, from left to right, with the values given for this formatting. At the first failure no more commands are called. A string that is not a pattern string calls nothing. With commands without effects nothing depends on any of this.", "quantifier": "all commands with any effects on any kind of state, all pattern strings, values, histories of formatting, locales, formatting environments and Unicode data", "why_tests_cant": "Says which calls happen and that no others do, for all commands whose effects could reveal them.", "anchors": ["crates/localiser/src/formatter.rs: part_command, format_pattern", "crates/localiser/src/command.rs: CommandRegistry"]}
{"id": "C93", "title": "A text depends on values only through what is shown of them", "statement": "Two pattern strings whose items correspond one to one have the same text, if corresponding placeholders show the same: the same text for a placeholder without keyword, the same numeral or moment for decimal and date_time, corresponding keys for select, the same numeral and corresponding categories for plural and ordinal, the same answer for commands. Names of placeholders, names of strings, the types of the values, locales, commands and ICU4X data matter in no other way. In particular a pattern string without numbers and dates has the same text in every locale, and consistently renaming placeholders together with the values leaves the text alone.", "quantifier": "all pairs of pattern strings, values, locales, command registries, formatting environments and Unicode data; fresh formatters, and formatters after any other uses", "why_tests_cant": "Compares all pairs of runs, in all locales and for all renamings.", "anchors": ["crates/localiser/src/formatter.rs: format, format_pattern"]}
{"id": "C94", "title": "A formatter remembers numerals only, and settles", "statement": "From one call to the next a formatter keeps nothing but one numeral for each number sign. Whatever was formatted before, formatting with given values succeeds or fails in the same way, with the same error, and the texts are the same but for open places, determined by the pattern string and the values, in which the numerals that are kept are seen. Formatting with the same values again leaves the formatter as it is, so that all results but the first are the same. The same holds of every call of a localiser for a single string, in every state, with or without caching.", "quantifier": "all formatters, histories of formatting, values, locales, formatting environments, providers, states of a localiser and numbers of repetitions", "why_tests_cant": "Speaks of all histories, and of all repetitions of a call in all states of the cache.", "anchors": ["crates/localiser/src/formatter.rs: format_pattern, find_number_sign, update_number_part", "crates/localiser/src/localiser.rs: actual_format, actual_literal, add_string_to_cache"]}
{"id": "C95", "title": "A text is made of the words of its pattern and of what is supplied, taken as it is", "statement": "For a pattern string, and the values that choose in it (those of placeholders with a keyword), there is one text with open places: a sequence of words of the pattern string and of places of the pattern string. The text is this sequence with the places filled by the texts of values, the answers of commands, the numerals and the dates and times, whatever these texts are. Nothing that is supplied is read as a pattern, changes what else is shown, or makes formatting fail or succeed. In particular what holds of all characters of the words and of the texts supplied holds of all characters of the text.", "quantifier": "all pattern strings, values, locales, command registries, formatting environments and Unicode data; fresh formatters, and formatters after any other uses", "why_tests_cant": "The supplied texts are arbitrary, and the same open text must serve for all of them.", "anchors": ["crates/localiser/src/formatter.rs: format, format_pattern, find_number_sign"]}
{"id": "C96", "title": "A localiser calls the constant commands of a string once, the delayed ones each time", "statement": "A call for a string that is not remembered calls the commands of the string without delay marker, those of named strings first, and then the delayed ones that are shown with the values of the call; a call for a string whose formatter is remembered calls only the delayed ones; literal calls, strings without grammar, missing strings and broken strings call none. Localisation data calls those of its strings one after the other, inner ones first. If a call fails, the commands called are the first of these. With caching on, the commands without delay marker of a string are called once and keep their text.", "quantifier": "all commands with any effects on any state of the world, providers, histories of calls with changes of the world in between, values, localisation data of any depth and Unicode data", "why_tests_cant": "Speaks of all histories of a localiser and of commands whose answers depend on everything outside.", "anchors": ["crates/localiser/src/localiser.rs: actual_format, actual_literal, actual_format_localisation_data", "crates/localiser/src/formatter.rs: try_new, part_command, format_pattern"]}
{"id": "C97", "title": "A call of the provider asks SQLite only what it needs, and no query twice", "statement": "A lookup asks for the language tag and its ancestors, longest first, in the all in one file and then in the file of the component; it stops at the first row or failure and answers what SQLite said last. A component that is not known is not asked for. Every query concerns a component in use and a file that has it; a lookup makes at most two queries per level, details at most four per component and per language that SQLite gives: languages in each file, the default language in the own file only if the all in one file gives none, contributors and count of each language in each file; an identifier is asked for in the own file only if the other has no row. Once details were given, those of components and of the repository need no query. No call makes the same query twice. With files that do not change all answers are those of C34 to C42.", "quantifier": "all providers that were opened, histories of calls, requests, and databases, which may change between any two queries or fail at any query", "why_tests_cant": "Speaks of all histories, directories and all ways in which files change or SQLite fails meanwhile; queries are not visible in results.", "anchors": ["crates/provider/sqlite3/src/provider.rs: find_strings, languages, contributors, count, default_language, identifier_languages, build_cache, connection, string, string_exact_match, strings, identifier_details, component_details, repository_details"]}
{"id": "C98", "title": "A localiser asks its provider exactly when it has to, and gives what the provider says", "statement": "For a string that is not remembered the provider is asked once in the language wanted; only if it has none and fallback is on it is asked for the default language and then for the string in this language; with the answer the call goes on as if the provider had no other string, and an error ends it without a change of the localiser. For a string that is remembered the provider does not matter. The strings of localisation data are asked for in their order until one fails. Whatever the provider does, what a call gives is a string it once gave for the same key, or the text of a formatter made from it. A call gives what the provider would say now. With a provider whose answers do not change, all calls are those of C28 to C33, in particular with the sqlite3 provider, its memory and its queries.", "quantifier": "all providers with any effects and changing answers, commands with any effects, changes of the world between calls, histories of calls and requests", "why_tests_cant": "Speaks of all providers and of all changes of their content between calls; how often a provider is asked is not visible in results.", "anchors": ["crates/localiser/src/localiser.rs: actual_format, actual_literal, actual_format_localisation_data, format, literal, format_localisation_data, defaults", "crates/provider/core/src/provider.rs: LocalisationProvider"]}
{"id": "C99", "title": "The methods of the provider agree with each other", "statement": "For the same component, identifier and language, one string is returned exactly if all strings are not the empty list, and it is one of them, the first if SQLite gives rows in one order. If there is an exact match, there is a string, and its language starts with that of the exact match. The languages listed for an identifier are exactly those of the strings that are returned for it: for each there is an exact match in it, and every string returned is in one of them. They are among the languages listed for the component, and these among those of the repository, as are its contributors; the default languages agree; the total of a component is at most that of the repository. If the details of a component count strings in a language, some identifier has a string in it.", "quantifier": "all directories, contents of the databases, orders of rows, histories of calls, components, identifiers and language tags", "why_tests_cant": "Relates the answers of pairs of methods for all contents of databases; the disagreements need a component in two files, or a language without contributor.", "anchors": ["crates/provider/sqlite3/src/provider.rs: string, string_exact_match, strings, identifier_details, component_details, repository_details"]}
{"id": "C100", "title": "Commands may use the localiser that calls them", "statement": "With commands that do not use the localiser no borrow of its cells fails, and calls are those of the model without borrows. Whatever commands do, when a call ends, also in a panic, exactly its own borrows have ended. A command can use the localiser like any other code: no borrow fails, and with caching a string that it asked for in a call is remembered after the call. While a formatter of the cache formats (in a delayed command) nothing is added to the cache; a call with caching that needs a string not remembered does not succeed, for a literal string it panics exactly if the string is found and is to be remembered, and asking for the string being formatted panics; another remembered formatter formats as if nothing was borrowed. What commands do to the settings lasts and nothing else changes them. A command without delay marker that asks for the string it stands in never ends.", "quantifier": "all commands that ask the localiser for anything any number of times and change the world, all depths of nested calls, providers, settings, histories of calls and states of the cache", "why_tests_cant": "Speaks of all programs of commands, nested to any depth, and of all states of the cache in which they may run; a test shows single panics, not their absence.", "anchors": ["crates/localiser/src/localiser.rs: actual_format, actual_literal, actual_format_localisation_data, add_string_to_cache, defaults", "crates/localiser/src/formatter.rs: try_new, format, part_command, format_pattern", "crates/localiser/src/command.rs: CommandRegistry::command"]}
{"id": "C101", "title": "Commands that use the localiser, with the feature sync", "statement": "With the feature sync, and as long as no lock is poisoned, commands that use the localiser see the same answers, localiser and world as without it, except that the thread waits for ever where a borrow fails without the feature. With commands that do not use the localiser a call is that of a single thread of the model of threads, poisoned locks included. When a call ends, also in a panic, exactly its own locks are given back. In a delayed command of a formatter of the cache, a call with caching that needs a string not remembered is never answered with a text; for a literal string the thread waits exactly if the string is found and is to be remembered; asking for the string being formatted waits for ever. A formatter of the cache that panics is poisoned, and from then on panics in every call without calling a command. Commands can use the localiser like any other code: the thread never waits for ever.", "quantifier": "all commands that ask the localiser for anything any number of times and change the world, all depths of nested calls, providers, settings, histories of calls and states of the cache and its locks", "why_tests_cant": "That a thread never waits for ever, for any program of commands and any history, cannot be tested; a test that waits only shows that one call does not return in time.", "anchors": ["crates/localiser/src/localiser.rs: actual_format, actual_literal, actual_format_localisation_data, add_string_to_cache, CacheData", "crates/localiser/src/formatter.rs: try_new, format, part_command, format_pattern"]}
{"id": "C102", "title": "Commands can be registered at any time", "statement": "Registering a command never takes away or changes a command registered before. More commands change nothing but that missing ones are found: building and formatting a string, and every call of a localiser with any cache, give the same, or failed because a named command was not registered. When a command is registered does not matter: if no call fails for want of one, all answers and the localiser with its cache are those of a localiser that has all commands from the beginning. If a call fails for want of a command it leaves no trace: a later call has the answer a localiser without a cache would give with the commands registered by then.", "quantifier": "all registries, histories of registrations and calls in any order, strings, values, providers, settings and states of the cache", "why_tests_cant": "The order of registrations and calls, the strings remembered and the commands they name are unbounded in number; a test can show only one order.", "anchors": ["crates/localiser/src/command.rs: insert, command", "crates/localiser/src/formatter.rs: try_new, part_command", "crates/localiser/src/localiser.rs: command_registry, actual_format"]}
{"id": "C103", "title": "A localiser is a notebook", "statement": "For every script of calls and of registrations of commands, with no condition on the calls, the answers of a localiser are those of a notebook: lines are only added to it, a page is begun for a language, strings are noted on pages as texts or as patterns, and every pattern is formatted anew. After the script the localiser remembers exactly what stands on the newest page of each language. A call for one string has the answer of a localiser without a cache exactly if its note (if any) is right, and there is a page for a new note (if one is to be made). Number signs are to stand in branches of plurals only (C19).", "quantifier": "all scripts of calls and registrations, settings, providers, strings, values and commands", "why_tests_cant": "The cache, its overwritten languages, the formatters it changes and the panics depend on the whole history of calls; a test can compare only single histories.", "anchors": ["crates/localiser/src/localiser.rs: actual_format, actual_literal, actual_format_localisation_data, add_string_to_cache, defaults"]}
{"id": "C104", "title": "Threads that use the registry for anything get right answers", "statement": "Threads call any methods of one language tag registry, any number of times, each call depending on the answers to the earlier ones. Every tag given is the canonical form of the string asked for, and exactly ill-formed strings are errors; every locale is that of its tag; every list has canonical tags only, each one asked for before, and the list of tags names none twice. Each thread makes the calls of its program in their order, and goes on with the answers it was given.", "quantifier": "every program of every thread, every number of threads, every interleaving of critical sections, every earlier use of the registry", "why_tests_cant": "Tests sample a few schedules of a few programs.", "anchors": ["crates/utility/src/language.rs: LanguageTagRegistry::tag, icu_language, list, list_deprecated, list_all (feature sync)"]}
{"id": "C105", "title": "A tag that was given to a thread is listed", "statement": "A tag that the registry has given to a thread is in every list of tags made afterwards.", "quantifier": "every program of every thread and every interleaving of critical sections", "why_tests_cant": "The moment at which a tag is known by an alias but not yet listed lies between two locks.", "anchors": ["crates/utility/src/language.rs: LanguageTagRegistry::tag, icu_language, list, list_deprecated, list_all (feature sync)"]}
{"id": "C106", "title": "Threads that use the registry do not wait for ever", "statement": "A thread that cannot go on waits for exactly one other, which can go on and gives the lock back with its next step. A call takes at most six critical sections. At any moment a thread can get its next answer within seven steps, one of them of the thread it waits for. Finitely many threads all come to their end under every schedule that forgets none of them.", "quantifier": "every program of every thread, every schedule, every fair infinite schedule", "why_tests_cant": "Absence of deadlock and termination are claims about all schedules, also infinite ones.", "anchors": ["crates/utility/src/language.rs: LanguageTagRegistry::tag, icu_language, list, list_deprecated, list_all (feature sync)"]}
{"id": "C107", "title": "One reference for a tag, whichever thread asks and how often", "statement": "A thread that asks for a string again gets the reference it got before, and spellings of one tag share one reference.", "quantifier": "every program of every thread and every interleaving of critical sections", "why_tests_cant": "Two allocations for one tag arise in a few interleavings only.", "anchors": ["crates/utility/src/language.rs: LanguageTagRegistry::tag, icu_language, list, list_deprecated, list_all (feature sync)"]}
{"id": "C108", "title": "The registry parses a language tag once", "statement": "A call of tag parses its string exactly if the string is ill-formed, or neither it nor a spelling of which it is the canonical form was asked for before. A well-formed string is parsed once at most, whatever calls are made in between, an ill-formed one each time; the locale of a tag is made once. Of several threads, each parses a well-formed string once at most, under every schedule, and not at all if it begins when the string was answered to any of them; the same holds of the locale of a tag.", "quantifier": "every history of calls, every program of every thread, every interleaving", "why_tests_cant": "A count over all histories and schedules.", "anchors": ["crates/utility/src/language.rs: LanguageTagRegistry::tag, icu_language", "crates/utility/README.asciidoc: purpose of the registry"]}
{"id": "C109", "title": "Formatting fails to end exactly when the main string comes to stand for itself", "statement": "A call of format does not come to an end exactly if, with the given values, a placeholder that is reached before anything fails stands for the main string, directly or through the named strings that placeholders stand for. Otherwise the recursion is at most as deep as there are named strings.", "quantifier": "every pattern string a formatter can be built from, all values, after any calls of format; nesting of named strings to any depth", "why_tests_cant": "That a call does not end cannot be observed; the depth is bounded over all strings and values.", "anchors": ["crates/localiser/src/formatter.rs: format_pattern", "crates/localiser/src/formatter.rs: format_complex"]}
{"id": "C110", "title": "A string is fetched from the database once", "statement": "With caching on, the number of queries a localiser makes in the database for any number of calls is bounded by the number of distinct strings and languages asked for (at most two queries for each subtag of the language, four with fallback), and those for the details of the components, made once. A call makes queries exactly if its string is not remembered for the language asked for.", "quantifier": "every script of calls of a localiser over the sqlite3 provider, every database, all language tags", "why_tests_cant": "A bound over scripts of every length.", "anchors": ["crates/localiser/src/localiser.rs: actual_format, actual_literal", "crates/provider/sqlite3/src/provider.rs: find_strings, component_details"]}
{"id": "C111", "title": "Calls of the sqlite3 provider are as good as single steps for threads that share a localiser", "statement": "However the steps of the provider's calls mingle with the steps of all threads of a localiser, and with those of others who use the provider, the settings, the cache and the results of all threads are those of some schedule in which the provider answers each call at once, and every such schedule comes about. If SQLite fails, only the call that asked returns its error; all else is as if that call had not been finished. At no time is there a deadlock: from every state all calls can be brought to their end.", "quantifier": "every database, any number of threads with any calls, every interleaving of steps, every pattern of failures of SQLite", "why_tests_cant": "Interleavings of critical sections of two components cannot be enumerated or forced by tests.", "anchors": ["crates/localiser/src/localiser.rs: actual_format, actual_literal, actual_format_localisation_data", "crates/provider/sqlite3/src/provider.rs: string, component_details (feature sync)"]}
{"id": "C112", "title": "What is answered while the databases change", "statement": "Each call answers what a provider opened at that moment would answer, and a localiser without caching gives the text of that moment. If the content of the files changes between calls in any way, strings are those of the time of the call, details are those of the first call for details that succeeded, and of the details of an identifier the languages are of now and the default language is of then.", "quantifier": "every database behaviour in which each call sees one content, every history of calls and changes, every language", "why_tests_cant": "All interleavings of calls with changes of the files are infinitely many; tests use fixed files.", "anchors": ["crates/provider/sqlite3/src/provider.rs: find_strings, build_cache, identifier_details, component_details, repository_details", "crates/localiser/src/localiser.rs: actual_format, actual_literal, defaults"]}
{"id": "C113", "title": "A call during which the files change answers as at one time", "statement": "If the files of the databases change while a call is running, its answer is the one that a provider would give that is opened at some time during the call; what is found was stored at some time during the call, and a string that is there all the time is found; so for the texts of a localiser.", "quantifier": "every change of the files between any two queries, every provider, every earlier calls, every lookup; every ICU data, localiser and cache", "why_tests_cant": "A test would have to change the files between two queries of one call.", "anchors": ["crates/provider/sqlite3/src/provider.rs: find_strings", "crates/provider/sqlite3/src/provider.rs: string", "crates/provider/sqlite3/src/provider.rs: build_cache", "crates/localiser/src/localiser.rs: actual_literal"]}
{"id": "C114", "title": "Repository details are the sum of component details", "statement": "Whatever SQLite answers, also if files change while details are read, the details of the repository are the sum of the details that later calls give for the components: total and numbers of each language are sums, languages and contributors are unions, the default language is that of the component application, ratios refer to it; provided the all in one file does not write a language in two ways.", "quantifier": "every behaviour of SQLite, every provider, every calls before and between", "why_tests_cant": "A test has fixed files, hence fixed answers, and few components.", "anchors": ["crates/provider/sqlite3/src/provider.rs: build_cache", "crates/provider/sqlite3/src/provider.rs: component_details", "crates/provider/sqlite3/src/provider.rs: repository_details"]}
{"id": "C115", "title": "What one call is given does not reach the texts of other calls", "statement": "Two histories of a localiser that differ only in the values passed to the calls cannot be told apart by later calls: with or without caching, these give the same texts, languages, errors and panics. So a value given for one user is never shown to another.", "quantifier": "every provider, every history of calls, all values, every later calls", "why_tests_cant": "It compares pairs of executions of unbounded length, for all values.", "anchors": ["crates/localiser/src/localiser.rs: actual_format", "crates/localiser/src/localiser.rs: actual_literal", "crates/localiser/src/localiser.rs: actual_format_localisation_data", "crates/localiser/src/formatter.rs: format"]}
{"id": "C116", "title": "A text has no characters but those of the strings stored and of what is supplied for it", "statement": "Each character of a text that a localiser gives comes from a string of the provider, from a text among the values of this very call (also inside localisation data), from a numeral, a date or a time, or from the answer of a command. So if these have only characters of some set (say, none that is special in HTML), the text has only such characters, whatever other calls or other threads were given before. The built-in commands bring in only the letters a and n.", "quantifier": "every set of characters, every provider, every history of calls and values, every schedule of threads, every call", "why_tests_cant": "It is about all histories, schedules, strings and values at once, and about characters that never appear.", "anchors": ["crates/localiser/src/localiser.rs: actual_format", "crates/localiser/src/localiser.rs: actual_literal", "crates/localiser/src/localiser.rs: actual_format_localisation_data", "crates/localiser/src/formatter.rs: format", "crates/localiser/src/formatter.rs: format_pattern", "crates/localiser/src/command.rs: english_a_or_an"]}
