# Design of the formal model

Target: `/repo` (rizzen-yazston/i18n), read as text only. Everything is in Coq 8.16.1
under `rocq/theories`, logical name `Verif`.

## Conventions

* A Rust `String`/`&str` is a `list N` of code points (`ustr`). UTF-8 byte lengths are
  computed by `clen`/`blen`. Literals are written `us "text"` (ASCII) and `u8 "text"` (UTF-8).
* `Result` and `Option` stay data. A panic (failed `unwrap`, out of range index,
  subtraction underflow) is an explicit third outcome `Panic` of type `outcome`, distinct from `Err`.
* `&mut` parameters become returned values. Loops become structural recursion, folds, or
  recursion on explicit fuel with an explicit out-of-fuel outcome; a theorem shows that the
  fuel supplied by the top-level function is always enough (or, for formatting, exactly when it is not).
* `HashMap` is an association list (`amap`), newest binding replacing the old one in place. Iteration order
  of a real `HashMap` is unspecified; where the code iterates over one, theorems about
  successful results do not depend on the order, and error theorems do not say *which* of several errors
  is reported. This is itself proved (C79, and for the components of a provider in C40): the functions are modelled once more
  with an arbitrary order.
* External code is a parameter (record of functions), so every theorem quantifies over it:
  ICU character sets and grapheme segmenter (`icu`), ICU number / date / plural formatting
  (`fmtenv`), canonicalisation of language tags (`canon`), parsing and expansion of locales (`scriptenv`), user
  commands, the provider as seen by the localiser (`lenv`), and the files of a directory, with the order in which SQLite
  returns rows where no `ORDER BY` decides it (`penv`). SQL queries are list functions on rows.
* `usize` is unbounded `nat`; no property here is about overflow of counters. Parsing of bounded
  integers (`i32`, `u8`, `u32`) checks the bounds explicitly.
* A statement is not made with the helper functions of the model. The `*Spec.v` files contain what is meant, as
  relations or inductive definitions, and do not mention the functions whose results they describe (they use the data types
  of the model). Concrete environments (`IcuExample`, `FmtExample`) appear in examples and refutations only.

## Files

`*Model.v` only contain definitions, each with the file and lines it models. `*Spec.v` contain specifications.
`Properties*.v` contain the property theorems, `Print Assumptions` after each of them, and concrete examples beside them. The
other files are proofs.

| files | content |
|---|---|
| `Base`, `BaseFacts` | strings, UTF-8 lengths, outcomes, association lists |
| `LexerModel`, `LexerSpec`, `LexerProofs`, `LexerProofs2`, `PropertiesLexer` | `crates/lexer/src/lexer.rs` (C01-C05) |
| `IcuExample`, `FmtExample` | concrete external data for examples and refutations |
| `TreeModel`, `TreeSpec` | `crates/localiser/src/tree.rs`; the grammar of accepted token sequences, content of a tree |
| `TreeArena`, `TreeMachine`, `TreeRefine`..`TreeRefine3` | proof devices: the node arena as a rose tree with a focus, a one-token-per-step machine, and the proof that the parser refines it |
| `TreeGrammar`, `TreeGrammar2`, `TreeProofs`..`TreeProofs4` | the machine accepts exactly the grammar; well-formedness, panics, unterminated strings, duplicates |
| `DocSpec`, `DocProofs`, `DocProofs2`, `DocCheck` | the syntax of the documentation (`docs/pattern strings.asciidoc`) as characters, and its relation to the parser |
| `PropertiesTree` | C06, C07, C10-C14, C54 |
| `ValueModel`, `CommandModel`, `CommandProofs` | `crates/utility/src/types.rs`, `tagged_string.rs`; `crates/localiser/src/command.rs` |
| `IsoModel`, `IsoSpec`, `IsoProofs`, `IsoProofs2`, `PropertiesIso` | ISO date and time readers of `formatter.rs` (C21, C22), commands (C23, C24) |
| `FormatterModel`, `FormatterSpec` | `crates/localiser/src/formatter.rs`; the text meant, as relation on contents |
| `FormatterAbs`, `FormatterRefine`, `FormatterRefine2`, `FormatterSim`, `FormatterActs` | proof devices: the formatter as a function of the content, and the refinement |
| `FormatterProofs`..`FormatterProofs5`, `PropertiesFormatter` | C08, C09, C15-C20, C43-C45 |
| `OptionSpec`, `OptionProofs`, `PropertiesOptions` | options of `decimal` and `date_time` (C61, C62) |
| `RegistryModel`, `RegistrySpec`, `RegistryProofs`, `PropertiesRegistry` | `crates/utility/src/language.rs`, sequentially and under all thread schedules (C25-C27, C46) |
| `LocaliserModel`, `LocaliserSpec`, `LocaliserProofs`, `PropertiesLocaliser` | `crates/localiser/src/localiser.rs` (C28-C33, parts of C08, C09) |
| `LocaliserSpec2`, `LocaliserProofs2`, `PropertiesLocaliser2` | what the errors of the localiser mean, also over the sqlite3 provider (C78) |
| `OrderModel`, `OrderSpec`, `OrderProofs`, `OrderProofs2`, `PropertiesOrder` | building a formatter with the maps gone through in any order; order of values (C79) |
| `DefectSpec`, `DefectProofs`, `DefectProofs2`, `SyntaxErrorSpec`, `SyntaxErrorProofs`, `SyntaxErrorProofs2`, `PropertiesDefect` | truth of the errors of parsing, building and formatting (C67-C69) |
| `SyncModel`, `SyncSpec`, `SyncProofs`..`SyncProofs5`, `PropertiesSync`, `IsolationSpec`, `IsolationProofs`, `PropertiesIsolation` | `localiser.rs` with feature `sync`: threads and locks (C63-C66) |
| `ScriptModel`, `ScriptSpec`, `PropertiesScript` | `crates/localiser/src/script.rs`, `crates/utility/src/script.rs`, `get_script_data` (C59) |
| `ProviderModel`, `ProviderSpec`, `ProviderProofs`..`ProviderProofs8`, `PropertiesProvider` | `crates/provider/sqlite3/src/provider.rs`, `crates/provider/core/src/provider.rs` (C34-C42, C47-C51) |
| `ProviderSpec2`, `ProviderProofs9`, `PropertiesProvider2` | what the errors of the provider mean (C77) |
| `FloatModel`, `FloatSpec`, `FloatProofs`, `RatioProofs`, `PropertiesFloat` | the `f32` ratios of the statistics (C80) |
| `PropertiesOriginal` | strings shared by similar languages, `l10n/supported_languages.asciidoc` (C81) |
| `PropertiesCommand` | the built-in commands against their documentation (C82) |
| `SizeSpec`, `SizeProofs`, `PropertiesSize` | the length of formatted texts: bounds, and strings of exponential length (C83) |
| `ArenaSpec`, `ArenaProofs`, `PropertiesArena` | number of nodes, depth and tokens of syntax trees (C84) |
| `UseSpec`, `UseProofs`, `PropertiesUse` | values and named strings that are not used (C85) |
| `RowsSpec`, `RowsProofs`, `PropertiesRows` | strings of a database are independent of each other (C86) |
| `OnlySpec`, `OnlyProofs`, `OnlyProofs2`, `OnlyProofs3`, `PropertiesOnly` | strings accepted beyond the documented ones; one reading; documented form (C87) |
| `PartsSpec`, `PartsProofs`, `PropertiesParts` | formatting the concatenation of strings (C88) |
| `TokenSpec`, `TokenProofs`, `PropertiesToken` | tokens of concatenations, other grammars and data (C89) |
| `MemorySpec`, `MemoryProofs`, `MemoryProofs2`, `MemoryProofs3`, `PropertiesMemory`, `MemoryThreads`, `PropertiesMemory2`, `MemoryThreads2`, `PropertiesMemory3` | what is remembered by localiser, registry and provider, and how much (C90, C91) |
| `CallsModel`, `CallsSpec`, `CallsProofs`, `CallsProofs2`, `PropertiesCalls` | the formatter with commands that have effects: when and how often they are called (C92) |
| `TwinSpec`, `TwinProofs`, `PropertiesTwin` | what a text depends on: values only through what is shown of them (C93) |
| `SettleSpec`, `SettleProofs`, `SettleProofs2`, `PropertiesSettle` | what a formatter remembers, and when results settle (C94) |
| `VerbatimSpec`, `VerbatimProofs`, `PropertiesVerbatim` | what a text is made of (C95) |
| `LocCallsModel`, `LocCallsSpec`, `LocCallsProofs`, `LocCallsProofs2`, `PropertiesLocCalls` | the localiser with commands that have effects: when and how often it calls them (C96) |
| `QueryModel`, `QuerySpec`, `QueryProofs`, `QueryProofs2`, `QueryProofs3`, `QueryProofs4`, `QueryProofs5`, `QueryProofs6`, `PropertiesQuery` | the sqlite3 provider with the queries it sends to SQLite, whose files may change (C97) |
| `AskModel`, `AskSpec`, `AskProofs`, `AskProofs2`, `PropertiesAsk` | the localiser with a provider that has effects and whose answers may change; the localiser over the provider of `QueryModel` (C98) |
| `AgreeProofs`, `PropertiesAgree` | what the answers of the methods of the sqlite3 provider say about each other (C99) |
| `ReenterModel`, `ReenterSpec`, `ReenterProofs`…`5`, `PropertiesReenter` | a localiser whose commands use it, with the borrows of its `RefCell`s (C100) |
| `ReenterSyncModel`, `ReenterSyncSpec`, `ReenterSyncProofs`…`3`, `PropertiesReenterSync` | the same with the feature `sync`: locks, waiting for ever, poison; one thread (C101) |
| `GrowModel`, `GrowSpec`, `GrowProofs`…`3`, `PropertiesGrow` | commands registered between the calls of a localiser (C102) |
| `NoteSpec`, `NoteProofs`, `NoteProofs2`, `PropertiesNote` | a reference for the whole localiser: an append-only notebook (C103) |
| `RegThreadsModel`, `RegThreadsSpec`, `RegThreadsProofs`, `RegThreadsProofs2`, `RegThreadsProofs3`, `RegThreadsProofs4`, `RegThreadsProofs5`, `PropertiesRegThreads`, `RegFew`, `RegFew2`, `PropertiesRegFew` | `crates/utility/src/language.rs`, feature `sync`: threads with programs that call any of the methods (C104-C107) |
| `RegParseModel`, `RegParseProofs`, `RegParseThreads`, `PropertiesRegParse` | the same file: how often strings are given to icu_locid (C108) |
| `LoopSpec`, `LoopProofs`, `PropertiesLoop` | localiser `formatter.rs`: when formatting does not end (C109) |
| `FetchSpec`, `FetchProofs`, `PropertiesFetch` | `localiser.rs` over the sqlite3 provider: how many queries a script of calls makes (C110) |
| `WholeModel`, `WholeSpec`, `WholeProofs`, `WholeProofs2`, `WholeProofs3`, `PropertiesWhole` | `localiser.rs` over the sqlite3 `provider.rs`, both with feature `sync`: threads of one localiser whose calls of the provider go step by step (C111) |
| `FreshSpec`, `FreshProofs`, `FreshProofs2`, `FreshProofs3`, `PropertiesFresh` | `provider.rs` of the sqlite3 provider as in `QueryModel`, and `localiser.rs` over it as in `AskModel`, while the content of the files changes between calls (C112) |
| `TornSpec`, `TornSpec2`, `TornProofs`, `TornProofs2`, `TornProofs3`, `TornProofs4`, `PropertiesTorn` | the same while the files change during a call (C113) |
| `SumSpec`, `SumProofs`, `PropertiesSum` | repository details as the sum of component details, whatever SQLite answers (C114) |
| `InterfereSpec`, `InterfereSpec2`, `InterfereProofs`, `InterfereProofs2`, `InterfereProofs3`, `PropertiesInterfere`, `PropertiesInterfere2` | histories of a localiser that differ in values only cannot be told apart (C115) |
| `AllowedSpec`, `AllowedProofs`, `AllowedProofs2`, `PropertiesAllowed` | each character of a text has an origin: strings stored, values of this call, numerals, dates and times, answers of commands (C116) |
| `SeparateSpec`, `SeparateProofs`, `PropertiesSeparate` | components are independent of each other (C51) |
| `OpenModel`, `OpenSpec`, `OpenProofs`, `PropertiesOpen` | opening a provider: `try_new` of `provider.rs` with the file system, conversion of its errors (C76) |
| `ProviderSyncModel`, `ProviderSyncSpec`, `ProviderSyncProofs`, `PropertiesProviderSync` | the same with feature `sync`: threads sharing a provider (C70) |
| `SystemModel`, `SystemSpec`, `SystemProofs`, `PropertiesSystem`, `PropertiesSystem2` | the localiser over the sqlite3 provider (C52, C53) |
| `ShareModel`, `ShareSpec`, `ShareProofs`, `PropertiesShare` | the type declarations of all crates: `Send` and `Sync` (C71) |
| `FeatureModel`, `FeatureSpec`, `FeatureProofs`, `PropertiesFeature` | the features in the `Cargo.toml` files, conditional compilation, `crates/lexer/src/icu.rs` (C72, C73) |
| `L10nData` | the rows of the sqlite3 files that come with the library |
| `ErrorModel`, `ErrorSpec`, `ErrorProofs`, `ErrorProofs2`, `PropertiesErrors`, `PropertiesErrors2` | the `error.rs` files of all crates: localisation data and `Display`; with the shipped databases (C55-C58, C60) |
| `ErrorSpec2`, `PropertiesErrors3` | data of the errors against the placeholders of the shipped strings (C75) |
| `DisplaySpec`, `DisplayProofs`, `PropertiesDisplay` | `Display` of all errors (C74) |
| `Conformance` | the library's own tests with the model in place of the program |

## Properties: what is modelled and how it is proved

* C01, C02, C03, C05: the iterator is modelled as a state with `next`; a full run is shown equal to an
  independent specification (maximal runs) by induction over the remaining characters; uniqueness by induction over
  segmentations.
* C04: the sum law by induction. The claim about the whole string is refuted for a segmenter that joins a combining
  mark with a preceding punctuation character; it is proved for strings whose clusters do not straddle tokens.
* C06, C07, C10-C14, C54: the parser with its node arena is shown to refine a machine (simulation, one token at a time), the
  machine is shown to accept exactly an inductively defined language of token sequences (soundness by an invariant over
  steps, completeness by induction over the syntax). The rest follows: panics are exactly two token patterns, every
  string with a literal text in the main string is refused, and so on.
* C08, C09, C15-C20, C43-C45: formatting with a built formatter is shown equal to the evaluation of the
  content of the tree (simulation), and that to a relational specification (induction on the derivation and on fuel).
  `C16_C17_implemented_text_partial` gives the exact text for every accepted string; the documented text is a second
  relation, and the two are proved equal under the stated conditions.
* C21, C22: functions on strings; round-trip by induction on digit strings; exact characterisation of the accepted
  strings; refutations by computation.
* C23, C24: registry as association list, induction over operations; commands as functions.
* C25, C26, C46: registry state machine, invariant over all histories. C27: small-step semantics of threads
  with the locks of the implementation, invariant over all schedules.
* C28-C33: localiser state machine over an arbitrary provider; the cache is shown to be a partial function of
  the provider (invariant over histories); refutations by concrete histories.
* C34-C42, C47-C51: SQL queries as list functions; ancestor search by induction on the tag; statistics as folds over
  tables; state (caches of the provider) shown irrelevant by an invariant over histories.
* C52, C53: composition of all of the above, from the rows of a database to the text returned.
* C55-C58, C60: the errors of the library, the shipped strings, both together.
* C59: script data; C61, C62: options.
* C63-C66: programs of critical sections; results by a rely-guarantee argument (an invariant of the shared state that every
  step of any thread keeps), no deadlock and termination by a measure that every step decreases, the single thread by
  simulation of the sequential model. Refutations by concrete schedules.
* C67-C69: the sentences of the errors are read as propositions about the content of the string (or, for syntax errors,
  about which tokens can be continued to an accepted string) and shown by induction along the checks of the builder, the
  evaluation of the content, and the steps of the parser's machine. For every state of the machine either a continuation is
  given or every continuation is shown to fail.
* C70: the calls as programs of single accesses to the shared state; an invariant of that state that every step keeps, and a
  predicate on programs (each answers as the only user would, whatever the state allowed by the invariant) by induction.
* C71: `Send` and `Sync` as the absence of an inductively defined reason against them; a consistent labelling of the recursive
  declarations gives the absence, a search for reasons the presence (`C71_each`: every type, with the feature and without). C72, C73: the features enabled in a build are an inductively defined set; every claim about
  all builds is reduced to the features that can enable a given one.
* C74: the texts are literals with the fields as variables; each part is found at its place, the names in front are split off
  at the first colon, and the causes are followed by induction. C75: the finitely many shipped strings are evaluated by a function
  shown to give their contents for every ICU data that reads them as intended; the fields of the errors are variables.
* C80: rounding to binary32 is shown to give a nearest number (an invariant of shifting: where the exact value lies between two
  integers), with its relative error; conversion and division are instances.
* C78: an error is followed from the call through the cache (the invariant of C28: every entry comes from a request) to the provider
  and to the formatter, where C68 and C77 take over.
* C79: `agree` (equal success, or failure of the same kind) is closed under `bind`; the loops are characterised by lookups, which a
  permutation of a map with distinct keys does not change.
* C76, C77: the sentences of the errors are read as propositions about the directory and the files. C76 follows the checks by
  induction over the tables and rows; C77 is a Hoare-like predicate on the calls (whatever the state allowed by the invariant, an error
  satisfies a proposition), closed under the combinators of the model.
* C81: the level at which a lookup answers (C34). C82: exact sets of words and paths. C83: the text as a product along the nesting; a family of
  documented strings whose text doubles. C84: an invariant of the parser's machine (nodes, tokens used) and the layout of the arena.
  C85: two runs side by side, by induction on fuel; `reached` is closed under the steps of the formatter.
  C86: the SQL filters rows by component and identifier first; histories of the localiser side by side. The order in which SQLite gives
  rows is a function of the rows selected, so other rows of the table do not change it.
  C87: printing of concrete syntax is injective (prefix by prefix); a function from readings to documented syntax.
  C88: evaluation of a concatenation in sequence; independence of the number state (C19) and of the main string for named strings; with the least fuel that suffices, formatting does not come back to the main string (`cut`).
  C89: the segmentation of a concatenation is given and is the only one (C03).
  C90: "from memory" is independence of the result and of the state left from the provider, the data of the parser and the files; an invariant
  says that an entry of the cache is never removed while every string is found in the language asked for. The exact versions (`MemoryProofs3`)
  go through the ways in which a call for one string ends; that a string that is not stored needs the provider is shown with two providers
  that give different results.
  C91: every entry in use is the place of a request (an invariant of histories), so a list of the places has no more elements than one of the requests.
  C92: `CallsModel` models the paths to a command again, with a state of the world passed through; the calls made are read off the content of the
  pattern string. For commands without effects it is proved equal to `FormatterModel`.
  C93: two formatters are run side by side on contents that correspond item by item (`twin`), over the abstract runs of `FormatterAbs`; what
  corresponds need only show the same. `built_shaped` shows that items of accepted strings have one of ten shapes, so renaming and a change of locale
  give twins. Only texts are compared, not errors: an error names placeholders, so it does depend on names.
  C94: a run is a list of assignments to the numbers and a result with open places, both independent of the numbers there are (`blind`); a list of
  assignments done twice is the same as done once.
  C95: at each item the run gives a text and numbers with open places that do not depend on what fills them (`uniform`), by induction on the fuel;
  what is supplied is a function of the setting (`supplied`), and the settings compared make the same choices (`same_choices`).
  C96: every formatter in the cache was made from a string found for its language and key, in some state of the world, and used since; making and
  formatting call what C92 says. That nothing is lost from the cache is proved again as for C90, since the localiser with effects keeps other
  texts than the one without; with commands without effects it is the same.
  C97: `QueryModel` is the provider of `ProviderModel` again, with a database that answers depending on all earlier queries; proved equal to
  it if the database reads the files. Each method adds queries to those made before, and a relation between them and the result is proved
  method by method; the queries of the details are a prefix of a plan made from the languages that SQLite gives.
  C98: `AskModel` is the localiser of `LocCallsModel` again, with a provider that acts on the world; proved equal to it for a provider
  without effects, and to `LocaliserModel` for one whose answers do not change. Where texts come from is an invariant of the cache, for any
  record of the answers that nothing erases.
  C99: the level at which a lookup answers is unique, so that the theorems about single methods (C34, C35, C37 to C39, C50) can be
  combined; that one string is the first of all is an induction over the loop with the two queries side by side.
  C100: a command is a program of calls to the localiser and of reads and writes of the world, run to any depth; the functions
  of C92 that make and run formatters are shown to be parametric in the world, so that whatever the commands keep they keep.
  Invariants: borrows made are ended; nothing is added while the cache is read; nothing is borrowed when a command without
  delay marker runs from outside; a counter of failed borrows.
  C101: the same functions with locks; two runs side by side, with cells and with locks, are the same until the second waits or
  poisons a lock. With commands that do not ask, a call is a sequence of steps of the thread of `SyncModel`.
  C102: with more commands each function gives the same, or had failed with the name of a missing command: by induction over the
  parser events and the parts. C28's invariant of the cache does not mention the registry, so it is kept by inserting.
  C103: refinement. A formatter of the cache is related to the string it was made from; all histories of calls are simulated, the
  ones that panic or mix up entries too. Transparency of one call is then a comparison with the empty notebook.
  C104, C105: an invariant of the world (registry, lock, threads, log), kept by each step. C105 fails between the two locks
  of `tag`: an alias is entered before its tag.
  C106: a bound on the steps of a call; programs are well-founded trees, so the product of the states of finitely many threads is
  well-founded under steps, and a thread that can step exists as long as one has not ended.
  C107: from a moment when no thread is in `tag`, the entry of a string that was answered is never written again.
  C108: the keys of the maps stay; a thread that has parsed a string is on the way to enter it.
  C109: a named string can only call strings before it and the main string, so a recursion deeper than their number has passed
  the main string; and what led there leads there again.
  C110: every query is paid for by a place of the cache that a request fills, places are not lost, and the details are read once.
  C111: refinement in both directions between threads whose calls of the provider are programs of `ProviderSyncModel` and those of `SyncModel`, where the provider answers at once; a call in which SQLite fails is a thread that stops, its later calls are those of another thread.
  C112: a call all of whose queries were answered from one content does what it does on that content for ever (relation between two runs along their queries), so that the state is described by the content whose details are known.
  C113: a lookup is a walk along its plan of queries (C97); the last query that was answered, or each that was not, is the time at which the string was there, or was missing. One query is one time: the call is then as in C112. Details are read part by part: each part is of the time of its query, and the loops keep the parts already read (`counted`, `pieced`).
  C114: the loops keep, part by part, that what is added to the repository is what is added to the component; the kept details satisfy this in every state that calls reach.
  C115: the states after two such histories have the same entries, up to what their formatters remember; each formatter is a used copy of one fresh formatter, so formats alike (C19). For threads a simulation relates the programs of the two cases step by step under the same schedule. With the sqlite3 provider this is carried over by C111 in both directions.
  C116: for a set of characters, every entry of the cache holds words of the set, though its remembered texts and numbers may come from other calls; formatting only joins words, numerals, moments and answers of commands (AllowedProofs), and a program of a thread keeps this at each step (AllowedProofs2). The set of all characters with an origin gives C116_origin.

A property that is false of the code as it is has a theorem `…_refuted` with a witness, and `…_partial` theorems that say
what does hold, where possible exactly (an equivalence). Its status in `MANIFEST.json` is `partial`.

## What is modelled and what is not

Modelled: every function of the files named above, for the features `compiled_data`/`icu_blob` alike (ICU data are
parameters) and without the feature `sync`, except as follows.

* `sync`: modelled for the language tag registry (`RegistryModel`, `RegThreadsModel`), the localiser (`SyncModel`) and the sqlite3 provider
  (`ProviderSyncModel`), as interleavings of the critical sections, with poisoning. The files are taken not to change
  while a provider is used; SQLite may fail at any opening of a file and at any query. The command
  registry has no lock (a `RefCell`, `command.rs` 35), and the provider is a `dyn` type without `Sync`; so `Localiser` is not `Sync`
  (C71) and safe Rust refuses to share one between threads. C63 to C66 are about the locks as they are written; what
  they say of a single thread is what can happen today.
* Borrows of the `RefCell`s are explicit for the cache of the localiser and its formatters in `ReenterModel` only (locks held while a
  command runs: in `ReenterSyncModel`, for one thread; a lock the thread itself holds is waited for for ever). C100_alone says that
  they cannot fail unless commands use the localiser. All other cells (settings, registries, provider) are borrowed only
  within an expression or a method that calls no code of the user.
* `extend`/`icu_extended`: `language.rs` refers to a feature `extend` that no `Cargo.toml` defines, so the registry always makes a
  `LanguageIdentifier`, and the tags it gives have no extensions. The model has tags as strings and the result of parsing
  as parameter; no theorem depends on the absence of extensions (C62 treats locales with them).
* `f32` ratios of the statistics are kept as pairs of numbers in `ProviderModel`; `FloatModel` gives the number of type `f32` for a
  pair, with the IEEE 754 operations of Coq's standard library (`SpecFloat`: defined by functions on integers, no axiom). `usize`
  is taken to have at most 64 bits.
* Logging (`feature = "logging"`), `Rc`/`Arc` memory management, and the code of ICU4X, SQLite, rusqlite and
  the file system are not modelled. What is assumed about them is a hypothesis of the theorem (for instance
  `canon_ok`: canonical forms are canonical; `script_env_ok`).
* Loading of ICU data (`crates/lexer/src/icu.rs`) is modelled with ICU4X as a parameter. Whether a combination of features compiles
  at all depends on the features of the ICU4X crates and is not modelled; C72 says what the code does if it does, C73 is
  about the crates of the library among each other.

## Trusted base

* Coq's kernel (and `vm_compute`'s virtual machine, which is part of it).
* That the models are a faithful reading of the cited lines. The code was not executed. The outcomes that the library's own
  tests expect are those of the model (`Conformance.v`).
* That `L10nData.v` contains the rows of the shipped sqlite3 files; it was extracted from them by a script.

## Assumptions

`Print Assumptions` answers "Closed under the global context" for every property theorem: no axioms, neither own nor of the
standard library. `vcheck` (and `coqchk -o`) list seven axioms, `Coq.ssr.ssrunder.Under_rel.*`: they are the
parameters of a module type inside Coq's own `ssrunder.v`, which is loaded with the prelude's plugins and which no
theorem here uses.

## Testing the theorems

`seeded/LOG.jsonl` records edits of the model that make a claim false, the lemmas and theorems that failed, and what was
tightened where none did.
