# Formal model of libvoikko (voikko/corevoikko) in Rocq/Coq 8.16.1

All paths below are relative to `/repo/libvoikko/src`. The properties are in
`properties.jsonl`; their status is in `MANIFEST.json`.

## 1. Method

Each C++ function is transcribed into a total, computable Gallina function over
lists of integers (`list Z` for `wchar_t` buffers, `list Z` of bytes for
`char` buffers). Three rules keep the transcription honest:

* **Undefined behaviour is an outcome.** Functions that read or write buffers
  by index run in the outcome type `res A = Ok a | UB | Fuel`. A read or write
  outside the buffer, a wrapped `size_t` that is then used as an index, a
  signed overflow, a NULL dereference is `UB`. Memory-safety properties are
  "the result is `Ok`"; a reachable `UB` is a `_refuted` theorem.
* **Loops are recursion on the data, or fuel with an explicit `Fuel` outcome.**
  Theorems either prove that the fuel computed by the model is sufficient, or
  say so.
* **External components are parameters**: the morphological analyser, the
  speller back end, the rule engines, the file system. They are Section
  variables or record fields in the model, so every theorem quantifies over them.
  No axiom is introduced for them.

Per area there is `XModel.v` (transcription only, with file:line citations and
simplifications), `XSpec.v` where an independent specification is needed,
`XProofs.v` (lemmas), and `XProps.v` (the property theorems, with non-vacuity
examples and `Print Assumptions`).

## 2. Plan per property

| Id | Modelled code | How it is proved |
|----|---------------|------------------|
| C01 | `utf8/checked.hpp` append, `utf8/unchecked.hpp` next, `StringUtils::ucs4FromUtf8/utf8FromUcs4` | encoder/decoder inverse per code point by arithmetic on bytes, lifted to strings by induction |
| C02 | `utf8/core.hpp` validate_next and helpers, `checked.hpp` next/distance | decoder accepts a string iff it is in the image of an independent RFC 3629 encoder; reads are bounds checked |
| C03-C05 | `tokenizer/Tokenizer.cpp`, `get_char_type`, `isWhitespace` | bounds-checked transcription; invariants over the scanning loops; independent character-class spec |
| C06 | `tokenizer/interface.cpp` | refuted for long e-mail addresses and for unvalidated tails; proved for texts the first conversion covers |
| C07 | `sentence/Sentence.cpp` | option record threaded through; loop invariant |
| C08, C13, C16 | `spellchecker/spell.cpp`, `SpellUtils.cpp`, `AnalyzerToSpellerAdapter.cpp` | case analysis over an arbitrary back end |
| C09 | `voikkoSpellCstr` | refuted: the limit is on bytes; proved when the word has at most 255 bytes |
| C10-C12 | `SpellerCache.cpp` | cache invariant "every entry stores the answer of the back end"; index arithmetic; stale entries after option change refuted; over-large size parameter refuted |
| C14 | `character/charset.cpp` voikko_normalise | induction on the scan; exhaustive evaluation over the (finite) tables, lifted to words |
| C15 | `SimpleChar.cpp`, `voikko_casetype/set_case` | linear arithmetic with parity |
| C17, C18 | `FinnishSpellerTweaksWrapper.cpp` | well-founded recursion on the word length |
| C19-C23 | `suggestions.cpp`, `suggestion/*` | sorting spec (permutation + stability), buffer restoration invariants, cost counters; memory-safety refuted with a witness |
| C24, C25 | `AnalyzerToFinnishHyphenatorAdapter.cpp` | length/alphabet invariants over the rule passes |
| C26 | `hyphenator/interface.cpp` | induction on the pattern |
| C27 | `setup/setup.cpp` | record updates |
| C28, C29 | `GcCache.cpp`, `GrammarChecker.cpp`, `setup.cpp` | sorted stable insertion = spec; cache history refuted/proved under a precise condition |
| C30-C32 | `FinnishAnalysis.cpp`, `FinnishRuleEngine/*` | spans derived from token positions; autocorrect refuted |
| C33 | `compatibility/interface.cpp` | invariant over call sequences; double terminate refuted |
| C34, C35 | `LanguageTag.cpp`, `DictionaryFactory.cpp`, `DictionaryLoader.cpp` | string functions; `rfind` wrap-around refuted |
| C36-C39 | `fst/UnweightedTransducer.cpp` (`prepare`, `next`, `nextPrefix`, `flagDiacriticCheck`), `Configuration.cpp` (`FstModel`) | `FstSpec` gives the automaton a meaning (accepting paths, flag diacritics) without mentioning the search. `FstProofs`: the search on the arrays of a configuration simulates an abstract stack machine; `FstPaths`: the machine has found exactly the accepting paths before its position; `FstLookup`: sequences of lookups. The theorems assume a well-formed table (`good_transducer`) and words no longer than the buffers. History independence is false after an abandoned lookup (flags are not reset by `prepare`): `_refuted` with witnesses |
| C36-C39, C54 (weighted) | `fst/WeightedTransducer.cpp` (`prepare`, `next`, `flagDiacriticCheck`, `backtrackToOutputDepth`), `WeightedConfiguration.cpp` (`WfstModel`) | `WfstSpec`: the same automaton with weights forgotten, weights of paths. `WfstProofs`: simulation by the same stack machine; `WfstPaths`, `WfstLookup` as above. Sound, safe and independent of all histories; completeness needs tables in the compiler's order and at most one flag per state (`C37_weighted_refuted` otherwise: the search leaves a state at the first unsatisfied flag at the end of the word). Weights are sums modulo 65536 (`C54_weight_sum_refuted`) |
| C40 | constructors and `byteSwapTransducer` of both transducers, `Transducer.cpp`, the writing part of `tools/voikkovfstc.cpp` (`FstFileModel`) | files are byte lists on a little-endian host; the swapped file is reread to the native one cell by cell, for every automaton. Weights of weighted transducers are corrupted (sign-extending shift): `C40_weighted_refuted`, and `C40_weighted_partial` for the weights that survive |
| C41 | `morphology/Analysis.cpp` | association-list refinement |
| C42 | `FinnishVfstAnalyzer.cpp`: parseStructure, fixStructure (`FinModel`) | `FinSpec` describes outputs as lists of items; `FinStructure`: invariant of the scanning loop (what the buffer holds = symbols of the items seen, minus the letters still waiting), one lemma per kind of item. Malformed outputs do break it; witnesses are examples |
| C45 | `SpellWithPriority.cpp` | case analysis, arithmetic |
| C46 | `FinnishVfstAnalyzer.cpp`: the tables, getAttributeValues, parseBasicAttributes, the corrections in analyze; `voikkoGetAttributeValues` | `FinAttributes`: every assignment takes its value from a table; occurrence of every listed value by computation on sample outputs; "positive" is assigned but not listed (`C46_values_refuted`) |
| C59 | `FinnishVfstAnalyzer.cpp`: isValidAnalysis, parseBasicAttributes, fixStructure, parseBaseform with numerals, parseDebugAttributes, duplicateOrgName | `FinTotal`, `FinBaseform`, `FinDebug`: bounds of every counter in terms of the position in the output |
| C60 | `FinnishVfstAnalyzer::analyze` | composition of the transducer theorems C36-C38 with the parsers, for dictionaries whose outputs are well formed; refuted for words with 100 outputs, and for the words after them if the dictionary uses flags |
| C61 | `FinnishVfstAnalyzer.cpp`: isValidAnalysis | `FinHyphens`: the parser agrees with a check on the items of the output, and the check with rules about pairs of characters (`FinWordSpec`); outputs with the remarks `[Isf]`, `[Icu]` and capital letters are left out |
| C62 | `FinnishVfstAnalyzer.cpp`: parseBaseform | `FinWordBase`: the parser agrees with a machine on items, and the machine with the rule in `FinWordSpec`; numerals are C75, a numeral followed by a noun or adjective is `C62_last_part`; names of places in several inflected words ("Isolla-Britannialla") are in `FinPlaceSpec`: the machine with its flags agrees with the rule for hyphens (`C62_base_forms`); the remarks are of the kinds p, j and s |
| C63 | `FinnishVfstAnalyzer.cpp`: parseBasicAttributes, parseBasicAttribute, addInfoFlag, corrections in analyze | `FinAttrSpec` states which remark counts for each attribute; `FinAttrItems`: one step of the loop from right to left for each kind of item keeps an invariant that ties the variables to the items already passed; `FinAttrOrg`: the corrections |
| C64 | `FinnishVfstAnalyzer.cpp`: duplicateOrgName | `FinAttrOrg`: positions in the output are matched with items; the two nested searches find exactly the arrangement in `FinAttrSpec.organisation` |
| C65 | `tools/voikkospell.cpp`: the threads (`ToolModel.machine`) | interleaving semantics: a step is one of the main thread or of any other; `ToolThreads`: invariant that ties the ring of threads to the blocks of words still to be printed, and a measure that decreases with each step. With fewer blocks than threads the program joins a thread that it never created: `C65_few_words_refuted` |
| C66 | `tools/voikkospell.cpp`: check_word, printMorphology | `ToolSpec.report` lists the lines; composition with C08 and the cache invariant of C16 |
| C67 | `tools/voikkohyphenate.cpp`: hyphenateWord | induction on word and pattern, C24 |
| C68 | `tools/voikkogc.cpp`: print_tokens, split_sentences, check_grammar | composition with C03, C07, C28; -n always prints 0 (`C68_line_numbers_refuted`) |
| C69 | reading, symbol numbering and sorting of `tools/voikkovfstc.cpp` (`CompilerModel`), writing and loading (`FstFileModel`) | a transducer in text form has its own meaning (`CompilerSpec`: runs with a store of flag values by name); invariant of the reader; the sorted symbols are epsilon, flags, letters, tags in this order, which is what the loader relies on; cells of a state found at its offset, with and without overflow cell; paths in the loaded table correspond to runs, by induction in both directions. `C69_other_symbols`: symbols of other kinds ("@", two letters) are accepted and then cannot be loaded or are mistaken |
| C70 | the weighted side of the same compiler (`CompilerModel`, `FstFileModel`, `WfstModel`) | runs with weights (`CompilerSpec`); the reading, renumbering and layout invariants of C69 carry a weight with each transition (`CompilerWeights`), then a step by step bisimulation of weighted runs and paths; lookup by C54. The weights are the numbers `weightFunc` returns; computing them from text is not modelled. `C70_two_flags_refuted`: with two flags at one state words are lost at the end of the input; `C70_byte_order_partial` leaves out the weights of `C40_weighted_refuted` |
| C71 | the loop of `tools/voikkovfstc.cpp` that reads lines and fields with `getline` and `istringstream` (`CompilerTextModel`) | `CompilerTextSpec` says how a transducer is written; the stream operations are followed field by field, then C69 and C70 apply. Converse for accepted lines. The numeric value of a weight's text is a parameter. `C71_blank_refuted`: an empty line makes the initial state final; `C71_final_weight_refuted`: with -w, white space after a final state makes the program read a variable without a value |
| C72 | nothing new: text form (C71), compiler (C70), loader, `VfstSpeller` (C55), `VfstAnalyzer` (C56) | end to end. The hypotheses of C55 and C56 that the search does not stop at a limit are proved here: with one transition for a letter the search only goes down and then up (`no_limit`), at most 511 steps for 255 characters. Paths are unique (`one_path`). `C72_output_bound_needed`: the bound of 7 characters for the output of a transition is needed |
| C73 | `HfstSpeller.cpp` (spell, doSpell); hfst-ospell is a parameter (which byte strings it accepts) | three look-ups as a function; only encodable words are looked up (`spell_ext`: the speller is arbitrary elsewhere); the cache stays right when ACCEPT_ALL_UPPERCASE changes because only results that do not depend on it are stored (`used_ok`); `justified` of C08 equals `in_dictionary` (`dictionary_justified`). Refuted: "3D"; a name that is also a common word; words without a UTF-8 form |
| C74 | `HfstSuggestion.cpp` (generate); the external list of corrections is a parameter, weights as `(int)(1000 * weight)` | invariant of the loop (`loop_ok`), strictly increasing priorities so that the stable sort changes nothing (`strict_unique`), then C19. Refuted: a word in capitals is given the same suggestion twice |
| C75 | `FinnishVfstAnalyzer.cpp`: parseNumeralBaseform | `FinNumeralProofs`: the loop agrees with a machine on items (`n_run`); `FinNumeralBase`: the whole parser does (`base_runn`), and the machine agrees with the rule by parts in `FinNumeralSpec`. Refuted: the text of a source remark `[Xs]` shows in the base form |
| C76 | ZhfstLoaderModel (V3DictionaryLoader, order of loaders in DictionaryFactory; the HFST library is a parameter giving for a file: unreadable, another exception, or a locale) | Listing and loading from both formats by reuse of the theory of C35 for any list of discovered dictionaries; refuted: name with .zhfst twice, any name of five characters (`npos + 6` wraps to 5), other exceptions of the library escape `voikkoInit` |
| C77 | LifeModel (allocation and release in `voikkoInit`, `voikkoTerminate`, the OCR and cache size options, all factories, constructors, destructors and `terminate` functions of the components; a heap of names, `delete` of a name not in use is undefined) | Invariant over all histories: what is in use is exactly what the open handles own and what was in use before; safety, uses and separation follow; refuted: empty transducer file (undefined), damaged files leak (mapping, symbols, checks, HFST library object), experimental suggestions leak on later failure and on the OCR option, exception of the OCR option and double release after it |
| C78 | FinModel (`parseDebugAttributes`, `debugContentEnd`) with the rule by parts in `FinPartsSpec` | `FinPartsProofs`: the buffers hold what was written, so the loop agrees with one over lists (`loop_abs`); that one is evaluated item by item and part by part (`run_described`); every tidy output is described (`C78_described`). Refuted: an ending inside a part has no plus sign when another part follows (the example of the documentation), and a last part with a base form but no letters overwrites the part before it |
| C79 | PyModel (`tokens`, `__splitTokens`, `sentences` of the Python interface) on top of the tokeniser and the sentence detection; `PySpec.token_list` | loop invariants over the position in the text (`PyProofs`), then the theorems for C03 and C07 |
| C80 | PyModel (`grammarErrors`, `__grammarParagraph`) on top of GrammarModel; `PySpec.errors_of` and `inside_line` | the calls with growing numbers of errors to skip list the errors of C28 and keep the handle reachable; induction over the lines. The loop has no bound, so the number of steps is a parameter and the theorem says that enough steps exist |
| C81 | PyModel (`Dictionary.__lt__`, `__eq__`) | case analysis; refuted: two dictionaries can each come before the other |
| C82 | JavaModel (`tokens`, `tokensNonNull`, `indexOfSpecialUnknown` of the Java interface) with UTF-16 strings; `String.getBytes` is modelled from its documentation | `JavaProofs`: the positions in units and in bytes stay in step; the library's UTF-8 call always looks at a prefix of the text (`cstr_loop_prefix`). Refuted: for a string with U+FFFF the loop never ends |
| C83 | JavaModel (`sentences`) | for strings without surrogates the result of C07; with surrogates the text is still covered. Refuted: boundaries behind a character with two units; a string with U+FFFF, for which the loop never ends |
| C84 | JavaModel (`grammarErrors`) | reduced to C80 for strings without surrogates. Refuted: positions behind a character with two units are too small |
| C85 | CsModel (`Tokens`, `tokensNonNull` of the C# interface); `Encoding.UTF8` is modelled from its documentation | `CsProofs`: each call takes at least one unit and no more than there are, so the tokens cover the string, also with surrogates. Refuted: for a string with U+FFFF the loop never ends |
| C86 | CsModel (`Sentences`) | as C83, with the same refutations |
| C87 | CsModel (`GrammarErrors`); `Regex.Split` is modelled from its documentation | reduced to C80 for the text with plain newlines (`CsSpec.unix_text`). Refuted: behind a carriage return and a newline positions are too small, because only one unit is counted between the lines |
| C88 | JavaDictModel (`compareTo`, `equals`, `hashCode` of the class `Dictionary`); `String.compareTo` and `String.hashCode` are modelled from their documentation | induction over the strings; the order is given separately in `JavaDictSpec.dict_before` |
| C89 | JsModel (`tokens`, `tokensNonNull` of the JavaScript interface); the functions that write UTF-8 belong to the compiler and are a parameter, of which only the result for characters with one unit is assumed (`JsSpec.writes_utf8`) | as C82. Refuted: for a string with U+FFFF the loop never ends. Strings with surrogates depend on the compiler |
| C90 | JsModel (`sentences`) | reduced to C83 for strings without surrogates. Refuted: for a string with U+FFFF the loop need not end |
| C91 | JsModel (`grammarErrors`) | reduced to C80 for strings without surrogates. Refuted: positions behind a character with two units are too small |
| C92 | CsHyphModel (`GetHyphenationPattern`, `Hyphenate` of the C# interface) on top of HyphModel | the loop computes the relation `HyphSpec.hyphenated` of C26. Refuted: words with more than 255 bytes lead to an exception; words with a character of two units lose their last unit |
| C93 | IfHyphModel (`hyphenate` of the Python, Java and JavaScript interfaces) on top of HyphModel | the result is the one of C26. Modelled as UTF-8 forms of the strings; the decoding of the library's answer and UTF8ToString of the compiler's library are not modelled (a NULL pointer gives an empty string there). Refuted: every word with more than 255 bytes leads to a crash in Python, an exception in Java and an empty string in JavaScript |
| C94 | IfSpellModel (`spell` of the four interfaces) on top of SpellModel | from C08 and C09; proved for every string in Python. Not modelled: closed handles and locks. Refuted for the others: a known word of 128 letters with 256 bytes is right in Python and wrong in Java, C# and JavaScript |
| C95 | IfSuggestModel (`suggest` of the four interfaces with their loops over the array of strings) on top of SuggestModel | induction over the array, then C19 and C49. Not modelled: decoding of the returned strings, closed handles, locks. Refuted: a word of one character gets an empty list even if correct; suggestions for words with more than 255 bytes are lost outside Python; an empty suggestion would end the list in Python (no generator of the code is known to make one) |
| C96 | IfOptModel (the setters of the four interfaces, which use the same numbers) on top of HandleModel | one lemma for each setter by cases, then induction over the sequence of calls. Not modelled: the setter for the size of the cache (see C16 and C27 for the option itself), closed handles, locks |
| C97 | IfPatModel (`getHyphenationPattern` of Python, Java and JavaScript) and CsHyphModel | from C24. Refuted: words with more than 255 bytes have a pattern in Python only; with a character of two units the pattern is shorter than the string |
| C43 | `grammar/error.cpp` | exhaustive |
| C44 | `voikko_is_nonword` | equivalence with a pattern spec |
| C47 | `Tokenizer.cpp` with IGNORE_DOT | case analysis |
| C48 | `suggestion/SuggestionGenerator*.cpp`, `SuggestionStrategy*.cpp` | every generator simulated by "look up this list of edits"; list = relational spec of the edit; completeness when not stopped |
| C49 | `voikkoSuggestCstr` | composition of C01 and the wide interface |
| C55 | `spellchecker/VfstSpeller.cpp` (`VfstModel`) | answer = function of the first search (`VfstProofs.verdict`), history by `wused`; soundness and exactness against `VfstSpec.accepted` from the lookup theorems; refuted with two flags in one state |
| C56 | `morphology/VfstAnalyzer.cpp` (`VfstModel`; `logWeightToProb` is a parameter) | loop = lookup of at most 99 results; sorted list of accepting paths; refuted for a word with 100 paths |
| C57 | `spellchecker/VfstSuggestion.cpp`, `WeightedTransducer::backtrackToOutputDepth` | `WfstReach`: a failed lookup that reached position m excludes every word with the same first m+1 characters; `VfstSuggestProofs`: invariant of the candidate loop (everything before the current position is handled), termination by a numbering of positions, independence of history; `std::priority_queue` is any function that sorts by weight; refuted for error models with flags: `backtrackToOutputDepth` does not restore the flag level (wrong suggestion, and a write past the flag array) |
| C58 | `SuggestionStatus::addSuggestion`, `sortSuggestions` | sorted input is left alone when weights are not negative; refuted for negative weights |
| C50, C53 | `FinnishRuleEngine/checks.cpp`, `MissingVerbCheck.cpp`, `NegativeVerbCheck.cpp`, `CompoundVerbCheck.cpp`, `SidesanaCheck.cpp` | each scanning loop is equivalent to a relational description of the token pattern (`RulesSpec.v`), proved by induction on the tokens; the engine reports their union |
| C51 | `FinnishAnalysis.cpp` analyseToken | folds over the analyses equal to existential/universal statements |
| C52 | `FinnishRuleEngine/CapitalizationCheck.cpp` | state machine transcribed as such; refinement to a token stream; invariants; for plain paragraphs equal to `CapSpec.v` |

## 3. Not modelled

* Memory allocation failure, exceptions from the allocator, threads inside
  the library (it takes no locks and documents one handle per thread; the
  threads of voikkospell are modelled, each with its own handle).
* Back ends other than VFST are optional build-time components around external
  libraries.  Of HFST the code of this repository is modelled with the external
  library as a parameter (C73, C74, C76); Malaga, Lttoolbox (whose adapter no
  longer fits the interface of analysers) and the CG grammar checker are not.
  (`grammar/CgRuleEngine.cpp:102` passes a string where `Analysis::getValue` takes
  a `Key`, so a build with VISLCG3, and with it the version 4 dictionary loader,
  is not possible at this commit.)
* Of the command line programs in `tools/`: the parsing of the command line,
  the conversion of input from the encoding of the locale (a parameter of
  `read_words`), messages on standard error; of `voikkovfstc` its options and the conversion of
  weights from text (a parameter).
* The TypeScript and Common Lisp bindings; of the Python, Java, C# and
  JavaScript interfaces everything but `tokens`, `sentences`, `grammarErrors`, (in
  Python and Java) the comparison of dictionaries and (in C#) hyphenation.  The other functions pass one call on
  to the library.
* Contents of the Finnish dictionary: it is a parameter.
* `mmap`/file reading; the transducer tables are given as values.

## 4. Trusted base

Coq's kernel (8.16.1), `coqc`'s reduction machine (`vm_compute`), and the
correspondence between the C++ text and the model (documented by citations).
`Print Assumptions` after every theorem is expected to print
`Closed under the global context`; no theorem uses an axiom. (A whole-library
listing also shows the primitive declarations of `Coq.ssr.ssrunder`, which the
standard prelude loads; they are in no theorem's assumptions.)

The simplifications of every definition are in the comment above it. The
general ones are: `wchar_t` has 32 bits and `int` 32 bits; `std::wstring` and
`std::list` are lists; a C string is the list of its characters without the
terminator, and functions that look at the terminator get it appended; memory
that is not initialised is the value -1, which no theorem may depend on.
