{"id": "C01", "title": "UTF-8 conversion round trip", "statement": "Every string of Unicode code points that the library can encode (no surrogates, no U+FFFE/U+FFFF, at most U+10FFFF) is returned unchanged when its UTF-8 form is passed back through any char* entry point; encoding fails (rather than emitting garbage) on exactly the other code points, and the encoded form never exceeds the 6*n+1 byte buffer allotted for it.", "quantifier": "all wide strings of any length over all 32-bit code values", "why_tests_cant": "the encoder branches on 4 ranges and 2^21 code points and concatenation can only be checked for sampled strings", "anchors": ["libvoikko/src/utils/StringUtils.cpp: ucs4FromUtf8, utf8FromUcs4", "libvoikko/src/utf8/checked.hpp: append", "libvoikko/src/utf8/unchecked.hpp: next"]}
{"id": "C02", "title": "char* input is accepted exactly when it is well-formed UTF-8", "statement": "A byte string handed to a char* entry point is decoded if and only if it is a concatenation of well-formed UTF-8 sequences (RFC 3629 table, minus U+FFFE/U+FFFF); in that case the decoded text is the unique text it encodes, otherwise the call reports failure. No byte past the stated length is ever read.", "quantifier": "all byte strings of any length", "why_tests_cant": "there are 256^n inputs; malformed sequences may appear at any position including truncated at the end of buffer", "anchors": ["libvoikko/src/utf8/core.hpp: validate_next", "libvoikko/src/utf8/checked.hpp: next, distance", "libvoikko/src/utils/StringUtils.cpp: ucs4FromUtf8"]}
{"id": "C03", "title": "Tokens partition the text", "statement": "Repeatedly calling voikkoNextTokenUcs4 and advancing by the returned length always makes progress, ends after finitely many calls, and the token strings concatenate to exactly the original text. TOKEN_NONE is returned for the empty text and only then.", "quantifier": "all texts of any length, any characters, both values of the ignore-dot option", "why_tests_cant": "the tokenizer has a long-lookahead URL/e-mail branch and many punctuation cases; a zero-length token for one unusual text would hang every caller", "anchors": ["libvoikko/src/tokenizer/Tokenizer.cpp: nextToken, word_length, findUrlOrEmail", "libvoikko/src/voikko.h: voikkoNextTokenUcs4"]}
{"id": "C04", "title": "Tokenizer never reads outside the text", "statement": "voikkoNextTokenUcs4 reads only the first textlen characters of the buffer: it needs no terminator and its answer depends on those characters only.", "quantifier": "all buffers and all textlen values, including texts that end in the middle of a look-ahead pattern", "why_tests_cant": "an over-read by one does not change the answer in tests where the buffer is NUL terminated", "anchors": ["libvoikko/src/tokenizer/Tokenizer.cpp: nextToken, word_length, findUrlOrEmail"]}
{"id": "C05", "title": "Token classes mean what they say", "statement": "A WHITESPACE token is a maximal run of whitespace characters; a PUNCTUATION token is a single punctuation character or the three-dot ellipsis; an UNKNOWN token is one character that is neither letter, digit, whitespace nor punctuation; a WORD token contains no whitespace and starts with a letter, a digit or a hyphen. Consecutive tokens are never both whitespace.", "quantifier": "all texts, all option values", "why_tests_cant": "requires a statement about every character of every token", "anchors": ["libvoikko/src/tokenizer/Tokenizer.cpp", "libvoikko/src/character/charset.cpp: get_char_type", "libvoikko/src/character/SimpleChar.cpp: isWhitespace"]}
{"id": "C06", "title": "UTF-8 and wide tokenizers agree", "statement": "For every well-formed UTF-8 text, voikkoNextTokenCstr returns the same token type and the same length (in characters) as voikkoNextTokenUcs4 on the decoded text; and for malformed text it returns TOKEN_NONE.", "quantifier": "all UTF-8 texts of any length", "why_tests_cant": "the UTF-8 entry point converts only a growing prefix of the text, so disagreement needs long tokens and look-ahead beyond the prefix", "anchors": ["libvoikko/src/tokenizer/interface.cpp: voikkoNextTokenCstr", "libvoikko/src/utils/StringUtils.cpp: ucs4FromUtf8(…, maxChars)"]}
{"id": "C07", "title": "Sentence boundaries partition the text", "statement": "voikkoNextSentenceStartUcs4 returns 0 < sentencelen < textlen together with PROBABLE/POSSIBLE, or sentencelen = textlen with NONE; boundaries fall on token boundaries, the next sentence never starts with whitespace, and iterating covers the text exactly. The call leaves every option of the handle as it was.", "quantifier": "all texts, all option settings, every behaviour of the dictionary", "why_tests_cant": "the function temporarily changes the ignore-dot option on every token and consults the dictionary; all paths must restore and progress", "anchors": ["libvoikko/src/sentence/Sentence.cpp: Sentence::next, dot_part_of_word"]}
{"id": "C08", "title": "Spell check result codes", "statement": "voikkoSpellUcs4 returns only SPELL_OK or SPELL_FAILED (the 'should not happen' internal error code is unreachable), accepts the empty word, and rejects every word longer than 255 characters.", "quantifier": "all words, all options, every dictionary, every cache content", "why_tests_cant": "unreachability of an error branch is a claim about every input and history", "anchors": ["libvoikko/src/spellchecker/spell.cpp: voikkoSpellUcs4"]}
{"id": "C09", "title": "UTF-8 and wide spell check agree", "statement": "For every well-formed UTF-8 word, voikkoSpellCstr returns the same result as voikkoSpellUcs4 on the decoded word; malformed input gives CHARSET_CONVERSION_FAILED.", "quantifier": "all UTF-8 words, all options, every dictionary", "why_tests_cant": "differences appear only for words whose byte and character lengths straddle the limit", "anchors": ["libvoikko/src/spellchecker/spell.cpp: voikkoSpellCstr, voikkoSpellUcs4"]}
{"id": "C10", "title": "The spell cache is invisible", "statement": "For fixed option values, the result of every spell call is the same with the cache disabled (-1) and with any supported cache size, after any history of earlier spell calls: a cache hit never changes an answer, whatever hash collisions occurred.", "quantifier": "all sequences of words, all cache sizes in the supported range, every deterministic dictionary", "why_tests_cant": "a wrong hit needs colliding words in a particular order; the space of histories is unbounded", "anchors": ["libvoikko/src/spellchecker/SpellerCache.cpp", "libvoikko/src/spellchecker/spell.cpp: voikko_cached_spell"]}
{"id": "C11", "title": "Spelling depends only on the word and the current options", "statement": "After any sequence of option changes and spell calls, voikkoSpell on a word returns what a fresh handle with the same current options returns.", "quantifier": "all interleavings of voikkoSetBooleanOption/voikkoSetIntegerOption and voikkoSpell", "why_tests_cant": "stale state shows only after particular histories", "anchors": ["libvoikko/src/setup/setup.cpp: voikkoSetBooleanOption", "libvoikko/src/spellchecker/spell.cpp", "libvoikko/src/spellchecker/SpellerCache.cpp"]}
{"id": "C12", "title": "Spell cache addresses stay inside its tables", "statement": "For every cache size parameter accepted by voikkoSetIntegerOption and every word, each table index computed by the cache lies inside the allocated arrays, entries of different word lengths never overlap, and no signed overflow occurs.", "quantifier": "all size parameters, all words of all lengths over all wchar_t values", "why_tests_cant": "index arithmetic over 2^31 values and arbitrary words", "anchors": ["libvoikko/src/spellchecker/SpellerCache.cpp: voikko_hash, isInCache, setSpellResult", "libvoikko/src/setup/setup.cpp: voikkoSetIntegerOption"]}
{"id": "C13", "title": "Accept/ignore options are monotone", "statement": "Turning on IGNORE_NUMBERS, IGNORE_UPPERCASE, IGNORE_NONWORDS, IGNORE_DOT, ACCEPT_FIRST_UPPERCASE, ACCEPT_ALL_UPPERCASE or ACCEPT_MISSING_HYPHENS never turns an accepted word into a rejected one.", "quantifier": "all words, all settings of the other options, every dictionary", "why_tests_cant": "each option alters control flow in several places; monotonicity quantifies over dictionaries", "anchors": ["libvoikko/src/spellchecker/spell.cpp: voikkoSpellUcs4, hyphenAwareSpell"]}
{"id": "C14", "title": "Canonically equivalent spellings are treated alike", "statement": "Two words that differ only in composed/decomposed accents, typographic apostrophe/hyphens or ligatures listed in the conversion tables get the same spelling result and the same analysis input; normalisation is idempotent, never grows a word more than threefold, and leaves words without such characters unchanged.", "quantifier": "all words; all positions and combinations of the convertible characters", "why_tests_cant": "the single-pass rewrite interacts with adjacent characters at arbitrary positions", "anchors": ["libvoikko/src/character/charset.cpp: voikko_normalise", "libvoikko/src/spellchecker/spell.cpp: voikkoSpellUcs4"]}
{"id": "C15", "title": "Letter case conversions are consistent", "statement": "Lower-casing and upper-casing are idempotent, mutually inverse on cased letters, preserve length, never map a letter to a non-letter; a word re-cased to all-lower/first-upper/all-upper is classified as such whenever it contains a cased letter where required.", "quantifier": "all 32-bit character values and all words", "why_tests_cant": "20 ranges with parity conditions over the whole wchar_t domain", "anchors": ["libvoikko/src/character/SimpleChar.cpp: lower, upper, isUpper, isLower", "libvoikko/src/utils/utils.cpp: voikko_casetype, voikko_set_case"]}
{"id": "C16", "title": "Capitalisation rules of the spell checker", "statement": "A word that the dictionary knows in lower case is accepted in lower case, with an initial capital iff ACCEPT_FIRST_UPPERCASE, and in all capitals when ACCEPT_ALL_UPPERCASE; a word the dictionary knows only with an initial capital is rejected in lower case and accepted capitalised.", "quantifier": "all words, all dictionaries (structure strings), all option values", "why_tests_cant": "depends on the interplay of word case classes with every structure pattern", "anchors": ["libvoikko/src/spellchecker/spell.cpp", "libvoikko/src/spellchecker/SpellUtils.cpp: matchWordAndAnalysis", "libvoikko/src/spellchecker/AnalyzerToSpellerAdapter.cpp"]}
{"id": "C17", "title": "Soft hyphens only where hyphenation is possible", "statement": "A word containing soft hyphens is accepted only if it is accepted with the soft hyphens removed and each soft hyphen is at a position where the hyphenator allows a break; a leading, trailing or doubled soft hyphen is always rejected.", "quantifier": "all words with any number of soft hyphens, every dictionary", "why_tests_cant": "position bookkeeping between the two strings must be right for every arrangement", "anchors": ["libvoikko/src/spellchecker/FinnishSpellerTweaksWrapper.cpp: spell"]}
{"id": "C18", "title": "Compound-hyphen tweaks only relax the dictionary", "statement": "The Finnish speller wrapper never rejects a word (without soft hyphens) that the dictionary accepts and never returns a worse capitalisation verdict than the dictionary; words without an interior hyphen get exactly the dictionary verdict; the recursion always terminates and reads only inside the word.", "quantifier": "all words, all dictionaries, both settings of ACCEPT_EXTRA_HYPHENS", "why_tests_cant": "recursive search over hyphen positions", "anchors": ["libvoikko/src/spellchecker/FinnishSpellerTweaksWrapper.cpp: spellWithoutSoftHyphen, spell"]}
{"id": "C19", "title": "Suggestion list is bounded, ranked and complete", "statement": "voikkoSuggestUcs4 returns no more than five suggestions, which are the best-ranked of those found, in non-decreasing order of rank with ties in order of discovery; the list is a selection of what the generator produced.", "quantifier": "all words and all suggestion sets", "why_tests_cant": "sorting/truncation correctness for arbitrary priorities", "anchors": ["libvoikko/src/spellchecker/suggestions.cpp: getSuggestions, voikkoSuggestUcs4", "libvoikko/src/spellchecker/suggestion/SuggestionStatus.cpp"]}
{"id": "C20", "title": "Suggestion search effort is bounded", "statement": "For every word and dictionary, the suggestion search makes a bounded number of dictionary lookups (at most twice the strategy's budget plus a small constant) and stores at most 15 candidates.", "quantifier": "all words, all dictionaries, all strategies", "why_tests_cant": "worst cases depend on word shape and dictionary answers", "anchors": ["libvoikko/src/spellchecker/suggestion/SuggestionStatus.cpp: shouldAbort", "libvoikko/src/spellchecker/suggestion/SuggestionStrategy.cpp: generate", "libvoikko/src/spellchecker/suggestion/SuggestionGenerator*.cpp"]}
{"id": "C21", "title": "Suggestions are words of the dictionary", "statement": "Every suggestion produced for a misspelled word is itself accepted by the dictionary (a split suggestion consists of two accepted words), apart from letter-case adaptation.", "quantifier": "all words, every dictionary, every generator", "why_tests_cant": "the generators edit a shared buffer in place and must restore it on all paths", "anchors": ["libvoikko/src/spellchecker/suggestion/SuggestionGenerator*.cpp"]}
{"id": "C22", "title": "Suggesting is memory safe", "statement": "voikkoSuggestUcs4 never reads or writes outside its buffers, for any word of up to 255 characters.", "quantifier": "all words and options", "why_tests_cant": "failing inputs are rare combinations of normalisation and length", "anchors": ["libvoikko/src/spellchecker/suggestions.cpp: voikkoSuggestUcs4", "libvoikko/src/character/charset.cpp: voikko_cset_reformat", "libvoikko/src/spellchecker/suggestion/SuggestionGeneratorInsertSpecial.cpp", "libvoikko/src/spellchecker/suggestion/SuggestionGeneratorSplitWord.cpp"]}
{"id": "C23", "title": "Suggestions follow the case of the original", "statement": "If the original word is written in capitals (and ACCEPT_ALL_UPPERCASE is on) every returned suggestion is fully capitalised; if it starts with a capital, every all-lower-case suggestion is returned with an initial capital; otherwise suggestions keep dictionary case.", "quantifier": "all words and suggestion sets", "why_tests_cant": "interaction of three post-processing passes", "anchors": ["libvoikko/src/spellchecker/suggestions.cpp: voikkoSuggestUcs4", "libvoikko/src/utils/utils.cpp"]}
{"id": "C24", "title": "Hyphenation pattern shape", "statement": "voikkoHyphenateUcs4 returns a pattern with exactly one character per character of the word, each of them ' ', '-' or '='; '=' appears only where the word itself has a hyphen or apostrophe-like character that is replaced at a break; position 0 is never a '-' break; words shorter than the minimum length get an all-blank pattern.", "quantifier": "all words, all option values, all dictionary analyses of matching length", "why_tests_cant": "patterns combine several analyses and rule passes with index arithmetic near both ends", "anchors": ["libvoikko/src/hyphenator/AnalyzerToFinnishHyphenatorAdapter.cpp"]}
{"id": "C25", "title": "Hyphenation respects its options", "statement": "With HYPHENATE_UNKNOWN_WORDS off, an unknown word gets no '-' breaks; a part shorter than MIN_HYPHENATED_WORD_LENGTH gets no breaks inside; with NO_UGLY_HYPHENATION the set of breaks is a subset of the breaks without it; a break is reported for an ambiguous compound only if every analysis allows it.", "quantifier": "all words, dictionaries and option values", "why_tests_cant": "relational property between two runs", "anchors": ["libvoikko/src/hyphenator/AnalyzerToFinnishHyphenatorAdapter.cpp: hyphenate, compoundHyphenation, ruleHyphenation, intersectHyphenations"]}
{"id": "C26", "title": "Inserted hyphens can be removed", "statement": "voikkoInsertHyphensCstr with context changes disallowed returns the original word with copies of the given separator inserted at the break positions and nothing else changed.", "quantifier": "all words, separators, patterns", "why_tests_cant": "must hold for every interleaving of break positions", "anchors": ["libvoikko/src/hyphenator/interface.cpp: voikkoInsertHyphensCstr"]}
{"id": "C27", "title": "Options: known options are set, unknown rejected, nothing else changes", "statement": "voikkoSetBooleanOption/voikkoSetIntegerOption return 1 exactly for the documented option numbers; setting one option changes the observable value of that option only, the last write wins, and an unknown option number changes nothing.", "quantifier": "all option numbers and values, all sequences of calls", "why_tests_cant": "frame conditions over all sequences", "anchors": ["libvoikko/src/setup/setup.cpp: voikkoSetBooleanOption, voikkoSetIntegerOption"]}
{"id": "C28", "title": "Grammar errors are enumerated in text order, each once", "statement": "Calling voikkoNextGrammarErrorUcs4 with skiperrors = 0,1,2,… lists every error of the paragraph starting at or after startpos exactly once, ordered by start position (ties in order of detection), then reports no more.", "quantifier": "all paragraphs and error sets, all startpos values", "why_tests_cant": "sorted insertion and counting must be right for any order of detection", "anchors": ["libvoikko/src/grammar/GcCache.cpp: appendError", "libvoikko/src/grammar/GrammarChecker.cpp: errorFromCache"]}
{"id": "C29", "title": "Grammar checking of a paragraph does not depend on earlier calls", "statement": "The errors reported for a text are those of a fresh handle with the same options, whatever paragraphs were checked before and whatever the buffer contains after textlen.", "quantifier": "all histories of grammar calls and option changes; all buffers", "why_tests_cant": "cache hits and misses depend on history", "anchors": ["libvoikko/src/grammar/GrammarChecker.cpp", "libvoikko/src/grammar/GcCache.cpp", "libvoikko/src/grammar/interface.cpp", "libvoikko/src/setup/setup.cpp: setGrammarOption"]}
{"id": "C30", "title": "Grammar error spans lie inside the text", "statement": "Every reported grammar error has startpos + errorlen <= textlen and errorlen > 0.", "quantifier": "all paragraphs, all dictionaries and all autocorrect rules", "why_tests_cant": "each rule computes spans from different tokens", "anchors": ["libvoikko/src/grammar/FinnishRuleEngine/checks.cpp", "libvoikko/src/grammar/FinnishRuleEngine/CapitalizationCheck.cpp", "libvoikko/src/grammar/FinnishRuleEngine/MissingVerbCheck.cpp", "libvoikko/src/grammar/FinnishRuleEngine/NegativeVerbCheck.cpp", "libvoikko/src/grammar/FinnishRuleEngine/CompoundVerbCheck.cpp", "libvoikko/src/grammar/FinnishRuleEngine/SidesanaCheck.cpp", "libvoikko/src/grammar/FinnishRuleEngine/VfstAutocorrectCheck.cpp"]}
{"id": "C31", "title": "Grammar analysis covers the paragraph", "statement": "The tokens the grammar checker works on concatenate to the paragraph (up to the documented limits of 200 sentences), carry their true positions, and no sentence is empty; over-long sentences (more than 500 tokens) disable checking of the paragraph instead of being silently truncated.", "quantifier": "all paragraphs", "why_tests_cant": "needs induction over the tokenizer and sentence splitter", "anchors": ["libvoikko/src/grammar/FinnishAnalysis.cpp: analyseParagraph, analyseSentence"]}
{"id": "C32", "title": "Capitalisation checker never dereferences a missing word", "statement": "The state machine of the capitalisation check terminates on every paragraph and, in the states that examine the next word, a next word always exists.", "quantifier": "all paragraphs of any number of sentences, any token types", "why_tests_cant": "depends on the sequence of sentences that are skipped", "anchors": ["libvoikko/src/grammar/FinnishRuleEngine/CapitalizationCheck.cpp"]}
{"id": "C33", "title": "Legacy handle table lifecycle", "statement": "Through the legacy integer-handle API, each successful init returns a handle different from all live ones, at most the documented number are live, terminate frees exactly that handle, and any call sequence (including terminating an unknown or already terminated handle) is well defined.", "quantifier": "all sequences of voikko_init/voikko_terminate calls", "why_tests_cant": "histories", "anchors": ["libvoikko/src/compatibility/interface.cpp"]}
{"id": "C34", "title": "Language tags have a normal form", "statement": "Parsing a language tag, printing it and parsing again gives the same tag; matching is insensitive to case of language and to the geographical suffix.", "quantifier": "all strings", "why_tests_cant": "string splitting at arbitrary separators", "anchors": ["libvoikko/src/setup/LanguageTag.cpp"]}
{"id": "C35", "title": "Dictionary selection", "statement": "voikkoInit succeeds iff some installed dictionary matches the requested tag, and then uses a matching one; variants are unique in the listing, earlier search paths shadow later ones; if a language has no explicit default variant, the variant named 'standard' is preferred over other variants.", "quantifier": "all sets of installed dictionaries, all tags", "why_tests_cant": "unbounded sets of installed variants", "anchors": ["libvoikko/src/setup/DictionaryFactory.cpp", "libvoikko/src/setup/DictionaryLoader.cpp"]}
{"id": "C36", "title": "Transducer results are sound", "statement": "Every analysis output produced by the transducer lookup corresponds to an accepting path of the dictionary automaton whose input side is exactly the word and whose flag diacritic constraints are all satisfied; the output text is that path's output.", "quantifier": "all transducers, all words, all limits", "why_tests_cant": "backtracking search with undo log, unbounded automata", "anchors": ["libvoikko/src/fst/UnweightedTransducer.cpp: prepare, nextPrefix, flagDiacriticCheck"]}
{"id": "C37", "title": "Transducer results are complete", "statement": "If the search is not cut off by the loop or stack limits, the enumerated outputs are exactly the outputs of all accepting paths, each path once, in transition order.", "quantifier": "all transducers and words", "why_tests_cant": "same", "anchors": ["libvoikko/src/fst/UnweightedTransducer.cpp: next, nextPrefix"]}
{"id": "C38", "title": "Lookup does not depend on previously looked-up words", "statement": "The outputs for a word are the same whether or not other words were looked up before on the same handle.", "quantifier": "all histories of lookups, including searches abandoned by the caller", "why_tests_cant": "histories", "anchors": ["libvoikko/src/fst/UnweightedTransducer.cpp: prepare", "libvoikko/src/fst/Configuration.cpp", "libvoikko/src/morphology/FinnishVfstAnalyzer.cpp: analyze"]}
{"id": "C39", "title": "Transducer search stays inside its buffers", "statement": "No search step indexes the state, transition, input, output-symbol or flag stacks outside their allocated size, and the output text never overflows the caller's buffer.", "quantifier": "all well-formed transducers, all words up to the supported length", "why_tests_cant": "needs an invariant over all reachable configurations", "anchors": ["libvoikko/src/fst/UnweightedTransducer.cpp: nextPrefix", "libvoikko/src/fst/WeightedTransducer.cpp: next"]}
{"id": "C40", "title": "Dictionary files load identically on both byte orders", "statement": "A transducer file written on a machine of the opposite byte order yields the same automaton as the native file.", "quantifier": "all transducer files", "why_tests_cant": "all table contents", "anchors": ["libvoikko/src/fst/UnweightedTransducer.cpp: byteSwap", "libvoikko/src/fst/WeightedTransducer.cpp: byteSwap"]}
{"id": "C41", "title": "Analysis attributes behave as a first-write-wins map", "statement": "The attribute names listed for an analysis are exactly those that have a value, in the fixed order and without repetition; an attribute once set is not overwritten by a later add; a removed attribute has no value; unknown names give no value. No value is freed twice or leaked by the const/non-const distinction.", "quantifier": "all sequences of add/addConst/remove", "why_tests_cant": "histories", "anchors": ["libvoikko/src/morphology/Analysis.cpp"]}
{"id": "C42", "title": "Analysis structure matches the word", "statement": "For a well-formed dictionary output, the STRUCTURE attribute has exactly one non-'=' symbol per character of the word, begins with '=' or '-', and building it never writes outside its buffer.", "quantifier": "all transducer outputs and word lengths", "why_tests_cant": "hand-written parser with many counters", "anchors": ["libvoikko/src/morphology/FinnishVfstAnalyzer.cpp: parseStructure, fixStructure"]}
{"id": "C43", "title": "Every reportable grammar error has a message", "statement": "Each error code the grammar checker can report has a specific (not 'unknown') message in Finnish and in English.", "quantifier": "all error codes", "why_tests_cant": "finite, but must follow the set of codes produced by all checks", "anchors": ["libvoikko/src/grammar/error.cpp", "libvoikko/src/grammar/FinnishRuleEngine/*.cpp"]}
{"id": "C44", "title": "Non-word detection is safe and exact", "statement": "With IGNORE_NONWORDS, a word is skipped iff it matches one of the documented patterns X*//X*.X+, X*@X+.X+, www.X+.X+ (as refined by the code), and the test never reads past the word.", "quantifier": "all words", "why_tests_cant": "pointer arithmetic at word end", "anchors": ["libvoikko/src/utils/utils.cpp: voikko_is_nonword"]}
{"id": "C45", "title": "Ranking of analyses", "statement": "The verdict for a word is the best over all its analyses (correct before needs-initial-capital before wrong case) and the suggestion rank is the smallest rank among analyses with that verdict; ranks are positive and never overflow.", "quantifier": "all lists of analyses", "why_tests_cant": "any number and order of analyses", "anchors": ["libvoikko/src/spellchecker/AnalyzerToSpellerAdapter.cpp", "libvoikko/src/spellchecker/SpellWithPriority.cpp"]}
{"id": "C46", "title": "Attribute value enumeration", "statement": "voikkoGetAttributeValues returns, for each enumerable attribute, exactly the values the Finnish analyser can assign, without repetition, and nothing for other names.", "quantifier": "all attribute names", "why_tests_cant": "must follow every assignment site in the analyser", "anchors": ["libvoikko/src/morphology/FinnishVfstAnalyzer.cpp: getAttributeValues, parseBasicAttributes"]}
{"id": "C47", "title": "Effect of IGNORE_DOT on tokens", "statement": "Turning IGNORE_DOT on changes the first token of a text only by letting a word take one directly following dot (or by turning a hyphen followed by a dot into the word of these two characters); types and lengths are otherwise the same.", "quantifier": "all texts", "why_tests_cant": "unbounded text content", "anchors": ["libvoikko/src/tokenizer/Tokenizer.cpp: word_length, nextToken"]}
{"id": "C48", "title": "Suggestions are small edits, and all of them are tried", "statement": "Every suggestion is the original word changed by one of the documented edits (letter case, soft hyphens, vowel harmony, neighbouring keys, deletion, doubled or inserted letter, inserted hyphen, exchanged letters, removed repeated pair, double letter replaced, OCR confusions) or the word split in two; and every dictionary word reachable by one such edit is found unless the search is stopped by its budget or by 15 candidates. A word that is known in another letter case is only suggested in that case.", "quantifier": "all words, every dictionary, every generator", "why_tests_cant": "the set of edits grows with the word and each generator works in place in one buffer", "anchors": ["libvoikko/src/spellchecker/suggestion/SuggestionGenerator*.cpp", "libvoikko/src/spellchecker/suggestion/SuggestionStrategy.cpp: generate"]}
{"id": "C49", "title": "UTF-8 and wide suggestions agree", "statement": "For a well-formed UTF-8 word of at most 255 bytes voikkoSuggestCstr returns the encodings of the suggestions that voikkoSuggestUcs4 gives for the decoded word; malformed input gives none.", "quantifier": "all UTF-8 words, all options, every generator", "why_tests_cant": "conversion in both directions and list handling", "anchors": ["libvoikko/src/spellchecker/suggestions.cpp: voikkoSuggestCstr"]}
{"id": "C50", "title": "Grammar rules report what they describe, and nothing else", "statement": "An error with one of the codes for extra or misplaced whitespace and commas, bad sentence starts, repeated words, punctuation of quotations, foreign quotation marks, negative verbs, infinitives, final conjunctions and missing verbs is reported exactly where the tokens of the paragraph show that pattern, with its exact span and suggestion; an extra main verb is reported only for two main verbs in one clause, and always for the first two of a clause.", "quantifier": "all texts, all dictionaries, all settings", "why_tests_cant": "each rule looks at unbounded token sequences and several rules skip tokens", "anchors": ["libvoikko/src/grammar/FinnishRuleEngine/checks.cpp", "libvoikko/src/grammar/FinnishRuleEngine/MissingVerbCheck.cpp", "libvoikko/src/grammar/FinnishRuleEngine/NegativeVerbCheck.cpp", "libvoikko/src/grammar/FinnishRuleEngine/CompoundVerbCheck.cpp", "libvoikko/src/grammar/FinnishRuleEngine/SidesanaCheck.cpp", "libvoikko/src/grammar/GrammarChecker.cpp: paragraphToCache"]}
{"id": "C51", "title": "What the grammar checker knows about a word", "statement": "The facts about each word used by the grammar rules (may be written in lower case, conjunction, negative verb, main verb, required infinitive, place name, possible sentence start, ...) hold exactly if the analyses of the word, or the tokens before it, say so, whatever the number of analyses; they do not depend on the order of the analyses.", "quantifier": "all words and all lists of analyses", "why_tests_cant": "flags are updated in a loop over any number of analyses, with early resets", "anchors": ["libvoikko/src/grammar/FinnishAnalysis.cpp: analyseToken, analyseSentence"]}
{"id": "C52", "title": "Capitalisation errors mean what they say", "statement": "A word is reported as needing a capital letter only if it starts with neither a capital letter nor a digit, and as needing a small letter only if it is a known word that may be written so; in simple texts (no quotations, brackets, list items) a word is checked exactly against the punctuation before it, and the suggestion is the corrected word.", "quantifier": "all texts, all dictionaries", "why_tests_cant": "a state machine over tokens of any number of sentences", "anchors": ["libvoikko/src/grammar/FinnishRuleEngine/CapitalizationCheck.cpp"]}
{"id": "C53", "title": "Missing punctuation at the end of a paragraph", "statement": "A paragraph is reported as unfinished exactly if its last token is not punctuation and no option accepts that, and the span is that last token at the end of the text.", "quantifier": "all texts, all settings", "why_tests_cant": "depends on the sentence splitting of the whole text", "anchors": ["libvoikko/src/grammar/FinnishRuleEngine/checks.cpp: gc_end_punctuation"]}
{"id": "C54", "title": "Weights of results", "statement": "The weight that a weighted transducer reports with a result is the sum of the weights of the transitions on an accepting path that writes the result, so that better candidates can be told from worse ones.", "quantifier": "all weighted transducers, all words, all histories", "why_tests_cant": "sums over unbounded paths; 16-bit arithmetic", "anchors": ["libvoikko/src/fst/WeightedTransducer.cpp: next"]}
{"id": "C55", "title": "The transducer speller", "statement": "A speller backed by a weighted transducer calls a word correct only if the transducer accepts it, and asks for an initial capital only if the word is accepted with one; the answer for a word does not depend on the words checked before; and an accepted word is never called wrong.", "quantifier": "all transducers, all words, all histories", "why_tests_cant": "every path through an unbounded automaton; state is kept between calls", "anchors": ["libvoikko/src/spellchecker/VfstSpeller.cpp: spell, doSpell", "libvoikko/src/fst/WeightedTransducer.cpp: prepare, next"]}
{"id": "C56", "title": "The transducer analyser", "statement": "Each analysis of a word comes from a different accepting path for the word in small letters and carries the text and weight of that path; the analyses do not depend on the words analysed before; and no accepting path is left out.", "quantifier": "all transducers, all words, all histories", "why_tests_cant": "any number of paths; state is kept between calls", "anchors": ["libvoikko/src/morphology/VfstAnalyzer.cpp: analyze", "libvoikko/src/fst/WeightedTransducer.cpp: prepare, next"]}
{"id": "C57", "title": "Suggestions from an error model", "statement": "The suggestions made with an error model and a dictionary are the words that the error model can write for the misspelled word and that the dictionary accepts, the ones with the least total weight, each once, although the search skips what the dictionary cannot accept; the search ends, touches no memory outside its buffers, and does not depend on words corrected before.", "quantifier": "all error models, all dictionaries, all words, all histories", "why_tests_cant": "two automata are searched together with pruning; any number of candidates", "anchors": ["libvoikko/src/spellchecker/VfstSuggestion.cpp: generate", "libvoikko/src/fst/WeightedTransducer.cpp: backtrackToOutputDepth"]}
{"id": "C58", "title": "Better corrections are shown first", "statement": "Corrections found with an error model are shown in the order of their weights, the best first.", "quantifier": "all lists of corrections, all weights", "why_tests_cant": "the priority multiplies the weight by the place in the list before a second sort", "anchors": ["libvoikko/src/spellchecker/suggestion/SuggestionStatus.cpp: addSuggestion, sortSuggestions", "libvoikko/src/spellchecker/VfstSuggestion.cpp: generate"]}
{"id": "C59", "title": "Outputs of the dictionary cannot break the analyser", "statement": "Whatever text the dictionary writes for a word, the analyser for Finnish checks its hyphens, reads its attributes, corrects the structure and builds the base form and the list of parts without reading or writing outside its buffers; correcting a structure only exchanges small and capital letters.", "quantifier": "all outputs, all structures", "why_tests_cant": "hand-written parsers that look ahead and back from any position", "anchors": ["libvoikko/src/morphology/FinnishVfstAnalyzer.cpp: isValidAnalysis, parseBasicAttributes, fixStructure, parseBaseform, parseDebugAttributes, duplicateOrgName"]}
{"id": "C60", "title": "The analyser for Finnish reports what the dictionary contains", "statement": "The analyses of a word are those of the outputs that the dictionary has for the word in small letters, in the order of the dictionary, leaving out outputs with wrong hyphens; an output leads to one analysis, or two for names of organisations; none is left out, and the answer does not depend on the words analysed before.", "quantifier": "all dictionaries, all words, all histories", "why_tests_cant": "any number of paths; state is kept between calls", "anchors": ["libvoikko/src/morphology/FinnishVfstAnalyzer.cpp: analyze", "libvoikko/src/fst/UnweightedTransducer.cpp: prepare, next"]}
{"id": "C61", "title": "Hyphens of compounds follow the rules", "statement": "A compound from the dictionary for Finnish gets an analysis if and only if its joints are written correctly: with a hyphen between two equal vowels and behind a digit, without one elsewhere (behind -is both are allowed), and a name is not followed by a noun without a hyphen.", "quantifier": "all outputs of dictionaries without special remarks on hyphens, any number of parts", "why_tests_cant": "any number of parts and remarks; each joint interacts with the characters on both sides", "anchors": ["libvoikko/src/morphology/FinnishVfstAnalyzer.cpp: isValidAnalysis, analyze"]}
{"id": "C62", "title": "Base forms consist of the word and the base form of its last part", "statement": "The base form in an analysis is the part of the word before the last remark with a base form, with capitals where the structure has capitals, followed by what the remark says; hyphens behind the remark that the remark does not have make the word its own base form. In names of places, parts in front of a hyphen that are marked as the beginning of names are replaced by their base forms with a capital. (Numerals: C75.)", "quantifier": "all outputs of dictionaries for Finnish, any number of parts", "why_tests_cant": "any number of parts, remarks and hyphens", "anchors": ["libvoikko/src/morphology/FinnishVfstAnalyzer.cpp: parseBaseform, analyze"]}
{"id": "C63", "title": "Attributes say what the remarks of the dictionary say", "statement": "The class, case, number, person, mood, tense, degree of comparison, participle, negation, possessive suffix, focus particle, question clitic and the other grammatical attributes of an analysis are those named by the last remark of the output that names one at a place where it counts, with the documented corrections (past participles of the passive are adjectives, adjectives have at least the degree positive, nouns have none, only verbs have a negation, adverbs in -sti have no number); the output determines them.", "quantifier": "all well-formed outputs of dictionaries for Finnish with any number of parts and remarks, all words", "why_tests_cant": "the rules depend on the order and number of remarks, which is unbounded; a test sees single words", "anchors": ["libvoikko/src/morphology/FinnishVfstAnalyzer.cpp: parseBasicAttributes, parseBasicAttribute, addInfoFlag, analyze"]}
{"id": "C64", "title": "A compound that can name an organisation is also reported as a name", "statement": "A noun gets a second analysis, as a name with a capital first letter, exactly if its last part carries the remark for organisations and is not the first part; the second analysis differs from the first only in class, structure, base form, and the remark for place names.", "quantifier": "all well-formed outputs of dictionaries for Finnish, all words whose search is not broken off", "why_tests_cant": "the remark and the boundary can be anywhere in outputs of any length", "anchors": ["libvoikko/src/morphology/FinnishVfstAnalyzer.cpp: duplicateOrgName, analyze"]}
{"id": "C65", "title": "Checking with several threads gives the same output", "statement": "voikkospell with several threads prints exactly what it prints with one thread, in the same order, whatever the order in which the threads run, and it always comes to an end.", "quantifier": "all dictionaries, all options, all lists of words, all numbers of threads, all schedules", "why_tests_cant": "schedules cannot be enumerated by a test; the fault needs more threads than blocks of words", "anchors": ["libvoikko/src/tools/voikkospell.cpp: processBlock, cleanupThread, queueNextBlock, handleWordMultiThread, finishProcessing, initThreads"]}
{"id": "C66", "title": "voikkospell reports every word", "statement": "For every word of its input voikkospell prints the lines its options ask for: the verdict, analyses of correct words, suggestions for incorrect ones; what is printed for a word does not depend on the words before it, and a program can read the verdicts back line by line.", "quantifier": "all dictionaries, all options, all lists of words", "why_tests_cant": "any number of words in any order share one handle with a cache", "anchors": ["libvoikko/src/tools/voikkospell.cpp: check_word, printMorphology, handleWordSingleThread"]}
{"id": "C67", "title": "voikkohyphenate prints the word with its hyphenation points", "statement": "voikkohyphenate prints each word with the separator at the hyphenation points of the library, without writing outside its buffer; with a separator other than '-' no character of the word is lost, with '-' only hyphens and apostrophes can be.", "quantifier": "all words, all dictionaries, all separators", "why_tests_cant": "a buffer of fixed proportion to the word is filled by a loop", "anchors": ["libvoikko/src/tools/voikkohyphenate.cpp: hyphenateWord"]}
{"id": "C68", "title": "voikkogc prints the tokens, sentences or errors of every line", "statement": "voikkogc prints a line for every token or sentence, which together hold the whole line of input, or a line for every grammar error of the line in the order of the text and then '-'; with -n each message has the number of the line of input.", "quantifier": "all lines, all dictionaries, all options and histories of the handle", "why_tests_cant": "any number of tokens, sentences and errors; the enumeration goes through a cache", "anchors": ["libvoikko/src/tools/voikkogc.cpp: print_tokens, split_sentences, check_grammar"]}
{"id": "C69", "title": "The dictionary compiler keeps the meaning of the dictionary", "statement": "A transducer given to voikkovfstc in text form and the file it writes, once loaded by the library on a machine of either byte order, accept the same words with the same outputs, including the conditions set by flag diacritics; looking up a word finds exactly these outputs, and the table meets everything the search relies on.", "quantifier": "all transducers in text form whose symbols and size fit in the file format, both byte orders, all words", "why_tests_cant": "any number of states, transitions and symbols; symbols are renumbered, states laid out anew, and states with more than 255 transitions have a different form", "anchors": ["libvoikko/src/tools/voikkovfstc.cpp: main, convertSymbolNames, ensureSymbolInMap, compareSymbolsForLookupOrder, compareTransitionsForFileOrder", "libvoikko/src/fst/UnweightedTransducer.cpp: UnweightedTransducer", "libvoikko/src/fst/Transducer.cpp: getDiacriticOperation"]}
{"id": "C70", "title": "The dictionary compiler keeps the weights of the dictionary", "statement": "A weighted transducer given to voikkovfstc in text form and the file it writes, once loaded by the library, accept the same words with the same outputs at the same total weights; looking up a word finds exactly these outputs and weights, and the file for a machine of the other byte order loads to the same transducer there.", "quantifier": "all weighted transducers in text form whose symbols, weights and size fit in the file format, all words", "why_tests_cant": "any number of states, transitions and symbols; the weights decide the order of suggestions, and each is moved with its transition when symbols are renumbered, transitions sorted and states laid out anew", "anchors": ["libvoikko/src/tools/voikkovfstc.cpp: main, writeTrans, convertSymbolNames, compareTransitionsForFileOrder", "libvoikko/src/fst/WeightedTransducer.cpp: WeightedTransducer, next"]}
{"id": "C71", "title": "The dictionary compiler reads the text form of transducers", "statement": "Every transducer written as text, one transition or final state on a line with fields separated by white space, is compiled to a dictionary that accepts exactly its words with their outputs (and, with -w, their weights). A line that is neither is refused: what is taken for a transition has two state numbers and two symbols, what is taken for a final state has a state number.", "quantifier": "all transducers whose symbols have no white space, all ways of separating the fields, all lines, any meaning of the texts of weights", "why_tests_cant": "any number of lines and any white space, leading zeros, signs and trailing fields; the fields that are not there show only in the state bits of a stream", "anchors": ["libvoikko/src/tools/voikkovfstc.cpp: main (lines 306-392)"]}
{"id": "C72", "title": "A dictionary made of a list of words gives the right answers", "statement": "If the transducer in text form reads one letter and writes at most seven characters in each transition and has at most one transition for a letter in each state, the dictionary compiled from it makes the speller call a word of at most 255 characters correct exactly if it is in the list, ask for a capital letter exactly if it is not in the list but is in it with its small first letter made a capital, and wrong otherwise, whatever words were checked before; the analyser gives a word of the list its one analysis with its text and weight and other words none.", "quantifier": "all such transducers, all ways to write them, all words, all histories of the speller and the analyser", "why_tests_cant": "unbounded dictionaries and histories; the search has limits on its steps, its depth and its output that give a wrong answer silently, and a proof must show that they are never reached", "anchors": ["libvoikko/src/tools/voikkovfstc.cpp: main", "libvoikko/src/fst/WeightedTransducer.cpp: WeightedTransducer, prepare, next", "libvoikko/src/spellchecker/VfstSpeller.cpp: spell, doSpell", "libvoikko/src/morphology/VfstAnalyzer.cpp: analyze"]}
{"id": "C73", "title": "An HFST dictionary accepts its own words", "statement": "With an HFST dictionary a checked word is correct exactly if the dictionary has it in a form that justifies its capital letters: as written, in small letters, with only the first letter a capital, or in capitals, according to the options ACCEPT_FIRST_UPPERCASE and ACCEPT_ALL_UPPERCASE; every word the dictionary has is accepted as it is written there; the answers do not depend on what was checked before.", "quantifier": "all dictionaries (any set of words), all words that have a UTF-8 form, all options, all histories of calls", "why_tests_cant": "the dictionary is an external library and the words, options, cache contents and histories are unbounded; the capital letters interact with the cache and with three look-ups in different spellings", "anchors": ["libvoikko/src/spellchecker/HfstSpeller.cpp: spell, doSpell", "libvoikko/src/spellchecker/spell.cpp: voikkoSpellUcs4, voikko_cached_spell"]}
{"id": "C74", "title": "Suggestions of an HFST dictionary are shown best first and not twice", "statement": "Whatever corrections an HFST dictionary proposes for a word, the user is shown the best five in the order of their weights, none of them lost; for a word that begins with a capital letter corrections that differ only in the case of the first letter count once, so that no suggestion is shown twice.", "quantifier": "all words, all lists of proposed corrections with weights that are not negative and below 100000, all options", "why_tests_cant": "the lists of corrections are unbounded and come from an external library; order and repetition are relations between all pairs of entries after case adaptation and sorting by a product of rank and weight", "anchors": ["libvoikko/src/spellchecker/HfstSuggestion.cpp: generate", "libvoikko/src/spellchecker/suggestions.cpp: voikkoSuggestUcs4", "libvoikko/src/spellchecker/suggestion/SuggestionStatus.cpp: addSuggestion, sortSuggestions"]}
{"id": "C75", "title": "The base form of a numeral consists of the base forms of its parts", "statement": "The base form in the analysis of a numeral is, part by part, what the dictionary gives as the base form of the part, or the part itself where nothing is given; of a numeral written with digits it is the digits. Remarks of the dictionary that are not about the form of the word do not show in the base form. (That last sentence is false: the source number of a word becomes part of it.)", "quantifier": "all outputs of dictionaries for Finnish whose first class is that of numerals and that have no noun or adjective behind it, any number of parts", "why_tests_cant": "any number of parts and remarks, in any order; a test sees single numerals", "anchors": ["libvoikko/src/morphology/FinnishVfstAnalyzer.cpp: parseNumeralBaseform, parseBaseform, analyze"]}
{"id": "C76", "title": "Dictionaries in HFST archives are found beside those of version 5", "statement": "With HFST support, the listing of dictionaries and a request for a language see, in each location of the search path, first the dictionaries of version 5 and then every readable archive whose name ends with .zhfst; unreadable archives are skipped; of dictionaries with the same tag the first is used.", "quantifier": "all contents of the file system, search paths, environment variables and requests", "why_tests_cant": "the test of the file name wraps around for names without the extension, exceptions of the library escape, and the result depends on every combination of directories and tags", "anchors": ["libvoikko/src/setup/V3DictionaryLoader.cpp: findDictionaries", "libvoikko/src/setup/DictionaryFactory.cpp: addAllVersionVariantsFromPath, findAllAvailable, load", "libvoikko/src/setup/DictionaryLoader.cpp: addDictionary"]}
{"id": "C77", "title": "Everything that belongs to a handle is released exactly once", "statement": "Whatever sequence of opening handles, failing to open them, changing options and closing handles a program performs, every block of memory and mapped file acquired for a handle stays in use while the handle is open and is released exactly once when it is closed or when opening fails; handles share nothing, and no call is undefined or throws at the caller.", "quantifier": "all histories of voikkoInit, options that replace components and voikkoTerminate, all builds, back ends and states of the files", "why_tests_cant": "leaks and double releases have no visible effect, they depend on which of the components could be made and on the order of calls, and the failing branches need damaged files", "anchors": ["libvoikko/src/setup/setup.cpp: voikkoInit, voikkoTerminate, voikkoSetBooleanOption, voikkoSetIntegerOption", "libvoikko/src/morphology/AnalyzerFactory.cpp: getAnalyzer", "libvoikko/src/spellchecker/SpellerFactory.cpp: getSpeller", "libvoikko/src/spellchecker/suggestion/SuggestionGeneratorFactory.cpp: getSuggestionGenerator", "libvoikko/src/hyphenator/HyphenatorFactory.cpp: getHyphenator", "libvoikko/src/grammar/GrammarCheckerFactory.cpp: getGrammarChecker", "libvoikko/src/fst/UnweightedTransducer.cpp: UnweightedTransducer"]}
{"id": "C78", "title": "The parts of a word are listed with their base forms and numbers", "statement": "The attribute WORDBASES of an analysis lists the parts of the word in order, each with a plus sign before it and its base form in parentheses behind it; a hyphen between parts is a part of its own, the last part is given in its base form, and an ending has a base form that starts with a plus sign. WORDIDS is the same list with the numbers of the words instead of the base forms, and it is there exactly if the dictionary numbers some part.", "quantifier": "all dictionaries whose outputs are well formed, all words, all histories of the handle", "why_tests_cant": "the lists are put together from any number of parts, remarks and endings in any order, with positions remembered to overwrite the last part; tests show a few words of one dictionary", "anchors": ["libvoikko/src/morphology/FinnishVfstAnalyzer.cpp: parseDebugAttributes, debugContentEnd", "libvoikko/doc/morphological-analysis.txt: WORDBASES, WORDIDS"]}
{"id": "C79", "title": "The Python functions tokens and sentences lose no text", "statement": "Voikko.tokens of the Python interface returns, for every text, the tokens that the library finds between the NUL characters of the text and one token of an unknown type for each NUL; they concatenate to the text and none is empty. Voikko.sentences returns the sentences of the library, which concatenate to the text; only the last says that no sentence follows; a text with a NUL is returned as one sentence.", "quantifier": "all texts, with any number of NUL characters anywhere, all dictionaries, all options", "why_tests_cant": "loops over positions and lengths whose effect depends on the whole text", "anchors": ["libvoikko/python/libvoikko.py (tokens, __splitTokens, sentences)"]}
{"id": "C80", "title": "The Python function grammarErrors reports every error of every paragraph where it is", "statement": "Voikko.grammarErrors of the Python interface ends for every text and returns for each line of it the errors that the library finds in the line, at their positions in the whole text: in the order of the text, each inside one line. The result does not depend on what was done with the handle before, apart from its options. A text with a NUL character is not checked.", "quantifier": "all texts of any number of lines, all dictionaries, all histories of the handle", "why_tests_cant": "offsets add up over all paragraphs and the number of calls depends on the errors found", "anchors": ["libvoikko/python/libvoikko.py (grammarErrors, __grammarParagraph, __getGrammarError)", "libvoikko/src/grammar/interface.cpp (voikkoNextGrammarErrorUcs4)"]}
{"id": "C81", "title": "Dictionaries have an order in Python", "statement": "The comparisons of Dictionary objects of the Python interface are those of a total order: two dictionaries are equal exactly if all their strings are, and of two different dictionaries exactly one comes before the other.", "quantifier": "all pairs of dictionaries", "why_tests_cant": "a law about all combinations of four strings", "anchors": ["libvoikko/python/libvoikko.py (Dictionary.__lt__, Dictionary.__eq__)"]}
{"id": "C82", "title": "The Java function tokens ends and loses no text", "statement": "Voikko.tokens of the Java interface ends for every string and returns tokens that concatenate to the string; none is empty, and the start offset of each is its position in the string, counted in UTF-16 units, also behind characters outside the basic plane.", "quantifier": "all strings of UTF-16 units, also with NULs, surrogates with or without a partner and noncharacters", "why_tests_cant": "three positions (units, bytes, pieces) must stay in step over the whole string, and the loop depends on the library never returning an empty token", "anchors": ["libvoikko/java/src/main/java/org/puimula/libvoikko/Voikko.java (tokens, tokensNonNull, indexOfSpecialUnknown)", "libvoikko/src/tokenizer/interface.cpp (voikkoNextTokenCstr)"]}
{"id": "C83", "title": "The Java function sentences ends and returns the sentences of the library", "statement": "Voikko.sentences of the Java interface ends for every string; its sentences concatenate to the string and have the boundaries that the library finds.", "quantifier": "all strings of UTF-16 units, all dictionaries", "why_tests_cant": "lengths counted in characters are used as lengths in UTF-16 units", "anchors": ["libvoikko/java/src/main/java/org/puimula/libvoikko/Voikko.java (sentences)", "libvoikko/src/sentence/interface.cpp (voikkoNextSentenceStartCstr)"]}
{"id": "C84", "title": "The Java function grammarErrors reports errors where they are", "statement": "Voikko.grammarErrors of the Java interface ends for every string and returns for each line the errors that the library finds in it, in the order of the text and at their positions in the string; carriage returns and newlines end lines; a string with a NUL is not checked.", "quantifier": "all strings of UTF-16 units, all dictionaries, all histories of the handle", "why_tests_cant": "offsets add up over all lines, and positions counted in characters are used as positions of UTF-16 units", "anchors": ["libvoikko/java/src/main/java/org/puimula/libvoikko/Voikko.java (grammarErrors, appendErrorsFromParagraph, getGrammarError)", "libvoikko/src/grammar/interface.cpp (voikkoNextGrammarErrorCstr)"]}
{"id": "C85", "title": "The C# function Tokens ends and loses no text", "statement": "Voikko.Tokens of the C# interface ends without an exception for every string and returns tokens that concatenate to the string; none is empty, each NUL is a token of its own, and between NULs the tokens are those of the library.", "quantifier": "all strings of UTF-16 units, also with NULs, surrogates with or without a partner and noncharacters", "why_tests_cant": "the rest of the string is encoded again after each token; lengths in characters are used as lengths in units, and the loop depends on the library never returning an empty token", "anchors": ["libvoikko/cs/libvoikko/Voikko.cs (Tokens, tokensNonNull)", "libvoikko/cs/libvoikko/ByteArray.cs (s2n)", "libvoikko/src/tokenizer/interface.cpp (voikkoNextTokenCstr)"]}
{"id": "C86", "title": "The C# function Sentences ends and returns the sentences of the library", "statement": "Voikko.Sentences of the C# interface ends for every string; its sentences concatenate to the string and have the boundaries that the library finds.", "quantifier": "all strings of UTF-16 units, all dictionaries", "why_tests_cant": "lengths counted in characters are used as lengths in UTF-16 units", "anchors": ["libvoikko/cs/libvoikko/Voikko.cs (Sentences)", "libvoikko/src/sentence/interface.cpp (voikkoNextSentenceStartCstr)"]}
{"id": "C87", "title": "The C# function GrammarErrors reports errors where they are", "statement": "Voikko.GrammarErrors of the C# interface ends for every string and returns for each line the errors that the library finds in it, in the order of the text and at their positions in the string; a newline, with or without a carriage return before it, ends a line; a string with a NUL is not checked.", "quantifier": "all strings of UTF-16 units, all dictionaries, all histories of the handle", "why_tests_cant": "offsets add up over all lines and must count every character between the lines", "anchors": ["libvoikko/cs/libvoikko/Voikko.cs (GrammarErrors, appendErrorsFromParagraph, getGrammarError)", "libvoikko/src/grammar/interface.cpp (voikkoNextGrammarErrorCstr)"]}
{"id": "C88", "title": "Dictionaries have an order in Java", "statement": "Dictionary.compareTo of the Java interface is the comparison of a total order by language, script, variant and description; it is 0 exactly for dictionaries that are equal, equal dictionaries have the same hash code, and no result overflows.", "quantifier": "all pairs and triples of dictionaries with strings that are not null", "why_tests_cant": "laws about all combinations of strings", "anchors": ["libvoikko/java/src/main/java/org/puimula/libvoikko/Dictionary.java (compareTo, equals, hashCode)"]}
{"id": "C89", "title": "The JavaScript function tokens ends and loses no text", "statement": "tokens of the JavaScript interface ends for every string and returns tokens that concatenate to the string; none is empty, each NUL is a token of its own, and between NULs the tokens are those of the library.", "quantifier": "all strings of UTF-16 units, also with NULs, surrogates and noncharacters", "why_tests_cant": "positions in units and in bytes must stay in step over the whole string, and the loop depends on the library never returning an empty token", "anchors": ["libvoikko/js/libvoikko_api.js (tokens, tokensNonNull)", "libvoikko/src/tokenizer/interface.cpp (voikkoNextTokenCstr)"]}
{"id": "C90", "title": "The JavaScript function sentences ends and returns the sentences of the library", "statement": "sentences of the JavaScript interface ends for every string; its sentences concatenate to the string and have the boundaries that the library finds.", "quantifier": "all strings of UTF-16 units, all dictionaries, all contents of fresh memory", "why_tests_cant": "lengths in characters, units and bytes are used together, and the length is read from memory that the library may not have written", "anchors": ["libvoikko/js/libvoikko_api.js (sentences)", "libvoikko/src/sentence/interface.cpp (voikkoNextSentenceStartCstr)"]}
{"id": "C91", "title": "The JavaScript function grammarErrors reports errors where they are", "statement": "grammarErrors of the JavaScript interface ends for every string and returns for each line the errors that the library finds in it, in the order of the text and at their positions in the string; carriage returns and newlines end lines; a string with a NUL is not checked.", "quantifier": "all strings of UTF-16 units, all dictionaries, all histories of the handle", "why_tests_cant": "offsets add up over all lines, and positions counted in characters are used as positions of UTF-16 units", "anchors": ["libvoikko/js/libvoikko_api.js (grammarErrors, appendErrorsFromParagraph, getGrammarError)", "libvoikko/src/grammar/interface.cpp (voikkoNextGrammarErrorCstr)"]}
{"id": "C92", "title": "The C# function Hyphenate returns the word with hyphens", "statement": "Voikko.Hyphenate of the C# interface returns for every word, without an exception, the word with hyphens at its hyphenation points, as the library's function for inserting hyphens does; a word with a NUL is returned as it is.", "quantifier": "all strings of UTF-16 units, all dictionaries, all settings", "why_tests_cant": "the pattern must have one character for each unit of every word, and be there at all", "anchors": ["libvoikko/cs/libvoikko/Voikko.cs (Hyphenate, GetHyphenationPattern)", "libvoikko/src/hyphenator/interface.cpp (voikkoHyphenateCstr, voikkoInsertHyphensCstr)"]}
{"id": "C93", "title": "hyphenate of Python, Java and JavaScript returns the word with separators", "statement": "hyphenate of the Python, Java and JavaScript interfaces returns for every word and separator, without an exception, the word with the separator at its hyphenation points, with or without the points that change the word; if the word or the separator has a NUL, the word is returned as it is.", "quantifier": "all words and separators, all dictionaries, all settings, with and without context changes", "why_tests_cant": "the library's result may be missing, and what the interface then does depends on the language", "anchors": ["libvoikko/python/libvoikko.py (hyphenate)", "libvoikko/java/src/main/java/org/puimula/libvoikko/Voikko.java (hyphenate)", "libvoikko/js/libvoikko_api.js (hyphenate)", "libvoikko/src/hyphenator/interface.cpp (voikkoInsertHyphensCstr)"]}
{"id": "C94", "title": "spell of all interfaces gives the same answer", "statement": "spell of the Python, Java, C# and JavaScript interfaces returns for every string, without an exception, whether the word is accepted with the dictionary and the settings; the answer does not depend on the language, and a string with a NUL is not accepted.", "quantifier": "all strings, all dictionaries, all settings and histories of calls", "why_tests_cant": "the library has result codes that are neither yes nor no, limits in different units and two encodings", "anchors": ["libvoikko/python/libvoikko.py (spell)", "libvoikko/java/src/main/java/org/puimula/libvoikko/Voikko.java (spell)", "libvoikko/cs/libvoikko/Voikko.cs (Spell)", "libvoikko/js/libvoikko_api.js (spell)", "libvoikko/src/spellchecker/spell.cpp (voikkoSpellUcs4, voikkoSpellCstr)"]}
{"id": "C95", "title": "suggest of all interfaces returns the suggestions of the library", "statement": "suggest of the Python, Java, C# and JavaScript interfaces returns for every string, without a crash, the suggestions of the library in their order, the same in all languages; for a string with a NUL the list is empty, and for a correct word it holds the word itself.", "quantifier": "all strings, all generators of suggestions, all settings", "why_tests_cant": "lists end at a NULL pointer, limits are in different units, and empty strings count as false in one of the languages", "anchors": ["libvoikko/python/libvoikko.py (suggest)", "libvoikko/java/src/main/java/org/puimula/libvoikko/Voikko.java (suggest)", "libvoikko/cs/libvoikko/Voikko.cs (Suggest)", "libvoikko/js/libvoikko_api.js (suggest, extractSuggestions)", "libvoikko/src/spellchecker/suggestions.cpp (voikkoSuggestUcs4, voikkoSuggestCstr)"]}
{"id": "C96", "title": "The setters of all interfaces do what their names say", "statement": "However the setters of the Python, Java, C# and JavaScript interfaces are called, none throws an exception, each setting has afterwards the value that was set last, and settings that were not set keep their values; a new handle has the defaults that the comments name.", "quantifier": "all sequences of calls of setters with all values, except the size of the cache", "why_tests_cant": "there are more sequences of calls than can be tried, and a setter may change another setting", "anchors": ["libvoikko/python/libvoikko.py (setIgnoreDot ... setSuggestionStrategy)", "libvoikko/java/src/main/java/org/puimula/libvoikko/Voikko.java (setIgnoreDot ... setSuggestionStrategy)", "libvoikko/cs/libvoikko/Voikko.cs (IgnoreDot ... SuggestionStrategy)", "libvoikko/js/libvoikko_api.js (setIgnoreDot ... setSuggestionStrategy)", "libvoikko/src/setup/setup.cpp (voikkoSetBooleanOption, voikkoSetIntegerOption)"]}
{"id": "C97", "title": "getHyphenationPattern of all interfaces returns one character for each of the word", "statement": "getHyphenationPattern of the Python, Java, C# and JavaScript interfaces returns for every word, without an exception, the pattern of the library, which is the same in all languages and as long as the word; for a word with a NUL it consists of spaces.", "quantifier": "all strings, all dictionaries, all settings", "why_tests_cant": "the lengths of words are counted in characters, units or bytes, depending on the language", "anchors": ["libvoikko/python/libvoikko.py (getHyphenationPattern)", "libvoikko/java/src/main/java/org/puimula/libvoikko/Voikko.java (getHyphenationPattern)", "libvoikko/cs/libvoikko/Voikko.cs (GetHyphenationPattern)", "libvoikko/js/libvoikko_api.js (getHyphenationPattern)", "libvoikko/src/hyphenator/interface.cpp (voikkoHyphenateUcs4, voikkoHyphenateCstr)"]}
