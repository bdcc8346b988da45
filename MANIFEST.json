{
 "claims": [
  {
   "property": "C01",
   "status": "proved",
   "theorems": [
    "C01_roundtrip",
    "C01_encode_rejects"
   ],
   "note": ""
  },
  {
   "property": "C02",
   "status": "partial",
   "theorems": [
    "C02_decode_exact",
    "C02_decode_rejects",
    "C02_decode_unique",
    "C02_decode_prefix",
    "C02_prefix_validates_refuted"
   ],
   "note": "C02_prefix_validates_refuted: C02, full claim \"malformed input is always reported\" is false for the length-limited conversion: it validates nothing when the text is long."
  },
  {
   "property": "C03",
   "status": "proved",
   "theorems": [
    "C03_tokens_partition",
    "C03_none_iff_empty"
   ],
   "note": ""
  },
  {
   "property": "C04",
   "status": "proved",
   "theorems": [
    "C04_tokenizer_in_bounds",
    "C04_tokenizer_utf8_in_bounds"
   ],
   "note": ""
  },
  {
   "property": "C05",
   "status": "proved",
   "theorems": [
    "C05_token_classes",
    "C05_no_adjacent_whitespace"
   ],
   "note": ""
  },
  {
   "property": "C06",
   "status": "partial",
   "theorems": [
    "C06_utf8_agrees_partial",
    "C06_utf8_agrees_refuted",
    "C06_malformed_rejected_refuted"
   ],
   "note": "C06_utf8_agrees_partial: C06, proved part: on well-formed, NUL-free UTF-8 text both entry points agree when the text is at most 50 characters long, or contains no '@', or has whitespace among its first 50 characters. Missing: long runs without whitespace that contain '@' (see the refutation below). | C06_utf8_agrees_refuted: C06, full claim is false: an e-mail address longer than 50 characters is one word for the wide entry point; the UTF-8 entry point cuts the text at 50 characters, no longer recognises the address and stops at the '+'. | C06_malformed_rejected_refuted: C06, second half is false as well: a malformed byte far behind the first token goes unnoticed."
  },
  {
   "property": "C07",
   "status": "proved",
   "theorems": [
    "C07_boundaries",
    "C07_sentences_partition",
    "C07_first_terminator",
    "C07_no_terminator",
    "C07_utf8_agrees",
    "C07_utf8_malformed"
   ],
   "note": ""
  },
  {
   "property": "C08",
   "status": "proved",
   "theorems": [
    "C08_spell_exact",
    "C08_limits"
   ],
   "note": ""
  },
  {
   "property": "C09",
   "status": "partial",
   "theorems": [
    "C09_utf8_agrees_partial",
    "C09_malformed",
    "C09_utf8_agrees_refuted"
   ],
   "note": "C09_utf8_agrees_partial: The UTF-8 interface agrees with the wide one on words of at most 255 bytes. | C09_utf8_agrees_refuted: The byte limit makes the two interfaces disagree on long words with non-ASCII letters: 128 letters take 256 bytes."
  },
  {
   "property": "C10",
   "status": "proved",
   "theorems": [
    "C10_cache_invisible"
   ],
   "note": ""
  },
  {
   "property": "C11",
   "status": "partial",
   "theorems": [
    "C11_history_independent_partial",
    "C11_history_independent_refuted"
   ],
   "note": "C11_history_independent_partial: After any history in which ACCEPT_EXTRA_HYPHENS and ACCEPT_MISSING_HYPHENS change only while the cache is switched off, a spelling call gives the answer of a handle with the same option values that has no memory of earlier calls. | C11_history_independent_refuted: Without that proviso the claim is false: an answer found while missing hyphens were accepted stays in the cache after the option is switched off."
  },
  {
   "property": "C12",
   "status": "partial",
   "theorems": [
    "C12_addresses",
    "C12_cached_calls_safe",
    "C12_size_refuted",
    "C12_any_wchar_refuted"
   ],
   "note": "C12_size_refuted: Larger size parameters are accepted by the interface but overflow. | C12_any_wchar_refuted: A word containing a negative [wchar_t] value, or one far above the Unicode range, drives the cache outside its tables."
  },
  {
   "property": "C13",
   "status": "partial",
   "theorems": [
    "C13_monotone",
    "C13_monotone_all_uppercase",
    "C13_monotone_all_uppercase_refuted",
    "C13_analyzer_dictionary_case_blind",
    "C13_finnish_all_uppercase_refuted"
   ],
   "note": "C13_monotone_all_uppercase_refuted: For an arbitrary dictionary the last one fails. | C13_finnish_all_uppercase_refuted: With the Finnish treatment of hyphens and ACCEPT_EXTRA_HYPHENS this fails: turning on ACCEPT_ALL_UPPERCASE may reject an accepted word in capitals."
  },
  {
   "property": "C14",
   "status": "partial",
   "theorems": [
    "C14_normalise_safe",
    "C14_equivalent_spellings",
    "C14_idempotent_partial",
    "C14_idempotent_refuted",
    "C14_spelling_alike"
   ],
   "note": "C14_idempotent_partial: Normalisation is idempotent unless a ligature or degree sign is directly followed by a combining mark. | C14_idempotent_refuted: Without that condition it is not idempotent: LATIN SMALL LIGATURE FI followed by COMBINING GRAVE ACCENT."
  },
  {
   "property": "C15",
   "status": "partial",
   "theorems": [
    "C15_case_pairs",
    "C15_case_laws",
    "C15_casetype_meaning",
    "C15_recase",
    "C15_recase_idempotent",
    "C15_equals_ignore_case",
    "C15_letters_stay_letters",
    "C15_letters_stay_letters_refuted",
    "C15_recase_schwa_refuted"
   ],
   "note": "C15_letters_stay_letters_refuted: The unrestricted claim is false: the capital of a-with-grave is not classified as a letter. | C15_recase_schwa_refuted: Lower-casing does not always produce a word classified as lower case."
  },
  {
   "property": "C16",
   "status": "proved",
   "theorems": [
    "C16_capitals",
    "C16_finnish"
   ],
   "note": ""
  },
  {
   "property": "C17",
   "status": "proved",
   "theorems": [
    "C17_soft_hyphens",
    "C17_hyphenator_breaks"
   ],
   "note": ""
  },
  {
   "property": "C18",
   "status": "partial",
   "theorems": [
    "C18_total",
    "C18_finnish_total",
    "C18_never_rejects",
    "C18_no_hyphen_exact",
    "C18_accepted_exactly",
    "C18_no_worse_partial",
    "C18_no_worse_refuted"
   ],
   "note": "C18_no_worse_partial: The verdict is never worse than that of the dictionary, unless the first part of a compound with a free ending is worse. | C18_no_worse_refuted: Otherwise it may be worse: the dictionary wants a capital initial, the verdict is that the capitals are wrong everywhere."
  },
  {
   "property": "C19",
   "status": "proved",
   "theorems": [
    "C19_best_five",
    "C19_count",
    "C19_nothing"
   ],
   "note": ""
  },
  {
   "property": "C20",
   "status": "proved",
   "theorems": [
    "C20_effort"
   ],
   "note": ""
  },
  {
   "property": "C21",
   "status": "partial",
   "theorems": [
    "C21_dictionary_words",
    "C21_schwa_refuted"
   ],
   "note": "C21_schwa_refuted: Without these conditions a suggestion may be wrong: an analyser that knows the letter SCHWA makes the library suggest a word it does not accept."
  },
  {
   "property": "C22",
   "status": "partial",
   "theorems": [
    "C22_suggest_safe",
    "C22_short_refuted",
    "C22_ligature_refuted",
    "C22_vowels_refuted"
   ],
   "note": "C22_short_refuted: Words of at least two characters are not always safe: a letter with a combining mark is normalised to one character, which the generator that adds hyphens does not expect. | C22_ligature_refuted: Ligatures make the normalised word longer than the word; the original is then read past its end when the form of apostrophes and hyphens is restored. | C22_vowels_refuted: With more than 32 vowels a negative number is shifted to the left."
  },
  {
   "property": "C23",
   "status": "proved",
   "theorems": [
    "C23_capitals",
    "C23_initial",
    "C23_kept",
    "C23_punctuation",
    "C23_same_word"
   ],
   "note": ""
  },
  {
   "property": "C24",
   "status": "proved",
   "theorems": [
    "C24_pattern_shape",
    "C24_replaced_characters",
    "C24_short_words",
    "C24_no_utf8",
    "C24_utf8_agrees"
   ],
   "note": ""
  },
  {
   "property": "C25",
   "status": "partial",
   "theorems": [
    "C25_short_parts",
    "C25_all_analyses_partial",
    "C25_all_analyses_refuted",
    "C25_unknown_words_partial",
    "C25_unknown_words_refuted",
    "C25_ugly_subset_partial",
    "C25_ugly_subset_refuted"
   ],
   "note": "C25_all_analyses_partial: C25: a break is reported exactly where every analysis that counts, taken alone, gives a break. | C25_all_analyses_refuted: Missing: analyses that do not count. When one analysis is not a compound, compound analyses are ignored, so a break can be reported at a place where an ignored analysis has none. | C25_unknown_words_partial: C25: with HYPHENATE_UNKNOWN_WORDS off, an unknown word without adjacent hyphens has no '-' break: the only breaks are at its hyphens. | C25_unknown_words_refuted: Missing: adjacent hyphens. The part after the first of them begins with the mark of the second one and is hyphenated although the word is unknown. | C25_ugly_subset_partial: C25: without apostrophes in the word, NO_UGLY_HYPHENATION only removes breaks. (When an unknown word is hyphenated without its final dot, the two settings may see different texts as Internet addresses; this case is left out.) | C25_ugly_subset_refuted: Missing: apostrophes. The setting also changes which consonants begin a syllable near an apostrophe, and can move a break."
  },
  {
   "property": "C26",
   "status": "proved",
   "theorems": [
    "C26_insert_exact",
    "C26_insert_inverse",
    "C26_context_changes"
   ],
   "note": ""
  },
  {
   "property": "C27",
   "status": "proved",
   "theorems": [
    "C27_set_boolean",
    "C27_set_integer",
    "C27_last_write_wins"
   ],
   "note": ""
  },
  {
   "property": "C28",
   "status": "partial",
   "theorems": [
    "C28_result",
    "C28_list",
    "C28_enumeration",
    "C28_start",
    "C28_start_refuted"
   ],
   "note": "C28_start_refuted: But the errors to be skipped are counted from the start of the text, so that skipping one error from there may return the same error again."
  },
  {
   "property": "C29",
   "status": "partial",
   "theorems": [
    "C29_history_independent",
    "C29_terminated_refuted",
    "C29_nul_refuted"
   ],
   "note": "C29_terminated_refuted: The text must be followed by a NUL: with any other character after it no error is ever reported, and with nothing after it the program reads beyond the buffer. | C29_nul_refuted: After checking a text that contains NUL, the text before the NUL gets the errors of the longer text: the one reported here lies outside the text."
  },
  {
   "property": "C30",
   "status": "partial",
   "theorems": [
    "C30_spans",
    "C30_exact_refuted",
    "C30_nul_refuted"
   ],
   "note": "C30_exact_refuted: The span of an autocorrect error need not be the text that was corrected: after a soft hyphen the rule matches \"joten kuten\" but the span reported has one character more. | C30_nul_refuted: With autocorrect rules a NUL in the first word makes the checker read beyond the end of a buffer."
  },
  {
   "property": "C31",
   "status": "partial",
   "theorems": [
    "C31_analysis",
    "C31_cover",
    "C31_limit_refuted"
   ],
   "note": "C31_limit_refuted: Beyond 200 sentences the rest of the text is silently ignored."
  },
  {
   "property": "C32",
   "status": "proved",
   "theorems": [
    "C32_capitalization",
    "C32_paragraphs"
   ],
   "note": ""
  },
  {
   "property": "C33",
   "status": "partial",
   "theorems": [
    "C33_init",
    "C33_terminate_partial",
    "C33_terminate_refuted",
    "C33_handles",
    "C33_dead_handle_refuted",
    "C33_language",
    "C33_string_option"
   ],
   "note": "C33_terminate_partial: While some instance exists, terminating is well defined: a live handle is released, its instance and no other is terminated; anything else is refused without effect. | C33_terminate_refuted: Without instances it is not: the null table is read before the first initialisation and after the last termination. | C33_dead_handle_refuted: A handle that is not live gives the null pointer, or is outside the table."
  },
  {
   "property": "C34",
   "status": "partial",
   "theorems": [
    "C34_normal_form",
    "C34_print_injective",
    "C34_parts",
    "C34_equivalent",
    "C34_script_case_refuted",
    "C34_reuse_refuted",
    "C34_order"
   ],
   "note": "C34_script_case_refuted: The case of the script is not normalised: tags that BCP 47 regards as equal differ and do not match. | C34_reuse_refuted: Reading over an existing tag keeps parts of the old one."
  },
  {
   "property": "C35",
   "status": "partial",
   "theorems": [
    "C35_listing",
    "C35_order",
    "C35_load",
    "C35_variant",
    "C35_default",
    "C35_standard_partial",
    "C35_standard_refuted",
    "C35_index",
    "C35_languages",
    "C35_path",
    "C35_locations"
   ],
   "note": "C35_standard_partial: Without a variant and a default: the dictionary named standard, if no dictionary of the language and script has a name of ten characters. | C35_standard_refuted: With a name of ten characters, the standard dictionary is not preferred."
  },
  {
   "property": "C36",
   "status": "partial",
   "theorems": [
    "C36_sound",
    "C36_any_history_refuted",
    "C36_weighted_sound"
   ],
   "note": "C36_any_history_refuted: After a lookup that was given up in the middle the flags keep their values, and the next lookup returns a result that no accepting path has."
  },
  {
   "property": "C37",
   "status": "partial",
   "theorems": [
    "C37_complete",
    "C37_initial_segment",
    "C37_any_history_refuted",
    "C37_weighted_partial",
    "C37_weighted_refuted"
   ],
   "note": "C37_any_history_refuted: After an abandoned lookup results can also be missing: the flag that is still set forbids the only result. | C37_weighted_partial: In a table whose states are in the order in which the compiler writes them, and where no state has transitions for two different flags: when the transducer says that there are no more results, the results are those of all accepting paths, each path once, in the order of the table. | C37_weighted_refuted: At the end of the word the search leaves a state at the first flag that is not satisfied: the flags after it are not tried, and a word that is accepted through them is not found."
  },
  {
   "property": "C38",
   "status": "partial",
   "theorems": [
    "C38_history",
    "C38_any_history_refuted",
    "C38_weighted_history"
   ],
   "note": "C38_any_history_refuted: With an abandoned lookup before it, the same word gives other results."
  },
  {
   "property": "C39",
   "status": "proved",
   "theorems": [
    "C39_no_overflow",
    "C39_weighted_no_overflow"
   ],
   "note": ""
  },
  {
   "property": "C40",
   "status": "partial",
   "theorems": [
    "C40_byte_order",
    "C40_big_endian",
    "C40_weighted_refuted",
    "C40_weighted_partial"
   ],
   "note": "C40_weighted_refuted: The weights of a weighted transducer are corrupted when the byte order is that of another machine: the functions that swap them keep the sign bits. A weight of 128 becomes -128. | C40_weighted_partial: Missing: weights that are negative or whose low byte is 128 or more, which do not survive, see above. Everything else in the file does, whatever the automaton."
  },
  {
   "property": "C41",
   "status": "partial",
   "theorems": [
    "C41_first_write_wins",
    "C41_lookup_by_name",
    "C41_key_list",
    "C41_lent_values_kept",
    "C41_no_double_free",
    "C41_no_leak_refuted",
    "C41_no_leak_partial"
   ],
   "note": "C41_no_leak_refuted: C41 (nothing leaked) is false: handing over a value for an attribute that already has one leaks it, and lending one leaks the value handed over before. | C41_no_leak_partial: C41: if attributes are only added while they have no value, everything handed over is freed exactly as often as it was handed over."
  },
  {
   "property": "C42",
   "status": "proved",
   "theorems": [
    "C42_structure",
    "C42_structure_of_analyses"
   ],
   "note": ""
  },
  {
   "property": "C43",
   "status": "proved",
   "theorems": [
    "C43_messages",
    "C43_two_letters"
   ],
   "note": ""
  },
  {
   "property": "C44",
   "status": "partial",
   "theorems": [
    "C44_nonword_exact",
    "C44_www_needs_tail_refuted"
   ],
   "note": "C44_www_needs_tail_refuted: The documentation in the source says that something must follow the last dot of a www-address; the code does not require it."
  },
  {
   "property": "C45",
   "status": "proved",
   "theorems": [
    "C45_rank",
    "C45_weight",
    "C45_order_irrelevant",
    "C45_candidates",
    "C45_best_analysis",
    "C45_verdict_of_analysis"
   ],
   "note": ""
  },
  {
   "property": "C46",
   "status": "partial",
   "theorems": [
    "C46_names",
    "C46_values_partial",
    "C46_values_refuted",
    "C46_all_values_occur"
   ],
   "note": "C46_values_partial: The values in an analysis are among those listed for their attribute, for any output of any dictionary, with one exception. | C46_values_refuted: The exception: adjectives get the degree of comparison \"positive\", which is not listed."
  },
  {
   "property": "C47",
   "status": "proved",
   "theorems": [
    "C47_ignore_dot_effect"
   ],
   "note": ""
  },
  {
   "property": "C48",
   "status": "proved",
   "theorems": [
    "C48_small_edits",
    "C48_complete",
    "C48_splits",
    "C48_case_only",
    "C48_case_change",
    "C48_soft_hyphens",
    "C48_vowel_change",
    "C48_replacement",
    "C48_deletion",
    "C48_insert_special",
    "C48_insertion",
    "C48_replace_two",
    "C48_swap",
    "C48_delete_two",
    "C48_two_replacements"
   ],
   "note": ""
  },
  {
   "property": "C49",
   "status": "proved",
   "theorems": [
    "C49_suggest_utf8",
    "C49_unencodable",
    "C49_malformed"
   ],
   "note": ""
  },
  {
   "property": "C50",
   "status": "partial",
   "theorems": [
    "C50_reported",
    "C50_exact",
    "C50_unchecked",
    "C50_brackets_refuted",
    "C50_extra_verb"
   ],
   "note": "C50_brackets_refuted: After an opening square bracket three tokens are skipped, so two spaces there are not reported."
  },
  {
   "property": "C51",
   "status": "partial",
   "theorems": [
    "C51_flags",
    "C51_order_refuted"
   ],
   "note": "C51_order_refuted: What is said about the infinitive that a word is depends on the order of its readings."
  },
  {
   "property": "C52",
   "status": "partial",
   "theorems": [
    "C52_reported",
    "C52_plain",
    "C52_useless_refuted",
    "C52_last_refuted"
   ],
   "note": "C52_useless_refuted: The suggestion of error 7 need not change the word. | C52_last_refuted: A word at the very end of the paragraph is not checked."
  },
  {
   "property": "C53",
   "status": "partial",
   "theorems": [
    "C53_end",
    "C53_whitespace_refuted",
    "C53_limit_refuted"
   ],
   "note": "C53_whitespace_refuted: Whitespace after the final full stop is taken for a missing full stop. | C53_limit_refuted: In a longer text the last sentence analysed is taken for the end."
  },
  {
   "property": "C54",
   "status": "partial",
   "theorems": [
    "C54_weight_partial",
    "C54_weights_partial",
    "C54_weight_sum_refuted"
   ],
   "note": "C54_weight_partial: The weight of a result is the sum of the weights along an accepting path that writes it, if that sum is between -32768 and 32767; in general it is that sum modulo 65536. | C54_weights_partial: With complete results, each accepting path gives one result with its own weight. | C54_weight_sum_refuted: The sum is kept in 16 bits: a word whose only path has the weights 20000 and 20000 is reported with the weight -25536, better than every other word."
  },
  {
   "property": "C55",
   "status": "partial",
   "theorems": [
    "C55_speller_history",
    "C55_speller_sound",
    "C55_speller_exact_partial",
    "C55_speller_refuted"
   ],
   "note": "C55_speller_exact_partial: For words of at most 255 characters, in a table in the order of the compiler, without two flags in one state: the answer is right unless the transducer stops at a limit. | C55_speller_refuted: An accepted word that is called wrong, because a flag that is not satisfied is in the same state before one that is. Neither the length nor another limit has to do with it."
  },
  {
   "property": "C56",
   "status": "partial",
   "theorems": [
    "C56_analyzer_history",
    "C56_analyzer_sound",
    "C56_analyzer_complete_partial",
    "C56_analyzer_refuted"
   ],
   "note": "C56_analyzer_complete_partial: No accepting path is left out, for words of at most 255 characters that do not lead the transducer to a limit, in a table in the order of the compiler without two flags in one state. The exception is a word with more than 99 paths: then the analyses are those of the first 99. | C56_analyzer_refuted: A word with 100 accepting paths has only 99 analyses: here the text that the last path writes is in none of them."
  },
  {
   "property": "C57",
   "status": "partial",
   "theorems": [
    "C57_suggest_total",
    "C57_suggest_sound",
    "C57_suggest_exact_partial",
    "C57_suggest_sound_refuted",
    "C57_suggest_memory_refuted"
   ],
   "note": "C57_suggest_exact_partial: Without limits, in tables in the order of the compiler and with at most one flag in a state of the dictionary: the suggestions are the best corrections, as many as asked for, the best first. Each is recorded with its weight times its place plus five. | C57_suggest_sound_refuted: With flags in the error model a suggestion can be wrong: the flag set on the way to \"x\", which is not in the dictionary, is still set when \"y\" is tried, and \"y\" is suggested although the error model does not write it. | C57_suggest_memory_refuted: With more flags, the array of flags is overrun."
  },
  {
   "property": "C58",
   "status": "partial",
   "theorems": [
    "C58_order_partial",
    "C58_order_refuted"
   ],
   "note": "C58_order_partial: Weights that are not negative keep their order through the priorities: what is found best first is shown best first. | C58_order_refuted: With negative weights the order is not kept: of two corrections with the weights -18 and -16 the worse is shown first, because -16 times 6 is less than -18 times 5."
  },
  {
   "property": "C59",
   "status": "proved",
   "theorems": [
    "C59_parsers_stay_inside",
    "C59_corrections"
   ],
   "note": ""
  },
  {
   "property": "C60",
   "status": "partial",
   "theorems": [
    "C60_history",
    "C60_analyses_partial",
    "C60_complete_refuted",
    "C60_history_refuted"
   ],
   "note": "C60_analyses_partial: The analyses of a word are those of at most 99 outputs. The outputs are well formed, belong to the word in small letters, and are taken in the order of the dictionary; nothing is left out before one that is found. Nothing is left out at all for words of at most 255 characters whose search is not broken off. | C60_complete_refuted: The last of the 100 outputs is not reported. | C60_history_refuted: After a word with 99 outputs or more the flags keep their values: then a word that the dictionary does not have gets an analysis, but not before."
  },
  {
   "property": "C61",
   "status": "proved",
   "theorems": [
    "C61_hyphens",
    "C61_words"
   ],
   "note": ""
  },
  {
   "property": "C62",
   "status": "proved",
   "theorems": [
    "C62_last_part",
    "C62_base_forms",
    "C62_no_places",
    "C62_words",
    "C62_simple",
    "C62_simple_words"
   ],
   "note": ""
  },
  {
   "property": "C63",
   "status": "proved",
   "theorems": [
    "C63_attributes",
    "C63_one_value",
    "C63_determined",
    "C63_words"
   ],
   "note": ""
  },
  {
   "property": "C64",
   "status": "proved",
   "theorems": [
    "C64_organisations",
    "C64_words",
    "C64_both"
   ],
   "note": ""
  },
  {
   "property": "C65",
   "status": "partial",
   "theorems": [
    "C65_same_output_partial",
    "C65_few_words_refuted"
   ],
   "note": "C65_same_output_partial: voikkospell -j [n] prints, whatever the threads do when, what the program prints with a single thread, and it always comes to an end; provided there are no words at all or more than 500 (n - 1) of them. (Missing: smaller inputs, for which see the next theorem.) | C65_few_words_refuted: With fewer words the program always waits for a thread that it never created: [pthread_join] is called with an identifier that has not been written."
  },
  {
   "property": "C66",
   "status": "proved",
   "theorems": [
    "C66_report",
    "C66_determined",
    "C66_read_back",
    "C66_incorrect_only"
   ],
   "note": ""
  },
  {
   "property": "C67",
   "status": "proved",
   "theorems": [
    "C67_printed",
    "C67_characters_kept",
    "C67_hyphens"
   ],
   "note": ""
  },
  {
   "property": "C68",
   "status": "partial",
   "theorems": [
    "C68_tokens",
    "C68_sentences",
    "C68_errors",
    "C68_line_numbers_refuted"
   ],
   "note": "C68_line_numbers_refuted: The manual says that -n puts the number of the line of input before each message; the program always puts 0 there."
  },
  {
   "property": "C69",
   "status": "proved",
   "theorems": [
    "C69_compiled",
    "C69_lookup",
    "C69_accepts_input",
    "C69_other_symbols"
   ],
   "note": ""
  },
  {
   "property": "C70",
   "status": "partial",
   "theorems": [
    "C70_compiled",
    "C70_lookup_partial",
    "C70_byte_order_partial",
    "C70_accepts_input",
    "C70_two_flags_refuted"
   ],
   "note": "C70_lookup_partial: Missing: states with two different flags, where words are lost (see below), and weights whose sum needs more than 16 bits. | C70_byte_order_partial: Missing: weights that are negative or whose low byte is 128 or more, which are not the same on a machine of the other byte order (see [C40_weighted_refuted]). | C70_two_flags_refuted: A transducer with two flags at one state is compiled as well, but at the end of a word only the first of them is tried: a word that is accepted through the second is not found."
  },
  {
   "property": "C71",
   "status": "partial",
   "theorems": [
    "C71_text",
    "C71_accepts_text",
    "C71_weighted_text",
    "C71_accepts_weighted_text",
    "C71_transition_line",
    "C71_final_line_partial",
    "C71_blank_refuted",
    "C71_final_weight_refuted"
   ],
   "note": "C71_final_line_partial: Missing: lines without a number, and with a number that is too large; see below. | C71_blank_refuted: A line that is empty, or has only white space or a sign, should be an error or be skipped. It makes the initial state final: the dictionary then has the empty word and the words that lead back to this state. | C71_final_weight_refuted: With weights, white space after a final state makes the program use a variable that has no value."
  },
  {
   "property": "C72",
   "status": "proved",
   "theorems": [
    "C72_speller",
    "C72_analyzer",
    "C72_output_bound_needed"
   ],
   "note": ""
  },
  {
   "property": "C73",
   "status": "partial",
   "theorems": [
    "C73_speller",
    "C73_unencodable_refuted",
    "C73_accepted",
    "C73_own_words_partial",
    "C73_own_words_refuted",
    "C73_name_refuted"
   ],
   "note": "C73_unencodable_refuted: Other words are undefined behaviour: the HFST library is given a null pointer. | C73_own_words_partial: The dictionary's own words are accepted, with ACCEPT_FIRST_UPPERCASE and ACCEPT_ALL_UPPERCASE on (as they are at the start), whatever the other options are and whatever has been checked before; a word in capitals must begin with a letter. | C73_own_words_refuted: Without that condition it is false: a dictionary has the word \"3D\", and the word \"3D\" is an error. | C73_name_refuted: With ACCEPT_FIRST_UPPERCASE off, a name is rejected if the dictionary has the same word in small letters too."
  },
  {
   "property": "C74",
   "status": "partial",
   "theorems": [
    "C74_found",
    "C74_shown",
    "C74_no_repeats",
    "C74_no_repeats_refuted"
   ],
   "note": "C74_no_repeats_refuted: For a word in capitals it is false: the same suggestion is shown twice."
  },
  {
   "property": "C75",
   "status": "partial",
   "theorems": [
    "C75_numerals",
    "C75_words",
    "C75_sources_refuted"
   ],
   "note": "C75_sources_refuted: The remark [[Xs]...[X]], with the number of the word in a database, is not part of the word. Yet its text becomes part of the base form of a numeral: this base form is \"12kaksi\"."
  },
  {
   "property": "C76",
   "status": "partial",
   "theorems": [
    "C76_listing_partial",
    "C76_load_partial",
    "C76_without_archives",
    "C76_double_refuted",
    "C76_five_refuted",
    "C76_exception_refuted"
   ],
   "note": "C76_listing_partial: The dictionaries listed are those that are present: each name once, the first of that name, where version 5 comes before the archives in a location and earlier locations before later ones. What is missing: names with \".zhfst\" twice or with five characters, and archives that make the library throw another exception ([C76_double_refuted], [C76_five_refuted], [C76_exception_refuted]). | C76_load_partial: Loading gives the first listed dictionary that satisfies the request, and reports failure exactly if no dictionary present does. | C76_double_refuted: An archive whose name has \".zhfst\" twice is not found. | C76_five_refuted: A readable archive with any name of five characters is taken as a dictionary. | C76_exception_refuted: One damaged archive for which the library throws another exception than the expected one keeps a dictionary in an earlier location from being loaded: the exception leaves the library."
  },
  {
   "property": "C77",
   "status": "partial",
   "theorems": [
    "C77_balanced_partial",
    "C77_safe_partial",
    "C77_uses_partial",
    "C77_separate_partial",
    "C77_failure_partial",
    "C77_closed_partial",
    "C77_empty_refuted",
    "C77_header_refuted",
    "C77_flag_refuted",
    "C77_autocorrect_refuted",
    "C77_zhfst_refuted",
    "C77_experimental_refuted",
    "C77_ocr_refuted",
    "C77_ocr_exception_refuted"
   ],
   "note": "C77_balanced_partial: When the last handle has been closed, what is in use is what was in use at the beginning: whatever was opened, whatever options were set, in whichever order handles were closed, and although some could not be opened. What is missing: failures because of damaged files and the experimental suggestions (see the refutations). | C77_safe_partial: No call is undefined or throws: a handle can be opened or a message is given, options can be set and a handle can be closed, at any time. | C77_uses_partial: What the components of an open handle own and what they use of each other is in use, whatever happened to other handles. | C77_separate_partial: Open handles have nothing in common, neither with each other nor with what was in use before. | C77_failure_partial: A handle that cannot be opened takes nothing away from the others, whatever is wrong with the files, and leaves nothing behind if no file is damaged. | C77_closed_partial: Nothing of a handle that has been closed is in use any more. | C77_empty_refuted: With an empty mor.vfst opening a handle is undefined: the file cannot be mapped and is read all the same. | C77_header_refuted: ... the mapped file, if mor.vfst is not a transducer; | C77_flag_refuted: ... the symbols that have been read, too, if one of them is malformed; | C77_autocorrect_refuted: ... five checks of the grammar checker, if autocorr.vfst is missing; | C77_zhfst_refuted: ... the object of the HFST library, if an archive cannot be read; | C77_experimental_refuted: ... the error model and buffers of experimental suggestions, if a later component cannot be made, although no file is damaged. | C77_ocr_refuted: A handle with experimental suggestions: setting the OCR option loses their error model and buffers, also when the handle is closed. | C77_ocr_exception_refuted: If err.vfst has been removed by then, the option throws an exception at the caller (the C interface does not allow for that), and closing the handle afterwards releases the suggestions a second time."
  },
  {
   "property": "C78",
   "status": "partial",
   "theorems": [
    "C78_described",
    "C78_output_partial",
    "C78_words_partial",
    "C78_ending_refuted",
    "C78_letterless_refuted"
   ],
   "note": "C78_output_partial: What the attributes of an output are: the parts that the output describes. (Partial: outputs that are not described, see [C78_described], are left out; see also the refutations.) | C78_words_partial: For words: the parts are those of an output of the dictionary for the word in small letters. (Partial as above.) | C78_ending_refuted: The endings of a word are separated from the other parts by a plus sign, but not if an ending is inside a part: \"kansalliseepos\", for which the documentation has \"+kansa(kansa)+llis(+llinen)+eepos(eepos)\". | C78_letterless_refuted: All parts of the word are listed, but not if the last part has a base form and no letters: its base form takes the place of the part before it."
  },
  {
   "property": "C79",
   "status": "proved",
   "theorems": [
    "C79_tokens",
    "C79_plain",
    "C79_sentences",
    "C79_sentences_all"
   ],
   "note": ""
  },
  {
   "property": "C80",
   "status": "proved",
   "theorems": [
    "C80_errors",
    "C80_spans",
    "C80_history",
    "C80_nul"
   ],
   "note": ""
  },
  {
   "property": "C81",
   "status": "partial",
   "theorems": [
    "C81_order_partial",
    "C81_order_refuted"
   ],
   "note": "C81_order_partial: Dictionaries compare as equal exactly if all their strings are equal, no dictionary comes before itself, and of two different dictionaries at least one comes before the other. Missing: that only one of them does. | C81_order_refuted: Two dictionaries can each come before the other, so that the result of sorting a list of dictionaries depends on the order it had: the variant is compared although the languages differ."
  },
  {
   "property": "C82",
   "status": "partial",
   "theorems": [
    "C82_tokens_partial",
    "C82_calls_partial",
    "C82_ends_refuted"
   ],
   "note": "C82_tokens_partial: For every string without the units 0xFFFE and 0xFFFF [tokens] ends and returns the tokens that repeated calls of the library find between NULs and surrogates, and each NUL and each surrogate as a token of its own. The tokens concatenate to the string, none is empty, and the offset of each is where its text is. Missing: strings with the two excluded units. | C82_calls_partial: Each of these calls finds a token of the kind its type says, at the beginning of the text or of a part of it that starts there. | C82_ends_refuted: With the unit 0xFFFF the library returns no token and the loop goes on forever, whatever the number of steps."
  },
  {
   "property": "C83",
   "status": "partial",
   "theorems": [
    "C83_sentences_partial",
    "C83_concat_partial",
    "C83_boundaries_refuted",
    "C83_ends_refuted"
   ],
   "note": "C83_sentences_partial: For strings of characters with one unit, except U+FFFE and U+FFFF, the result is that of the library: the sentences concatenate to the text and only the last one says that no sentence follows. Missing: surrogates. | C83_concat_partial: Also with surrogates nothing is lost: for every string without the units 0xFFFE and 0xFFFF [sentences] ends and its results concatenate to the string. | C83_boundaries_refuted: A character with two units moves the boundaries behind it: the library counts characters, and the interface takes the number for one of units. The space behind the first sentence becomes part of the second. | C83_ends_refuted: With the unit 0xFFFF the loop goes on forever."
  },
  {
   "property": "C84",
   "status": "partial",
   "theorems": [
    "C84_errors_partial",
    "C84_position_refuted",
    "C84_nul"
   ],
   "note": "C84_errors_partial: For strings of characters with one unit, except U+FFFE and U+FFFF, [grammarErrors] ends and returns for each line the errors that the library finds in it, moved to where the line is: in the order of the text, each inside one line. Carriage returns end lines as newlines do. Missing: surrogates. | C84_position_refuted: Behind a character with two units errors are reported one unit too early: the span of two commas starts at the space before them."
  },
  {
   "property": "C85",
   "status": "partial",
   "theorems": [
    "C85_concat_partial",
    "C85_tokens_partial",
    "C85_ends_refuted"
   ],
   "note": "C85_concat_partial: For every string without the units 0xFFFE and 0xFFFF [Tokens] ends without an exception; its tokens concatenate to the string, none is empty, and each NUL is a token of its own. Missing: strings with the two excluded units. | C85_tokens_partial: For strings of characters with one unit, except U+FFFE and U+FFFF, the tokens are those that repeated calls of the library find between NULs. Missing: surrogates. | C85_ends_refuted: With the unit 0xFFFF the library returns no token and the loop goes on forever, whatever the number of steps."
  },
  {
   "property": "C86",
   "status": "partial",
   "theorems": [
    "C86_sentences_partial",
    "C86_concat_partial",
    "C86_boundaries_refuted",
    "C86_ends_refuted"
   ],
   "note": "C86_sentences_partial: For strings of characters with one unit, except U+FFFE and U+FFFF, the result is that of the library. Missing: surrogates. | C86_concat_partial: Also with surrogates nothing is lost. | C86_boundaries_refuted: A character with two units moves the boundaries behind it. | C86_ends_refuted: With the unit 0xFFFF the loop goes on forever."
  },
  {
   "property": "C87",
   "status": "partial",
   "theorems": [
    "C87_errors_partial",
    "C87_positions_partial",
    "C87_crlf_refuted",
    "C87_nul"
   ],
   "note": "C87_errors_partial: For strings of characters with one unit, except U+FFFE and U+FFFF, [GrammarErrors] ends and returns for each line the errors that the library finds in it. Their positions are those in the text in which each carriage return before a newline has been removed. Missing: surrogates, and positions in the text itself. | C87_positions_partial: If no carriage return is followed by a newline, the positions are those in the text. | C87_crlf_refuted: Behind a carriage return and a newline errors are reported one unit too early: the span of two commas in the second line starts at the space before them, although each character of the text is one unit."
  },
  {
   "property": "C88",
   "status": "proved",
   "theorems": [
    "C88_before",
    "C88_order",
    "C88_equals",
    "C88_int"
   ],
   "note": ""
  },
  {
   "property": "C89",
   "status": "partial",
   "theorems": [
    "C89_tokens_partial",
    "C89_ends_refuted"
   ],
   "note": "C89_tokens_partial: For strings of NULs and characters with one unit, except U+FFFE and U+FFFF, [tokens] ends and returns the tokens that repeated calls of the library find between NULs and each NUL as a token of its own. They concatenate to the string and none is empty. Missing: surrogates and the two characters. | C89_ends_refuted: With the unit 0xFFFF the library returns no token and the loop goes on forever, whatever the number of steps."
  },
  {
   "property": "C90",
   "status": "partial",
   "theorems": [
    "C90_sentences_partial",
    "C90_other",
    "C90_ends_refuted"
   ],
   "note": "C90_sentences_partial: For strings of characters with one unit, except U+FFFE and U+FFFF, the result is that of the library, whatever the memory for lengths holds at first. Missing: surrogates and the two characters. | C90_ends_refuted: With the unit 0xFFFF the library stores no length. If the memory for it holds 0, the loop goes on forever."
  },
  {
   "property": "C91",
   "status": "partial",
   "theorems": [
    "C91_errors_partial",
    "C91_nul",
    "C91_position_refuted"
   ],
   "note": "C91_errors_partial: For strings of characters with one unit, except U+FFFE and U+FFFF, [grammarErrors] ends and returns for each line the errors that the library finds in it, moved to where the line is: in the order of the text, each inside one line. Carriage returns end lines as newlines do. Missing: surrogates and the two characters. | C91_position_refuted: Behind a character with two units errors are reported one unit too early, if such a character is written as UTF-8."
  },
  {
   "property": "C92",
   "status": "partial",
   "theorems": [
    "C92_word_partial",
    "C92_nul",
    "C92_long_refuted",
    "C92_units_refuted"
   ],
   "note": "C92_word_partial: For words of characters with one unit, except U+FFFE and U+FFFF, that have at most 255 bytes in UTF-8, [Hyphenate] returns the word with hyphens where the pattern has them, which is also what the library's own function for inserting hyphens returns. Missing: longer words and surrogates. | C92_long_refuted: Every longer word leads to an exception, because the library returns no pattern. | C92_units_refuted: A word with a character of two units loses its last unit, and the hyphens behind the character are in the wrong places."
  },
  {
   "property": "C93",
   "status": "partial",
   "theorems": [
    "C93_python_partial",
    "C93_java_partial",
    "C93_js_partial",
    "C93_nul",
    "C93_long_refuted"
   ],
   "note": "C93_python_partial: In Python, words of at most 255 bytes are hyphenated as their patterns say. Missing: longer words, and characters that [hyph_word] does not allow. | C93_java_partial: The same in Java for characters with one unit. Missing: longer words and surrogates. | C93_js_partial: The same in JavaScript for characters with one unit. Missing: longer words and surrogates. | C93_long_refuted: Every longer word leads to a crash in Python and an exception in Java; in JavaScript the result is an empty string."
  },
  {
   "property": "C94",
   "status": "partial",
   "theorems": [
    "C94_python",
    "C94_units_partial",
    "C94_nul",
    "C94_long_refuted"
   ],
   "note": "C94_units_partial: Java, C# and JavaScript: the same for words of characters with one unit, except U+FFFE and U+FFFF, that have at most 255 bytes in UTF-8. Missing: longer words and surrogates. | C94_long_refuted: The limit counts characters in Python and bytes elsewhere: a word of 128 letters that the dictionary knows is right in Python only."
  },
  {
   "property": "C95",
   "status": "partial",
   "theorems": [
    "C95_python_partial",
    "C95_empty_refuted",
    "C95_units_partial",
    "C95_nul",
    "C95_correct_refuted",
    "C95_long_refuted"
   ],
   "note": "C95_python_partial: Python returns what the library suggests, for every string without NULs. Missing: lists with an empty suggestion. | C95_empty_refuted: If there were an empty suggestion, Python would lose those behind it. | C95_units_partial: So do the others, in UTF-8, for words of characters with one unit, except U+FFFE and U+FFFF, that have at most 255 bytes. Missing: longer words, surrogates, and suggestions that cannot be encoded. | C95_correct_refuted: The comments on the functions promise the word itself for a correct word, but a word of one character gets no suggestion, correct or not. | C95_long_refuted: A list that the library gives for a word of 128 letters is lost outside Python."
  },
  {
   "property": "C96",
   "status": "proved",
   "theorems": [
    "C96_setters",
    "C96_defaults"
   ],
   "note": ""
  },
  {
   "property": "C97",
   "status": "partial",
   "theorems": [
    "C97_python_partial",
    "C97_units_partial",
    "C97_nul",
    "C97_long_refuted",
    "C97_length_refuted"
   ],
   "note": "C97_python_partial: Python returns the pattern of the library for all words, also long ones, of characters that can be encoded. Missing: other characters. | C97_units_partial: Java, C# and JavaScript return the same pattern as Python for words of characters with one unit, except U+FFFE and U+FFFF, that have at most 255 bytes in UTF-8. Missing: longer words and surrogates. | C97_long_refuted: Longer words have a pattern in Python only: an exception in Java, null in C#, and an empty pattern in JavaScript. | C97_length_refuted: With a character of two units the pattern is shorter than the string."
  }
 ]
}