(** * The handle and its options.

    Models [setup/setup.hpp] and the option setters of [setup/setup.cpp].  The
    [int] option fields only ever hold 0 or 1 and are booleans.  The options
    kept by the Finnish hyphenator
    (hyphenator/AnalyzerToFinnishHyphenatorAdapter.hpp) are fields of the
    handle.  The suggestion generator is represented by the kind it was created
    for.  The morphological analyser, the dictionary and the speller itself do
    not change after initialisation and are parameters of the functions that
    use them. *)
From Verif Require Import Base SpellerBase CacheModel GcCacheModel.

(** [struct VoikkoHandle], setup/setup.hpp:49-69. *)
Record handle : Type := mk_handle {
  ignore_dot : bool;
  ignore_numbers : bool;
  ignore_uppercase : bool;
  ignore_nonwords : bool;
  accept_first_uppercase : bool;
  accept_all_uppercase : bool;
  accept_extra_hyphens : bool;
  accept_missing_hyphens : bool;
  accept_titles_in_gc : bool;
  accept_unfinished_paragraphs_in_gc : bool;
  accept_bulleted_lists_in_gc : bool;
  gcCache : gc_cache;
  spellerCache : option spell_cache;
  ocrSuggestions : bool;
  hyphUgly : bool;
  hyphUnknown : bool;
  hyphMinLength : Z;
  hyphIgnoreDot : bool
}.

(** The handle after a successful [voikkoInit], setup/setup.cpp:163-233, and
    the defaults of the hyphenator
    (hyphenator/AnalyzerToFinnishHyphenatorAdapter.cpp:42-48). *)
Definition voikkoInit : res handle :=
  c <- new_cache 0 ;;
  Ok (mk_handle false false false true true true false false false false false
        gc_empty (Some c) false true true 2 false).

Definition with_ignore_dot h b := mk_handle b (ignore_numbers h) (ignore_uppercase h) (ignore_nonwords h) (accept_first_uppercase h) (accept_all_uppercase h) (accept_extra_hyphens h) (accept_missing_hyphens h) (accept_titles_in_gc h) (accept_unfinished_paragraphs_in_gc h) (accept_bulleted_lists_in_gc h) (gcCache h) (spellerCache h) (ocrSuggestions h) (hyphUgly h) (hyphUnknown h) (hyphMinLength h) b.
Definition with_ignore_numbers h b := mk_handle (ignore_dot h) b (ignore_uppercase h) (ignore_nonwords h) (accept_first_uppercase h) (accept_all_uppercase h) (accept_extra_hyphens h) (accept_missing_hyphens h) (accept_titles_in_gc h) (accept_unfinished_paragraphs_in_gc h) (accept_bulleted_lists_in_gc h) (gcCache h) (spellerCache h) (ocrSuggestions h) (hyphUgly h) (hyphUnknown h) (hyphMinLength h) (hyphIgnoreDot h).
Definition with_ignore_uppercase h b := mk_handle (ignore_dot h) (ignore_numbers h) b (ignore_nonwords h) (accept_first_uppercase h) (accept_all_uppercase h) (accept_extra_hyphens h) (accept_missing_hyphens h) (accept_titles_in_gc h) (accept_unfinished_paragraphs_in_gc h) (accept_bulleted_lists_in_gc h) (gcCache h) (spellerCache h) (ocrSuggestions h) (hyphUgly h) (hyphUnknown h) (hyphMinLength h) (hyphIgnoreDot h).
Definition with_ignore_nonwords h b := mk_handle (ignore_dot h) (ignore_numbers h) (ignore_uppercase h) b (accept_first_uppercase h) (accept_all_uppercase h) (accept_extra_hyphens h) (accept_missing_hyphens h) (accept_titles_in_gc h) (accept_unfinished_paragraphs_in_gc h) (accept_bulleted_lists_in_gc h) (gcCache h) (spellerCache h) (ocrSuggestions h) (hyphUgly h) (hyphUnknown h) (hyphMinLength h) (hyphIgnoreDot h).
Definition with_first_uppercase h b := mk_handle (ignore_dot h) (ignore_numbers h) (ignore_uppercase h) (ignore_nonwords h) b (accept_all_uppercase h) (accept_extra_hyphens h) (accept_missing_hyphens h) (accept_titles_in_gc h) (accept_unfinished_paragraphs_in_gc h) (accept_bulleted_lists_in_gc h) (gcCache h) (spellerCache h) (ocrSuggestions h) (hyphUgly h) (hyphUnknown h) (hyphMinLength h) (hyphIgnoreDot h).
Definition with_all_uppercase h b := mk_handle (ignore_dot h) (ignore_numbers h) (ignore_uppercase h) (ignore_nonwords h) (accept_first_uppercase h) b (accept_extra_hyphens h) (accept_missing_hyphens h) (accept_titles_in_gc h) (accept_unfinished_paragraphs_in_gc h) (accept_bulleted_lists_in_gc h) (gcCache h) (spellerCache h) (ocrSuggestions h) (hyphUgly h) (hyphUnknown h) (hyphMinLength h) (hyphIgnoreDot h).
Definition with_extra_hyphens h b := mk_handle (ignore_dot h) (ignore_numbers h) (ignore_uppercase h) (ignore_nonwords h) (accept_first_uppercase h) (accept_all_uppercase h) b (accept_missing_hyphens h) (accept_titles_in_gc h) (accept_unfinished_paragraphs_in_gc h) (accept_bulleted_lists_in_gc h) (gcCache h) (spellerCache h) (ocrSuggestions h) (hyphUgly h) (hyphUnknown h) (hyphMinLength h) (hyphIgnoreDot h).
Definition with_missing_hyphens h b := mk_handle (ignore_dot h) (ignore_numbers h) (ignore_uppercase h) (ignore_nonwords h) (accept_first_uppercase h) (accept_all_uppercase h) (accept_extra_hyphens h) b (accept_titles_in_gc h) (accept_unfinished_paragraphs_in_gc h) (accept_bulleted_lists_in_gc h) (gcCache h) (spellerCache h) (ocrSuggestions h) (hyphUgly h) (hyphUnknown h) (hyphMinLength h) (hyphIgnoreDot h).
Definition with_gc_options h t u b g := mk_handle (ignore_dot h) (ignore_numbers h) (ignore_uppercase h) (ignore_nonwords h) (accept_first_uppercase h) (accept_all_uppercase h) (accept_extra_hyphens h) (accept_missing_hyphens h) t u b g (spellerCache h) (ocrSuggestions h) (hyphUgly h) (hyphUnknown h) (hyphMinLength h) (hyphIgnoreDot h).
Definition with_spellerCache h c := mk_handle (ignore_dot h) (ignore_numbers h) (ignore_uppercase h) (ignore_nonwords h) (accept_first_uppercase h) (accept_all_uppercase h) (accept_extra_hyphens h) (accept_missing_hyphens h) (accept_titles_in_gc h) (accept_unfinished_paragraphs_in_gc h) (accept_bulleted_lists_in_gc h) (gcCache h) c (ocrSuggestions h) (hyphUgly h) (hyphUnknown h) (hyphMinLength h) (hyphIgnoreDot h).
Definition with_suggestions h s := mk_handle (ignore_dot h) (ignore_numbers h) (ignore_uppercase h) (ignore_nonwords h) (accept_first_uppercase h) (accept_all_uppercase h) (accept_extra_hyphens h) (accept_missing_hyphens h) (accept_titles_in_gc h) (accept_unfinished_paragraphs_in_gc h) (accept_bulleted_lists_in_gc h) (gcCache h) (spellerCache h) s (hyphUgly h) (hyphUnknown h) (hyphMinLength h) (hyphIgnoreDot h).
Definition with_hyph h u k m := mk_handle (ignore_dot h) (ignore_numbers h) (ignore_uppercase h) (ignore_nonwords h) (accept_first_uppercase h) (accept_all_uppercase h) (accept_extra_hyphens h) (accept_missing_hyphens h) (accept_titles_in_gc h) (accept_unfinished_paragraphs_in_gc h) (accept_bulleted_lists_in_gc h) (gcCache h) (spellerCache h) (ocrSuggestions h) u k m (hyphIgnoreDot h).

(** [setGrammarOption], setup/setup.cpp:54-64: new value of the option and of
    the grammar cache. *)
Definition setGrammarOption (value option_ : bool) (g : gc_cache) : bool * gc_cache :=
  if value && negb option_ then (true, gc_empty)
  else if negb value && option_ then (false, gc_empty)
  else (option_, g).

(** [voikkoSetBooleanOption], setup/setup.cpp:66-136; [value] is the truth
    value of the C argument.  Result: return value and new handle. *)
Definition voikkoSetBooleanOption (h : handle) (opt : Z) (value : bool) : Z * handle :=
  match opt with
  | 0 => (1, with_ignore_dot h value)
  | 1 => (1, with_ignore_numbers h value)
  | 3 => (1, with_ignore_uppercase h value)
  | 6 => (1, with_first_uppercase h value)
  | 7 => (1, with_all_uppercase h value)
  | 4 => (1, with_hyph h (negb value) (hyphUnknown h) (hyphMinLength h))
  | 8 => (1, with_suggestions h value)
  | 10 => (1, with_ignore_nonwords h value)
  | 11 => (1, with_extra_hyphens h value)
  | 12 => (1, with_missing_hyphens h value)
  | 13 => let '(o, g) := setGrammarOption value (accept_titles_in_gc h) (gcCache h) in
          (1, with_gc_options h o (accept_unfinished_paragraphs_in_gc h) (accept_bulleted_lists_in_gc h) g)
  | 14 => let '(o, g) := setGrammarOption value (accept_unfinished_paragraphs_in_gc h) (gcCache h) in
          (1, with_gc_options h (accept_titles_in_gc h) o (accept_bulleted_lists_in_gc h) g)
  | 16 => let '(o, g) := setGrammarOption value (accept_bulleted_lists_in_gc h) (gcCache h) in
          (1, with_gc_options h (accept_titles_in_gc h) (accept_unfinished_paragraphs_in_gc h) o g)
  | 15 => (1, with_hyph h (hyphUgly h) value (hyphMinLength h))
  | _ => (0, h)
  end.

(** [voikkoSetIntegerOption], setup/setup.cpp:138-161. *)
Definition voikkoSetIntegerOption (h : handle) (opt value : Z) : res (Z * handle) :=
  match opt with
  | 9 => Ok (1, with_hyph h (hyphUgly h) (hyphUnknown h) value)
  | 17 =>
      match spellerCache h with
      | Some c =>
          if negb (sizeParam c =? value) then
            if 0 <=? value then (c' <- new_cache value ;; Ok (1, with_spellerCache h (Some c')))
            else Ok (1, with_spellerCache h None)
          else Ok (1, h)
      | None =>
          if 0 <=? value then (c' <- new_cache value ;; Ok (1, with_spellerCache h (Some c')))
          else Ok (1, h)
      end
  | _ => Ok (0, h)
  end.
