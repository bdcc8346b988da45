(** * The grammar checker's error list.

    Models [grammar/GcCache.cpp], [grammar/GcCache.hpp] and the data carried by
    [grammar/VoikkoGrammarError.hpp]. *)
From Verif Require Import Base.

(** [VoikkoGrammarError], grammar/VoikkoGrammarError.hpp:44-72: the fields of
    [legacyError] that are ever assigned (voikko_structs.h); [startlevel] and
    [error_description] are constant.  Suggestions are the UTF-8 strings of the
    NULL-terminated array ([] when the pointer is NULL). *)
Record gc_error : Type := mk_error {
  error_code : Z;
  startpos : nat;
  errorlen : nat;
  suggestions : list (list Z)
}.

(** [GcCache], grammar/GcCache.hpp:39-55: the paragraph (a NUL-terminated
    string; [None] is the null pointer) and the linked list of errors. *)
Record gc_cache : Type := mk_gc_cache {
  paragraph : option (list Z);
  errors : list gc_error
}.

(** [GcCache::GcCache] and the state after [GcCache::clear],
    grammar/GcCache.cpp:34-49. *)
Definition gc_empty : gc_cache := mk_gc_cache None [].

(** The loop of [GcCache::appendError], grammar/GcCache.cpp:62-74, running from
    [entry] with tail [rest]. *)
Fixpoint append_loop (entry : gc_error) (rest : list gc_error) (newEntry : gc_error) : list gc_error :=
  match rest with
  | [] => [entry; newEntry]
  | next :: rest' =>
      if (startpos entry <=? startpos newEntry)%nat && (startpos newEntry <? startpos next)%nat
      then entry :: newEntry :: next :: rest'
      else entry :: append_loop next rest' newEntry
  end.

(** [GcCache::appendError], grammar/GcCache.cpp:51-75, on the error list. *)
Definition append_error (l : list gc_error) (newEntry : gc_error) : list gc_error :=
  match l with
  | [] => [newEntry]
  | entry :: rest =>
      if (startpos newEntry <? startpos entry)%nat then newEntry :: l
      else append_loop entry rest newEntry
  end.
