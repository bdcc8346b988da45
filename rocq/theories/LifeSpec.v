(** * The life of a handle: specification *)
From Verif Require Import Base SetupModel LifeModel.
From Coq Require Import Permutation.

(** ** What the parts of a handle own and what they refer to *)

Definition of_transducer (t : transducer) : list nat := t_object t :: t_map t :: t_symbols t.
Definition of_analyzer (a : analyzer) : list nat :=
  match a with NullAnalyzer o => [o] | VfstAnalyzer o t c b => o :: of_transducer t ++ [c; b] end.
Definition of_speller (s : speller) : list nat :=
  match s with
  | AnalyzerSpeller o _ | FixedSpeller o => [o]
  | TweaksWrapper o inner hyphenator _ => [o; inner; hyphenator]
  | HfstSpeller o library => [o; library]
  | VfstSpeller o t c b => o :: of_transducer t ++ [c; b]
  end.
Definition of_suggestion (g : suggestion) : list nat :=
  match g with
  | Strategy o p l _ => o :: p ++ l
  | NullGenerator o | HfstSuggestion o _ => [o]
  | VfstSuggestion o em ac ec ab eb _ => o :: of_transducer em ++ [ac; ec; ab; eb]
  end.
Definition of_check (c : sentence_check) : list nat :=
  match c with PlainCheck o => [o] | AutocorrectCheck obj t c i o => obj :: of_transducer t ++ [c; i; o] end.
Definition of_grammar (g : grammar) : list nat := g_object g :: g_engine g :: flat_map of_check (g_checks g) ++ [g_analyser g].
Definition of_cache (c : option speller_cache) : list nat :=
  match c with Some c => [c_object c; c_words c; c_results c] | None => [] end.

(** Everything that belongs to the handle. *)
Definition of_handle (v : vhandle) : list nat :=
  v_object v :: of_analyzer (v_analyzer v) ++ of_speller (v_speller v) ++ of_suggestion (v_suggestion v)
  ++ [hy_object (v_hyphenator v)] ++ of_grammar (v_grammar v) ++ of_cache (v_cache v).

(** The objects owned by others that the components of a handle use. *)
Definition referred (v : vhandle) : list nat :=
  (match v_speller v with AnalyzerSpeller _ u | TweaksWrapper _ _ _ u => [u] | _ => [] end) ++
  (match v_suggestion v with Strategy _ _ _ u | HfstSuggestion _ u | VfstSuggestion _ _ _ _ _ _ u => [u] | NullGenerator _ => [] end) ++
  [hy_uses (v_hyphenator v)].

(** ** Conditions *)

(** Names of resources are never reused while they are in use. *)
Definition sound (h : heap) : Prop := NoDup (live h) /\ Forall (fun i => (i < fresh h)%nat) (live h).

(** Back ends that are part of the model, without the experimental suggestions. *)
Definition ordinary (loaded : dictionary + list Z) : Prop :=
  match loaded with
  | inl d => morBackend d <> wstr "hfst" /\ hyphenatorBackend d <> wstr "hfst" /\ suggestionBackend d <> wstr "vfst"
  | inr e => e <> []
  end.
(** No file is empty that is read when a handle is opened. *)
Definition mappable (f : files) : Prop := f_mor f <> Empty /\ f_autocorr f <> Empty /\ f_spl f <> Empty.
Definition absent_or_good (x : vfst_file) : Prop := match x with Missing | Good _ _ => True | _ => False end.
(** No file is damaged: transducers are missing or good, autocorr.vfst is good, an
    archive can be read. *)
Definition undamaged (f : files) : Prop :=
  absent_or_good (f_mor f) /\ absent_or_good (f_spl f) /\ (match f_autocorr f with Good _ _ => True | _ => False end) /\ f_zhfst f = true.

(** ** Histories *)

(** What a program may do: open handles, fail to, change options, and close
    handles, in any order.  The open handles with the build, and the heap. *)
Inductive history (b : build) (h0 : heap) : list vhandle -> heap -> Prop :=
| hi_start : history b h0 [] h0
| hi_open : forall vs h loaded f v h', history b h0 vs h -> ordinary loaded -> mappable f ->
    voikkoInit b loaded f h = Ret (inl v) h' -> history b h0 (v :: vs) h'
| hi_fail : forall vs h loaded f e h', history b h0 vs h -> ordinary loaded -> undamaged f ->
    voikkoInit b loaded f h = Ret (inr e) h' -> history b h0 vs h'
| hi_set : forall vs ws v h s v' h', history b h0 (vs ++ v :: ws) h ->
    set_option b v s h = Ret v' h' -> history b h0 (vs ++ v' :: ws) h'
| hi_close : forall vs ws v h h', history b h0 (vs ++ v :: ws) h ->
    voikkoTerminate v h = Ret tt h' -> history b h0 (vs ++ ws) h'.
