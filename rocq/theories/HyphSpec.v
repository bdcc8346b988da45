(** * Hyphenation: vocabulary of the statements *)
From Verif Require Import Base Utf8Spec AnalysisModel AnalyzerBase HandleModel HyphModel.

(** Words: NUL-free texts of encodable characters. *)
Definition hyph_word (w : list Z) : Prop := Forall encodable w /\ ~ In 0 w.

(** A pattern has a break at position [i]. *)
Definition is_break (p : list Z) (i : nat) : Prop :=
  nth_error p i = Some HYPHEN \/ nth_error p i = Some EQUALS.

(** Structure attributes: character strings in which every '=' is followed by
    the symbol of a character. *)
Definition good_structure (s : list Z) : Prop :=
  ~ In 0 s /\ (forall a b, s <> a ++ 0x3D :: 0x3D :: b) /\ (forall a, s <> a ++ [0x3D]).

(** The symbols of the characters of the word. *)
Definition symbols (s : list Z) : list Z := filter (fun x => negb (x =? 0x3D)) s.

(** Hyphens of the structure are hyphens of the word. *)
Definition fits (s w : list Z) : Prop :=
  forall i, nth_error (symbols s) i = Some 0x2D -> nth_error w i = Some 0x2D.

(** Which part of the word is hyphenated, and its analyses: normally the whole
    word; with IGNORE_DOT and an unknown word that ends with a dot, the word
    without the dot. *)
Inductive looked_up (an : analyzer) (dot_ok : bool) (word : list Z) : list Z -> list analysis -> Prop :=
| looked_up_whole :
    an false word <> [] \/ dot_ok = false \/ (forall v, v <> [] -> word <> v ++ [0x2E]) ->
    looked_up an dot_ok word word (an false word)
| looked_up_no_dot : forall v,
    an false word = [] -> dot_ok = true -> v <> [] -> word = v ++ [0x2E] ->
    looked_up an dot_ok word v (an false v).

(** The borders that an analysis with structure [s] gives in a word of [n]
    characters: '-' before a character whose symbol follows '=', '=' at a hyphen
    that is followed by '=', X at abbreviations. *)
Fixpoint borders (first : bool) (n : nat) (s : list Z) : list Z :=
  match n, s with
  | O, _ => []
  | _, [] => repeat BLANK n
  | S n', x :: r =>
      match r with
      | y :: r' =>
          if (x =? 0x2D) && (y =? 0x3D) then (if first then BLANK else EQUALS) :: borders false n' r'
          else if x =? 0x3D then HYPHEN :: borders false n' r'
          else (if (x =? 0x6A) || (x =? 0x71) then MARK_X else BLANK) :: borders false n' r
      | [] => (if (x =? 0x6A) || (x =? 0x71) then MARK_X else BLANK) :: borders false n' r
      end
  end.

(** The initial '=' of a structure says nothing. *)
Definition word_borders (n : nat) (s : list Z) : list Z :=
  borders true n (match s with 0x3D :: r => r | _ => s end).

(** An analysis that gives no border. *)
Definition simple (n : nat) (a : analysis) : Prop :=
  forall s i, a STRUCTURE = Some s -> ~ is_break (word_borders n s) i.

(** The analyses that count: the first 31; if one of them is simple, only the
    simple ones. *)
Definition counts (n : nat) (l : list analysis) (a : analysis) : Prop :=
  In a (firstn 31 l) /\ ((exists b, In b (firstn 31 l) /\ simple n b) -> simple n a).

(** All structures of the analyses found for a word are well formed / fit. *)
Definition good_analyses (l : list analysis) : Prop :=
  Forall (fun a => exists s, a STRUCTURE = Some s /\ good_structure s) l.
Definition fitting_analyses (l : list analysis) (w : list Z) : Prop :=
  Forall (fun a => forall s, a STRUCTURE = Some s -> fits s w) l.

(** [result] is [word] with [sep] inserted before the characters at the
    positions in [cuts]. *)
Inductive inserted (sep : list Z) (cut : nat -> Prop) : nat -> list Z -> list Z -> Prop :=
| inserted_end : forall i, inserted sep cut i [] []
| inserted_cut : forall i c w r, cut i -> inserted sep cut (S i) w r -> inserted sep cut i (c :: w) (sep ++ c :: r)
| inserted_plain : forall i c w r, ~ cut i -> inserted sep cut (S i) w r -> inserted sep cut i (c :: w) (c :: r).

(** An analyser that knows the analysis [a] of the text [t] and nothing else. *)
Definition only_for (t : list Z) (a : analysis) : analyzer :=
  fun _ w => if zlist_eqb w t then [a] else [].

(** The effective minimum length (negative values of the option become huge). *)
Definition min_length (h : handle) : Z := if hyphMinLength h <? 0 then hyphMinLength h + 2 ^ 64 else hyphMinLength h.

(** Text with the separator inserted and, if allowed, context changes made: at
    '=' a character other than '-' is replaced by the separator. *)
Inductive hyphenated (sep : list Z) : list Z -> list Z -> list Z -> Prop :=
| hyphenated_end : hyphenated sep [] [] []
| hyphenated_plain : forall c p w r, hyphenated sep p w r -> hyphenated sep (0x20 :: p) (c :: w) (c :: r)
| hyphenated_break : forall c p w r, hyphenated sep p w r -> hyphenated sep (0x2D :: p) (c :: w) (sep ++ c :: r)
| hyphenated_hyphen : forall p w r, hyphenated sep p w r -> hyphenated sep (0x3D :: p) (0x2D :: w) (0x2D :: r)
| hyphenated_change : forall c p w r, c <> 0x2D -> hyphenated sep p w r -> hyphenated sep (0x3D :: p) (c :: w) (sep ++ r).

(** An analysis with the given structure. *)
Definition with_structure (s : list Z) : analysis := add no_attributes STRUCTURE s.
