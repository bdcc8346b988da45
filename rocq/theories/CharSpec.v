(** * Independent specification of letter case, character classes, equivalent
    spellings and non-words, used by the theorems in [CharProps]. *)
From Verif Require Import Base.

(** Pairs (capital, small) of letters of the alphabets the library supports:
    Basic Latin, Latin-1, Latin Extended-A/B (alternating capital/small code
    points), EZH, and Cyrillic. *)
Definition alternating_from (lo hi : Z) (u l : Z) : Prop :=
  lo <= u <= hi /\ Z.Even (u - lo) /\ l = u + 1.
Definition shifted (lo hi d : Z) (u l : Z) : Prop := lo <= u <= hi /\ l = u + d.

Definition case_pair (u l : Z) : Prop :=
  shifted 65 90 32 u l \/                      (* A-Z *)
  (shifted 192 222 32 u l /\ u <> 215) \/      (* Latin-1 without the multiplication sign *)
  alternating_from 256 310 u l \/ alternating_from 313 327 u l \/
  alternating_from 330 374 u l \/ alternating_from 377 381 u l \/
  (u = 439 /\ l = 658) \/                      (* EZH *)
  alternating_from 478 494 u l \/ alternating_from 504 542 u l \/
  shifted 1024 1039 80 u l \/ shifted 1040 1071 32 u l \/
  alternating_from 1120 1152 u l \/ alternating_from 1162 1318 u l.

Definition capital (c : Z) : Prop := exists l, case_pair c l.
Definition small (c : Z) : Prop := exists u, case_pair u c.

(** LATIN CAPITAL LETTER SCHWA: the library regards it as a capital letter
    without a small counterpart. *)
Definition SCHWA : Z := 399.

(** Case shape of a word. *)
Definition no_cased (w : list Z) : Prop := Forall (fun c => ~ capital c /\ c <> SCHWA /\ ~ small c) w.
Definition no_small (w : list Z) : Prop := Forall (fun c => ~ small c) w.
Definition no_capital (w : list Z) : Prop := Forall (fun c => ~ capital c /\ c <> SCHWA) w.

(** One rewriting unit of an equivalent spelling: a character sequence and its
    standard form. *)
Inductive unit_of : list Z -> list Z -> Prop :=
| unit_apostrophe : unit_of [0x2019] [0x27]
| unit_hyphen : unit_of [0x2010] [0x2D]
| unit_nb_hyphen : unit_of [0x2011] [0x2D]
| unit_celsius : unit_of [0x2103] [0xB0; 0x43]
| unit_fahrenheit : unit_of [0x2109] [0xB0; 0x46]
| unit_ff : unit_of [0xFB00] [0x66; 0x66]
| unit_fi : unit_of [0xFB01] [0x66; 0x69]
| unit_fl : unit_of [0xFB02] [0x66; 0x6C]
| unit_ffi : unit_of [0xFB03] [0x66; 0x66; 0x69]
| unit_ffl : unit_of [0xFB04] [0x66; 0x66; 0x6C].

(** Canonical composition (Unicode) of the accented letters the library
    handles, organised by combining mark: base letter and composed letter. *)
Definition composed_with (mark : Z) : list (Z * Z) :=
  match mark with
  | 0x300 => (* grave *)
      [ (65, 192); (69, 200); (73, 204); (79, 210); (85, 217); (97, 224); (101, 232); (105, 236); (111, 242); (117, 249); (1045, 1024); (1077, 1104) ]
  | 0x301 => (* acute *)
      [ (65, 193); (69, 201); (73, 205); (79, 211); (85, 218); (89, 221); (97, 225); (101, 233); (105, 237); (111, 243); (117, 250); (121, 253); (1043, 1027); (1075, 1107) ]
  | 0x302 => (* circumflex *)
      [ (65, 194); (69, 202); (73, 206); (79, 212); (85, 219); (97, 226); (101, 234); (105, 238); (111, 244); (117, 251) ]
  | 0x303 => (* tilde *)
      [ (65, 195); (78, 209); (79, 213); (97, 227); (110, 241); (111, 245) ]
  | 0x306 => (* breve *)
      [ (1048, 1049); (1080, 1081) ]
  | 0x308 => (* diaeresis *)
      [ (65, 196); (69, 203); (73, 207); (79, 214); (85, 220); (97, 228); (101, 235); (105, 239); (111, 246); (117, 252); (121, 255); (1045, 1025); (1077, 1105); (1054, 1254); (1086, 1255) ]
  | 0x30a => (* ring *)
      [ (65, 197); (97, 229) ]
  | 0x30c => (* caron *)
      [ (83, 352); (115, 353); (90, 381); (122, 382) ]
  | 0x327 => (* cedilla *)
      [ (67, 199); (99, 231) ]
  | _ => []
  end.
Definition composes (base mark composed : Z) : Prop := In (base, composed) (composed_with mark).

(** Combining marks that take part in a composition. *)
Definition combining (c : Z) : Prop := composed_with c <> [].

(** A character that starts with a replacement of its own. *)
Definition has_unit (c : Z) : Prop := exists l, unit_of [c] l.
(** Units whose replacement ends in a letter (ligatures and degree signs). *)
Definition ends_in_letter (c : Z) : Prop := c = 0x2103 \/ c = 0x2109 \/ 0xFB00 <= c <= 0xFB04.

(** A word in which nothing is replaceable. *)
Definition plain (w : list Z) : Prop :=
  (forall c, In c w -> ~ has_unit c) /\
  (forall a b u v x, w = a ++ u :: v :: b -> ~ composes u v x).

(** Two spellings of the same text that differ in one place. *)
Inductive respelled : list Z -> list Z -> Prop :=
| respell_accent : forall a b base mark x, composes base mark x ->
    respelled (a ++ base :: mark :: b) (a ++ x :: b)
| respell_unit : forall a b c l, unit_of [c] l ->
    (ends_in_letter c -> forall m b', b = m :: b' -> ~ combining m) ->
    respelled (a ++ c :: b) (a ++ l ++ b).

(** Non-words: URL-like, e-mail-like and www-addresses. *)
Definition url_like (w : list Z) : Prop :=
  exists a b c, w = a ++ [0x2F; 0x2F] ++ b ++ [0x2E] ++ c /\ ~ In 0x2F a /\ c <> [].
Definition email_like (w : list Z) : Prop :=
  exists a x b c, w = a ++ [0x40] ++ (x :: b) ++ [0x2E] ++ c /\ ~ In 0x40 a /\ x <> 0x2E /\ c <> [].
Definition www_like (w : list Z) : Prop :=
  exists x b c, w = wstr "www." ++ (x :: b) ++ [0x2E] ++ c /\ x <> 0x2E /\ (7 <= length w)%nat.
