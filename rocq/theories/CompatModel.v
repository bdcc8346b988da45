(** * The deprecated interface with integer handles.

    Models [compatibility/interface.cpp].  An instance ([VoikkoHandle *]) is a
    value of a type [H]; what the functions of the new interface do to instances
    is recorded as a list of calls.  The functions that only pass their arguments
    to the new interface are modelled by [instance_of], the access to the table
    they all begin with.  The grammar checking functions, which copy a result,
    are not modelled. *)
From Verif Require Import Base.

(** line 43 *)
Definition MAX_HANDLES : nat := 5.

(** The loop of [convertVariantToBCP47], lines 54-59: [i] characters of [variant]
    have been processed. *)
Fixpoint convert_loop (language : list Z) (pos i : nat) (variant : list Z) : res (list Z * nat) :=
  match variant with
  | [] => Ok (language, pos)
  | c :: r =>
      '(language, pos) <- (if Nat.eqb (i mod 8) 0
                           then l <- wr language pos 0x2D ;; Ok (l, S pos)
                           else Ok (language, pos)) ;;
      language <- wr language pos c ;;
      convert_loop language (S pos) (S i) r
  end.

(** [convertVariantToBCP47], lines 49-62; [variant] is the string without its
    terminator, [garbage] the content of the new buffer (at least
    [2 * variantLen + 5] characters are given). *)
Definition convertVariantToBCP47 (garbage variant : list Z) : res (list Z) :=
  let language := firstn (2 * length variant + 5) garbage in
  language <- wr language 0 0x66 ;;
  language <- wr language 1 0x69 ;;
  language <- wr language 2 0x2D ;;
  language <- wr language 3 0x78 ;;
  language <- wr language 4 0 ;;
  '(language, pos) <- convert_loop language 4 0 variant ;;
  wr language pos 0.

Section Handles.
Variable H : Type.

(** [static VoikkoHandle ** handles], line 44: [None] is the null pointer. *)
Definition table : Type := option (list (option H)).

(** Calls of the new interface. *)
Inductive call : Type :=
| CallInit (language : list Z) (path : option (list Z))
| CallSetCacheSize (h : H) (size : Z)
| CallTerminate (h : H).

(** The loop of [findFreeSlotForHandle], lines 75-80: from index [i]; [None] is -1. *)
Fixpoint free_slot (handles : list (option H)) (fuel i : nat) : res (option nat) :=
  match fuel with
  | O => Ok None
  | S f => x <- rd handles i ;; match x with None => Ok (Some i) | Some _ => free_slot handles f (S i) end
  end.

(** [findFreeSlotForHandle], lines 68-81 *)
Definition findFreeSlotForHandle (t : table) : res (list (option H) * option nat) :=
  let handles := match t with None => repeat None MAX_HANDLES | Some l => l end in
  slot <- free_slot handles (MAX_HANDLES - 1) 1 ;;
  Ok (handles, slot).

(** The loop of [freeHandlesIfPossible], lines 87-91: is there no instance from
    index [i] on? *)
Fixpoint all_free (handles : list (option H)) (fuel i : nat) : res bool :=
  match fuel with
  | O => Ok true
  | S f => x <- rd handles i ;; match x with Some _ => Ok false | None => all_free handles f (S i) end
  end.

(** [freeHandlesIfPossible], lines 86-94 *)
Definition freeHandlesIfPossible (handles : list (option H)) : res table :=
  free <- all_free handles (MAX_HANDLES - 1) 1 ;;
  Ok (if free : bool then None else Some handles).

(** Result of [voikko_init_with_path]: the message ([None] for success) and the
    value written to [*handle] ([None] if nothing is written). *)
Record init_result : Type := mkInit { message : option (list Z); written : option nat; calls : list call }.

(** [voikko_init_with_path], lines 96-124; [outcome] is what [voikkoInit] gives:
    an instance or a message. *)
Definition voikko_init_with_path (outcome : H + list Z) (t : table) (garbage : list Z) (langcode : option (list Z)) (cache_size : Z) (path : option (list Z))
  : res (table * init_result) :=
  '(handles, slot) <- findFreeSlotForHandle t ;;
  match slot with
  | None => Ok (Some handles, mkInit (Some (wstr "Maximum handle count exceeded")) None [])
  | Some handleIndex =>
      match langcode with
      | None => Ok (Some handles, mkInit (Some (wstr "Null language code is not allowed")) None [])
      | Some langcode =>
          language <- (if zlist_eqb [] langcode || zlist_eqb (wstr "default") langcode || zlist_eqb (wstr "fi_FI") langcode
                       then Ok (wstr "fi")
                       else buf <- convertVariantToBCP47 garbage langcode ;; Ok (cstr buf)) ;;
          match outcome with
          | inl h =>
              handles <- wr handles handleIndex (Some h) ;;
              Ok (Some handles, mkInit None (Some handleIndex) [CallInit language path; CallSetCacheSize h cache_size])
          | inr error =>
              handles <- wr handles handleIndex None ;;
              Ok (Some handles, mkInit (Some error) (Some O) [CallInit language path])
          end
      end
  end.

(** [voikko_terminate], lines 130-139; reading through the null pointer is
    undefined. *)
Definition voikko_terminate (t : table) (handle : Z) : res (table * Z * list call) :=
  if (1 <=? handle) && (handle <? Z.of_nat MAX_HANDLES) then
    match t with
    | None => UB
    | Some handles =>
        x <- rd handles (Z.to_nat handle) ;;
        match x with
        | Some h =>
            handles <- wr handles (Z.to_nat handle) None ;;
            t <- freeHandlesIfPossible handles ;;
            Ok (t, 1, [CallTerminate h])
        | None => Ok (Some handles, 0, [])
        end
    end
  else Ok (t, 0, []).

(** [handles[handle]] in the other functions, e.g. line 166. *)
Definition instance_of (t : table) (handle : Z) : res (option H) :=
  match t with
  | None => UB
  | Some handles => if (0 <=? handle) then rd handles (Z.to_nat handle) else UB
  end.

(** [voikko_set_string_option], lines 153-163 *)
Definition voikko_set_string_option (opt : Z) (value : option (list Z)) : Z :=
  match value with
  | None => 0
  | Some v => if negb (opt =? 2) then 0 else if zlist_eqb v (wstr "UTF-8") then 1 else 0
  end.
End Handles.
