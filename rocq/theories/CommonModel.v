(** include/common.h: alignment helpers, flag operations, flag listing, GUID parsing. *)

From Coq Require Import ZArith List Bool.
Import ListNotations.
From Verif Require Import CppInt.
Open Scope Z_scope.

(** *** Alignment; [size_t] has 64 bits *)

Definition size_not (z : Z) : Z := modulus U64 - 1 - z.

(** [_align], common.h 304-307: [size & ~(align_size - 1)]. *)
Definition align (size a : Z) : Z := Z.land size (size_not (wrap U64 (a - 1))).

(** [__is_aligned], common.h 310-313. *)
Definition is_aligned (size a : Z) : bool := Z.land size (wrap U64 (a - 1)) =? 0.

(** [_alignf], common.h 316-319: [(size + align_size - 1) & ~(align_size - 1)]. *)
Definition alignf (size a : Z) : Z :=
  Z.land (wrap U64 (size + a - 1)) (size_not (wrap U64 (a - 1))).

(** [_alignd], common.h 322-333: doubling until at least [align_size].  More than 64
    doublings leave 0, from where the loop never ends: [None]. *)
Fixpoint double_until (fuel : nat) (size a : Z) : option Z :=
  if size <? a
  then match fuel with O => None | S f => double_until f (wrap U64 (Z.shiftl size 1)) a end
  else Some size.
Definition alignd (size a : Z) : option Z :=
  double_until 64 (if size =? 0 then 1 else size) a.

(** *** Flags

    [t] is the underlying type of the enumeration; a value is an integer in range.
    The operators promote to [int] and the result is cast back, which changes
    nothing for [|], [&] and [^] of values in range. *)

(** [bit_or], common.h 1456-1470 (left fold from 0); the same for plain integers. *)
Definition bit_or (args : list Z) : Z := fold_left Z.lor args 0.
(** [bit_and] of an enumeration, common.h 1480-1489 (left fold from (underlying)-1). *)
Definition bit_and (t : ity) (args : list Z) : Z := fold_left Z.land args (wrap t (-1)).
(** [bit_and] of plain integers, common.h 1490-1493: the fold uses [^].  The result
    of the promoted computation is returned as it is. *)
Definition bit_and_int (t : ity) (args : list Z) : Z := fold_left Z.lxor args (wrap t (-1)).
(** [bit_xor], common.h 1497-1511. *)
Definition bit_xor (args : list Z) : Z := fold_left Z.lxor args 0.
(** [bit_not] of an enumeration, common.h 1514-1522: [~] of the promoted value, cast back. *)
Definition bit_not (t : ity) (v : Z) : Z := wrap t (Z.lnot v).

(** [bit_add_flag] 1473-1477 and [bit_remove_flag] 1528-1533: the new value. *)
Definition bit_add_flag (v : Z) (fs : list Z) : Z := bit_or (v :: fs).
Definition bit_remove_flag (t : ity) (v : Z) (fs : list Z) : Z :=
  bit_and t (v :: map (bit_not t) fs).
(** [bit_has_flag] 1536-1540. *)
Definition bit_has_flag (t : ity) (v : Z) (fs : list Z) : bool :=
  negb (bit_and t [v; bit_xor fs] =? 0).
(** [bit_match_flag] 1543-1547. *)
Definition bit_match_flag (t : ity) (v f : Z) : bool := bit_and t [v; f] =? f.

(** [enum_t]: add 2606-2609, remove 2600-2603, has 2580-2583, has_only 2586-2597. *)
Definition enum_add (v : Z) (f : Z) (fs : list Z) : Z := bit_or (v :: f :: fs).
Definition enum_remove (t : ity) (v : Z) (f : Z) (fs : list Z) : Z :=
  bit_remove_flag t v [bit_or (f :: fs)].
Definition enum_has (t : ity) (v : Z) (f : Z) (fs : list Z) : bool :=
  bit_has_flag t v [bit_or (f :: fs)].
Definition enum_has_only (t : ity) (v : Z) (f : Z) (fs : list Z) : bool :=
  negb (v =? 0) && (Z.land v (Z.lnot (bit_or (f :: fs))) =? 0).

(** [__enum_flags_t], common.h 2632-2664: the flags named in the string, in order.
    The value is taken as a signed integer of the enumeration's size; [v - 1] of the
    least [int] or [int64_t] is undefined.  [v & (v - 1)] clears the lowest bit. *)
Fixpoint flags_from (fuel : nat) (t : ity) (v : Z) : option (list Z) :=
  if v =? 0 then Some []
  else match fuel with
       | O => None
       | S f =>
         match fit (promote t) (v - 1) with
         | UB => None
         | Val w =>
           let v0 := wrap t (Z.land v w) in
           match flags_from f t v0 with
           | None => None
           | Some r => Some (wrap t (v - v0) :: r)
           end
         end
       end.
Definition enum_flags (t : ity) (v : Z) : option (list Z) := flags_from 64 t v.

(** *** GUIDs *)

(** [__digit_value], common.h 2738-2750. *)
Definition digit_value (c : Z) : Z :=
  if (c <=? 57) && (48 <=? c) then c - 48
  else if (c <=? 70) && (65 <=? c) then c - 65 + 10
  else if (c <=? 102) && (97 <=? c) then c - 97 + 10
  else -1.

Inductive guid_res := GOk (bytes : list Z) | GFormat | GUndef.

(** A character of the string [s], which is followed by a terminating zero; [None] is
    a read past the zero. *)
Definition char_at (s : list Z) (i : nat) : option Z := nth_error (s ++ [0]) i.

(** The loop of guid_t::parse, common.h 2793-2817.  [bytes] are the bytes written so
    far; writing a 17th is undefined. *)
Fixpoint guid_loop (fuel : nat) (s : list Z) (i : nat) (bytes : list Z) : guid_res :=
  if (36 <=? i)%nat then GOk bytes
  else match fuel with
  | O => GUndef
  | S f =>
    match char_at s i with
    | None => GUndef
    | Some c =>
      if c =? 45 then
        if negb ((i =? 8) || (i =? 13) || (i =? 18) || (i =? 23))%nat then GFormat
        else guid_loop f s (i + 1) bytes
      else
        match char_at s (i + 1) with
        | None => GUndef
        | Some c' =>
          let d1 := digit_value c in let d2 := digit_value c' in
          if (d1 <? 0) || (d2 <? 0) then GFormat
          else if (16 <=? length bytes)%nat then GUndef
          else guid_loop f s (i + 2) (bytes ++ [wrap U8 (Z.lor (Z.shiftl d1 4) d2)])
        end
    end
  end.

(** guid_t::parse of a non-null string.  The loop runs at most 36 times. *)
Definition guid_parse (s : list Z) : guid_res := guid_loop 36 s 0 [].
