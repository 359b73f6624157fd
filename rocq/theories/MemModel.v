(** Model of the memory helpers: [quick_copy] and [quick_zero]
    (algorithm/algorithm.cpp 8-155, include/algorithm.h 383-620).

    Memory is a function from addresses to bytes.  An access of 1, 2, 4 or 8 bytes through
    an integer pointer reads all its bytes before it writes; that such an access may be
    unaligned (undefined in C++, fine on the target processors) is not modelled. *)

From Coq Require Import ZArith List Bool.
Import ListNotations.
Open Scope Z_scope.

Definition mem := Z -> Z.

(** One assignment of [n] bytes. *)
Definition move (n dst src : Z) (m : mem) : mem :=
  fun a => if (dst <=? a) && (a <? dst + n) then m (src + (a - dst)) else m a.

(** Assignments of the given widths, one after the other, upwards from [dst]. *)
Fixpoint upwards (cs : list Z) (dst src : Z) (m : mem) : mem :=
  match cs with
  | [] => m
  | c :: r => upwards r (dst + c) (src + c) (move c dst src m)
  end.

(** Assignments of the given widths downwards from the end addresses. *)
Fixpoint downwards (cs : list Z) (dst_end src_end : Z) (m : mem) : mem :=
  match cs with
  | [] => m
  | c :: r => downwards r (dst_end - c) (src_end - c) (move c (dst_end - c) (src_end - c) m)
  end.

(** The cases of [__quick_copy_t<_size, false>], include/algorithm.h 391-437: the widths of
    the assignments, in the order they are made upwards.  Sizes above 8 have no case in the
    [switch] of algorithm.cpp 10-27. *)
Definition pieces (n : Z) : list Z :=
  if n =? 1 then [1] else if n =? 2 then [2] else if n =? 3 then [2; 1] else
  if n =? 4 then [4] else if n =? 5 then [4; 1] else if n =? 6 then [4; 2] else
  if n =? 7 then [4; 2; 1] else if n =? 8 then [8] else [].

(** [__quick_copy], algorithm.cpp 8-28. *)
Definition quick_copy_small (dst src n : Z) (m : mem) : mem := upwards (pieces n) dst src m.

(** [__quick_copy_backward], algorithm.cpp 30-50, with the cases of [copy_backward],
    include/algorithm.h 439-491: the same assignments in the opposite order. *)
Definition quick_copy_small_backward (dst src n : Z) (m : mem) : mem :=
  downwards (rev (pieces n)) (dst + n) (src + n) m.

(** The loop of algorithm.cpp 83-87; [None] when the bound [k] is too small. *)
Fixpoint words_down (k : nat) (dst_end src_end size : Z) (m : mem) : option (mem * Z) :=
  if 8 <=? size then
    match k with
    | O => None
    | S k' => words_down k' (dst_end - 8) (src_end - 8) (size - 8) (move 8 (dst_end - 8) (src_end - 8) m)
    end
  else Some (m, size).

(** The loop of algorithm.cpp 110-114, with the final pointers. *)
Fixpoint words_up (k : nat) (dst src size : Z) (m : mem) : option (mem * Z * Z * Z) :=
  if 8 <=? size then
    match k with
    | O => None
    | S k' => words_up k' (dst + 8) (src + 8) (size - 8) (move 8 dst src m)
    end
  else Some (m, dst, src, size).

(** [quick_copy], algorithm.cpp 52-119. *)
Definition quick_copy (dst src size : Z) (m : mem) : option mem :=
  if (dst =? src) || (size =? 0) then Some m
  else if size <=? 8 then Some (quick_copy_small dst src size m)
  else if (src <? dst) && (dst <=? src + size) then
    let dst0 := dst + size in
    let src0 := src + size in
    let offset := src0 mod 8 in
    let '(m1, dst1, src1, size1) :=
      if 0 <? offset then
        let o := 8 - offset in
        (quick_copy_small_backward (dst0 - o) (src0 - o) o m, dst0 - o, src0 - o, size - o)
      else (m, dst0, src0, size) in
    match words_down (Z.to_nat size) dst1 src1 size1 m1 with
    | Some (m2, size2) => Some (quick_copy_small_backward dst src size2 m2)
    | None => None
    end
  else
    let offset := src mod 8 in
    let '(m1, dst1, src1, size1) :=
      if 0 <? offset then
        let o := 8 - offset in
        (quick_copy_small dst src o m, dst + o, src + o, size - o)
      else (m, dst, src, size) in
    match words_up (Z.to_nat size) dst1 src1 size1 m1 with
    | Some (m2, dst2, src2, size2) => Some (quick_copy_small dst2 src2 size2 m2)
    | None => None
    end.

(** [quick_copy<_size>], include/algorithm.h 493-528, forward; [k] bounds the instantiation depth. *)
Fixpoint quick_copy_t (k : nat) (n dst src : Z) (m : mem) : option mem :=
  if 8 <? n then
    match k with
    | O => None
    | S k' => quick_copy_t k' (n - 8) (dst + 8) (src + 8) (move 8 dst src m)
    end
  else Some (quick_copy_small dst src n m).

(** [quick_copy<_size, true>], include/algorithm.h 507-518 and 439-491. *)
Fixpoint quick_copy_backward_t (k : nat) (n dst src : Z) (m : mem) : option mem :=
  if 8 <? n then
    match k with
    | O => None
    | S k' => quick_copy_backward_t k' (n - 8) dst src (move 8 (dst + n - 1) (src + n - 1) m)
    end
  else Some (quick_copy_small_backward dst src n m).

(** One assignment of zero to [n] bytes. *)
Definition clear (n p : Z) (m : mem) : mem := fun a => if (p <=? a) && (a <? p + n) then 0 else m a.

Fixpoint clear_upwards (cs : list Z) (p : Z) (m : mem) : mem :=
  match cs with [] => m | c :: r => clear_upwards r (p + c) (clear c p m) end.

(** [quick_zero], algorithm.cpp 123-155, with the cases of include/algorithm.h 537-577. *)
Fixpoint quick_zero (k : nat) (p size : Z) (m : mem) : option mem :=
  if 8 <? size then
    match k with
    | O => None
    | S k' => quick_zero k' (p + 8) (size - 8) (clear 8 p m)
    end
  else Some (clear_upwards (pieces size) p m).
