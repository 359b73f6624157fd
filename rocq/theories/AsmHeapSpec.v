(** What may be stored in the resource heap and in the constants table, in terms of the
    strings, bytes and values themselves. *)

From Coq Require Import ZArith List.
From Verif Require Import AsmHeapModel.
Import ListNotations.
Open Scope Z_scope.

(** A Unicode scalar value other than NUL. *)
Definition text_char (c : Z) : Prop :=
  0 < c <= 1114111 /\ ~ (55296 <= c <= 57343).

Definition text (s : list Z) : Prop := Forall text_char s.

Definition byte (b : Z) : Prop := 0 <= b < 256.

(** Contents that can be asked of the heap. *)
Definition storable (o : hop) : Prop :=
  match o with
  | AString s => text s
  | ABlock b => Forall byte b /\ Z.of_nat (length b) < 268435456
  | ABytes b => Forall byte b
  end.

(** The position returned for [o] gives back what was stored, from the bytes [l] of the final
    heap.  A fixed-size entry is refused when it is the last thing in the heap. *)
Definition gives_back (l : list Z) (o : hop) (res : Z) : Prop :=
  match o with
  | AString s => read_string l res = OK s
  | ABlock b => read_block l res = OK b
  | ABytes b =>
      b <> [] ->
      (res + Z.of_nat (length b) = Z.of_nat (length l) /\ read_bytes l res (length b) = Throw)
      \/ (res + Z.of_nat (length b) < Z.of_nat (length l)
          /\ read_bytes l res (length b) = OK b)
  end.

(** Number of bits of each numeric type. *)
Definition bits (t : nty) : Z :=
  match t with
  | NI8 | NU8 | NBool => 8
  | NI16 | NU16 => 16
  | NI32 | NU32 | NF32 | NChar => 32
  | NI64 | NU64 | NF64 => 64
  end.

(** The integer that the bits of an integer, character or boolean constant stand for. *)
Definition int_value (t : nty) (raw : Z) : option Z :=
  match t with
  | NI8 | NI16 | NI32 | NI64 | NChar =>
      Some (if raw <? 2 ^ (bits t - 1) then raw else raw - 2 ^ bits t)
  | NU8 | NU16 | NU32 | NU64 | NBool => Some raw
  | NF32 | NF64 => None
  end.

(** A number within its type; a string as above; a type given by a 32-bit reference. *)
Definition const_ok (v : cval) : Prop :=
  match v with
  | CNum t raw => 0 <= raw < 2 ^ bits t
  | CStr s => text s
  | CNull => True
  | CType ref => 0 <= ref < 4294967296
  end.

Definition cop_ok (o : cop) : Prop :=
  match o with CommitConst v => const_ok v | Other o => storable o end.

(** The high word of a 64-bit number is neither small nor the complement of a small one, so
    that the number goes to the heap. *)
Definition goes_to_heap (raw : Z) : Prop :=
  65536 <= raw / 4294967296 < 4294901760.

(** The constants committed in a history. *)
Fixpoint consts (ops : list cop) : list cval :=
  match ops with
  | [] => []
  | CommitConst v :: r => v :: consts r
  | Other _ :: r => consts r
  end.

(** Every number that is not 64 bits wide, and those 64-bit ones whose encoding is exact. *)
Definition exact_number (v : cval) : Prop :=
  match v with
  | CNum t raw => In t [NI64; NU64; NF64] -> goes_to_heap raw \/ raw mod 65536 = 0
  | _ => True
  end.

Definition is_type (v : cval) : Prop := exists ref, v = CType ref.
Definition is_number (v : cval) : Prop := exists t raw, v = CNum t raw.

(** Reading the constant that a commit returned yields [w]. *)
Definition reads_as (rows : list crow) (l : list Z) (x : option nat) (w : cval) : Prop :=
  exists i c, x = Some i /\ nth_error rows i = Some c /\ read_const l c = OK w.

(** What the bits of a number stand for: a multiple of 2^-1074, the least positive [double]. *)
Inductive value := Number (multiple : Z) | Infinite (negative : bool) | NoNumber.

(** IEEE 754, with [fbits] bits of fraction and [ebits] of exponent; the least positive value is
    2^[shift] times that of [double]. *)
Definition float_value (fbits ebits shift raw : Z) : value :=
  let fraction := raw mod 2 ^ fbits in
  let exponent := (raw / 2 ^ fbits) mod 2 ^ ebits in
  let negative := 2 ^ (fbits + ebits) <=? raw in
  if exponent =? 2 ^ ebits - 1 then (if fraction =? 0 then Infinite negative else NoNumber)
  else
    let significand := if exponent =? 0 then fraction else 2 ^ fbits + fraction in
    Number ((if negative then - significand else significand) * 2 ^ (Z.max exponent 1 - 1 + shift)).

Definition real_value (t : nty) (raw : Z) : value :=
  match int_value t raw with
  | Some x => Number (x * 2 ^ 1074)
  | None =>
      match t with
      | NF32 => float_value 23 8 925 raw
      | _ => float_value 52 11 0 raw
      end
  end.

(** Equal texts; equal integers, of whatever types (when one of them is a [uint64_t], equal modulo
    2^64).  With a floating point number involved: equal real numbers, or one of them is not a
    number. *)
Definition same_value (w v : cval) : Prop :=
  match w, v with
  | CStr a, CStr b => a = b
  | CNum t a, CNum u b =>
      match int_value t a, int_value u b with
      | Some x, Some y => x = y \/ ((t = NU64 \/ u = NU64) /\ (x - y) mod 2 ^ 64 = 0)
      | _, _ => real_value t a = NoNumber \/ real_value u b = NoNumber \/ real_value t a = real_value u b
      end
  | _, _ => False
  end.

(** The answer to one commit, read from the final heap [l]: nothing for null; otherwise a constant
    [w] that some commit of the history asked for and that is the value asked for or one of the
    same value. *)
Definition comes_back (rows : list crow) (l : list Z) (all : list cval) (o : cop) (x : option nat)
  : Prop :=
  match o with
  | CommitConst CNull => x = None
  | CommitConst v =>
      exists w, reads_as rows l x w /\ In w all /\ (w = v \/ same_value w v)
  | Other _ => True
  end.

(** The same, without sharing between values that only compare equal. *)
Definition comes_back_exactly (rows : list crow) (l : list Z) (o : cop) (x : option nat) : Prop :=
  match o with
  | CommitConst CNull => x = None
  | CommitConst v => reads_as rows l x v
  | Other _ => True
  end.

(** Constants whose sharing does not depend on the rest of the history. *)
Definition shareable (ops : list cop) (v : cval) : Prop :=
  match v with
  | CStr _ => True
  | CNum t _ => int_value t 0 <> None /\ Forall (fun w => ~ is_type w) (consts ops)
  | _ => False
  end.
