(** Independent specification of integer arithmetic for C06-C10 and C50:
    mathematical integers, no machine representation. *)

From Coq Require Import ZArith List Bool.
From Verif Require Import CppInt ArithModel.
Import ListNotations.
Open Scope Z_scope.

(** Every value of [t] is a value of [u]. *)
Definition subrange (t u : ity) : bool := (tmin u <=? tmin t) && (tmax t <=? tmax u).

(** The promotion rule of the language: the first of int32, uint32, int64 that
    can represent every value of both operand types, otherwise uint64. *)
Definition lang_result_type (t1 t2 : ity) : ity :=
  let ok u := subrange t1 u && subrange t2 u in
  if ok I32 then I32 else if ok U32 then U32 else if ok I64 then I64 else U64.

(** The mathematical meaning of an operator: [/] truncates, [%] is its
    remainder, bitwise operators act on infinite two's complement, [<<]
    multiplies and [>>] divides (flooring) by a power of two. *)
Definition math (a : arith) (x y : Z) : Z :=
  match a with
  | Add => x + y
  | Sub => x - y
  | Mul => x * y
  | Div => Z.quot x y
  | Mod => Z.rem x y
  | BAnd => Z.land x y
  | BOr => Z.lor x y
  | BXor => Z.lxor x y
  | Shl => x * 2 ^ y
  | Shr => x / 2 ^ y
  end.

(** Ring and bitwise operators, the ones whose result modulo 2^n is determined
    by the operands modulo 2^n. *)
Definition modular (a : arith) : bool :=
  match a with Add | Sub | Mul | BAnd | BOr | BXor => true | _ => false end.

(** Truth of a comparison of mathematical integers. *)
Definition holds (c : cmpop) (x y : Z) : Prop :=
  match c with
  | Gt => x > y
  | Ge => x >= y
  | Lt => x < y
  | Le => x <= y
  | Eq => x = y
  | Ne => x <> y
  end.

(** One operand is uint32 and the other a signed type of at most 32 bits. *)
Definition u32_with_signed (t1 t2 : ity) : bool :=
  match t1, t2 with
  | U32, (I8 | I16 | I32) | (I8 | I16 | I32), U32 => true
  | _, _ => false
  end.

(** One operand is uint64 and the other a signed type. *)
Definition u64_with_signed (t1 t2 : ity) : bool :=
  match t1, t2 with
  | U64, t | t, U64 => is_signed t
  | _, _ => false
  end.

(** Mathematical meaning of the unary operators that have run-time commands. *)
Definition math_unary (o : unop) (x : Z) : Z :=
  match o with
  | Minus => - x
  | BNot => -1 - x
  | _ => x
  end.
