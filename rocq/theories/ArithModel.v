(** Model of april's numeric operators: the result-type tables, the operator
    templates that compute a value, the compile-time constant folder and the
    run-time command selection.

    Modelled files: modules/core/__vtype_traits.h, modules/core/expression_executor.cpp,
    modules/exec/commands.cpp.
    Not modelled: [float]/[double] operands, [char] operands, object and pointer
    comparison, string concatenation. *)

From Coq Require Import ZArith Lia List Bool.
From Verif Require Import CppInt.
Import ListNotations.
Open Scope Z_scope.

(** Arithmetic and bitwise operators, __vtype_traits.h 210-214, 229-233. *)
Inductive arith := Add | Sub | Mul | Div | Mod | BAnd | BOr | BXor | Shl | Shr.

(** Comparison operators, __vtype_traits.h 222-227. *)
Inductive cmpop := Gt | Ge | Lt | Le | Eq | Ne.

(** Binary [operator_t] values of __vtype_traits.h 54-83 that act on numbers:
    plain arithmetic, the [x_assign] variants, comparisons and logic. *)
Inductive binop :=
| Al (a : arith)
| Asg (a : arith)
| Cmp (c : cmpop)
| LAnd
| LOr.

(** Unary operators, __vtype_traits.h 86-94. *)
Inductive unop := Positive | Minus | BNot | LNot | LInc | RInc | LDec | RDec.

(** [vtype_t] restricted to the integer types and bool. *)
Inductive vty := Vi (t : ity) | Vb.

Definition vty_eqb (a b : vty) : bool :=
  match a, b with
  | Vi x, Vi y => ity_eqb x y
  | Vb, Vb => true
  | _, _ => false
  end.

(** A typed number, [tvalue_t] (include/common.h 679-740): type tag and value;
    a bool is 0 or 1. *)
Definition tval : Type := vty * Z.

(** Static cast of a number to a type (C++ [(vnum_t)x]); to bool: "!= 0". *)
Definition vcast (t : vty) (z : Z) : Z :=
  match t with
  | Vi t => wrap t z
  | Vb => if z =? 0 then 0 else 1
  end.

(** *** The C++ operators on already typed operands *)

(** Type of [v1 op v2] in C++: shifts have the promoted left type, the others
    the common type. *)
Definition cpp_arith_type (a : arith) (t1 t2 : ity) : ity :=
  match a with
  | Shl | Shr => promote t1
  | _ => common t1 t2
  end.

(** Value of [v1 op v2] in C++17, for the operator bodies of
    __vtype_traits.h 199-233.  Both operands are converted to the common type
    first; signed overflow, division by zero, an overflowing quotient, an
    out-of-range shift count and a left shift of a negative number are UB. *)
Definition cpp_arith (a : arith) (t1 t2 : ity) (v1 v2 : Z) : res Z :=
  let t := cpp_arith_type a t1 t2 in
  let x := wrap t v1 in
  let y := wrap t v2 in
  match a with
  | Add => fit t (x + y)
  | Sub => fit t (x - y)
  | Mul => fit t (x * y)
  | Div => if y =? 0 then UB else fit t (Z.quot x y)
  | Mod =>
      if y =? 0 then UB
      else if in_rangeb t (Z.quot x y) then Val (Z.rem x y) else UB
  | BAnd => Val (Z.land x y)
  | BOr => Val (Z.lor x y)
  | BXor => Val (Z.lxor x y)
  | Shl =>
      if (v2 <? 0) || (bits t <=? v2) then UB
      else if x <? 0 then UB
      else if is_signed t then
        (* C++14/17: allowed when x*2^y fits the unsigned counterpart *)
        (if x * 2 ^ v2 <? modulus t then Val (wrap t (x * 2 ^ v2)) else UB)
      else Val (wrap t (x * 2 ^ v2))
  | Shr =>
      if (v2 <? 0) || (bits t <=? v2) then UB else Val (x / 2 ^ v2)
  end.

(** [v1 op= v2] used as a value, __vtype_traits.h 216-220, 235-239: [v1] is a
    by-value parameter of type [t1], so the result is converted back to [t1]. *)
Definition cpp_arith_assign (a : arith) (t1 t2 : ity) (v1 v2 : Z) : res Z :=
  bind (cpp_arith a t1 t2 v1 v2) (fun z => Val (wrap t1 z)).

(** [v1 cmp v2] in C++, __vtype_traits.h 222-227: operands converted to the
    common type. *)
Definition cpp_cmp (c : cmpop) (t1 t2 : ity) (v1 v2 : Z) : bool :=
  let t := common t1 t2 in
  let x := wrap t v1 in
  let y := wrap t v2 in
  match c with
  | Gt => y <? x
  | Ge => y <=? x
  | Lt => x <? y
  | Le => x <=? y
  | Eq => x =? y
  | Ne => negb (x =? y)
  end.

Definition b2z (b : bool) : Z := if b then 1 else 0.

(** *** Result type tables *)

(** One row of the table macro: [B1] one order, [B2] both orders
    (__vtype_traits.h 438-446). *)
Inductive row := B1 (r t1 t2 : ity) | B2 (r t1 t2 : ity).

(** [__IntOps], __vtype_traits.h 451-494, row by row. *)
Definition int_ops : list row :=
  [ B1 I32 I8 I8;
    B2 I32 I8 U8;
    B1 I32 U8 U8;
    B2 I32 I16 I8;
    B2 I32 I16 U8;
    B1 I32 I16 I16;
    B2 I32 I16 U16;
    B2 I32 U16 I8;
    B2 I32 U16 U8;
    B1 I32 U16 U16;
    B2 I32 I32 I8;
    B2 I32 I32 U8;
    B2 I32 I32 I16;
    B2 I32 I32 U16;
    B1 I32 I32 I32;
    B2 I64 U32 I8;
    B2 U32 U32 U8;
    B2 I64 U32 I16;
    B2 U32 U32 U16;
    B2 I64 U32 I32;
    B1 U32 U32 U32;
    B2 I64 I64 I8;
    B2 I64 I64 U8;
    B2 I64 I64 I16;
    B2 I64 I64 U16;
    B2 I64 I64 I32;
    B2 I64 I64 U32;
    B1 I64 I64 I64;
    B2 U64 U64 I8;
    B2 U64 U64 U8;
    B2 U64 U64 I16;
    B2 U64 U64 U16;
    B2 U64 U64 I32;
    B2 U64 U64 U32;
    B2 U64 U64 I64;
    B1 U64 U64 U64 ].

(** Lookup of the template specialisation for an ordered pair of types. *)
Fixpoint find_row (rows : list row) (a b : ity) : option ity :=
  match rows with
  | [] => None
  | B1 r x y :: rest =>
      if ity_eqb x a && ity_eqb y b then Some r else find_row rest a b
  | B2 r x y :: rest =>
      if ity_eqb x a && ity_eqb y b then Some r
      else if ity_eqb y a && ity_eqb x b then Some r
      else find_row rest a b
  end.

(** [X_DEFINE_BINARY_OPS] (__vtype_traits.h 561-636) restricted to integers and
    bool, and [get_binary_vtype] (644-676); [None] is [vtype_t::__unknown__]. *)
Definition get_binary_vtype (o : binop) (t1 t2 : vty) : option vty :=
  match o, t1, t2 with
  | Al _, Vi a, Vi b => option_map Vi (find_row int_ops a b)
  | Asg _, Vi a, Vi b => option_map (fun _ => Vi a) (find_row int_ops a b)
  | Cmp _, Vi a, Vi b => option_map (fun _ => Vb) (find_row int_ops a b)
  | Cmp Eq, Vb, Vb | Cmp Ne, Vb, Vb => Some Vb
  | LAnd, Vb, Vb | LOr, Vb, Vb => Some Vb
  | _, _, _ => None
  end.

(** [binary_operator_t<op,t1,t2>::operator()], __vtype_traits.h 379-414:
    the C++ operator followed by a cast to the table type; the primary template
    (403-414) returns [int] 0 for a pair not in the table. *)
Definition binary_operator (o : binop) (x y : tval) : res tval :=
  let (t1, v1) := x in
  let (t2, v2) := y in
  match get_binary_vtype o t1 t2 with
  | None => Val (Vi I32, 0)
  | Some r =>
      match o, t1, t2 with
      | Al a, Vi i, Vi j =>
          bind (cpp_arith a i j v1 v2) (fun z => Val (r, vcast r z))
      | Asg a, Vi i, Vi j =>
          bind (cpp_arith_assign a i j v1 v2) (fun z => Val (r, vcast r z))
      | Cmp c, Vi i, Vi j => Val (r, vcast r (b2z (cpp_cmp c i j v1 v2)))
      | Cmp c, Vb, Vb => Val (r, vcast r (b2z (cpp_cmp c I32 I32 v1 v2)))
      | LAnd, Vb, Vb => Val (r, b2z (negb (v1 =? 0) && negb (v2 =? 0)))
      | LOr, Vb, Vb => Val (r, b2z (negb (v1 =? 0) || negb (v2 =? 0)))
      | _, _, _ => Val (Vi I32, 0)
      end
  end.

(** [X_DEFINE_UNITARY_OPS], __vtype_traits.h 306-344, integer and bool rows, and
    [get_unitary_vtype] (352-370). *)
Definition get_unitary_vtype (o : unop) (t : vty) : option vty :=
  match o, t with
  | Positive, Vi I8 | Positive, Vi U8 | Positive, Vi I16 | Positive, Vi U16
  | Positive, Vi I32 => Some (Vi I32)
  | Positive, Vi U32 => Some (Vi U32)
  | Positive, Vi I64 => Some (Vi I64)
  | Positive, Vi U64 => Some (Vi U64)
  | Minus, Vi I8 | Minus, Vi U8 | Minus, Vi I16 | Minus, Vi U16
  | Minus, Vi I32 => Some (Vi I32)
  | Minus, Vi U32 => Some (Vi I64)
  | Minus, Vi I64 => Some (Vi I64)
  | BNot, Vi I8 | BNot, Vi U8 | BNot, Vi I16 | BNot, Vi U16
  | BNot, Vi I32 => Some (Vi I32)
  | BNot, Vi U32 => Some (Vi U32)
  | BNot, Vi I64 => Some (Vi I64)
  | BNot, Vi U64 => Some (Vi U64)
  | LNot, Vb => Some Vb
  | LInc, Vi t | RInc, Vi t | LDec, Vi t | RDec, Vi t => Some (Vi t)
  | _, _ => None
  end.

(** Value of the C++ unary operators, __vtype_traits.h 155-185, on a by-value
    parameter of type [t].  [++v]/[--v] convert back to [t] (narrow types) or
    overflow (UB for signed types of at least int's width). *)
Definition cpp_unary (o : unop) (t : ity) (v : Z) : res Z :=
  match o with
  | Positive => Val (wrap (promote t) v)
  | Minus => fit (promote t) (- wrap (promote t) v)
  | BNot => Val (wrap (promote t) (-1 - wrap (promote t) v))
  | LNot => Val (b2z (v =? 0))
  | LInc => bind (fit (promote t) (wrap (promote t) v + 1)) (fun z => Val (wrap t z))
  | LDec => bind (fit (promote t) (wrap (promote t) v - 1)) (fun z => Val (wrap t z))
  | RInc =>
      (* the old value is returned, but the increment still happens *)
      bind (fit (promote t) (wrap (promote t) v + 1)) (fun _ => Val v)
  | RDec => bind (fit (promote t) (wrap (promote t) v - 1)) (fun _ => Val v)
  end.

(** [unitary_operator_t<op,t>::operator()], __vtype_traits.h 250-288; the
    primary template (272-282) returns [int] 0. *)
Definition unitary_operator (o : unop) (x : tval) : res tval :=
  let (t, v) := x in
  match get_unitary_vtype o t with
  | None => Val (Vi I32, 0)
  | Some r =>
      match t with
      | Vi i => bind (cpp_unary o i v) (fun z => Val (r, vcast r z))
      | Vb => Val (r, b2z (v =? 0))
      end
  end.

(** *** The compile-time folder *)

(** Outcome of [expression_t::execute()] on constant operands: a constant, "not
    a constant" ([cvalue_t::nan], the expression is then compiled as run-time
    code), a compile error (thrown exception), or undefined behaviour inside
    the compiler. *)
Inductive folded := Const (v : tval) | NotConst | CompileError | CompilerUB.

Definition of_res (r : res tval) : folded :=
  match r with Val v => Const v | UB => CompilerUB end.

(** Pairs dispatched by the [default_] region, expression_executor.cpp 450-504.
    The table is transcribed separately from [int_ops]: [true] is a [__C2] row. *)
Definition fold_pairs : list (bool * ity * ity) :=
  [ (false, I8, I8); (true, I8, U8);
    (false, U8, U8);
    (true, I16, I8); (true, I16, U8); (false, I16, I16); (true, I16, U16);
    (true, U16, I8); (true, U16, U8); (false, U16, U16);
    (true, I32, I8); (true, I32, U8); (true, I32, I16); (true, I32, U16);
    (false, I32, I32);
    (true, U32, I8); (true, U32, U8); (true, U32, I16); (true, U32, U16);
    (true, U32, I32); (false, U32, U32);
    (true, I64, I8); (true, I64, U8); (true, I64, I16); (true, I64, U16);
    (true, I64, I32); (true, I64, U32); (false, I64, I64);
    (true, U64, I8); (true, U64, U8); (true, U64, I16); (true, U64, U16);
    (true, U64, I32); (true, U64, U32); (true, U64, I64); (false, U64, U64) ].

Fixpoint in_pairs (l : list (bool * ity * ity)) (a b : ity) : bool :=
  match l with
  | [] => false
  | (both, x, y) :: rest =>
      (ity_eqb x a && ity_eqb y b) || (both && ity_eqb y a && ity_eqb x b)
      || in_pairs rest a b
  end.

(** Region flags (expression_executor.cpp 36-49) restricted to the operand
    types modelled here. *)
Definition region_default (x y : vty) : bool :=
  match x, y with Vi a, Vi b => in_pairs fold_pairs a b | _, _ => false end.
Definition region_bool (x y : vty) : bool :=
  match x, y with Vb, Vb => true | _, _ => false end.

(** [binary_expression_t::execute()], expression_executor.cpp 540-647: which
    regions are tried for which operator.  Shift operators and their assignment
    forms are not in the switch (default: nan). *)
Definition fold_binary (o : binop) (x y : tval) : folded :=
  let go ok := if ok : bool then of_res (binary_operator o x y) else CompileError in
  let d := region_default (fst x) (fst y) in
  let b := region_bool (fst x) (fst y) in
  match o with
  | Al Shl | Al Shr | Asg Shl | Asg Shr => NotConst
  | Al _ => go d
  | Asg _ => go d
  | Cmp Eq => go (d || b)
  | Cmp _ => go d
  | LAnd | LOr => go b
  end.

(** [unitary_expression_t::execute()], expression_executor.cpp 208-250.  Note
    232-236: [left_decrement] runs the [right_increment] operator and
    [right_increment] runs [left_decrement]. *)
Definition fold_unary (o : unop) (x : tval) : folded :=
  let isint := match fst x with Vi _ => true | Vb => false end in
  let go o' ok := if ok : bool then of_res (unitary_operator o' x) else CompileError in
  match o with
  | Minus => go Minus isint
  | Positive => go Positive isint
  | LInc => go LInc isint
  | LDec => go RInc isint
  | RInc => go LDec isint
  | RDec => go RDec isint
  | BNot => go BNot isint
  | LNot => go LNot (negb isint)
  end.

(** *** Run-time commands *)

(** [__CaseBinaries], commands.cpp 4852-4895: the command table, transcribed
    separately. *)
Definition case_binaries : list (bool * ity * ity) :=
  [ (false, I8, I8); (true, I8, U8);
    (false, U8, U8);
    (true, I16, I8); (true, I16, U8); (false, I16, I16); (true, I16, U16);
    (true, U16, I8); (true, U16, U8); (false, U16, U16);
    (true, I32, I8); (true, I32, U8); (true, I32, I16); (true, I32, U16);
    (false, I32, I32);
    (true, U32, I8); (true, U32, U8); (true, U32, I16); (true, U32, U16);
    (true, U32, I32); (false, U32, U32);
    (true, I64, I8); (true, I64, U8); (true, I64, I16); (true, I64, U16);
    (true, I64, I32); (true, I64, U32); (false, I64, I64);
    (true, U64, I8); (true, U64, U8); (true, U64, I16); (true, U64, U16);
    (true, U64, I32); (true, U64, U32); (true, U64, I64); (false, U64, U64) ].

(** Result of executing one run-time operator command: a pushed value, undefined
    behaviour, or no such command ([X_UNEXPECTED], commands.cpp 5175-5177,
    5226-5227). *)
Inductive vmres := VmVal (v : tval) | VmUB | VmNoCommand.

Definition vm_of (r : res tval) : vmres :=
  match r with Val v => VmVal v | UB => VmUB end.

(** [__binary_command_t::execute], commands.cpp 4937-4971, together with the
    command tables 4973-5035 and 5133-5231, 5240-.  The [x_assign] operators
    are compiled to the plain command followed by a store
    (modules/compile/expression.cpp 1352-1439), so there is no command for them. *)
Definition vm_binary (o : binop) (x y : tval) : vmres :=
  match o, fst x, fst y with
  | Al _, Vi a, Vi b | Cmp _, Vi a, Vi b =>
      if in_pairs case_binaries a b then vm_of (binary_operator o x y) else VmNoCommand
  | Cmp Eq, Vb, Vb | Cmp Ne, Vb, Vb | LAnd, Vb, Vb | LOr, Vb, Vb =>
      vm_of (binary_operator o x y)
  | _, _, _ => VmNoCommand
  end.

(** [__unitary_command_t::execute], commands.cpp 5059-5103: commands exist for
    minus, positive and bit_not on all eight integer types and for logic not. *)
Definition vm_unary (o : unop) (x : tval) : vmres :=
  match o, fst x with
  | Minus, Vi _ | Positive, Vi _ | BNot, Vi _ => vm_of (unitary_operator o x)
  | LNot, Vb => vm_of (unitary_operator o x)
  | _, _ => VmNoCommand
  end.

(** *** Typed constant comparison *)

(** [tvalue_t::operator == < <= != > >=] via [__compare_tvalue],
    common/common.cpp 64-131, on integer tags: same type: compare directly;
    one operand [uint64]: C++ comparison of [uint64_t] with [int64_t]; otherwise
    both read as [int64_t].  [get_value<T>] is a static_cast. *)
Definition compare_tvalue (c : cmpop) (t1 t2 : ity) (v1 v2 : Z) : bool :=
  if ity_eqb t1 t2 then cpp_cmp c t1 t1 v1 v2
  else if ity_eqb t1 U64 then cpp_cmp c U64 I64 (wrap U64 v1) (wrap I64 v2)
  else if ity_eqb t2 U64 then cpp_cmp c I64 U64 (wrap I64 v1) (wrap U64 v2)
  else cpp_cmp c I64 I64 (wrap I64 v1) (wrap I64 v2).
