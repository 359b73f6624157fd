(** Calls of functions of the runtime from the system library, the console and the
    integer functions of Math.
    include/modules/rtlib.h 25-104; modules/rtlib/rtlib.cpp 9-110, system.cpp,
    array.cpp 10-62, 150-205, math.cpp, reflection.cpp; modules/exec/commands.cpp
    560-600, 3915-4022; modules/compile/expression.cpp 2653-2692;
    core_lib/System/Internal.cs, Console.cs, Math.cs, +types.cs. *)
From Coq Require Import String Ascii.
From Coq Require Import List Bool ZArith Lia.
From Verif Require Import CppInt ArithModel.
Import ListNotations.
Open Scope Z_scope.

(* Characters are their codes. *)
Definition str : Type := list Z.

(* ------------------------------------------------------------------ *)
(** * Types and units of the stack *)

(* The types of the parameters and results of internal functions; [LRef]: objects,
   arrays, types and pointers. *)
Inductive lty : Type := LVoid | LInt (t : ity) | LChar | LSingle | LDouble | LString | LRef.

(* get_vtype_size, include/modules/core.h 2062-2095. *)
Definition vtype_size (t : lty) : Z :=
  match t with
  | LVoid => 0
  | LInt I8 | LInt U8 => 1
  | LInt I16 | LInt U16 => 2
  | LInt I32 | LInt U32 | LSingle | LChar => 4
  | LInt I64 | LInt U64 | LDouble => 8
  | LString | LRef => 8
  end.

(* __unit_size_of, commands.cpp 589-597, with units of 8 bytes. *)
Definition unit_size (t : lty) : nat := Z.to_nat ((vtype_size t + 7) / 8).

(* ------------------------------------------------------------------ *)
(** * The functions of the runtime *)

Inductive mfun : Type :=
| Sqrt | Sin | Cos | Tan | Sinh | Cosh | Tanh | Asin | Acos | Atan | Asinh | Acosh | Atanh | Log | Log10.

Inductive ckind : Type := KString | KChar | KInt (t : ity) | KFloat | KDouble.

Inductive libfunc : Type :=
| console_write (k : ckind)
| console_write_line (k : ckind)
| array_get_rank | array_get_length | array_get_length_of_dimension
| tuple_set_range | tuple_get | tuple_get_count
| reflection_get_type | reflection_get_type_name
| math (m : mfun) | math_pow.

(* __append_libfuncs, rtlib.cpp 42-104. *)
Definition libfuncs : list (string * libfunc) :=
  [("Console_WriteString", console_write KString);
   ("Console_WriteChar", console_write KChar);
   ("Console_WriteInt8", console_write (KInt I8));
   ("Console_WriteUInt8", console_write (KInt U8));
   ("Console_WriteInt16", console_write (KInt I16));
   ("Console_WriteUInt16", console_write (KInt U16));
   ("Console_WriteInt32", console_write (KInt I32));
   ("Console_WriteUInt32", console_write (KInt U32));
   ("Console_WriteInt64", console_write (KInt I64));
   ("Console_WriteUInt64", console_write (KInt U64));
   ("Console_WriteSingle", console_write KFloat);
   ("Console_WriteDouble", console_write KDouble);
   ("Console_WriteStringLine", console_write_line KString);
   ("Console_WriteCharLine", console_write_line KChar);
   ("Console_WriteInt8Line", console_write_line (KInt I8));
   ("Console_WriteUInt8Line", console_write_line (KInt U8));
   ("Console_WriteInt16Line", console_write_line (KInt I16));
   ("Console_WriteUInt16Line", console_write_line (KInt U16));
   ("Console_WriteInt32Line", console_write_line (KInt I32));
   ("Console_WriteUInt32Line", console_write_line (KInt U32));
   ("Console_WriteInt64Line", console_write_line (KInt I64));
   ("Console_WriteUInt64Line", console_write_line (KInt U64));
   ("Console_WriteSingleLine", console_write_line KFloat);
   ("Console_WriteDoubleLine", console_write_line KDouble);
   ("Array_GetRank", array_get_rank);
   ("Array_GetLength", array_get_length);
   ("Array_GetLengthOfDimension", array_get_length_of_dimension);
   ("Tuple_SetRange", tuple_set_range);
   ("Tuple_Get", tuple_get);
   ("Tuple_GetCount", tuple_get_count);
   ("Reflection_GetType", reflection_get_type);
   ("Reflection_GetTypeName", reflection_get_type_name);
   ("Math_Sqrt", math Sqrt);
   ("Math_Pow", math_pow);
   ("Math_Sin", math Sin);
   ("Math_Cos", math Cos);
   ("Math_Tan", math Tan);
   ("Math_Sinh", math Sinh);
   ("Math_Cosh", math Cosh);
   ("Math_Tanh", math Tanh);
   ("Math_Asin", math Asin);
   ("Math_Acos", math Acos);
   ("Math_Atan", math Atan);
   ("Math_Asinh", math Asinh);
   ("Math_Acosh", math Acosh);
   ("Math_Atanh", math Atanh);
   ("Math_Log", math Log);
   ("Math_Log10", math Log10)]%string.

(* get_func, rtlib.cpp 21-28; the names are different. *)
Fixpoint look {A : Type} (name : string) (l : list (string * A)) : option A :=
  match l with
  | [] => None
  | (n, f) :: l' => if String.eqb n name then Some f else look name l'
  end.

Definition get_libfunc (name : string) : option libfunc := look name libfuncs.

(* What the functions rely on and is not modelled here: the text at an address,
   how floating numbers are written, arrays, types, the C library. [e_junk]: what is
   in the bytes of a unit that a smaller result does not fill. *)
Record env : Type := mk_env {
  e_text : Z -> option str;
  e_const : str -> Z;
  e_single : Z -> str;
  e_double : Z -> str;
  e_rank : Z -> Z;
  e_length : Z -> Z;
  e_dim : Z -> Z -> Z;
  e_type : Z -> Z;
  e_count : Z -> Z;
  e_object : Z;
  e_math : mfun -> Z -> Z;
  e_pow : Z -> Z -> Z;
  e_junk : Z
}.

(* std::wcout << a number, in the classic locale: its decimal digits.  Numbers of
   one byte are promoted to int, the stream being one of wide characters. *)
Fixpoint digits (fuel : nat) (n : Z) (acc : str) : str :=
  match fuel with
  | O => acc
  | S f => let acc' := (48 + n mod 10) :: acc in if n <? 10 then acc' else digits f (n / 10) acc'
  end.

Definition show (z : Z) : str := if z <? 0 then 45 :: digits 20 (- z) [] else digits 20 z [].

(* std::wcout << a pointer to characters: up to the first NUL. *)
Fixpoint until_nul (s : str) : str :=
  match s with
  | [] => []
  | c :: s' => if c =? 0 then [] else c :: until_nul s'
  end.

(* rt_arg_t<t> at a unit, rtlib.h 28-45: the low bytes. *)
Definition arg (t : ity) (u : Z) : Z := wrap t u.

(* ctx.return_ with a value of the type [t], rtlib.h 97-103. *)
Definition filled (E : env) (t : ity) (v : Z) : Z := v mod modulus t + modulus t * e_junk E.

(* What is written for an argument; [None]: the pointer is not one to a text. *)
Definition written (E : env) (k : ckind) (u : Z) : option str :=
  match k with
  | KString => option_map until_nul (e_text E u)
  | KChar => Some [arg I32 u]
  | KInt t => Some (show (arg t u))
  | KFloat => Some (e_single E (arg U32 u))
  | KDouble => Some (e_double E (arg U64 u))
  end.

(* The functions: the units of the arguments, first to last; what is written to the
   console and the units afterwards. *)
Definition run_func (E : env) (f : libfunc) (us : list Z) : option (str * list Z) :=
  match f, us with
  (* system.cpp 33-42 and 14-20 *)
  | console_write KString, u :: _ =>
      if arg U64 u =? 0 then Some ([], us)
      else option_map (fun s => (s, us)) (written E KString u)
  | console_write k, u :: _ => option_map (fun s => (s, us)) (written E k u)
  (* system.cpp 44-53, 138-141 and 22-28 *)
  | console_write_line KString, u :: _ =>
      if arg U64 u =? 0 then Some ([], us)
      else option_map (fun s => (s ++ [10], us)) (written E KString u)
  | console_write_line (KInt U64), u :: _ => option_map (fun s => (s, us)) (written E (KInt U64) u)
  | console_write_line k, u :: _ => option_map (fun s => (s ++ [10], us)) (written E k u)
  (* array.cpp 23-62 *)
  | array_get_rank, a :: r => Some ([], filled E I32 (e_rank E a) :: r)
  | array_get_length, a :: r => Some ([], filled E I32 (e_length E a) :: r)
  | array_get_length_of_dimension, a :: d :: r => Some ([], filled E I32 (e_dim E a (arg I32 d)) :: d :: r)
  (* array.cpp 147-174: the fields are stored in the tuple (C55) *)
  | tuple_set_range, _ :: _ :: _ :: _ => Some ([], us)
  (* array.cpp 184-188: nothing *)
  | tuple_get, _ :: _ :: _ :: _ => Some ([], us)
  (* array.cpp 198-209 *)
  | tuple_get_count, t :: r => Some ([], filled E I32 (e_count E t) :: r)
  (* reflection.cpp 22-32, 44-52: a new object with the text AAAA, whose address is
     returned in the place of that of the characters *)
  | reflection_get_type, o :: r => Some ([], e_type E o :: r)
  | reflection_get_type_name, _ :: r => Some ([], e_object E :: r)
  (* math.cpp 16-54 *)
  | math m, x :: r => Some ([], e_math E m (arg U64 x) :: r)
  | math_pow, x :: y :: r => Some ([], e_pow E (arg U64 x) (arg U64 y) :: y :: r)
  | _, _ => None
  end.

(* ------------------------------------------------------------------ *)
(** * Internal calls *)

(* An internal function as it is declared: parameters and result. *)
Definition decl : Type := list lty * lty.

(* core_lib/System/Internal.cs 9-207; the type parameters of the generic functions
   are taken for references. *)
Definition declared : list (string * decl) :=
  [("Object_FromPtr", ([LRef], LRef));
   ("Array_GetRank", ([LRef], LInt I32));
   ("Array_GetLength", ([LRef], LInt I32));
   ("Array_GetLengthOfDimension", ([LRef; LInt I32], LInt I32));
   ("Array_GetValue", ([LInt I32; LRef], LRef));
   ("Array_SetValue", ([LRef; LInt I32; LRef], LVoid));
   ("Tuple_SetRange", ([LRef; LRef; LRef], LVoid));
   ("Tuple_Get", ([LRef; LRef; LInt I32], LRef));
   ("Tuple_GetCount", ([LRef], LInt I32));
   ("Console_WriteString", ([LString], LVoid));
   ("Console_WriteChar", ([LChar], LVoid));
   ("Console_WriteInt8", ([LInt I8], LVoid));
   ("Console_WriteUInt8", ([LInt U8], LVoid));
   ("Console_WriteInt16", ([LInt I16], LVoid));
   ("Console_WriteUInt16", ([LInt U16], LVoid));
   ("Console_WriteInt32", ([LInt I32], LVoid));
   ("Console_WriteUInt32", ([LInt U32], LVoid));
   ("Console_WriteInt64", ([LInt I64], LVoid));
   ("Console_WriteUInt64", ([LInt U64], LVoid));
   ("Console_WriteSingle", ([LSingle], LVoid));
   ("Console_WriteDouble", ([LDouble], LVoid));
   ("Console_WriteStringLine", ([LString], LVoid));
   ("Console_WriteCharLine", ([LChar], LVoid));
   ("Console_WriteInt8Line", ([LInt I8], LVoid));
   ("Console_WriteUInt8Line", ([LInt U8], LVoid));
   ("Console_WriteInt16Line", ([LInt I16], LVoid));
   ("Console_WriteUInt16Line", ([LInt U16], LVoid));
   ("Console_WriteInt32Line", ([LInt I32], LVoid));
   ("Console_WriteUInt32Line", ([LInt U32], LVoid));
   ("Console_WriteInt64Line", ([LInt I64], LVoid));
   ("Console_WriteUInt64Line", ([LInt U64], LVoid));
   ("Console_WriteSingleLine", ([LSingle], LVoid));
   ("Console_WriteDoubleLine", ([LDouble], LVoid));
   ("Reflection_GetType", ([LRef], LRef));
   ("Reflection_GetTypeName", ([LRef], LString));
   ("Delegate_Invoke", ([], LRef));
   ("Delegate_Init", ([], LVoid));
   ("Delegate_InitWithCallType", ([], LVoid));
   ("MulticastDelegate_GetCount", ([], LInt I32));
   ("MulticastDelegate_Get", ([LInt I32], LRef));
   ("Math_Sqrt", ([LDouble], LDouble));
   ("Math_Pow", ([LDouble; LDouble], LDouble));
   ("Math_Sin", ([LDouble], LDouble));
   ("Math_Cos", ([LDouble], LDouble));
   ("Math_Tan", ([LDouble], LDouble));
   ("Math_Sinh", ([LDouble], LDouble));
   ("Math_Cosh", ([LDouble], LDouble));
   ("Math_Tanh", ([LDouble], LDouble));
   ("Math_Asin", ([LDouble], LDouble));
   ("Math_Acos", ([LDouble], LDouble));
   ("Math_Atan", ([LDouble], LDouble));
   ("Math_Asinh", ([LDouble], LDouble));
   ("Math_Acosh", ([LDouble], LDouble));
   ("Math_Atanh", ([LDouble], LDouble));
   ("Math_Log", ([LDouble], LDouble));
   ("Math_Log10", ([LDouble], LDouble))]%string.

(* __to_command_command, expression.cpp 2662-2690: the functions that are compiled
   to instructions of their own. *)
Definition commands : list string :=
  ["Delegate_Invoke"; "Delegate_Init"; "Delegate_InitWithCallType"; "Array_GetValue"; "Array_SetValue"]%string.

Inductive target : Type :=
| Command
| Native (f : libfunc)
| NotFound.                (* internal_function_not_found *)

(* __new_internal_call_command, commands.cpp 4003-4022. *)
Definition target_of (name : string) : target :=
  if existsb (String.eqb name) commands then Command
  else match get_libfunc name with Some f => Native f | None => NotFound end.

(* __get_method_unit_size, commands.cpp 3986-4000. *)
Definition param_units (d : decl) : nat := fold_left (fun n t => (n + unit_size t)%nat) (fst d) 0%nat.
Definition ret_units (d : decl) : nat := unit_size (snd d).

(* __internal_call_command_t, commands.cpp 3917-3950.  The top of the stack is the
   head of the list.  The function gets the units of its parameters; then the top
   goes down by the difference of the sizes. *)
Definition internal_call (E : env) (d : decl) (f : libfunc) (stack : list Z) : option (str * list Z) :=
  let n := param_units d in
  if (List.length stack <? n)%nat then None
  else match run_func E f (rev (firstn n stack)) with
       | None => None
       | Some (s, us) => Some (s, rev (firstn (ret_units d) us) ++ skipn n stack)
       end.

(* The call of the internal function [name] with the stack as it is. *)
Inductive called : Type :=
| Done (text : str) (stack : list Z)
| Missing
| Wild.                   (* undefined behaviour *)

Definition call (E : env) (name : string) (stack : list Z) : called :=
  match look name declared, target_of name with
  | Some d, Native f =>
      match internal_call E d f stack with Some (s, st) => Done s st | None => Wild end
  | _, _ => Missing
  end.

(* ------------------------------------------------------------------ *)
(** * Console *)

(* The overloads of Console.Write and Console.WriteLine. *)
Inductive cty : Type := CString | CChar | CInt (t : ity) | CSingle | CDouble | CBool.

(* What a method of the console passes on: its argument, the argument's ToString(),
   or a text. *)
Inductive pass : Type := PValue | PToString | PText (s : str).

Definition int_name (t : ity) : string :=
  match t with
  | I8 => "Int8" | U8 => "UInt8" | I16 => "Int16" | U16 => "UInt16"
  | I32 => "Int32" | U32 => "UInt32" | I64 => "Int64" | U64 => "UInt64"
  end%string.

(* Console.cs 13-154 (the bodies of the overloads for integers are the same but for
   the name of the type). *)
Definition console_body (t : cty) (line : bool) : list (string * pass) :=
  match t, line with
  | CString, false => [("Console_WriteString", PValue)]
  | CString, true => [("Console_WriteStringLine", PValue)]
  | CChar, false => [("Console_WriteChar", PValue)]
  | CChar, true => [("Console_WriteCharLine", PValue)]
  | CInt t, false => [("Console_Write" ++ int_name t, PValue)]
  | CInt t, true => [("Console_Write" ++ int_name t ++ "Line", PValue)]
  | CSingle, false => [("Console_WriteSingle", PValue)]
  | CSingle, true => [("Console_WriteSingleLine", PValue)]
  | CDouble, false => [("Console_WriteDouble", PValue)]
  | CDouble, true => [("Console_WriteDoubleLine", PValue)]
  | CBool, false => [("Console_WriteString", PToString)]
  | CBool, true => [("Console_WriteString", PToString); ("Console_WriteString", PText [13; 10])]
  end%string.

(* Console.WriteLine(): Console.cs 25-28. *)
Definition console_empty_line : list (string * pass) := [("Console_WriteString", PText [10])]%string.

(* Boolean.ToString, +types.cs 92-101. *)
Definition bool_text (u : Z) : str :=
  if arg U8 u =? 0 then [70; 97; 108; 115; 101] else [84; 114; 117; 101].

(* The unit that is pushed for the call. *)
Definition passed (E : env) (p : pass) (u : Z) : Z :=
  match p with
  | PValue => u
  | PToString => e_const E (bool_text u)
  | PText s => e_const E s
  end.

Fixpoint run_body (E : env) (b : list (string * pass)) (u : Z) (stack : list Z) : called :=
  match b with
  | [] => Done [] stack
  | (name, p) :: b' =>
      match call E name (passed E p u :: stack) with
      | Done s st =>
          match run_body E b' u st with Done s' st' => Done (s ++ s') st' | r => r end
      | r => r
      end
  end.

Definition write (E : env) (t : cty) (u : Z) (stack : list Z) : called :=
  run_body E (console_body t false) u stack.
Definition write_line (E : env) (t : cty) (u : Z) (stack : list Z) : called :=
  run_body E (console_body t true) u stack.
Definition write_empty_line (E : env) (stack : list Z) : called :=
  run_body E console_empty_line 0 stack.

(* ------------------------------------------------------------------ *)
(** * The integer functions of Math *)

(* The expressions in Math.cs: the parameters, constants (of the type Int32), a sign,
   a cast and c ? a : b with a comparison. *)
Inductive mexp : Type :=
| P1 | P2
| Num (z : Z)
| Neg (e : mexp)
| Cast (t : ity) (e : mexp)
| IfThen (c : cmpop) (a b e1 e2 : mexp).

(* With the operators of the run time (ArithModel); [None]: undefined or refused. *)
Fixpoint meval (t : ity) (x y : Z) (e : mexp) : option tval :=
  match e with
  | P1 => Some (Vi t, x)
  | P2 => Some (Vi t, y)
  | Num z => Some (Vi I32, z)
  | Neg e => match meval t x y e with
             | Some v => match vm_unary Minus v with VmVal r => Some r | _ => None end
             | None => None
             end
  | Cast u e => match meval t x y e with Some (_, z) => Some (Vi u, wrap u z) | None => None end
  | IfThen c a b e1 e2 =>
      match meval t x y a, meval t x y b with
      | Some v, Some w =>
          match vm_binary (Cmp c) v w with
          | VmVal (_, r) => if r =? 0 then meval t x y e2 else meval t x y e1
          | _ => None
          end
      | _, _ => None
      end
  end.

(* The value that is returned, converted to the type of the method. *)
Definition returned (u : ity) (r : option tval) : option Z :=
  match r with Some (_, z) => Some (wrap u z) | None => None end.

(* Math.cs 12-50, 63-101. *)
Definition max_body : mexp := IfThen Gt P1 P2 P1 P2.
Definition min_body : mexp := IfThen Lt P1 P2 P1 P2.

(* Math.cs 116-134; the types without a sign have no overload. *)
Definition abs_body (t : ity) : option mexp :=
  match t with
  | I8 => Some (IfThen Lt P1 (Num 0) (Cast I8 (Neg P1)) P1)
  | I16 => Some (IfThen Lt P1 (Num 0) (Cast I16 (Neg P1)) P1)
  | I32 | I64 => Some (IfThen Lt P1 (Num 0) (Neg P1) P1)
  | _ => None
  end.

(* Math.cs 149-167. *)
Definition sign_body (t : ity) : option mexp :=
  match t with
  | I8 | I16 | I32 | I64 =>
      Some (IfThen Gt P1 (Num 0) (Num 1) (IfThen Lt P1 (Num 0) (Neg (Num 1)) (Num 0)))
  | _ => None
  end.

Definition math_max (t : ity) (x y : Z) : option Z := returned t (meval t x y max_body).
Definition math_min (t : ity) (x y : Z) : option Z := returned t (meval t x y min_body).
Definition math_abs (t : ity) (x : Z) : option Z :=
  match abs_body t with Some e => returned t (meval t x 0 e) | None => None end.
Definition math_sign (t : ity) (x : Z) : option Z :=
  match sign_body t with Some e => returned I32 (meval t x 0 e) | None => None end.
