(** What the functions of the system library are for. *)
From Coq Require Import String Ascii.
From Coq Require Import List Bool ZArith.
From Verif Require Import CppInt ArithModel LibModel.
Import ListNotations.
Open Scope Z_scope.

(** *** Internal calls *)

(** The functions that the compiler turns into instructions, and those that the
    runtime does not have. *)
Definition instructions : list string :=
  ["Delegate_Invoke"; "Delegate_Init"; "Delegate_InitWithCallType"; "Array_GetValue"; "Array_SetValue"]%string.
Definition absent : list string :=
  ["Object_FromPtr"; "MulticastDelegate_GetCount"; "MulticastDelegate_Get"]%string.

(** A unit that may be passed for a parameter: strings are null or texts. *)
Definition passable (E : env) (t : lty) (u : Z) : Prop :=
  match t with
  | LString => arg U64 u = 0 \/ exists s, e_text E u = Some s
  | _ => True
  end.

(** Results take one unit, or none if there are none. *)
Definition result_units (t : lty) : nat := match t with LVoid => 0 | _ => 1 end.

(** The names of the functions of one number. *)
Definition math_name (m : mfun) : string :=
  match m with
  | Sqrt => "Math_Sqrt" | Sin => "Math_Sin" | Cos => "Math_Cos" | Tan => "Math_Tan"
  | Sinh => "Math_Sinh" | Cosh => "Math_Cosh" | Tanh => "Math_Tanh"
  | Asin => "Math_Asin" | Acos => "Math_Acos" | Atan => "Math_Atan"
  | Asinh => "Math_Asinh" | Acosh => "Math_Acosh" | Atanh => "Math_Atanh"
  | Log => "Math_Log" | Log10 => "Math_Log10"
  end%string.

(** *** The console *)

(** Values that can be written. *)
Inductive cval : Type :=
| VString (s : option str)
| VChar (c : Z)
| VInt (t : ity) (z : Z)
| VSingle (b : Z)
| VDouble (b : Z)
| VBool (b : bool).

Definition type_of (v : cval) : cty :=
  match v with
  | VString _ => CString | VChar _ => CChar | VInt t _ => CInt t
  | VSingle _ => CSingle | VDouble _ => CDouble | VBool _ => CBool
  end.

(** The unit [u] holds the value in its low bytes. *)
Definition holds (E : env) (v : cval) (u : Z) : Prop :=
  match v with
  | VString None => u = 0
  | VString (Some s) => 0 < u < modulus U64 /\ e_text E u = Some s
  | VChar c => wrap I32 u = c
  | VInt t z => wrap t u = z
  | VSingle b => wrap U32 u = b
  | VDouble b => wrap U64 u = b
  | VBool b => wrap U8 u = b2z b
  end.

(** The texts in the library: True, False and the ends of lines; they are in memory. *)
Definition library_texts : list str :=
  [[84; 114; 117; 101]; [70; 97; 108; 115; 101]; [10]; [13; 10]].

Definition constants (E : env) : Prop :=
  forall s, In s library_texts -> 0 < e_const E s < modulus U64 /\ e_text E (e_const E s) = Some s.

Definition digit (c : Z) : Prop := 48 <= c <= 57.

Definition value (s : str) : Z := fold_left (fun a c => 10 * a + (c - 48)) s 0.

(** [s] is the decimal text of a number: digits, no zeros before them, a sign before
    those of a negative number. *)
Inductive decimal : str -> Z -> Prop :=
| decimal_zero : decimal [48] 0
| decimal_pos c s z : c <> 48 -> Forall digit (c :: s) -> value (c :: s) = z -> decimal (c :: s) z
| decimal_neg s z : z < 0 -> decimal s (- z) -> decimal (45 :: s) z.

(** The text of a value; nothing for null. *)
Definition text_of (E : env) (v : cval) (s : str) : Prop :=
  match v with
  | VString None => s = []
  | VString (Some t) => s = t
  | VChar c => s = [c]
  | VInt _ z => decimal s z
  | VSingle b => s = e_single E b
  | VDouble b => s = e_double E b
  | VBool true => s = [84; 114; 117; 101]
  | VBool false => s = [70; 97; 108; 115; 101]
  end.

(** A string without NUL. *)
Definition no_nul (v : cval) : Prop :=
  match v with VString (Some s) => ~ In 0 s | _ => True end.

(** The values for which WriteLine does what it should. *)
Definition line_ok (v : cval) : Prop :=
  match v with
  | VString None | VInt U64 _ | VBool _ => False
  | _ => True
  end.
