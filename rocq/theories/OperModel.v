(** Operators of user types: how they are declared, how an expression finds
    them, how their calls are compiled; and the types of what is put into
    variables and returned.
    modules/compile/ast.cpp 3980-4030, 4155-4185, 5039-5061, 5228-5262;
    modules/compile/ast_utils.cpp 1157-1249, 1728-1737;
    modules/compile/expression.cpp 2100-2105, 2174-2230;
    modules/lang_cs/ast_builder.cpp 1805-1846; modules/core/core.cpp 191-252,
    413-455, 494-507, 3183-3206. *)
From Coq Require Import List Bool Arith Lia.
From Verif Require Import OverModel.
Import ListNotations.

(* operator_t, core.cpp 191-252. *)
Inductive op : Type :=
| Add | Sub | Mul | Div | Mod
| AddAssign | SubAssign | MulAssign | DivAssign | ModAssign
| LeftIncrement | LeftDecrement | RightIncrement | RightDecrement
| Minus | Positive
| LeftShift | RightShift | LeftShiftAssign | RightShiftAssign
| BitAnd | BitOr | BitNot | BitXor
| BitAndAssign | BitOrAssign | BitXorAssign
| Assign | NullCoalescing | NullCoalescingAssign
| Greater | GreaterEqual | Less | LessEqual | Equal | NotEqual
| LogicAnd | LogicOr | LogicNot
| MemberPoint | As | Is.

(* The name op_Add, ... of an operator's method, ast.cpp 5055-5061; one number
   for each of the names of core.cpp 193-250. *)
Definition op_code (o : op) : nat :=
  match o with
  | Add => 1 | Sub => 2 | Mul => 3 | Div => 4 | Mod => 5
  | AddAssign => 6 | SubAssign => 7 | MulAssign => 8 | DivAssign => 9 | ModAssign => 10
  | LeftIncrement => 11 | LeftDecrement => 12 | RightIncrement => 13 | RightDecrement => 14
  | Minus => 15 | Positive => 16
  | LeftShift => 17 | RightShift => 18 | LeftShiftAssign => 19 | RightShiftAssign => 20
  | BitAnd => 21 | BitOr => 22 | BitNot => 23 | BitXor => 24
  | BitAndAssign => 25 | BitOrAssign => 26 | BitXorAssign => 27
  | Assign => 28 | NullCoalescing => 29 | NullCoalescingAssign => 30
  | Greater => 31 | GreaterEqual => 32 | Less => 33 | LessEqual => 34 | Equal => 35 | NotEqual => 36
  | LogicAnd => 37 | LogicOr => 38 | LogicNot => 39
  | MemberPoint => 40 | As => 41 | Is => 42
  end.

Definition op_eqb (a b : op) : bool := op_code a =? op_code b.

(* core.cpp 418-455. *)
Definition arity (o : op) : nat :=
  match o with
  | Minus | Positive | BitNot | LogicNot
  | LeftIncrement | LeftDecrement | RightIncrement | RightDecrement => 1
  | _ => 2
  end.

(* operator_overload_model_t, core.cpp 494-507. *)
Inductive model : Type := Overloadable | NoOverloaded | NoCheck.

Definition overload_of (o : op) : model :=
  match o with
  | LogicAnd | LogicOr => NoOverloaded
  | Assign | MemberPoint | As | Is | NullCoalescing | NullCoalescingAssign => NoCheck
  | _ => Overloadable
  end.

(* What else is known of the methods of a program; the result type is [None] if
   it is not known. *)
Record facts : Type := mk_facts {
  f_static : method -> bool;
  f_public : method -> bool;
  f_result : method -> option ty
}.

(* ------------------------------------------------------------------ *)
(** * Declaring an operator *)

(* The operator an operator method stands for, by the number of its parameters,
   ast_builder.cpp 1813-1843. *)
Definition declared_op (o : op) (params : nat) : op :=
  match o with
  | Add => if params =? 1 then Positive else Add
  | Positive => if params =? 2 then Add else Positive
  | Sub => if params =? 1 then Minus else Sub
  | Minus => if params =? 2 then Sub else Minus
  | _ => o
  end.

Inductive complaint : Type :=
| NotPublicStatic | WrongParamCount | WrongContainingType | ReturnsVoid.

(* is_void_type, core.cpp 3183-3186. *)
Definition is_void (W : world) (t : ty) : bool := vt_eqb (vtype_of W t) VVoid.

(* The checks of an operator method of the type [current], ast.cpp 5231-5262. *)
Definition check_operator (W : world) (F : facts) (current : ty) (o : op) (m : method)
  : list complaint :=
  (if negb (f_static F m) || negb (f_public F m) then [NotPublicStatic] else []) ++
  (if negb (length (m_params m) =? arity o) then [WrongParamCount] else []) ++
  (if existsb (fun p => ty_eqb (p_type p) current) (m_params m) then [] else [WrongContainingType]) ++
  (match f_result F m with
   | None => [ReturnsVoid]
   | Some t => if is_void W t then [ReturnsVoid] else []
   end).

(* ------------------------------------------------------------------ *)
(** * Finding the operator of an expression *)

Inductive verdict : Type :=
| Builtin                        (* nothing is logged, overload_method is null *)
| CannotOverload                 (* logged *)
| NotDefined                     (* logged *)
| InvalidCast                    (* logged *)
| Chosen (m : method)            (* overload_method *)
| Escaped (o : outcome).         (* method_compare_error_t, which nobody catches *)

(* is_object, core.cpp 3201-3206, core.h 676-679. *)
Definition is_object (W : world) (t : ty) : bool :=
  vt_eqb (vtype_of W t) VMobject || vt_eqb (vtype_of W t) VString.

Definition is_null (t : ty) : bool := match t with TNull => true | _ => false end.

(* find_method, ast_utils.cpp 1728-1737, with the types of all operands.  Types
   that are interfaces are left out, see OverModel.get_member. *)
Definition find_operator (W : world) (fuel : nat) (K : classes) (steps : nat) (o : op)
  (ts : list ty) (t : ty) : res outcome :=
  get_member W fuel K
    (mk_call (op_code o) None (Some (map (fun u => mk_arg PDefault (Some u)) ts)) None false false)
    steps t.

(* The loop over the operands, ast_utils.cpp 1219-1235: it ends at the first
   static method, without keeping it, and keeps every other result, a null
   pointer too.  The list is in the order of the operands. *)
Fixpoint gather (W : world) (F : facts) (find : ty -> res outcome) (ts : list ty)
  : res (list (option method) + outcome) :=
  match ts with
  | [] => Ok (inl [])
  | t :: ts' =>
      if negb (is_object W t) then gather W F find ts'
      else bind (find t) (fun o =>
        let keep (x : option method) :=
          bind (gather W F find ts') (fun r =>
            Ok (match r with inl l => inl (x :: l) | inr e => inr e end)) in
        match o with
        | Found m _ => if f_static F m then Ok (inl []) else keep (Some m)
        | Absent => keep None
        | _ => Ok (inr o)
        end)
  end.

(* The check of an assignment, ast_utils.cpp 1171-1181. *)
Definition walk_assign (W : world) (fuel : nat) (ts : list ty) : res verdict :=
  match ts with
  | [t1; t2] => bind (of_fuel (is_type_compatible W fuel t2 t1)) (fun b =>
                  Ok (if b then Builtin else InvalidCast))
  | _ => Bad
  end.

(* __walk_op_expression, ast_utils.cpp 1157-1249; the operands have types. *)
Definition walk_op (W : world) (fuel : nat) (K : classes) (steps : nat) (F : facts)
  (o : op) (ts : list ty) : res verdict :=
  match overload_of o with
  | NoCheck => Ok Builtin
  | model =>
      if op_eqb o Assign then walk_assign W fuel ts
      else if negb (existsb (fun t => negb (is_null t) && is_object W t) ts) then Ok Builtin
      else if existsb is_null ts && (op_eqb o Equal || op_eqb o NotEqual) then Ok Builtin
      else match model with
      | NoOverloaded => Ok CannotOverload
      | _ =>
          bind (gather W F (find_operator W fuel K steps o ts) ts) (fun r =>
            Ok (match r with
                | inr e => Escaped e
                | inl [] => NotDefined
                | inl (Some m :: _) => Chosen m
                | inl (None :: _) => Builtin
                end))
      end
  end.

(* ------------------------------------------------------------------ *)
(** * Compiling it *)

Inductive compiled : Type :=
| Calls (m : method) | BuiltinCode | Failed | Logged.

Fixpoint compatible_all (W : world) (fuel : nat) (ps : list param) (ts : list ty) : option bool :=
  match ps, ts with
  | p :: ps', t :: ts' =>
      match is_type_compatible W fuel t (p_type p) with
      | Some true => compatible_all W fuel ps' ts'
      | r => r
      end
  | _, _ => Some true
  end.

(* __check_overload_prototype, expression.cpp 2174-2209. *)
Definition check_prototype (W : world) (fuel : nat) (F : facts) (m : method) (ts : list ty)
  : option bool :=
  if negb (length (m_params m) =? length ts) then Some false
  else if negb (length (m_gparams m) =? 0) then Some false
  else if negb (f_static F m) then Some false
  else compatible_all W fuel (m_params m) ts.

(* The expression after it was walked, expression.cpp 2100-2105, 2212-2230.  What
   the built-in operators do is in ExprModel. *)
Definition compile_op (W : world) (fuel : nat) (K : classes) (steps : nat) (F : facts)
  (o : op) (ts : list ty) : res compiled :=
  bind (walk_op W fuel K steps F o ts) (fun v =>
    match v with
    | Builtin => Ok BuiltinCode
    | CannotOverload | NotDefined | InvalidCast => Ok Logged
    | Escaped _ => Ok Failed
    | Chosen m => bind (of_fuel (check_prototype W fuel F m ts)) (fun b =>
                    Ok (if b then Calls m else Failed))
    end).

(* ------------------------------------------------------------------ *)
(** * Types of values *)

(* A local variable of type [t] with the initial value of type [v],
   defination_st_ast_node_t::__walk_analysis, ast.cpp 4009-4017; [true]: nothing
   is logged. *)
Definition init_ok (W : world) (fuel : nat) (t v : ty) : option bool :=
  is_type_compatible W fuel v t.

(* A return statement, __walk_post_analysis, ast.cpp 4155-4181.  [result] is the
   type of the method, [value] the expression: none, or one whose type may be
   unknown. *)
Definition return_ok (W : world) (fuel : nat) (result : option ty) (value : option (option ty))
  : option bool :=
  let void := match result with None => true | Some t => is_void W t end in
  if void then Some (match value with None => true | Some _ => false end)
  else match result, value with
       | Some t, Some (Some v) => is_type_compatible W fuel v t
       | _, Some None => Some true
       | _, _ => Some false
       end.

(* An assignment to a variable of type [t] as an expression. *)
Definition assign_ok (W : world) (fuel : nat) (K : classes) (steps : nat) (F : facts)
  (t v : ty) : res bool :=
  bind (walk_op W fuel K steps F Assign [t; v]) (fun r =>
    Ok (match r with Builtin | Chosen _ => true | _ => false end)).
