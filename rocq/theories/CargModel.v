(** Checking the arguments of a generic type or method against the constraints
    of its template: modules/compile/ast.cpp 1272-1566, 1578-1597 and
    4628-4655, modules/core/core.cpp 1908-1990, modules/compile/ast_utils.cpp
    1776-1790. *)
From Coq Require Import List Arith Bool PeanoNat.
From Verif Require Import OverModel.
Import ListNotations.

(* ttype_t of a declared type, include/modules/core.h 2566-2580; the other
   kinds (delegates) are left out. *)
Inductive tkind : Type := KClass | KInterface | KStruct | KEnum.

(* What the checks read of a declared type: its kind, its vtype (of an enum
   the one of its underlying type, core.cpp 3985-3998), its generic
   parameters, the super types it names, and whether it has a public
   constructor without parameters (has_public_default_constructor,
   ast_utils.cpp 1776-1790). *)
Record tdecl : Type := mk_tdecl {
  d_kind   : tkind;
  d_vtype  : vt;
  d_params : list nat;
  d_supers : list ty;
  d_ctor   : bool
}.

(* The declared types, and which of them are System.Object and System.Enum
   (__XPool.get_object_type / get_enum_type). *)
Record program : Type := mk_program {
  p_decl   : nat -> tdecl;
  p_object : nat;
  p_enum   : nat
}.

(* generic_constraint_t: the flags of cttype and the types, for one
   parameter. *)
Record gcon : Type := mk_gcon {
  g_param  : nat;
  g_class  : bool;
  g_struct : bool;
  g_new    : bool;
  g_types  : list ty
}.

(* __generic_param_types_t::__type_map, ast.cpp 1272-1352: parameter names and
   the types that stand for them. *)
Fixpoint glookup (m : list (nat * ty)) (x : nat) : option ty :=
  match m with
  | [] => None
  | (y, t) :: m' => if x =? y then Some t else glookup m' x
  end.

(* transform_type, core.cpp 1908-1990: every parameter inside the type is
   replaced; get_type of an unknown name is null. *)
Fixpoint transform (m : list (nat * ty)) (t : ty) : ty :=
  match t with
  | TParam x => match glookup m x with Some u => u | None => TNull end
  | TGeneric c args => TGeneric c (map (transform m) args)
  | TArray e d => TArray (transform m e) d
  | _ => t
  end.

(* Super types and vtypes: those of a generic type are its template's, with
   the arguments put in (generic_type_t::each_super_type and this_vtype);
   an array has the vtype mobject and, here, no super types; a generic
   parameter has none and the vtype __unknown__. *)
Definition supers_of (P : program) (t : ty) : list ty :=
  match t with
  | TGeneral c => d_supers (p_decl P c)
  | TGeneric c args =>
      map (transform (combine (d_params (p_decl P c)) args))
          (d_supers (p_decl P c))
  | _ => []
  end.

Definition vtype_in (P : program) (t : ty) : vt :=
  match t with
  | TGeneral c | TGeneric c _ => d_vtype (p_decl P c)
  | TArray _ _ => VMobject
  | TParam _ | TNull => VUnknown
  end.

Definition world_of (P : program) : world :=
  mk_world (supers_of P) (vtype_in P).

(* this_ttype: generic types have their template's, arrays are classes
   (include/modules/core.h 4655), parameters and null have none. *)
Definition ttype_of (P : program) (t : ty) : option tkind :=
  match t with
  | TGeneral c | TGeneric c _ => Some (d_kind (p_decl P c))
  | TArray _ _ => Some KClass
  | TParam _ | TNull => None
  end.

(* is_class / is_struct / is_ref_type, include/modules/core.h 2566-2580 and
   2122-2131. *)
Definition is_class_type (P : program) (t : ty) : bool :=
  match ttype_of P t with Some KClass => true | _ => false end.

Definition is_struct_type (P : program) (t : ty) : bool :=
  match ttype_of P t with Some KStruct => true | _ => false end.

Definition is_ref_type (P : program) (t : ty) : bool :=
  match ttype_of P t with
  | Some KClass | Some KInterface => true
  | _ => false
  end.

(* (is_class(type) || is_struct(type)) && has_public_default_constructor(type),
   ast.cpp 1514: the constructors of a generic type are its template's; arrays
   declare none. *)
Definition ctor_type (P : program) (t : ty) : bool :=
  (is_class_type P t || is_struct_type P t) &&
  match t with
  | TGeneral c | TGeneric c _ => d_ctor (p_decl P c)
  | _ => false
  end.

(* The generic parameters of a method or of a type and their constraints. *)
Record scope : Type := mk_scope {
  s_params : list nat;
  s_cons   : list gcon
}.

(* The place of the check: current_method(), null outside methods, and the
   current type followed by the types around it. *)
Record place : Type := mk_place {
  pl_method : option scope;
  pl_types  : list scope
}.

(* The outcomes: a value, a null pointer dereferenced, or a walk over super
   types longer than the fuel. *)
Inductive outcome (A : Type) : Type :=
| Val (a : A)
| Crash
| Fuel.
Arguments Val {A} a.
Arguments Crash {A}.
Arguments Fuel {A}.

(* __search_constraint(constraints, name), ast.cpp 1545-1558. *)
Fixpoint search_in (cs : list gcon) (x : nat) : option gcon :=
  match cs with
  | [] => None
  | c :: cs' => if g_param c =? x then Some c else search_in cs' x
  end.

Fixpoint search_types (ss : list scope) (x : nat) : option gcon :=
  match ss with
  | [] => None
  | s :: ss' =>
      match search_in (s_cons s) x with
      | Some c => Some c
      | None => search_types ss' x
      end
  end.

(* __search_constraint(name), ast.cpp 1518-1542: [method->constraints] is read
   without a test for null. *)
Definition search_constraint (pl : place) (x : nat) : outcome (option gcon) :=
  match pl_method pl with
  | None => Crash
  | Some s =>
      match search_in (s_cons s) x with
      | Some c => Val (Some c)
      | None => Val (search_types (pl_types pl) x)
      end
  end.

Definition compat (P : program) (fuel : nat) (from to : ty) : outcome bool :=
  match is_type_compatible (world_of P) fuel from to with
  | Some b => Val b
  | None => Fuel
  end.

Fixpoint any_compat (P : program) (fuel : nat) (froms : list ty) (to : ty)
  : outcome bool :=
  match froms with
  | [] => Val false
  | t :: l =>
      match compat P fuel t to with
      | Val true => Val true
      | Val false => any_compat P fuel l to
      | Crash => Crash
      | Fuel => Fuel
      end
  end.

(* __is_type_compatible, ast.cpp 1440-1463. *)
Definition arg_compatible (P : program) (fuel : nat) (pl : place)
  (from to : ty) : outcome bool :=
  match from with
  | TParam x =>
      match search_constraint pl x with
      | Val None => Val false
      | Val (Some c) => any_compat P fuel (g_types c) to
      | Crash => Crash
      | Fuel => Fuel
      end
  | _ => compat P fuel from to
  end.

(* The loop of __is_ref_type, ast.cpp 1479-1489. *)
Definition class_constraint (P : program) (t : ty) : bool :=
  if ty_eqb t (TGeneral (p_enum P)) || ty_eqb t (TGeneral (p_object P))
  then false
  else is_class_type P t.

(* __is_ref_type, ast.cpp 1465-1496. *)
Definition arg_is_ref (P : program) (pl : place) (t : ty) : outcome bool :=
  match t with
  | TParam x =>
      match search_constraint pl x with
      | Val None => Val false
      | Val (Some c) =>
          Val (if g_class c then true
               else existsb (class_constraint P) (g_types c))
      | Crash => Crash
      | Fuel => Fuel
      end
  | _ => Val (is_ref_type P t)
  end.

(* __is_value_type, ast.cpp 1499-1502. *)
Definition arg_is_value (P : program) (pl : place) (t : ty) : outcome bool :=
  match arg_is_ref P pl t with
  | Val b => Val (negb b)
  | Crash => Crash
  | Fuel => Fuel
  end.

(* __has_public_default_constructor, ast.cpp 1505-1515. *)
Definition arg_has_ctor (P : program) (pl : place) (t : ty) : outcome bool :=
  match t with
  | TParam x =>
      match search_constraint pl x with
      | Val None => Val false
      | Val (Some c) => Val (g_new c)
      | Crash => Crash
      | Fuel => Fuel
      end
  | _ => Val (ctor_type P t)
  end.

(* The messages of __check, ast.cpp 1402-1438.  (For the two in the middle the
   code logs the message of the other.) *)
Inductive cerror : Type :=
| InvalidType (t : ty)
| NoConversion (t to : ty)
| NotReference (t : ty)
| NotValue (t : ty)
| NoConstructor (t : ty).

Fixpoint check_types (P : program) (fuel : nat) (pl : place)
  (m : list (nat * ty)) (t : ty) (us : list ty) : outcome (option cerror) :=
  match us with
  | [] => Val None
  | u :: us' =>
      match transform m u with
      | TNull => check_types P fuel pl m t us'
      | u0 =>
          if is_struct_type P u0 then Val (Some (InvalidType u0))
          else match arg_compatible P fuel pl t u0 with
               | Val true => check_types P fuel pl m t us'
               | Val false => Val (Some (NoConversion t u0))
               | Crash => Crash
               | Fuel => Fuel
               end
      end
  end.

(* One of the tests of cttype: without the flag nothing is asked. *)
Definition check_flag (flag : bool) (test : outcome bool) (e : cerror)
  : outcome (option cerror) :=
  if flag then
    match test with
    | Val true => Val None
    | Val false => Val (Some e)
    | Crash => Crash
    | Fuel => Fuel
    end
  else Val None.

Definition and_then (a b : outcome (option cerror)) : outcome (option cerror) :=
  match a with
  | Val None => b
  | _ => a
  end.

(* __check, ast.cpp 1402-1438: it stops at the first error. *)
Definition check_constraint (P : program) (fuel : nat) (pl : place)
  (m : list (nat * ty)) (c : gcon) : outcome (option cerror) :=
  let t := match glookup m (g_param c) with Some t => t | None => TNull end in
  and_then (check_types P fuel pl m t (g_types c))
  (and_then (check_flag (g_class c) (arg_is_ref P pl t) (NotReference t))
  (and_then (check_flag (g_struct c) (arg_is_value P pl t) (NotValue t))
            (check_flag (g_new c) (arg_has_ctor P pl t) (NoConstructor t)))).

(* check(), ast.cpp 1369-1387: every constraint is checked.  The result is the
   errors logged; the map holds the parameters of the template and the
   arguments (fill_by_generic; templates inside generic types, whose map also
   holds the outer arguments, are left out). *)
Fixpoint check_constraints (P : program) (fuel : nat) (pl : place)
  (m : list (nat * ty)) (cs : list gcon) : outcome (list cerror) :=
  match cs with
  | [] => Val []
  | c :: cs' =>
      match check_constraint P fuel pl m c with
      | Val None => check_constraints P fuel pl m cs'
      | Val (Some e) =>
          match check_constraints P fuel pl m cs' with
          | Val es => Val (e :: es)
          | Crash => Crash
          | Fuel => Fuel
          end
      | Crash => Crash
      | Fuel => Fuel
      end
  end.

Definition check_arguments (P : program) (fuel : nat) (pl : place)
  (F : scope) (args : list ty) : outcome (list cerror) :=
  check_constraints P fuel pl (combine (s_params F) args) (s_cons F).
