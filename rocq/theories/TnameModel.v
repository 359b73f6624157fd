(* The type a name in a program stands for: modules/compile/ast_utils.cpp
   122-225 (__multi_units_t), 247-702 (__type_resolver_t),
   modules/core/assembly.cpp 83-145 (types_t) and modules/compile/__ast.h
   1650-1725 (name_unit_t, global_type_t).

   Simplifications, for the whole file:
   - Names are numbers.  A namespace is the list of its parts; no namespace is
     the empty list (mname_t, core.cpp 915-990; parent_of and combine,
     core.cpp 6747-6792, keep what they made before).
   - Types are numbers of declarations, in the order in which they are
     appended, of all assemblies together.
   - The arguments in a name are types already; that is how the compiler finds
     them (ast_utils.cpp 421-437).  Their modes are left out.
   - Type definitions (using X = Y) are left out.
   - What importing an assembly gives is part of the context. *)
From Coq Require Import ZArith List Bool.
Import ListNotations.
Local Open Scope nat_scope.

Definition path := list Z.

(* general_type_t: assembly, namespace, name, generic params, whether the last
   of them stands for any number of types (generic_param_type_t::params), host *)
Record decl := Decl {
  d_asm : nat; d_space : path; d_name : Z; d_params : list Z; d_many : bool;
  d_host : option nat }.

(* type_t: a generic param of the method or of a type, by its index; a general
   type; an instance (generic_type_t) *)
Inductive ty :=
| TMethodParam (k : nat)
| TParam (i k : nat)
| TGeneral (i : nat)
| TInstance (i : nat) (args : list ty) (host : option ty).

(* name_unit_t, __ast.h 1651-1710 *)
Record unit_ := Unit { u_name : Z; u_args : list ty }.

(* is_generic, 1703 *)
Definition is_generic (u : unit_) : bool := match u_args u with [] => false | _ => true end.

(* operator ==, 1664-1673 *)
Definition unit_is (u : unit_) (n : Z) : bool := negb (is_generic u) && Z.eqb (u_name u) n.

(* ---- types_t, assembly.cpp 83-145 ---- *)

(* __ns_to_sid (83-92): the namespace of the outermost type.  Hosts are a
   finite chain; [fuel] counts its types. *)
Fixpoint space_of (D : list decl) (fuel i : nat) : path :=
  match nth_error D i with
  | None => []
  | Some d =>
      match d_host d with
      | None => d_space d
      | Some h => match fuel with O => [] | S fuel' => space_of D fuel' h end
      end
  end.

Definition same_path (a b : path) : bool := if list_eq_dec Z.eq_dec a b then true else false.
Definition same_host (a b : option nat) : bool :=
  match a, b with
  | None, None => true
  | Some x, Some y => x =? y
  | _, _ => false
  end.
Definition same_count (a b : option nat) : bool := same_host a b.

(* The key of append_type (94-107): None is UNCERTERN_PARAM_COUNT. *)
Definition key_count (d : decl) : option nat :=
  if d_many d && negb (length (d_params d) =? 0) then None else Some (length (d_params d)).

Definition has_key (D : list decl) (a : nat) (ns : path) (n : Z) (c : option nat)
  (host : option nat) (i : nat) : bool :=
  match nth_error D i with
  | None => false
  | Some d =>
      (d_asm d =? a) && same_path (space_of D (length D) i) ns && Z.eqb (d_name d) n &&
      same_count (key_count d) c && same_host (d_host d) host
  end.

(* __get_type: a map keeps the first of equal keys *)
Definition look (D : list decl) (a : nat) (ns : path) (n : Z) (c : option nat)
  (host : option nat) : option nat :=
  find (has_key D a ns n c host) (seq 0 (length D)).

(* get_general_type (123-145) *)
Definition get_general_type (D : list decl) (a : nat) (ns : path) (n : Z) (c : nat)
  (host : option nat) : option nat :=
  let ns' := match host with None => ns | Some h => space_of D (length D) h end in
  match look D a ns' n (Some c) host with
  | Some i => Some i
  | None =>
      match look D a ns' n None host with
      | Some i =>
          match nth_error D i with
          | Some d => if length (d_params d) - 1 <=? c then Some i else None
          | None => None
          end
      | None => None
      end
  end.

(* ---- __type_resolver_t ---- *)

Definition raw_type (t : ty) : option nat :=
  match t with TGeneral i | TInstance i _ _ => Some i | _ => None end.

Definition is_instance (t : ty) : bool := match t with TInstance _ _ _ => true | _ => false end.

(* __get_type (448-502), __new_generic_type (783-806) *)
Definition get_type (D : list decl) (a : nat) (ns : path) (u : unit_) (host : option ty)
  : option ty :=
  let raw := match host with Some t => raw_type t | None => None end in
  let a' := match host with
            | Some (TInstance i _ _) =>
                match nth_error D i with Some d => d_asm d | None => a end
            | _ => a
            end in
  match get_general_type D a' ns (u_name u) (length (u_args u)) raw with
  | Some i => Some (if is_generic u then TInstance i (u_args u) host else TGeneral i)
  | None => None
  end.

(* One turn of the loop at 519-553: a type nested in an instance is an instance
   in it, with or without arguments of its own. *)
Definition nest (D : list decl) (a : nat) (ns : path) (t : ty) (u : unit_) : option ty :=
  match get_type D a ns u (Some t) with
  | Some (TGeneral i) =>
      if is_instance t || is_generic u then Some (TInstance i (u_args u) (Some t))
      else Some (TGeneral i)
  | o => o
  end.

Fixpoint nest_all (D : list decl) (a : nat) (ns : path) (t : ty) (us : list unit_)
  : option ty :=
  match us with
  | [] => Some t
  | u :: us' => match nest D a ns t u with Some n => nest_all D a ns n us' | None => None end
  end.

(* type->host_type, as a general type *)
Definition host_of (D : list decl) (t : ty) : option ty :=
  match t with
  | TGeneral i =>
      match nth_error D i with
      | Some d => match d_host d with Some h => Some (TGeneral h) | None => None end
      | None => None
      end
  | TInstance _ _ (Some (TGeneral h)) => Some (TGeneral h)
  | _ => None
  end.

(* __find_nest_type (505-563).  When the first unit is found the types around
   are not looked at any more. *)
Fixpoint climb (D : list decl) (fuel : nat) (a : nat) (ns : path) (t : option ty)
  (u : unit_) (us : list unit_) : option ty :=
  match t, fuel with
  | None, _ | _, O => None
  | Some t', S fuel' =>
      match nest D a ns t' u with
      | Some n => nest_all D a ns n us
      | None => climb D fuel' a ns (host_of D t') u us
      end
  end.

Definition find_nest_type (D : list decl) (a : nat) (ns : path) (t : option ty)
  (us : list unit_) : option ty :=
  match us with
  | [] => t
  | u :: us' => climb D (S (length D)) a ns t u us'
  end.

(* __find_type (663-686) *)
Fixpoint find_type (D : list decl) (a : nat) (ns : path) (us : list unit_) : option ty :=
  match us with
  | [] => None
  | u :: us' =>
      match find_nest_type D a ns (get_type D a ns u None) us' with
      | Some t => Some t
      | None => if is_generic u then None else find_type D a (ns ++ [u_name u]) us'
      end
  end.

(* __search_type (640-661) *)
Fixpoint search_type (D : list decl) (a : nat) (ns : path) (us : list unit_) : option ty :=
  match us with
  | [] => None
  | u :: us' =>
      match find_type D a ns us with
      | Some t => Some t
      | None =>
          match us' with
          | [] => None
          | _ => if is_generic u then None else search_type D a (ns ++ [u_name u]) us'
          end
      end
  end.

(* import_t: the alias if there is one, the name of the assembly, the assembly
   if it could be loaded.  using_namespace_t: the alias, the namespace. *)
Record import := Import { i_alias : option Z; i_name : path; i_asm : option nat }.
Record using_ := Using { s_alias : option Z; s_space : path }.

(* __starts_with (623-638) *)
Fixpoint starts_with (n : path) (us : list unit_) : bool :=
  match n, us with
  | [], [] => false
  | [], _ => true
  | _ :: _, [] => false
  | x :: n', u :: us' => unit_is u x && starts_with n' us'
  end.

(* __import_starts_with (603-621) *)
Definition import_prefix (m : import) (us : list unit_) : nat :=
  match us with
  | [] => 0
  | u :: _ =>
      match i_alias m with
      | Some x => if unit_is u x then 1 else 0
      | None => if starts_with (i_name m) us then length (i_name m) else 0
      end
  end.

(* global_type_t, __ast.h 1717-1725 *)
Inductive global_type := GDefault | GRoot | GGlobal.

(* ast_walk_context_t: the declarations, the assembly that is compiled, the
   generic params of the method, the type, the namespace, the imports and
   usings of the document, if there is one *)
Record context := Context {
  c_decls : list decl; c_asm : nat; c_method : option (list Z); c_type : option nat;
  c_space : path; c_document : option (list import * list using_) }.

(* The loop over the imports (581-598) *)
Fixpoint search_imports (D : list decl) (ms : list import) (us : list unit_) : option ty :=
  match ms with
  | [] => None
  | m :: ms' =>
      let found :=
        match import_prefix m us with
        | O => None
        | k => match i_asm m with
               | Some a => search_type D a [] (skipn k us)
               | None => None
               end
        end in
      match found with Some t => Some t | None => search_imports D ms' us end
  end.

(* __search_global_type (566-600) *)
Definition search_global (C : context) (us : list unit_) : option ty :=
  match c_document C with
  | None => None
  | Some (ms, _) =>
      match search_type (c_decls C) (c_asm C) [] us with
      | Some t => Some t
      | None => search_imports (c_decls C) ms us
      end
  end.

(* The loop over the namespaces (379-389): from a namespace to the one around
   it.  The namespace is given backwards. *)
Fixpoint search_spaces (D : list decl) (a : nat) (back : path) (us : list unit_) : option ty :=
  match find_type D a (rev back) us with
  | Some t => Some t
  | None => match back with [] => None | _ :: back' => search_spaces D a back' us end
  end.

(* The loop over the usings (399-424) *)
Fixpoint search_usings (C : context) (ss : list using_) (us : list unit_) : option ty :=
  match ss with
  | [] => None
  | s :: ss' =>
      let found :=
        match s_alias s, us with
        | None, _ => search_global C (map (fun n => Unit n []) (s_space s) ++ us)
        | Some x, u :: ((_ :: _) as us') =>
            if unit_is u x then search_global C (map (fun n => Unit n []) (s_space s) ++ us')
            else None
        | Some _, _ => None
        end in
      match found with Some t => Some t | None => search_usings C ss' us end
  end.

(* __ascertain_general_type (346-431) *)
Definition general_meaning (C : context) (g : global_type) (us : list unit_) : option ty :=
  match g with
  | GGlobal => search_global C us
  | GRoot =>
      match find_type (c_decls C) (c_asm C) [] us with
      | Some t => Some t
      | None => search_global C us
      end
  | GDefault =>
      let nested :=
        match c_type C with
        | None => None
        | Some i => find_nest_type (c_decls C) (c_asm C) (c_space C) (Some (TGeneral i)) us
        end in
      match nested with
      | Some t => Some t
      | None =>
          match search_spaces (c_decls C) (c_asm C) (rev (c_space C)) us with
          | Some t => Some t
          | None =>
              match search_global C us with
              | Some t => Some t
              | None =>
                  match c_document C with
                  | None => None
                  | Some (_, ss) => search_usings C ss us
                  end
              end
          end
      end
  end.

(* __find_param (core.cpp 1818-1832) *)
Fixpoint find_param (ps : list Z) (n : Z) : option nat :=
  match ps with
  | [] => None
  | p :: ps' =>
      if Z.eqb p n then Some 0
      else match find_param ps' n with Some k => Some (S k) | None => None end
  end.

(* The loop at 333-340: the types from the inside to the outside *)
Fixpoint find_type_param (D : list decl) (fuel : nat) (i : nat) (n : Z) : option ty :=
  match fuel with
  | O => None
  | S fuel' =>
      match nth_error D i with
      | None => None
      | Some d =>
          match find_param (d_params d) n with
          | Some k => Some (TParam i k)
          | None =>
              match d_host d with
              | Some h => find_type_param D fuel' h n
              | None => None
              end
          end
      end
  end.

(* __ascertain_param_type (307-343) *)
Definition param_meaning (C : context) (us : list unit_) : option ty :=
  match us with
  | [u] =>
      if is_generic u then None else
      match match c_method C with Some ps => find_param ps (u_name u) | None => None end with
      | Some k => Some (TMethodParam k)
      | None =>
          match c_type C with
          | Some i => find_type_param (c_decls C) (S (length (c_decls C))) i (u_name u)
          | None => None
          end
      end
  | _ => None
  end.

(* __ascertain_type (293-304): None is reported as an unknown type. *)
Definition meaning (C : context) (g : global_type) (us : list unit_) : option ty :=
  match param_meaning C us with
  | Some t => Some t
  | None => general_meaning C g us
  end.
