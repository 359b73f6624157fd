(** Protection of members and types: modules/core/core.cpp 1140-1143, 1380-1417,
    2742-2751, 3254-3270, 8625-8833 and modules/compile/__ast.h 1180-1208. *)
From Coq Require Import List Arith Bool PeanoNat.
Import ListNotations.
From Verif Require Import OverModel.

(* access_value_t, include/modules/core.h 1503-1509; the missing value
   __default__ (empty_access_value, line 1511) is [None] of [option access]. *)
Inductive access : Type :=
| Public | Protected | Private | Internal | ProtectedOrInternal | ProtectedAndInternal.

(* What the declarations say.  Declared types have numbers.  [d_host]: the type
   a type is nested in (member_t::host_type).  [d_assembly]: the assembly of a
   declared type (core.cpp 1401-1418).  [d_access]: the written access.
   [d_array]: the declared type behind an array's base_type (to_general goes
   through it).  Simplification: the host of a declared type is a declared
   type, as set_owner (core.h 2221) is called with one. *)
Record decls : Type := mk_decls {
  d_world : world;
  d_host : nat -> option nat;
  d_assembly : nat -> nat;
  d_access : nat -> option access;
  d_interface : nat -> bool;
  d_array : nat
}.

(* A method, field, property or event: its host_type and its written access. *)
Record member : Type := mk_member { m_host : ty; m_access : option access }.

(* to_general, core.cpp 3254-3270. *)
Definition to_general (D : decls) (t : ty) : ty :=
  match t with
  | TGeneric g _ => TGeneral g
  | TArray _ _ => TGeneral (d_array D)
  | _ => t
  end.

(* member_t::get_access_value, core.cpp 1380-1398, of a type. *)
Definition type_access_value (D : decls) (i : nat) : access :=
  match d_access D i with
  | Some av => av
  | None =>
      match d_host D i with
      | None => Internal
      | Some h => if d_interface D h then Public else Private
      end
  end.

(* member_t::get_access_value, core.cpp 1380-1398, of any other member of the
   declared type [h]. *)
Definition member_access_value (D : decls) (h : nat) (written : option access) : access :=
  match written with
  | Some av => av
  | None => if d_interface D h then Public else Private
  end.

(* __check_member_access, core.cpp 8650-8676.  [None]: the walk over the super
   types ran out of fuel.  The stored set of super types is taken empty: see
   [has_super_type] and C83 for the effect of the stored set. *)
Definition check_member_access (D : decls) (fuel : nat) (from host : nat) (av : access)
  (cross_assembly : bool) : option bool :=
  match has_super_type (d_world D) fuel [] (TGeneral from) (TGeneral host) with
  | None => None
  | Some (derived, _) =>
      Some (if cross_assembly then
              match av with
              | Public => true
              | Protected | ProtectedOrInternal => derived
              | _ => false
              end
            else
              match av with
              | Public | Internal | ProtectedOrInternal => true
              | Protected | ProtectedAndInternal => derived
              | Private => false
              end)
  end.

(* __check_type_access from a type, core.cpp 8679-8706; [sfuel] is for the walk
   over the super types, [fuel] for the nesting. *)
Fixpoint check_type_access (D : decls) (sfuel fuel : nat) (from type : nat) (cross_assembly : bool)
  : option bool :=
  match fuel with
  | O => None
  | S f =>
      match d_host D type with
      | Some host =>
          if host =? from then Some true
          else match check_type_access D sfuel f from host cross_assembly with
               | Some true =>
                   check_member_access D sfuel from host (type_access_value D type) cross_assembly
               | r => r
               end
      | None =>
          if cross_assembly then
            Some (match type_access_value D type with Public => true | _ => false end)
          else Some true
      end
  end.

(* The loop over the enclosing types, core.cpp 8752-8760. *)
Fixpoint encloses (D : decls) (fuel : nat) (from host : nat) : option bool :=
  match fuel with
  | O => None
  | S f =>
      if from =? host then Some true
      else match d_host D from with
           | None => Some false
           | Some up => encloses D f up host
           end
  end.

(* check_access(from_type, host_type, av), core.cpp 8745-8768.  A type that is
   no declared type after to_general has no members ([Some false], not
   reached). *)
Definition check_access_value (D : decls) (fuel : nat) (from_type host_type : ty) (av : nat -> access)
  : option bool :=
  match to_general D from_type, to_general D host_type with
  | TGeneral from, TGeneral host =>
      match encloses D fuel from host with
      | None => None
      | Some true => Some true
      | Some false =>
          let cross := negb (d_assembly D host =? d_assembly D from) in
          match check_type_access D fuel fuel from host cross with
          | Some true => check_member_access D fuel from host (av host) cross
          | r => r
          end
      end
  | _, _ => Some false
  end.

(* check_access(from_type, to_member) and (from_type, to_method),
   core.cpp 8625-8647. *)
Definition check_access_member (D : decls) (fuel : nat) (from_type : ty) (m : member) : option bool :=
  check_access_value D fuel from_type (m_host m) (fun h => member_access_value D h (m_access m)).

(* check_access(from_type, to_type), core.cpp 8771-8781. *)
Definition check_access_type (D : decls) (fuel : nat) (from_type to_type : ty) : option bool :=
  match to_general D from_type, to_general D to_type with
  | TGeneral from, TGeneral to =>
      check_type_access D fuel fuel from to (negb (d_assembly D to =? d_assembly D from))
  | _, _ => Some true
  end.

(* __check_type_access from an assembly, core.cpp 8709-8732. *)
Fixpoint check_type_access_assembly (D : decls) (fuel : nat) (type : nat) (cross_assembly : bool)
  : option bool :=
  match fuel with
  | O => None
  | S f =>
      match d_host D type with
      | Some host =>
          match check_type_access_assembly D f host cross_assembly with
          | Some true =>
              Some (match type_access_value D type with
                    | Public => true
                    | Internal => negb cross_assembly
                    | _ => false
                    end)
          | r => r
          end
      | None =>
          if cross_assembly then
            Some (match type_access_value D type with Public => true | _ => false end)
          else Some true
      end
  end.

(* check_access(from_assembly, host_type), core.cpp 8784-8791. *)
Definition check_access_type_assembly (D : decls) (fuel : nat) (assembly : nat) (t : ty)
  : option bool :=
  match to_general D t with
  | TGeneral i => check_type_access_assembly D fuel i (negb (d_assembly D i =? assembly))
  | _ => Some true
  end.

(* check_access(from_assembly, to_member) and (from_assembly, to_method),
   core.cpp 8794-8833. *)
Definition check_access_member_assembly (D : decls) (fuel : nat) (assembly : nat) (m : member)
  : option bool :=
  match to_general D (m_host m) with
  | TGeneral h =>
      let cross := negb (d_assembly D h =? assembly) in
      let allowed :=
        if cross then match member_access_value D h (m_access m) with Public => true | _ => false end
        else true in
      if allowed then check_access_type_assembly D fuel assembly (m_host m) else Some false
  | _ => Some false
  end.

(* __check_access, __ast.h 1180-1192: from the current type if there is one,
   else from the assembly. *)
Definition check_member_here (D : decls) (fuel : nat) (current : option ty) (assembly : nat)
  (m : member) : option bool :=
  match current with
  | Some t => check_access_member D fuel t m
  | None => check_access_member_assembly D fuel assembly m
  end.

Definition check_type_here (D : decls) (fuel : nat) (current : option ty) (assembly : nat)
  (t : ty) : option bool :=
  match current with
  | Some c => check_access_type D fuel c t
  | None => check_access_type_assembly D fuel assembly t
  end.
