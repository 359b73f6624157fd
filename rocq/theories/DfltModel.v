(** What the compiler adds to a declared type: the types and modifiers of enum fields,
    static for constants, and default constructors.
    modules/compile/ast.cpp 2668-2742, 3405-3420. *)
From Coq Require Import List Bool Arith.
From Verif Require Import ModiModel.
Import ListNotations.

(* ttype_t, as far as ast.cpp 2669-2742 distinguishes them (no delegates or arrays). *)
Inductive tkind : Type := Class | Struct | Interface | Enum.

(* A field_t as ast.cpp 2671-2706 uses it; names and types are numbers. *)
Record fld : Type := mk_fld { f_name : nat; f_type : option nat; f_dec : option decorate }.

(* A method: whether it is a constructor (method_trait_t), the number of its parameters,
   its access, and whether it was added here (method_t as ast.cpp 2713-2736 and
   3405-3420 use it; bodies and names are left out). *)
Record meth : Type := mk_meth { c_constructor : bool; c_params : nat; c_access : access; c_added : bool }.

(* A declared type, type_t as ast.cpp 2660-2742 uses it. *)
Record decl : Type := mk_decl { t_id : nat; t_kind : tkind; t_fields : list fld; t_methods : list meth }.

(* What is logged, ast.cpp 2674, 2683, 2686, 2733. *)
Inductive complaint : Type :=
| UnexpectedType (f : nat) | UnexpectedDecorate (f : nat) | FieldPrototype (f : nat) | NoDefaultConstructor.

(* decorate_value_t::default_value, core.cpp 1086. *)
Definition is_default (d : decorate) : bool :=
  access_eqb (d_access d) Unspecified &&
  negb (d_static d || d_sealed d || d_override d || d_virtual d || d_abstract d || d_new d || d_const d ||
        d_readonly d || d_extern d).

(* ast.cpp 2688-2693. *)
Definition enum_decorate : decorate := mk_decorate Public true false false false false false true false false.

(* A field of an enum, ast.cpp 2671-2694. *)
Definition enum_field (t : nat) (f : fld) : fld * list complaint :=
  (mk_fld (f_name f) (Some t) (match f_dec f with Some d => Some d | None => Some enum_decorate end),
   (match f_type f with Some _ => [UnexpectedType (f_name f)] | None => [] end) ++
   (match f_dec f with
    | Some d => (if is_default d then [] else [UnexpectedDecorate (f_name f)]) ++
                (if negb (d_static d) || negb (d_const d) then [FieldPrototype (f_name f)] else [])
    | None => []
    end)).

(* Another field, ast.cpp 2699-2706. *)
Definition const_static (f : fld) : fld :=
  match f_dec f with
  | Some (mk_decorate a s se ov vi ab ne co re ex) =>
      mk_fld (f_name f) (f_type f) (Some (mk_decorate a (if co then true else s) se ov vi ab ne co re ex))
  | None => f
  end.

(* The loops over the fields, ast.cpp 2668-2707. *)
Definition walk_fields (t : decl) : list fld * list complaint :=
  match t_kind t with
  | Enum => (map (fun f => fst (enum_field (t_id t) f)) (t_fields t),
             flat_map (fun f => snd (enum_field (t_id t) f)) (t_fields t))
  | _ => (map const_static (t_fields t), [])
  end.

(* __append_default_constructor, ast.cpp 3405-3420. *)
Definition default_constructor : meth := mk_meth true 0 Public true.

(* ast.cpp 2713-2736: the first constructor is looked at. *)
Definition walk_methods (t : decl) : list meth * list complaint :=
  match t_kind t with
  | Class | Struct =>
      match find c_constructor (t_methods t) with
      | None => (t_methods t ++ [default_constructor], [])
      | Some c =>
          match t_kind t with
          | Struct => if (c_params c =? 0)%nat then (t_methods t, [NoDefaultConstructor])
                      else (t_methods t ++ [default_constructor], [])
          | _ => (t_methods t, [])
          end
      end
  | _ => (t_methods t, [])
  end.

(* __walk_default, ast.cpp 2660-2742, without the types that are declared twice and the members. *)
Definition walk (t : decl) : decl * list complaint :=
  (mk_decl (t_id t) (t_kind t) (fst (walk_fields t)) (fst (walk_methods t)),
   snd (walk_fields t) ++ snd (walk_methods t)).
