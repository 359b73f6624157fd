(** Declared types. *)
From Coq Require Import List.
From Verif Require Import ModiModel DfltModel DfltSpec.
Import ListNotations.

Definition ctor (n : nat) : meth := mk_meth true n Public false.
Definition plain : meth := mk_meth false 0 Public false.

Definition const_private : decorate := mk_decorate Private false false false false false false true false false.

Definition color : decl := mk_decl 7 Enum [mk_fld 1 None None; mk_fld 2 None None] [].
Definition color_wrong : decl := mk_decl 7 Enum [mk_fld 1 (Some 3) None; mk_fld 2 None (Some const_private)] [].
Definition empty_class : decl := mk_decl 8 Class [mk_fld 1 (Some 3) (Some const_private)] [plain].
Definition point : decl := mk_decl 9 Struct [] [plain; ctor 2].
Definition point_twice : decl := mk_decl 9 Struct [] [ctor 2; ctor 0].
