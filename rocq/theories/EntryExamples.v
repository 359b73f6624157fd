(** A program with an entry point. *)
From Coq Require Import List.
From Verif Require Import ModiModel EntryModel EntrySpec.
Import ListNotations.

Definition static_ (a : access) (ext : bool) : decorate :=
  mk_decorate a true false false false false false false false ext.

Definition main_of (i : nat) (a : access) (generics : nat) : emethod :=
  mk_emethod i Void 0 0 (Some (static_ a false)) generics.

Definition native : emethod := mk_emethod 5 OtherRet 0 2 (Some (static_ Private true)) 0.
Definition bad : emethod :=
  mk_emethod 6 OtherRet 1 2 (Some (mk_decorate Public false false false true false true false false false)) 0.

Definition program1 : list (attribute * emethod) :=
  [(InternalMethod, native); (EntryPoint, main_of 1 Public 0); (Inline, bad)].
