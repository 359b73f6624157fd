(** What an entry point should be. *)
From Coq Require Import List Bool Arith.
From Verif Require Import ModiModel EntryModel.
Import ListNotations.

(** None of the modifiers that make no sense. *)
Definition plain_modifiers (d : decorate) : Prop :=
  d_sealed d = false /\ d_override d = false /\ d_virtual d = false /\ d_abstract d = false /\
  d_new d = false /\ d_const d = false /\ d_readonly d = false.

(** Everything but the access. *)
Definition start_shape (m : emethod) : Prop :=
  e_ret m <> OtherRet /\ e_generics m = 0 /\ e_params m = 0 /\
  d_static (decorate_of m) = true /\ plain_modifiers (decorate_of m).

Definition is_public (m : emethod) : Prop := d_access (decorate_of m) = Public.

(** Those accesses that are taken for public. *)
Definition odd_access (m : emethod) : Prop :=
  d_access (decorate_of m) = Private \/ d_access (decorate_of m) = ProtectedOrInternal.

(** The methods with an attribute, in order. *)
Definition marked (a : attribute) (l : list (attribute * emethod)) (m : emethod) : Prop := In (a, m) l.

Definition is_entry (x : attribute * emethod) : bool := match fst x with EntryPoint => true | _ => false end.

Definition entries (l : list (attribute * emethod)) : list emethod := map snd (filter is_entry l).

Definition internal_shape (m : emethod) : Prop :=
  d_static (decorate_of m) = true /\ d_extern (decorate_of m) = true /\ plain_modifiers (decorate_of m).

Definition has_keyword (d : decorate) (k : keyword) : bool :=
  match k with
  | Sealed => d_sealed d | Override => d_override d | Virtual => d_virtual d | Abstract => d_abstract d
  | New => d_new d | Const => d_const d | Readonly => d_readonly d
  end.
