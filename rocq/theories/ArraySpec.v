(** What C32-C34, C53 and C54 speak about. *)

From Coq Require Import ZArith List Bool.
Import ListNotations.
Open Scope Z_scope.

(** Number of elements of a rectangular array. *)
Fixpoint product (ls : list Z) : Z := match ls with [] => 1 | l :: r => l * product r end.

(** An index tuple of the right rank, each index within its dimension. *)
Definition inside (lengths idx : list Z) : Prop :=
  Forall2 (fun l i => 0 <= i < l) lengths idx.

(** Lexicographic position of an index tuple. *)
Fixpoint row_major (lengths idx : list Z) : Z :=
  match lengths, idx with
  | _ :: ls, i :: is => i * product ls + row_major ls is
  | _, _ => 0
  end.

(** Arrays the run time can represent. *)
Definition representable (lengths : list Z) : Prop :=
  lengths <> [] /\ Forall (fun l => 0 < l) lengths /\ product lengths <= 2 ^ 31 - 1.
