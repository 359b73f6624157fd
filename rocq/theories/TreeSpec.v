(** Trees and what it means that memory holds one. *)

From Coq Require Import ZArith List Bool.
Import ListNotations.
From Verif Require Import TreeModel.

Section Spec.
Variable V : Type.

(** A tree: the value and the children in order. *)
Inductive tree := T (v : V) (cs : list tree).

Fixpoint nodes (t : tree) : nat :=
  match t with T _ cs => S (fold_right (fun c n => nodes c + n)%nat 0%nat cs) end.

(** No node has more than [k] children. *)
Inductive at_most (k : nat) : tree -> Prop :=
| AtMost : forall v cs, (length cs <= k)%nat -> (forall c, In c cs -> at_most k c) -> at_most k (T v cs).

(** At [a] the memory holds the tree: value, and the children linked from the first child over the next siblings, each
    with [a] as parent. *)
Inductive holds (h : heap V) : nat -> tree -> Prop :=
| Holds : forall a v cs n, at_ V h a = Some n -> value V n = v -> linked h (Some a) (first_child V n) cs -> holds h a (T v cs)
with linked (h : heap V) : option nat -> option nat -> list tree -> Prop :=
| LinkedNil : forall p, linked h p None []
| LinkedCons : forall p a n t ts, at_ V h a = Some n -> parent V n = p -> holds h a t -> linked h p (next_sibling V n) ts ->
    linked h p (Some a) (t :: ts).

(** A root: no parent and no sibling. *)
Definition is_root (h : heap V) (a : nat) : Prop :=
  exists n, at_ V h a = Some n /\ parent V n = None /\ next_sibling V n = None.

(** The values below the root, each node before its children. *)
Fixpoint preorder (t : tree) : list V :=
  match t with T v cs => v :: flat_map preorder cs end.
Definition below (t : tree) : list V := match t with T _ cs => flat_map preorder cs end.

(** The values of the leaves. *)
Fixpoint leaves (t : tree) : list V :=
  match t with
  | T v [] => [v]
  | T _ cs => flat_map leaves cs
  end.

(** The values at the addresses. *)
Definition values_at (h : heap V) (l : list nat) (vs : list V) : Prop :=
  Forall2 (fun a v => exists n, at_ V h a = Some n /\ value V n = v) l vs.

End Spec.
