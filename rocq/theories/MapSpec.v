(** What maps have to do. *)

From Coq Require Import List Bool Sorted Permutation.
Import ListNotations.
From Verif Require Import MapModel.

(** [eqb] decides equality. *)
Definition decides {K} (eqb : K -> K -> bool) : Prop := forall a b, eqb a b = true <-> a = b.

(** [ltb] is a total order. *)
Definition total_order {K} (ltb : K -> K -> bool) : Prop :=
  (forall a, ltb a a = false) /\
  (forall a b c, ltb a b = true -> ltb b c = true -> ltb a c = true) /\
  (forall a b, ltb a b = false -> ltb b a = false -> a = b).

Section Spec.
Variables K V : Type.
Variable eqb : K -> K -> bool.
Variable def : V.

(** A finite map. *)
Definition fmap := K -> option V.
Definition put (k : K) (v : V) (m : fmap) : fmap := fun x => if eqb k x then Some v else m x.

Definition on_map (m : fmap) (c : call K V) : fmap :=
  match c with
  | Add _ _ k v | Assign _ _ k v => put k v m
  | Touch _ _ k => match m k with Some _ => m | None => put k def m end
  | Clear _ _ => fun _ => None
  end.

Definition on_map_all (cs : list (call K V)) : fmap := fold_left on_map cs (fun _ => None).

(** The result of sorting by key. *)
Definition sort_of (ltb : K -> K -> bool) (l l' : list (K * V)) : Prop :=
  Permutation l l' /\ StronglySorted (fun a b => ltb (fst b) (fst a) = false) l'.

(** Sorting that keeps pairs with the same key in order. *)
Definition stable_sort_of (ltb : K -> K -> bool) (l l' : list (K * V)) : Prop :=
  sort_of ltb l l' /\ forall k, filter (fun e => eqb (fst e) k) l' = filter (fun e => eqb (fst e) k) l.
End Spec.
