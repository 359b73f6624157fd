(** What the checks of constraints and base types are for. *)

From Coq Require Import List Bool Relations.Relation_Operators.
From Verif Require Import CircModel.
Import ListNotations.

(** *** Constraints *)

(** The parameter [x] is constrained by the parameter [y]. *)
Definition needs (cs : list constraint) (x y : name) : Prop :=
  exists c, In c cs /\ cparam c = x /\ In (GParam y) (ctypes c).

(** A way from [x] to [y]: the parameters behind [x]. *)
Inductive way (cs : list constraint) : name -> list name -> name -> Prop :=
| way_here x : way cs x [] x
| way_on x y p z : needs cs x y -> way cs y p z -> way cs x (y :: p) z.

(** There are not two ways from one parameter to another. *)
Definition single_ways (cs : list constraint) : Prop :=
  forall x y p q, way cs x p y -> way cs x q y -> p = q.

(** No parameter is constrained by itself, directly or over others. *)
Definition no_circle (cs : list constraint) : Prop :=
  forall x, ~ clos_trans _ (needs cs) x x.

(** The types that are classes: Object, Enum, and the classes of the program. *)
Inductive class_type : gtype -> Prop :=
| class_object : class_type GObject
| class_enum : class_type GEnum
| class_own i s : class_type (GType i true s).

(** The rules for a constraint: no type twice, not Object, no sealed types, a class
    comes first, no class but Enum together with [class] or [struct], not both of
    these, not [new()] together with [struct]. *)
Record rules (c : constraint) : Prop := {
  r_once : NoDup (ctypes c);
  r_object : ~ In GObject (ctypes c);
  r_sealed : forall i k, ~ In (GType i k true) (ctypes c);
  r_first : forall l1 t l2, ctypes c = l1 ++ t :: l2 -> class_type t -> l1 = [];
  r_class : forall t, In t (ctypes c) -> class_type t -> t <> GEnum ->
              cclass c = false /\ cstruct c = false;
  r_one : ~ (cclass c = true /\ cstruct c = true);
  r_new : ~ (cstruct c = true /\ cnew c = true) }.

(** Each parameter is constrained once, by the rules. *)
Definition lawful (cs : list constraint) : Prop :=
  NoDup (map cparam cs) /\ forall c, In c cs -> rules c.

(** *** Base types *)

(** [b] is a base type of [a]. *)
Definition base (G : types) (a b : tid) : Prop := exists s, In s (supers G a) /\ general G s = b.

(** The base types of the types of a program are types of the program. *)
Definition closed (G : types) : Prop := forall a b, In a (univ G) -> base G a b -> In b (univ G).
