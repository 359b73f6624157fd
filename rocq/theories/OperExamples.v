(** Operators of the classes of the small program world. *)
From Coq Require Import List Bool Arith Lia.
From Verif Require Import OverModel OverSpec OverExamples OperModel OperSpec.
Import ListNotations.

(** [class Animal { public static Animal operator +(Animal a, Animal b); }] *)
Definition plus : method := mk_method 1 (op_code Add) [] [by_value Animal; by_value Animal] None None.
(** The same with type parameters. *)
Definition plus_generic : method :=
  mk_method 2 (op_code Add) [0] [by_value Animal; by_value Animal] None None.

Definition zoo_facts : facts := mk_facts (fun _ => true) (fun _ => true) (fun _ => Some Animal).

Definition with_plus : classes :=
  mk_classes (fun t => if ty_eqb t Animal then [plus] else [])
             (fun t => if ty_eqb t Animal then Some Object else None).
Definition no_operators : classes :=
  mk_classes (fun _ => []) (fun t => if ty_eqb t Animal then Some Object else None).

Lemma plus_declared : well_declared zoo zoo_facts Animal Add plus.
Proof.
  constructor; try reflexivity.
  - exists (by_value Animal). split; [now left | reflexivity].
  - exists Animal. split; [reflexivity|]. right. discriminate.
Qed.

Lemma plus_generic_declared : well_declared zoo zoo_facts Animal Add plus_generic.
Proof.
  constructor; try reflexivity.
  - exists (by_value Animal). split; [now left | reflexivity].
  - exists Animal. split; [reflexivity|]. right. discriminate.
Qed.

Lemma animal_object : object zoo Animal.
Proof. split; [discriminate | now left]. Qed.

Lemma plus_takes (m : method) : m_params m = [by_value Animal; by_value Animal] -> takes zoo m [Animal; Animal].
Proof. unfold takes. intros ->. repeat constructor. Qed.
