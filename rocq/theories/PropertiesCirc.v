(** C112, C113: the constraints of generic parameters, circles of base types. *)
From Coq Require Import List Bool Relations.Relation_Operators.
From Verif Require Import CircModel CircSpec CircProofs CircExamples.
Import ListNotations.

(** *** C112 *)

(** The constraints of a generic type or method are accepted exactly if they follow the rules and
    no parameter leads to another one in two ways. *)
Theorem C112_accepts cs : check_constraints cs = [] <-> lawful cs /\ single_ways cs.
Proof. exact (accepts_exactly cs). Qed.
Print Assumptions C112_accepts.

Example C112_accepts_case : check_constraints plain = [] /\
  way plain 0 [1; 2] 2 /\
  check_constraints [where_ 0 [GObject]] = [SpecialType] /\
  check_constraints [where_ 0 [GType 8 false false; GType 7 true false]] = [PositionError] /\
  check_constraints [where_ 0 [GType 7 true true]; where_ 0 []] = [InvalidType; DuplicateSpecified].
Proof.
  split; [reflexivity|]. split; [|auto]. econstructor; [|econstructor; [|constructor]].
  - eexists. split; [left; reflexivity|]. cbn. auto.
  - eexists. split; [right; left; reflexivity|]. cbn. auto.
Qed.

(** In accepted constraints no parameter is constrained by itself. *)
Theorem C112_no_circle cs : check_constraints cs = [] -> no_circle cs.
Proof. exact (accepted_no_circle cs). Qed.
Print Assumptions C112_no_circle.

Example C112_no_circle_case : check_constraints plain = [] /\ needs plain 0 1 /\
  clos_trans _ (needs ring) 0 0 /\ check_constraints ring = [CircularDependency].
Proof.
  split; [reflexivity|]. split; [eexists; split; [left; reflexivity|]; cbn; auto|].
  split; [exact ring_circle | reflexivity].
Qed.

(** Constraints without a circle are refused as circular: [where A : B, C where B : D where C : D]. *)
Theorem C112_diamond_refuted : exists cs,
  lawful cs /\ no_circle cs /\ check_constraints cs = [CircularDependency].
Proof.
  exists diamond. split; [exact diamond_lawful|]. split; [|reflexivity].
  intros x H. exact (PeanoNat.Nat.lt_irrefl x (diamond_less x x H)).
Qed.
Print Assumptions C112_diamond_refuted.

(** *** C113 *)

(** The check of the base types of a type comes to an end, and reports a super type exactly if the
    type is a base type of itself; the super type is the first one that leads back to the type. *)
Theorem C113_reports G T : closed G -> In T (univ G) ->
  match circle_base G T with
  | None => False
  | Some None => ~ clos_trans _ (base G) T T
  | Some (Some s) => exists l1 l2, supers G T = l1 ++ s :: l2 /\
      clos_refl_trans _ (base G) (general G s) T /\
      forall u, In u l1 -> ~ clos_refl_trans _ (base G) (general G u) T
  end.
Proof. exact (circle_base_spec G T). Qed.
Print Assumptions C113_reports.

Example C113_reports_case : closed looped /\ In 0 (univ looped) /\
  circle_base looped 0 = Some (Some 10) /\ circle_base looped 1 = Some (Some 2) /\
  circle_base looped 3 = Some None /\ clos_trans _ (base looped) 0 0.
Proof.
  split; [exact looped_closed|]. split; [left; reflexivity|]. split; [reflexivity|].
  split; [reflexivity|]. split; [reflexivity | exact looped_circle].
Qed.
