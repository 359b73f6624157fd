(** A method used in the examples of [PropertiesScope]. *)
From Coq Require Import List ZArith Bool Arith Lia.
Import ListNotations.
From Verif Require Import ScopeModel ScopeSpec.
Open Scope nat_scope.

(** Two types, one in the other: the inner one has a field 0 and two methods 1,
    the outer one a field 0 and a property 9. *)
Definition around : list (list (vkind * name)) :=
  [[(VField, Named 0); (VMethod, Named 1); (VMethod, Named 1)];
   [(VField, Named 0); (VProperty, Named 9)]].

(** One parameter, 2.  The body: a local 3, an if whose block has a local 0 that
    hides the field, a for with its variable 4 and a block with a local 5, a
    catch of 6. *)
Definition method : body :=
  Use (Named 0) (Declare (Named 3) (Use (Named 3)
  (Nested (Use (Named 2) (Block (Declare (Named 0) (Use (Named 0) (Temps 2 End))) End))
  (Use (Named 9)
  (For (Declare (Named 4) (Use (Named 4) (Block (Declare (Named 5) (Temps 1 End)) End)))
  (Catch (Named 6) (Block (Use (Named 6) End) End)
  (Use (Named 7) (Use (Named 8) (Use (Named 1) (Temps 1 End)))))))))).

Definition is_seven (x : name) : bool := name_eqb x (Named 7).

Lemma around_members : are_members around.
Proof. unfold are_members, around. repeat constructor; cbn; tauto. Qed.

Lemma around_apart : Forall members_apart around.
Proof.
  constructor; [|constructor; [|constructor]]; intros i j k x k' N E1 E2.
  - destruct i as [|[|[|i]]]; destruct j as [|[|[|j]]]; cbn in E1, E2; try congruence;
      try (destruct i; discriminate E1); try (destruct j; discriminate E2);
      injection E1 as <- <-; injection E2 as <-; split; reflexivity.
  - destruct i as [|[|i]]; destruct j as [|[|j]]; cbn in E1, E2; try congruence;
      try (destruct i; discriminate E1); try (destruct j; discriminate E2).
Qed.

Ltac not_there := intros HF; cbn in HF; repeat (destruct HF as [HF|HF]; [discriminate HF|]); exact HF.
Ltac apart := repeat (constructor; [not_there|]); constructor.

Lemma method_named : well_named around [Named 2] method.
Proof.
  split; [exact around_apart|]. split; [cbn; apart|]. cbn.
  repeat split; try exact I; apart.
Qed.

Lemma method_tidy : tidy InGroup method.
Proof. cbn. repeat split; try discriminate. right. repeat split; discriminate. Qed.
