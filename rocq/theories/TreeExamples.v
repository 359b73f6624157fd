(** Trees for the examples. *)

From Coq Require Import List Arith.
Import ListNotations.
From Verif Require Import TreeModel TreeSpec.
Local Open Scope nat_scope.

(** A tree built with the API: 1 with the children 2 (with 4 and 5) and 3. *)
Definition sample : option (heap nat) :=
  let '(h0, r) := new_node nat 1 (no_nodes nat) in
  match append_child nat r 2 h0 with
  | Some (h1, a) =>
    match append_sibling nat a 3 h1 with
    | Some (h2, _) =>
      match append_child nat a 5 h2 with
      | Some (h3, _) => match append_child nat a 4 h3 with Some (h4, _) => Some h4 | None => None end
      | None => None
      end
    | None => None
    end
  | None => None
  end.

(** A root with [k] children. *)
Fixpoint many (k : nat) (h : heap nat) : option (heap nat) :=
  match k with
  | O => Some h
  | S k' => match append_child nat 0 7 h with Some (h1, _) => many k' h1 | None => None end
  end.

Lemma at_most_length : forall V k v cs, at_most V k (T V v cs) -> length cs <= k.
Proof. intros V k v cs H. inversion H. assumption. Qed.

Lemma sample_nodes : exists h, sample = Some h /\
  at_ nat h 0 = Some (Node nat 1 (Some 1) None None) /\ at_ nat h 1 = Some (Node nat 2 (Some 4) (Some 2) (Some 0)) /\
  at_ nat h 2 = Some (Node nat 3 None None (Some 0)) /\ at_ nat h 3 = Some (Node nat 5 None None (Some 1)) /\
  at_ nat h 4 = Some (Node nat 4 None (Some 3) (Some 1)).
Proof. eexists. split; [reflexivity|]. vm_compute. repeat split. Qed.

Lemma sample_holds : exists h, sample = Some h /\ holds nat h 0 (T nat 1 [T nat 2 [T nat 4 []; T nat 5 []]; T nat 3 []]).
Proof.
  destruct sample_nodes as (h & E & E0 & E1 & E2 & E3 & E4). exists h. split; [exact E|].
  econstructor; [exact E0|reflexivity|]. cbn [first_child].
  eapply LinkedCons; [exact E1|reflexivity| |].
  - econstructor; [exact E1|reflexivity|]. cbn [first_child].
    eapply LinkedCons; [exact E4|reflexivity|econstructor; [exact E4|reflexivity|constructor]|]. cbn [next_sibling].
    eapply LinkedCons; [exact E3|reflexivity|econstructor; [exact E3|reflexivity|constructor]|]. constructor.
  - cbn [next_sibling]. eapply LinkedCons; [exact E2|reflexivity|econstructor; [exact E2|reflexivity|constructor]|]. constructor.
Qed.
