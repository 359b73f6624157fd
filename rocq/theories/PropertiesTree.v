(** C41: the snapshot of a tree; C57: walking a tree. *)

From Coq Require Import ZArith List Bool Arith Lia.
Import ListNotations.
From Verif Require Import CppInt TreeModel TreeSpec TreeProofs TreeExamples.
Local Open Scope nat_scope.

(** Storing a tree and restoring it gives the same tree, with a root without parent and sibling.  Missing: trees with a
    node that has more than 255 children, see below. *)
Theorem C41_round_trip_partial : forall V h a t fuel, holds V h a t -> at_most V 255 t -> nodes V t <= fuel ->
  exists ds ks h', store V fuel h (Some a) = Some (ds, ks) /\ restore V ds ks = Restored V h' (Some 0) /\ holds V h' 0 t /\ is_root V h' 0.
Proof. exact round_trip. Qed.
Print Assumptions C41_round_trip_partial.

(** So does storing no tree. *)
Theorem C41_null : forall V h fuel, store V fuel h None = Some ([], []) /\ restore V [] [] = Restored V (no_nodes V) None.
Proof. split; reflexivity. Qed.
Print Assumptions C41_null.

Example C41_round_trip_case : exists h, sample = Some h /\
  holds nat h 0 (T nat 1 [T nat 2 [T nat 4 []; T nat 5 []]; T nat 3 []]) /\ at_most nat 255 (T nat 1 [T nat 2 [T nat 4 []; T nat 5 []]; T nat 3 []]).
Proof.
  destruct sample_holds as (h & E & H). exists h. split; [exact E|]. split; [exact H|].
  repeat (constructor; [cbn; lia|]; intros c Hc; cbn in Hc; repeat destruct Hc as [<-|Hc]; try contradiction).
Qed.

(** When a node has more than 255 children, storing succeeds and restoring throws. *)
Theorem C41_wide_refuted : forall V h a t fuel, holds V h a t -> ~ at_most V 255 t -> nodes V t <= fuel ->
  exists ds ks, store V fuel h (Some a) = Some (ds, ks) /\ restore V ds ks = Threw V.
Proof. exact wide_throws. Qed.
Print Assumptions C41_wide_refuted.

Example C41_wide_case : ~ at_most nat 255 (T nat 1 (repeat (T nat 7 []) 256)) /\
  match many 256 (fst (new_node nat 1 (no_nodes nat))) with
  | Some h => match store nat 257 h (Some 0) with Some (ds, ks) => restore nat ds ks = Threw nat /\ length ds = 257 | None => False end
  | None => False
  end.
Proof. split; [intro H; apply at_most_length in H; rewrite repeat_length in H; lia|]. vm_compute. split; reflexivity. Qed.

(** Walking a tree visits every node below the root, each before its children and the children in order. *)
Theorem C57_walk : forall V h a t fuel, holds V h a t -> nodes V t <= fuel ->
  exists l, walk V fuel h a = Some l /\ values_at V h l (below V t).
Proof. intros V h a t fuel H F. destruct (walk_ok V fuel h a t H F) as (l & E & P & _). exists l. auto. Qed.
Print Assumptions C57_walk.

(** The leaves picked are the leaves of the tree, in order, when the root has a child. *)
Theorem C57_leaves_partial : forall V h a v c cs fuel, holds V h a (T V v (c :: cs)) -> nodes V (T V v (c :: cs)) <= fuel ->
  exists l, pick_leaves V fuel h a = Some l /\ values_at V h l (leaves V (T V v (c :: cs))).
Proof.
  intros V h a v c cs fuel H F. destruct (walk_ok V fuel h a _ H F) as (l & E & _ & Q). exists (filter (is_leaf V h) l).
  unfold pick_leaves. rewrite E. split; [reflexivity|exact Q].
Qed.
Print Assumptions C57_leaves_partial.

Example C57_walk_case : match sample with
  | Some h => option_map (map (fun b => option_map (value nat) (at_ nat h b))) (walk nat 5 h 0) = Some [Some 2; Some 4; Some 5; Some 3] /\
              option_map (map (fun b => option_map (value nat) (at_ nat h b))) (pick_leaves nat 5 h 0) = Some [Some 4; Some 5; Some 3]
  | None => False
  end.
Proof. vm_compute. split; reflexivity. Qed.

(** A root without children is a leaf, yet is not picked. *)
Theorem C57_single_refuted : forall V v fuel, let '(h, a) := new_node V v (no_nodes V) in
  holds V h a (T V v []) /\ pick_leaves V (S fuel) h a = Some [] /\ leaves V (T V v []) = [v].
Proof.
  intros V v fuel. cbn. split; [econstructor; [reflexivity|reflexivity|constructor]|]. destruct fuel; split; reflexivity.
Qed.
Print Assumptions C57_single_refuted.
