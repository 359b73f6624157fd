(** C40: the small vector. *)

From Coq Require Import ZArith List Bool Lia.
Import ListNotations.
From Verif Require Import VecModel VecSpec VecProofs.
Open Scope Z_scope.

(** For every history of operations the vector holds what the list holds, whether the elements are in the object or in a
    buffer.  Missing: pushing an element of the vector itself, see below. *)
Theorem C40_list_partial : forall V init os, 0 < init -> all_proper V [] os ->
  exists v, run V init (empty V) os = Some v /\ holds V init v (on_list_all V os).
Proof. intros V init os H. exact (vec_list V init H os). Qed.
Print Assumptions C40_list_partial.

Example C40_list_case :
  let os := [Push Z 1; Push Z 2; Insert Z [7; 8; 9; 10] 1; Pop Z; Set_ Z 0 5; Copied Z; Insert Z [1] 99; Push Z 6; Truncate Z 4; Moved Z; Push Z 3] in
  all_proper Z [] os /\ on_list_all Z os = [5; 7; 8; 9; 3] /\
  match run Z 3 (empty Z) os with
  | Some v => count Z v = 5 /\ map (get Z 3 v) [0; 1; 2; 3; 4] = [Some 5; Some 7; Some 8; Some 9; Some 3] /\ at_ Z v <> Array
  | None => False
  end.
Proof. cbv zeta. split; [vm_compute; repeat split; congruence|]. split; [reflexivity|]. vm_compute. repeat split. discriminate. Qed.

(** Pushing an element of the vector itself when the array in the object is full reads memory already overwritten. *)
Theorem C40_own_refuted : forall V init l i, 0 < init -> Z.of_nat (length l) = init -> 0 <= i < init ->
  run V init (empty V) (map (Push V) l ++ [PushOwn V i]) = None.
Proof. intros V init l i H E _. exact (own_full V init H l i E). Qed.
Print Assumptions C40_own_refuted.

Example C40_own_case : run Z 2 (empty Z) [Push Z 4; Push Z 5; PushOwn Z 0] = None /\
  match run Z 3 (empty Z) [Push Z 4; Push Z 5; PushOwn Z 0] with
  | Some v => map (get Z 3 v) [0; 1; 2] = [Some 4; Some 5; Some 4]
  | None => False
  end.
Proof. vm_compute. repeat split. Qed.
