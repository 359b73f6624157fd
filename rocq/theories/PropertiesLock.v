(** C66: mutual exclusion and safety of object locks; C67: the table of object locks is bounded. *)

From Coq Require Import ZArith List Bool Arith Lia.
Import ListNotations.
From Verif Require Import CppInt PoolModel LockModel LockSpec LockProofs LockExamples.
Local Open Scope Z_scope.

(** In every interleaving no two threads are in the same object. *)
Theorem C66_exclusion : forall n h s t1 t2 o, Z.of_nat n <= tmax I32 -> runs n h s -> holds h t1 o = true -> holds h t2 o = true -> t1 = t2.
Proof. exact exclusion. Qed.
Print Assumptions C66_exclusion.

(** In every interleaving a call does what it should: it never throws and never is undefined, and a thread waits only
    for an object another thread is in. *)
Theorem C66_calls : forall n h s e, Z.of_nat n <= tmax I32 -> runs n h s -> proper n h e ->
  (exists s', step s e = Done s') \/ (exists t t' o, e = Lock t o /\ t' <> t /\ holds h t' o = true /\ step s e = Blocked).
Proof. exact calls_succeed. Qed.
Print Assumptions C66_calls.

Example C66_case : exists s, runs 3 (rev busy ++ []) s /\ holds (rev busy ++ []) 0 140 = true /\ holds (rev busy ++ []) 2 144 = true /\
  proper 3 (rev busy ++ []) (Lock 1 140) /\ step s (Lock 1 140) = Blocked /\ length (table s) = 2%nat /\ length (released (mutexes s)) = 8%nat.
Proof.
  destruct (follow start busy) as [s | | |] eqn:E; try (vm_compute in E; discriminate). exists s.
  split; [apply (follow_runs 3 busy [] start s); [constructor | vm_compute; reflexivity | exact E] |].
  vm_compute in E. injection E as <-. vm_compute. repeat split; reflexivity.
Qed.

(** The lock is not recursive: the guards of a program must not enter an object twice, the hypothesis [proper] makes. *)
Example C66_again : follow start again = Undefined.
Proof. vm_compute. reflexivity. Qed.

(** However many objects were locked before, the table has no more entries than there are objects in use, and ten;
    the pool of unused mutexes has at most twelve. *)
Theorem C67_bounded : forall n h s objs, Z.of_nat n <= tmax I32 -> runs n h s -> (forall o, in_use h o -> In o objs) ->
  (length (table s) <= length objs + 10)%nat /\ (length (released (mutexes s)) <= 12)%nat.
Proof. exact table_bounded. Qed.
Print Assumptions C67_bounded.

Example C67_case : exists s, runs 3 (rev busy ++ []) s /\ (forall o, in_use (rev busy ++ []) o -> In o [140; 144]) /\ length (table s) = 2%nat.
Proof.
  destruct (follow start busy) as [s | | |] eqn:E; try (vm_compute in E; discriminate). exists s.
  split; [apply (follow_runs 3 busy [] start s); [constructor | vm_compute; reflexivity | exact E] |].
  split; [| vm_compute in E; injection E as <-; reflexivity].
  apply used_right. vm_compute. reflexivity.
Qed.
