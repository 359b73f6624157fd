(** C68: a semaphore never hands out more signals than it has; C69: a thread that waits gets a signal that is free. *)

From Coq Require Import ZArith List Bool Arith Lia.
Import ListNotations.
From Verif Require Import CppInt SemModel SemSpec SemProofs.
Local Open Scope Z_scope.

(** In every interleaving in which no thread wakes without a notification.  The full property has no such hypothesis. *)
Theorem C68_capacity_partial : forall n count h s, 0 <= count < 4294967296 -> Z.of_nat n < 4294967296 -> runs n count h s -> no_spurious h ->
  0 <= held h <= count.
Proof. exact capacity. Qed.
Print Assumptions C68_capacity_partial.

(** A release is refused exactly when no signal is held. *)
Theorem C68_release_partial : forall n count h s t woken s' r, 0 <= count < 4294967296 -> Z.of_nat n < 4294967296 -> runs n count h s -> no_spurious h ->
  step s (Release t woken) = Some (s', r) -> r = (if held h =? 0 then Refused else Given).
Proof. exact release_answer. Qed.
Print Assumptions C68_release_partial.

(** Two threads hold the only signal, and the semaphore then has 4294967295 signals to give. *)
Theorem C68_refuted : exists h s, runs 2 1 h s /\ held h = 2 /\ signals s = 4294967295.
Proof. exact spurious. Qed.
Print Assumptions C68_refuted.

(** Three threads, two signals; the third waits, is notified and gets the signal that was released. *)
Example C68_case : exists h s, runs 3 2 h s /\ no_spurious h /\ held h = 2 /\ In (Finish 2, Got) h.
Proof.
  destruct (follow (new_semaphore 2) [] [Acquire 0 false; Try 1; Acquire 2 true; Queue 2; Sleep 2; Try 0; Release 1 (Some 2%nat); Regain 2; Finish 2]) as [(s, h) |] eqn:E;
    [| vm_compute in E; discriminate].
  exists h, s. split.
  - refine (follow_runs 3 2 _ (new_semaphore 2) [] s h _ _ E); [constructor | vm_compute; reflexivity].
  - vm_compute in E. injection E as _ <-. split; [intros t r I; cbn [In] in I; intuition congruence | split; [reflexivity | left; reflexivity]].
Qed.

(** While no other thread is in a call, acquire and try return at once exactly when a signal is free.
    The full property: a thread in [acquire] returns with a signal whenever signals are free for long enough. *)
Theorem C69_uncontended_partial : forall n count h s t timed, 0 <= count < 4294967296 -> Z.of_nat n < 4294967296 -> runs n count h s -> no_spurious h ->
  (t < n)%nat -> (forall u, (u < n)%nat -> ~ inside s u) ->
  (held h < count -> exists s', step s (Acquire t timed) = Some (s', Got) /\ step s (Try t) = Some (s', Got)) /\
  (held h = count -> exists s', step s (Acquire t timed) = Some (s', Goes_on) /\ step s (Try t) = Some (s, Not_got)).
Proof. exact uncontended. Qed.
Print Assumptions C69_uncontended_partial.

(** A signal released between the moment the waiting thread lets go of the lock and its wait is lost: nobody holds a
    signal, yet the thread waits for ever and a try is refused. *)
Theorem C69_lost_refuted : exists h s, runs 2 1 h s /\ no_spurious h /\ held h = 0 /\ inside s 1 /\
  (forall s', settles s s' -> inside s' 1) /\ step s (Try 0) = Some (s, Not_got).
Proof. exact lost. Qed.
Print Assumptions C69_lost_refuted.

(** Two threads block each other for ever, each with one of the two locks, while nobody holds a signal. *)
Theorem C69_deadlock_refuted : exists h s, runs 2 1 h s /\ no_spurious h /\ held h = 0 /\ inside s 0 /\ inside s 1 /\ forall a, step s a = None.
Proof. exact deadlock. Qed.
Print Assumptions C69_deadlock_refuted.

Example C69_case : exists h s, runs 3 2 h s /\ no_spurious h /\ held h = 1 /\ forall u, ~ inside s u.
Proof.
  destruct (follow (new_semaphore 2) [] [Acquire 0 false; Try 1; Acquire 2 true; Queue 2; Sleep 2; Expire 2; Regain 2; Finish 2; Release 1 None]) as [(s, h) |] eqn:E;
    [| vm_compute in E; discriminate].
  exists h, s. split.
  - refine (follow_runs 3 2 _ (new_semaphore 2) [] s h _ _ E); [constructor | vm_compute; reflexivity].
  - cbn in E. injection E as <- <-. split; [intros t r I; cbn [In] in I; intuition congruence | split; [reflexivity |]].
    intros u N. apply N. cbn [places]. unfold LockModel.update. destruct (Nat.eqb u 2); reflexivity.
Qed.
