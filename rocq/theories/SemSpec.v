(** What a semaphore has to do, in terms of the history of steps and their answers, latest first. *)

From Coq Require Import ZArith List Bool Arith.
Import ListNotations.
From Verif Require Import CppInt SemModel.
Local Open Scope Z_scope.

Definition history := list (action * answer).

Definition actor (a : action) : nat :=
  match a with
  | Acquire t _ | Queue t | Sleep t | Wake t | Expire t | Regain t | Finish t | Try t | Release t _ => t
  end.

(** Signals that were acquired and not released. *)
Fixpoint held (h : history) : Z :=
  match h with
  | [] => 0
  | (_, Got) :: r => held r + 1
  | (_, Given) :: r => held r - 1
  | _ :: r => held r
  end.

(** [notify_one] wakes a sleeping thread, and none only if there is none. *)
Definition notifies (n : nat) (s : sem) (a : action) : Prop :=
  match a with
  | Release _ None => forall u, (u < n)%nat -> match places s u with Asleep _ => False | _ => True end
  | Release _ (Some u) => exists timed, places s u = Asleep timed
  | _ => True
  end.

(** The histories of [n] threads, in whatever order they run, of a semaphore made with a number of signals, and the state after them. *)
Inductive runs (n : nat) (count : Z) : history -> sem -> Prop :=
| Runs_new : runs n count [] (new_semaphore count)
| Runs_step : forall h s a s' r, runs n count h s -> (actor a < n)%nat -> notifies n s a -> step s a = Some (s', r) ->
    runs n count ((a, r) :: h) s'.

(** No thread woke without a notification. *)
Definition no_spurious (h : history) : Prop := forall t r, ~ In (Wake t, r) h.

(** The thread is in a call that has not returned. *)
Definition inside (s : sem) (t : nat) : Prop := places s t <> Outside.

(** What the calls in progress do from here on: no new calls, and no waking without a notification. *)
Definition in_progress (a : action) : Prop :=
  match a with
  | Queue _ | Sleep _ | Expire _ | Regain _ | Finish _ => True
  | Acquire _ _ | Try _ | Release _ _ | Wake _ => False
  end.

Inductive settles : sem -> sem -> Prop :=
| Settles_now : forall s, settles s s
| Settles_step : forall s a s' r s'', in_progress a -> step s a = Some (s', r) -> settles s' s'' -> settles s s''.
