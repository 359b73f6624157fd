(** What object locks have to do, in terms of the history of calls, latest first. *)

From Coq Require Import ZArith List Bool Arith.
Import ListNotations.
From Verif Require Import CppInt LockModel.
Local Open Scope Z_scope.

(** The object a thread asked for in a call that has not returned. *)
Fixpoint asks (h : list event) (t : nat) : option Z :=
  match h with
  | [] => None
  | Enter t' o :: r => if Nat.eqb t' t then Some o else asks r t
  | Lock t' _ :: r => if Nat.eqb t' t then None else asks r t
  | Exit _ _ :: r => asks r t
  end.

(** The thread got the object and has not left it since. *)
Fixpoint holds (h : list event) (t : nat) (o : Z) : bool :=
  match h with
  | [] => false
  | Enter _ _ :: r => holds r t o
  | Lock t' o' :: r => if Nat.eqb t' t && (o' =? o) then true else holds r t o
  | Exit t' o' :: r => if Nat.eqb t' t && (o' =? o) then false else holds r t o
  end.

(** What the guards of a program with [n] threads do: a thread does one thing at a time, does not enter an object it is in,
    and leaves only those. *)
Definition proper (n : nat) (h : list event) (e : event) : Prop :=
  match e with
  | Enter t o => (t < n)%nat /\ asks h t = None /\ holds h t o = false
  | Lock t o => asks h t = Some o
  | Exit t o => asks h t = None /\ holds h t o = true
  end.

(** The histories of such programs, whatever the order in which the threads run, and the state after them. *)
Inductive runs (n : nat) : list event -> state -> Prop :=
| Runs_start : runs n [] start
| Runs_step : forall h s e s', runs n h s -> proper n h e -> step s e = Done s' -> runs n (e :: h) s'.

(** Some thread is in the object or waits for it. *)
Definition in_use (h : list event) (o : Z) : Prop := exists t, holds h t o = true \/ asks h t = Some o.
