(** What a pool has to do. *)

From Coq Require Import ZArith List Bool Arith.
Import ListNotations.
From Verif Require Import PoolModel.
Local Open Scope nat_scope.

(** The object exists: created, and not destroyed since. *)
Definition alive (tr : list event) (a : nat) : bool :=
  fold_left (fun s e => match e with
                        | Created b => if b =? a then true else s
                        | Destroyed b => if b =? a then false else s
                        | _ => s
                        end) tr false.

(** The object is with a user: handed out, and not returned since. *)
Definition out (tr : list event) (a : nat) : bool :=
  fold_left (fun s e => match e with
                        | Handed b => if b =? a then true else s
                        | Returned b => if b =? a then false else s
                        | _ => s
                        end) tr false.

(** Every event of the trace, with the trace before it. *)
Definition always (P : list event -> event -> Prop) (tr : list event) : Prop :=
  forall before e after, tr = before ++ e :: after -> P before e.

(** The creator never returns an object that exists. *)
Definition honest : list event -> Prop := always (fun tr e => match e with Created a => alive tr a = false | _ => True end).

(** What a pool may do. *)
Definition allowed (tr : list event) (e : event) : Prop :=
  match e with
  | Created _ => True
  | Handed a => alive tr a = true /\ out tr a = false
  | Returned a => out tr a = true
  | Refused a => out tr a = false
  | Destroyed a => alive tr a = true /\ out tr a = false
  | Failed => False
  end.

(** Each destruction is of an object that exists. *)
Definition once (tr : list event) : Prop := always (fun b e => match e with Destroyed a => alive b a = true | _ => True end) tr.
