(** Model of the semaphore ([semaphore_t], algorithm/__thread.h 61-116 and algorithm/thread.cpp 14-64) used by several threads.

    Steps of the threads interleave in any order.  What runs under [__mutex] without waiting for anything else is one step.
    A [std::condition_variable] has a set of sleeping threads; [notify_one] wakes any one of them, or none when there are none,
    and the language allows a sleeping thread to wake without a notification.  A thread that wakes locks [__wait_mutex] again
    before it goes on.  A timed wait may report the timeout whether it was notified or not. *)

From Coq Require Import ZArith List Bool Arith.
Import ListNotations.
From Verif Require Import CppInt LockModel.
Local Open Scope Z_scope.

(** Where a thread is in [acquire], 67-94; [timed]: it was given a timeout. *)
Inductive place :=
| Outside
| Queued (timed : bool)              (* 71-76: holds [__mutex], locks [__wait_mutex] *)
| Ready (timed : bool)               (* 79-82: holds [__wait_mutex], about to wait *)
| Asleep (timed : bool)              (* 83-86, waiting for a notification *)
| Woken (timed ok : bool)            (* 83-86, locking [__wait_mutex] again; the result of the wait *)
| Returned (ok : bool).                  (* 88: holds [__wait_mutex], locks [__mutex] *)

(** The fields, 106-116; of a mutex, the thread that holds it. *)
Record sem := Sem {
  most : Z;
  signals : Z;
  waiting : Z;
  mutex : option nat;
  wait_mutex : option nat;
  places : nat -> place
}.

(** The constructor, thread.cpp 16-21. *)
Definition new_semaphore (count : Z) : sem := Sem count count 0 None None (fun _ => Outside).

Inductive action :=
| Acquire (t : nat) (timed : bool)        (* [acquire] up to locking [__wait_mutex] *)
| Queue (t : nat)                         (* [__wait_mutex] is locked *)
| Sleep (t : nat)                         (* the wait starts *)
| Wake (t : nat)                          (* the wait ends without a notification *)
| Expire (t : nat)                        (* the time is over *)
| Regain (t : nat)                        (* the wait has [__wait_mutex] again *)
| Finish (t : nat)                        (* the end of [acquire], 88-94 *)
| Try (t : nat)                           (* [try_acquire], thread.cpp 29-35 *)
| Release (t : nat) (woken : option nat). (* [release], thread.cpp 49-59; the thread that is notified *)

(** What the calling thread sees. *)
Inductive answer := Goes_on | Got | Not_got | Given | Refused.

Definition set_place (s : sem) (t : nat) (p : place) : sem :=
  Sem (most s) (signals s) (waiting s) (mutex s) (wait_mutex s) (update (places s) t p).

(** [__try_acquire], thread.cpp 37-47. *)
Definition try_acquire (s : sem) : option sem :=
  if (waiting s =? 0) && (0 <? signals s)
  then Some (Sem (most s) (CppInt.wrap U32 (signals s - 1)) (waiting s) (mutex s) (wait_mutex s) (places s))
  else None.

Definition outside (p : place) : bool := match p with Outside => true | _ => false end.

(** One step; [None] when the thread cannot take it now. *)
Definition step (s : sem) (a : action) : option (sem * answer) :=
  match a with
  | Acquire t timed =>
    if outside (places s t) then
      match mutex s with
      | Some _ => None
      | None =>
        match try_acquire s with
        | Some s1 => Some (s1, Got)
        | None => Some (Sem (most s) (signals s) (waiting s) (Some t) (wait_mutex s) (update (places s) t (Queued timed)), Goes_on)
        end
      end
    else None
  | Queue t =>
    match places s t, wait_mutex s with
    | Queued timed, None =>
      Some (Sem (most s) (signals s) (CppInt.wrap U32 (waiting s + 1)) None (Some t) (update (places s) t (Ready timed)), Goes_on)
    | _, _ => None
    end
  | Sleep t =>
    match places s t with
    | Ready timed => Some (Sem (most s) (signals s) (waiting s) (mutex s) None (update (places s) t (Asleep timed)), Goes_on)
    | _ => None
    end
  | Wake t =>
    match places s t with
    | Asleep timed => Some (set_place s t (Woken timed true), Goes_on)
    | _ => None
    end
  | Expire t =>
    match places s t with
    | Asleep true | Woken true _ => Some (set_place s t (Woken true false), Goes_on)
    | _ => None
    end
  | Regain t =>
    match places s t, wait_mutex s with
    | Woken _ ok, None => Some (Sem (most s) (signals s) (waiting s) (mutex s) (Some t) (update (places s) t (Returned ok)), Goes_on)
    | _, _ => None
    end
  | Finish t =>
    match places s t, mutex s with
    | Returned ok, None =>
      Some (Sem (most s) (if ok then CppInt.wrap U32 (signals s - 1) else signals s) (CppInt.wrap U32 (waiting s - 1)) None None
                (update (places s) t Outside), if ok then Got else Not_got)
    | _, _ => None
    end
  | Try t =>
    if outside (places s t) then
      match mutex s with
      | Some _ => None
      | None => match try_acquire s with
                | Some s1 => Some (s1, Got)
                | None => Some (s, Not_got)
                end
      end
    else None
  | Release t woken =>
    if outside (places s t) then
      match mutex s with
      | Some _ => None
      | None =>
        if most s <=? signals s then Some (s, Refused)
        else
          let s1 := Sem (most s) (CppInt.wrap U32 (signals s + 1)) (waiting s) None (wait_mutex s) (places s) in
          match woken with
          | None => Some (s1, Given)
          | Some u => match places s u with
                      | Asleep timed => Some (set_place s1 u (Woken timed true), Given)
                      | _ => None
                      end
          end
      end
    else None
  end.
