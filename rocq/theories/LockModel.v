(** Model of the object locks ([object_lock_manager_t] and its guard, algorithm/__thread.h 133-232) used by several threads.

    The steps of the threads interleave in any order.  The parts of [enter] and [exit] that run under the manager's own
    mutex (146-149 and 157-167) are one step each: they are excluded from each other by that mutex and nothing in them waits
    for another lock ([unlock] does not block).  Locking the mutex of the object (36, 151) is a step of its own, after the manager's
    mutex has been left.  A mutex is a [std::mutex]: locking it again in the thread that holds it and unlocking it in
    another thread are undefined, and so is the use of one that was destroyed.

    Objects are addresses.  A mutex gets an address that was never used before; that addresses are used again is not modelled,
    but that no thread refers to a destroyed mutex is proved. *)

From Coq Require Import ZArith List Bool Arith.
Import ListNotations.
From Verif Require Import CppInt PoolModel.
Local Open Scope Z_scope.

(** [__mutex_wrap_t], 180-190: the thread that holds the mutex and the number of references. *)
Record wrap := Wrap { holder : option nat; refs : Z }.

(** The fields of the manager, 192-195, and for each thread inside of [enter] the object and the mutex it is about to lock. *)
Record state := State {
  table : list (Z * nat);
  exited : Z;
  mutexes : PoolModel.pool;
  cells : nat -> wrap;
  fresh : nat;
  pending : nat -> option (Z * nat)
}.

Definition start : state := State [] 0 no_objects (fun _ => Wrap None 0) 0 (fun _ => None).

Inductive event :=
| Enter (t : nat) (o : Z)        (* [enter] up to line 35, 144-151 *)
| Lock (t : nat) (o : Z)         (* line 36: the mutex is locked and [enter] returns *)
| Exit (t : nat) (o : Z).        (* [exit], 155-168 *)

Inductive result := Done (s : state) | Blocked | Throws | Undefined.

(** Adding one to an [int32_t], 149, 165; [None] when it overflows. *)
Definition plus_one (v : Z) : option Z := if v <? tmax I32 then Some (v + 1) else None.

Definition update {A : Type} (f : nat -> A) (k : nat) (v : A) : nat -> A := fun x => if Nat.eqb x k then v else f x.

(** [std::map::find], 208. *)
Fixpoint lookup (o : Z) (t : list (Z * nat)) : option nat :=
  match t with
  | [] => None
  | (k, w) :: r => if k =? o then Some w else lookup o r
  end.

(** A new element of the [std::map], 215, in the order of the keys. *)
Fixpoint insert (o : Z) (w : nat) (t : list (Z * nat)) : list (Z * nat) :=
  match t with
  | [] => [(o, w)]
  | (k, v) :: r => if o <? k then (o, w) :: (k, v) :: r else (k, v) :: insert o w r
  end.

(** The pool of mutexes, __collections.h 562-603, with its default capacity 8; [None] when it throws. *)
Definition take (p : PoolModel.pool) (new : nat) : option (PoolModel.pool * nat) :=
  match released p with
  | [] => if existsb (Nat.eqb new) (acquired p) then None else Some (fst (acquire new p), new)
  | b :: _ => if existsb (Nat.eqb b) (acquired p) then None else Some (fst (acquire new p), b)
  end.

Definition give_back (p : PoolModel.pool) (w : nat) : option PoolModel.pool :=
  if existsb (Nat.eqb w) (acquired p) then Some (fst (release 8 w p)) else None.

(** [__clean_up], 219-231: what is left of the table. *)
Fixpoint clean_up (m : nat -> wrap) (t : list (Z * nat)) (p : PoolModel.pool) : option (list (Z * nat) * PoolModel.pool) :=
  match t with
  | [] => Some ([], p)
  | (o, w) :: r =>
    if refs (m w) =? 0 then
      match give_back p w with
      | None => None
      | Some p1 => clean_up m r p1
      end
    else
      match clean_up m r p with
      | None => None
      | Some (t1, p1) => Some ((o, w) :: t1, p1)
      end
  end.

(** The first part of [__get_mutex_wrap], 201-205. *)
Definition tidy (s : state) : option state :=
  if 10 <=? exited s then
    match clean_up (cells s) (table s) (mutexes s) with
    | None => None
    | Some (t1, p1) => Some (State t1 0 p1 (cells s) (fresh s) (pending s))
    end
  else Some s.

(** [__get_mutex_wrap], 199-216; [None] when it throws. *)
Definition get_wrap (s0 : state) (o : Z) (create : bool) : option (state * nat) :=
  match tidy s0 with
  | None => None
  | Some s =>
    match lookup o (table s) with
    | Some w => Some (s, w)
    | None =>
      if create then
        match take (mutexes s) (fresh s) with
        | None => None
        | Some (p1, w) =>
          Some (State (insert o w (table s)) (exited s) p1 (cells s) (if Nat.eqb w (fresh s) then S (fresh s) else fresh s) (pending s), w)
        end
      else None
    end
  end.

(** The mutex exists. *)
Definition exists_now (p : PoolModel.pool) (w : nat) : bool :=
  existsb (Nat.eqb w) (acquired p) || existsb (Nat.eqb w) (released p).

Definition set_cell (s : state) (w : nat) (c : wrap) : state :=
  State (table s) (exited s) (mutexes s) (update (cells s) w c) (fresh s) (pending s).
Definition set_pending (s : state) (t : nat) (x : option (Z * nat)) : state :=
  State (table s) (exited s) (mutexes s) (cells s) (fresh s) (update (pending s) t x).
Definition set_exited (s : state) (v : Z) : state :=
  State (table s) v (mutexes s) (cells s) (fresh s) (pending s).

(** A thread inside of [enter] can only go on with it; other steps of it are [Blocked]. *)
Definition step (s : state) (e : event) : result :=
  match e with
  | Enter t o =>
    match pending s t with
    | Some _ => Blocked
    | None =>
      match get_wrap s o true with
      | None => Throws
      | Some (s1, w) =>
        match plus_one (refs (cells s1 w)) with
        | None => Undefined
        | Some r => Done (set_pending (set_cell s1 w (Wrap (holder (cells s1 w)) r)) t (Some (o, w)))
        end
      end
    end
  | Lock t o =>
    match pending s t with
    | None => Blocked
    | Some (o', w) =>
      if o =? o' then
        if exists_now (mutexes s) w then
          match holder (cells s w) with
          | None => Done (set_pending (set_cell s w (Wrap (Some t) (refs (cells s w)))) t None)
          | Some t' => if Nat.eqb t t' then Undefined else Blocked
          end
        else Undefined
      else Blocked
    end
  | Exit t o =>
    match pending s t with
    | Some _ => Blocked
    | None =>
      match get_wrap s o false with
      | None => Throws
      | Some (s1, w) =>
        let r := refs (cells s1 w) in
        if r <=? 0 then Throws
        else
          match (if r - 1 =? 0 then plus_one (exited s1) else Some (exited s1)) with
          | None => Undefined
          | Some e1 =>
            match holder (cells s1 w) with
            | Some t' => if Nat.eqb t t' then Done (set_exited (set_cell s1 w (Wrap None (r - 1))) e1) else Undefined
            | None => Undefined
            end
          end
      end
    end
  end.
