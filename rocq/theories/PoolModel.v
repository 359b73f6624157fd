(** Model of the resource pool ([respool_t], algorithm/__collections.h 541-629) and of the string
    pool ([tsid_t] and [tspool_t], algorithm/__string.h 590-663).

    Every method of the resource pool holds the pool's lock (564, 588), so a history is a sequence of whole calls,
    whatever the threads.  Allocation never fails. *)

From Coq Require Import ZArith List Bool Arith.
Import ListNotations.
From Verif Require Import CppInt.
Local Open Scope nat_scope.

(** ** The resource pool *)

(** What the callers and the creator see; objects are addresses. *)
Inductive event :=
| Created (a : nat) | Destroyed (a : nat)      (* by the creator *)
| Handed (a : nat)                             (* acquire returned it *)
| Returned (a : nat) | Refused (a : nat)       (* release accepted it, or threw *)
| Failed.                                      (* the assertion on 580 *)

(** [__acquired_set] and [__released_queue], 622-623. *)
Record pool := Pool { acquired : list nat; released : list nat }.

Definition no_objects : pool := Pool [] [].

(** [acquire], 562-583; [new] is the address the creator would return. *)
Definition acquire (new : nat) (p : pool) : pool * list event :=
  let '(a, rest, ev) := match released p with
                        | [] => (new, [], [Created new])
                        | b :: r => (b, r, [])
                        end in
  if existsb (Nat.eqb a) (acquired p) then (Pool (acquired p) rest, ev ++ [Failed])
  else (Pool (a :: acquired p) rest, ev ++ [Handed a]).

(** The loop on 598-602. *)
Fixpoint trim (capacity : Z) (q : list nat) : list nat * list event :=
  match q with
  | [] => ([], [])
  | a :: r => if (capacity <? Z.of_nat (length q))%Z
              then let '(q', ev) := trim capacity r in (q', Destroyed a :: ev)
              else (q, [])
  end.

(** [release], 586-603. *)
Definition release (capacity : Z) (a : nat) (p : pool) : pool * list event :=
  if existsb (Nat.eqb a) (acquired p) then
    let acq := filter (fun b => negb (b =? a)) (acquired p) in
    let q := released p ++ [a] in
    if (wrap U64 (capacity * 3) / 2 <? Z.of_nat (length q))%Z
    then let '(q', ev) := trim capacity q in (Pool acq q', Returned a :: ev)
    else (Pool acq q, [Returned a])
  else (p, [Refused a]).

(** The destructor, 605-617.  The set is walked in address order; here in some order. *)
Definition destruct_pool (p : pool) : list event := map Destroyed (acquired p) ++ map Destroyed (released p).

Inductive call := Acquire (new : nat) | Release (a : nat).

Definition step (capacity : Z) (c : call) (p : pool) : pool * list event :=
  match c with Acquire n => acquire n p | Release a => release capacity a p end.

Fixpoint run (capacity : Z) (cs : list call) (p : pool) : pool * list event :=
  match cs with
  | [] => (p, [])
  | c :: r => let '(p1, ev) := step capacity c p in
              let '(p2, ev2) := run capacity r p1 in (p2, ev ++ ev2)
  end.

(** ** The string pool *)

Definition str := list Z.

Fixpoint str_eqb (a b : str) : bool :=
  match a, b with
  | [], [] => true
  | x :: a', y :: b' => Z.eqb x y && str_eqb a' b'
  | _, _ => false
  end.

(** [__string_set], __string.h 662: the strings with their addresses.  Elements of a [std::set] do not move, and a new one is
    at an address not in use; [next] is that address. *)
Record spool := SPool { strings : list (str * nat); next : nat }.

Definition no_strings : spool := SPool [] 1.

(** A string id, __string.h 590-624: the address, or 0 for null. *)
Definition to_sid (s : str) (p : spool) : spool * nat :=
  match find (fun e => str_eqb (fst e) s) (strings p) with
  | Some (_, a) => (p, a)
  | None => (SPool (strings p ++ [(s, next p)]) (S (next p)), next p)
  end.

(** [operator __string_t], __string.h 609-612; [None]: the address holds no string. *)
Definition of_sid (a : nat) (p : spool) : option str :=
  if a =? 0 then Some []
  else match find (fun e => snd e =? a) (strings p) with Some (s, _) => Some s | None => None end.

Fixpoint to_sids (ss : list str) (p : spool) : spool * list nat :=
  match ss with
  | [] => (p, [])
  | s :: r => let '(p1, a) := to_sid s p in let '(p2, l) := to_sids r p1 in (p2, a :: l)
  end.
