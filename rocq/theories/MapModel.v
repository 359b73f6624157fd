(** Model of the maps: [small_map_t] (algorithm/__collections.h 1622-1737), [fixed_map_t]
    (1747-1842) and [auto_cache_t] (1850-1880).

    The vector of the small map is a list (see [VecModel] and C40); [std::map] is a finite map. *)

From Coq Require Import List Bool Arith.
Import ListNotations.

(** ** The small map *)

Section Small.
Variables K V : Type.
Variable eqb : K -> K -> bool.        (* [==] of the keys *)
Variable def : V.                     (* [_D(value_t)] *)

Definition items := list (K * V).

(** [add], 1644-1656. *)
Fixpoint add (k : K) (v : V) (m : items) : items :=
  match m with
  | [] => [(k, v)]
  | (k', v') :: r => if eqb k' k then (k', v) :: r else (k', v') :: add k v r
  end.

(** [get], 1659-1670; [None]: throws. *)
Fixpoint get (k : K) (m : items) : option V :=
  match m with
  | [] => None
  | (k', v') :: r => if eqb k' k then Some v' else get k r
  end.

(** [find], 1673-1684: the index of the item, the size if there is none. *)
Fixpoint find_index (k : K) (m : items) : nat :=
  match m with
  | [] => 0
  | (k', _) :: r => if eqb k' k then 0 else S (find_index k r)
  end.

(** [operator []], 1699-1711: the map and the index of the value referred to. *)
Definition at_key (k : K) (m : items) : items * nat :=
  if find_index k m <? length m then (m, find_index k m) else (m ++ [(k, def)], length m).

(** Writing through the reference. *)
Fixpoint write (i : nat) (v : V) (m : items) : items :=
  match m, i with
  | [], _ => []
  | (k, _) :: r, O => (k, v) :: r
  | x :: r, S j => x :: write j v r
  end.

Inductive call := Add (k : K) (v : V) | Assign (k : K) (v : V) | Touch (k : K) | Clear.

Definition step (m : items) (c : call) : items :=
  match c with
  | Add k v => add k v m
  | Assign k v => let '(m1, i) := at_key k m in write i v m1
  | Touch k => fst (at_key k m)
  | Clear => []                       (* 1731-1734 *)
  end.

Definition calls (cs : list call) : items := fold_left step cs [].
End Small.

(** ** The fixed map *)

Section Fixed.
Variables K V : Type.
Variable ltb : K -> K -> bool.        (* [<] of the keys *)

(** The items appended and the size given to [init]. *)
Record fixed := Fixed { slots : option nat; pairs : list (K * V) }.

Definition no_pairs : fixed := Fixed None [].

(** [init], 1791-1799; [None]: throws. *)
Definition init (n : nat) (f : fixed) : option fixed :=
  match slots f with Some _ => None | None => Some (Fixed (Some n) []) end.

(** [append], 1779-1788. *)
Definition append (k : K) (v : V) (f : fixed) : option fixed :=
  match slots f with
  | None => None
  | Some n => if n <=? length (pairs f) then None else Some (Fixed (Some n) (pairs f ++ [(k, v)]))
  end.

Fixpoint appends (l : list (K * V)) (f : fixed) : option fixed :=
  match l with
  | [] => Some f
  | (k, v) :: r => match append k v f with Some f1 => appends r f1 | None => None end
  end.

(** [std::equal_range] on a sorted range, 1811: the first item not before [k], and the first one after it. *)
Fixpoint lower (k : K) (l : list (K * V)) : nat :=
  match l with
  | [] => 0
  | (k', _) :: r => if ltb k' k then S (lower k r) else 0
  end.
Fixpoint upper (k : K) (l : list (K * V)) : nat :=
  match l with
  | [] => 0
  | (k', _) :: r => if ltb k k' then 0 else S (upper k r)
  end.

(** [find], 1808-1816: an index; [end()] is the number of items. *)
Definition find_fixed (k : K) (l : list (K * V)) : nat :=
  if lower k l =? upper k l then length l else lower k l.

(** Dereferencing the iterator, 1762 and 1825; [None] at [end()]. *)
Definition value_at (i : nat) (l : list (K * V)) : option V := option_map snd (nth_error l i).
End Fixed.

(** ** The cache *)

Section Cache.
Variables K V : Type.
Variable eqb : K -> K -> bool.
(** The creator; the number tells the calls apart. *)
Variable create : nat -> K -> V.

(** The map, and how often the creator has been called. *)
Record cache := Cache { known : list (K * V); created : nat }.

Definition no_cache : cache := Cache [] 0.

(** [get], 1862-1869.  The creator does not itself use the cache. *)
Definition cached (k : K) (c : cache) : cache * V :=
  match find (fun e => eqb (fst e) k) (known c) with
  | Some (_, v) => (c, v)
  | None => let v := create (created c) k in (Cache ((k, v) :: known c) (S (created c)), v)
  end.

Fixpoint cacheds (ks : list K) (c : cache) : cache * list V :=
  match ks with
  | [] => (c, [])
  | k :: r => let '(c1, v) := cached k c in let '(c2, vs) := cacheds r c1 in (c2, v :: vs)
  end.
End Cache.
