(** Strings of the runtime: their order, and the pool in which names are looked up.
    include/modules/rt.h 356-461; modules/rt/rt.cpp 134-207. *)
From Coq Require Import List Bool Arith ZArith Lia.
From Verif Require Import CppInt.
Import ListNotations.
Open Scope Z_scope.

(* Characters by address; char_t is int32. *)
Definition memory : Type := nat -> Z.

(* rt_string_t, rt.h 356-368. *)
Record rt_string : Type := mk_rt { at_ : nat; len : Z }.

(* A difference of two ints; None: outside of int, undefined. *)
Definition int_sub (x y : Z) : option Z :=
  if (tmin I32 <=? x - y) && (x - y <=? tmax I32) then Some (x - y) else None.

(* rt_string_t::__compare, rt.cpp 163-175. *)
Fixpoint compare_loop (m : memory) (a b : nat) (n : nat) (l k : Z) : option Z :=
  match n with
  | O => int_sub l k
  | S n' => if m a =? m b then compare_loop m (S a) (S b) n' l k else int_sub (m a) (m b)
  end.

Definition raw_compare (m : memory) (x y : rt_string) : option Z :=
  compare_loop m (at_ x) (at_ y) (Z.to_nat (Z.min (len x) (len y))) (len x) (len y).

(* rt_string_t::compare, rt.cpp 135-141: the result true is 1. *)
Definition compare (m : memory) (x y : rt_string) : option Z :=
  if (at_ x =? at_ y)%nat then Some 1 else raw_compare m x y.

(* rt_string_t::equals, rt.cpp 144-153. *)
Definition equals (m : memory) (x y : rt_string) : option bool :=
  if negb (len x =? len y) then Some false
  else if (at_ x =? at_ y)%nat then Some true
  else option_map (fun c => c =? 0) (raw_compare m x y).

(* The operators, rt.h 372-375. *)
Definition less m x y := option_map (fun c => c <? 0) (compare m x y).
Definition greater m x y := option_map (fun c => 0 <? c) (compare m x y).
Definition less_equal m x y := option_map (fun c => c <=? 0) (compare m x y).
Definition greater_equal m x y := option_map (fun c => 0 <=? c) (compare m x y).

(* rt_spool_t, rt.h 445-461.  [strings]: the std::set in its order, each element with
   the number of its node; a rt_sid_t is a node.  [top]: the memory from here on is
   free.  The heap and the std::strings take new memory; simplified: what is given
   back is not used again. *)
Record pool : Type := mk_pool { mem : memory; strings : list (nat * rt_string); nodes : nat; top : nat }.

Definition start (m : memory) (t : nat) : pool := mk_pool m [] 0 t.

(* std::set: the elements less than a key, and the others. *)
Fixpoint lower_bound (m : memory) (k : rt_string) (l : list (nat * rt_string))
  : option (list (nat * rt_string) * list (nat * rt_string)) :=
  match l with
  | [] => Some ([], [])
  | e :: l' =>
      match less m (snd e) k with
      | None => None
      | Some false => Some ([], l)
      | Some true => option_map (fun p => (e :: fst p, snd p)) (lower_bound m k l')
      end
  end.

(* std::set::find; the inner None: end(). *)
Definition find (m : memory) (k : rt_string) (l : list (nat * rt_string)) : option (option nat) :=
  match lower_bound m k l with
  | None => None
  | Some (_, []) => Some None
  | Some (_, e :: _) => option_map (fun b : bool => if b then None else Some (fst e)) (less m k (snd e))
  end.

(* std::set::insert: the node of an equivalent element, or a new one. *)
Definition insert (p : pool) (k : rt_string) : option (nat * pool) :=
  match lower_bound (mem p) k (strings p), find (mem p) k (strings p) with
  | Some _, Some (Some n) => Some (n, p)
  | Some (before, behind), Some None =>
      Some (nodes p, mk_pool (mem p) (before ++ (nodes p, k) :: behind) (S (nodes p)) (top p))
  | _, _ => None
  end.

(* Characters written to an address. *)
Fixpoint write (m : memory) (a : nat) (s : list Z) : memory :=
  match s with
  | [] => m
  | c :: s' => write (fun b => if (b =? a)%nat then c else m b) (S a) s'
  end.

(* What al::strcpy copies. *)
Fixpoint until_nul (s : list Z) : list Z :=
  match s with [] => [] | c :: s' => if c =? 0 then [] else c :: until_nul s' end.

(* rt_spool_t::to_sid(const string_t &), rt.cpp 191-203; the text of the argument is
   at [top], and the caller destroys it; simplified: as soon as it is copied, after
   which the code does not read it. *)
Definition to_sid_text (p : pool) (s : list Z) : option (nat * pool) :=
  let m := write (mem p) (top p) (s ++ [0]) in
  let n := wrap I32 (Z.of_nat (length s)) in
  let dst := (top p + S (length s))%nat in
  let gone m := write m (top p) (repeat 0 (S (length s))) in
  match find m (mk_rt (top p) n) (strings p) with
  | None => None
  | Some (Some i) => Some (i, mk_pool (gone m) (strings p) (nodes p) dst)
  | Some None =>
      insert (mk_pool (gone (write m dst (until_nul s ++ [0]))) (strings p) (nodes p) (dst + S (length s)))
        (mk_rt dst n)
  end.

(* The two functions to_sid, rt.cpp 184-203. *)
Inductive call : Type := Text (s : list Z) | Given (r : rt_string).

Definition to_sid (p : pool) (c : call) : option (nat * pool) :=
  match c with Text s => to_sid_text p s | Given r => insert p r end.

Fixpoint run (p : pool) (cs : list call) : option (list nat * pool) :=
  match cs with
  | [] => Some ([], p)
  | c :: cs' =>
      match to_sid p c with
      | None => None
      | Some (i, p') => option_map (fun q => (i :: fst q, snd q)) (run p' cs')
      end
  end.
