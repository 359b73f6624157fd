(* Paths without . and .. sections: lib/file.cpp 241-330 (__pre_with,
   __jmp_relative, __make_absolute, make_absolute) and
   algorithm/__string.h 197-245 (starts_with).

   A path is read from its end to its begin.  Positions are numbers, -1 is the
   position before the first character; a read there is [Outside].

   Simplifications: characters are numbers; [p - p_start + 1 < size] compares
   unsigned numbers, which makes no difference as p + 1 is not negative where
   __pre_with is called; the buffer of the result is a list that grows at its
   front (it is never longer than the path). *)
From Coq Require Import ZArith List Bool.
Import ListNotations.
Local Open Scope Z_scope.

(* Done, an exception, a read outside of the string, or more turns than given *)
Inductive result (A : Type) := Done (a : A) | Refused | Outside | Endless.
Arguments Done {A}. Arguments Refused {A}. Arguments Outside {A}. Arguments Endless {A}.

Definition bind {A B} (o : result A) (f : A -> result B) : result B :=
  match o with
  | Done a => f a | Refused => Refused | Outside => Outside | Endless => Endless
  end.

Definition slash : Z := 47.
Definition dot : Z := 46.

(* s.c_str()[p]: behind the last character is a zero. *)
Definition get (s : list Z) (p : Z) : result Z :=
  if (p <? 0) || (Z.of_nat (length s) <? p) then Outside
  else Done (nth (Z.to_nat p) s 0).

(* starts_with (__string.h 197-245) *)
Fixpoint starts_with (s : list Z) (p : Z) (prefix : list Z) : result bool :=
  match prefix with
  | [] => Done true
  | c :: prefix' =>
      bind (get s p) (fun d =>
      if d =? c then starts_with s (p + 1) prefix' else Done false)
  end.

(* __pre_with (file.cpp 241-255): the characters that end at [p] are a section
   that is the prefix. *)
Definition pre_with (s : list Z) (p : Z) (prefix : list Z) : result bool :=
  let size := Z.of_nat (length prefix) in
  if p + 1 <? size then Done false
  else
    let b := p - size + 1 in
    if b <=? 0 then starts_with s b prefix
    else bind (get s (b - 1)) (fun c =>
         if c =? slash then starts_with s b prefix else Done false).

(* The loop of 278-282: to the next slash on the left *)
Fixpoint to_slash (fuel : nat) (s : list Z) (p : Z) : result Z :=
  if p <? 0 then Done p
  else match fuel with
  | O => Endless
  | S fuel' =>
      bind (get s p) (fun c => if c =? slash then Done p else to_slash fuel' s (p - 1))
  end.

(* __jmp_relative (257-288): whether it moved, and the new position *)
Fixpoint jmp_relative (fuel : nat) (s : list Z) (p : Z) : result (bool * Z) :=
  match fuel with
  | O => Endless
  | S fuel' =>
      bind (pre_with s (p - 1) [dot]) (fun one =>
      if one then
        let p := p - 2 in
        if p <? 0 then Done (true, p)
        else bind (get s p) (fun c =>
             if c =? slash then
               bind (jmp_relative fuel' s p) (fun r => Done (true, snd r))
             else Done (true, p))
      else
        bind (pre_with s (p - 1) [dot; dot]) (fun two =>
        if two then
          let p := p - 3 in
          if p <? 0 then Refused
          else
            bind (get s p) (fun c =>
            bind (if c =? slash then jmp_relative fuel' s p else Done (false, p)) (fun r =>
            bind (to_slash (S (length s)) s (snd r - 1)) (fun q => Done (true, q))))
        else Done (false, p)))
  end.

(* The inner loop of __make_absolute (303-307) *)
Fixpoint jmp_all (fuel : nat) (s : list Z) (p : Z) : result Z :=
  match fuel with
  | O => Endless
  | S fuel' =>
      bind (jmp_relative (S (length s)) s p) (fun r =>
      if fst r then
        if snd r <? 0 then Done (snd r)
        else bind (get s (snd r)) (fun c =>
             if c =? slash then jmp_all fuel' s (snd r) else Done (snd r))
      else Done (snd r))
  end.

(* The loop of __make_absolute (299-318) *)
Fixpoint copy (fuel : nat) (s : list Z) (p : Z) (out : list Z) : result (list Z) :=
  if p <? 0 then Done out
  else match fuel with
  | O => Endless
  | S fuel' =>
      bind (get s p) (fun c =>
      if c =? slash then
        bind (jmp_all (S (length s)) s p) (fun p' =>
        if p' <? 0 then copy fuel' s p' out
        else bind (get s p') (fun c' => copy fuel' s (p' - 1) (c' :: out)))
      else copy fuel' s (p - 1) (c :: out))
  end.

(* __make_absolute (291-319) and make_absolute (322-334) *)
Definition make_absolute (s : list Z) : result (list Z) :=
  bind (jmp_relative (S (length s)) s (Z.of_nat (length s))) (fun r =>
  bind (get s (snd r)) (fun c =>
  let p := if (c =? 0) || (c =? slash) then snd r - 1 else snd r in
  copy (S (length s)) s p [])).
