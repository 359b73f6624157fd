(** How strings are shown: with escapes, between quotes.
    algorithm/string.cpp 260-348; algorithm/__string.h 262-268; modules/core/core.cpp
    1160-1167. *)
From Coq Require Import List Bool ZArith Lia.
Import ListNotations.
Open Scope Z_scope.

Definition str : Type := list Z.

(* __escape_char, string.cpp 261-323; in the default case the halves of a small
   character are written as characters. *)
Definition escape (c : Z) : str :=
  if c =? 10 then [92; 110]
  else if c =? 13 then [92; 114]
  else if c =? 9 then [92; 116]
  else if c =? 7 then [92; 97]
  else if c =? 8 then [92; 98]
  else if c =? 12 then [92; 102]
  else if c =? 11 then [92; 118]
  else if c =? 92 then [92; 92]
  else if c =? 63 then [92; 63]
  else if c =? 34 then [92; 34]
  else if c =? 39 then [92; 39]
  else if c <? 32 then [92; 120; c / 16; c mod 16]
  else [c].

(* The two loops of escape_string, string.cpp 326-348: up to a NUL, or all of a text
   of a given length. *)
Fixpoint escape_all (s : str) : str :=
  match s with [] => [] | c :: s' => escape c ++ escape_all s' end.

Fixpoint escape_until (s : str) : str :=
  match s with
  | [] => []
  | c :: s' => if c =? 0 then [] else escape c ++ escape_until s'
  end.

(* escape_string; [sized]: the length is given. *)
Definition escape_string (sized : bool) (s : str) : str :=
  match s with
  | [] => []
  | c :: _ => if c =? 0 then [] else if sized then escape_all s else escape_until s
  end.

(* The text of a constant, core.cpp 1165-1166. *)
Definition shown (s : str) : str := [34] ++ escape_string false s ++ [34].
