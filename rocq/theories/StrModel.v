(** Model of the string functions: algorithm/string.cpp 9-257, algorithm/__string.h 66-258 and the key of several
    values, [multikey_t] (include/algorithm.h 610-688).

    [char_t] is [wchar_t], a signed integer of 32 bits (arch/x86_64/__types.h 21); characters are
    integers.  A string is the list of its characters before the terminating zero. *)

From Coq Require Import ZArith List Bool.
Import ListNotations.
From Verif Require Import CppInt.
Open Scope Z_scope.

Notation char := Z (only parsing).
Notation text := (list Z) (only parsing).

(** ** Characters *)

(** The table of properties has 127 entries (__string.h 81, __property.h 12-13).  The index is computed
    from a [char]: the conversion of a [char_t] keeps the lowest 8 bits (__property.h 52-55, 72-75). *)
Definition index (c : char) : Z := wrap U64 (wrap I8 c).
Definition overlimit (c : char) : bool := 127 <=? index c.

(** [to_upper] and [to_lower], __string.h 170-179, with the table of string.cpp 25-37. *)
Definition to_upper (c : char) : char :=
  if overlimit c then c
  else let i := index c in if (97 <=? i) && (i <=? 122) then i - 32 else i.
Definition to_lower (c : char) : char :=
  if overlimit c then c
  else let i := index c in if (65 <=? i) && (i <=? 90) then i + 32 else i.

(** [digit_value], __string.h 140-143, with the table of string.cpp 39-49. *)
Definition digit_value (c : char) : Z :=
  if overlimit c then -1
  else let i := index c in
       if (48 <=? i) && (i <=? 57) then i - 48
       else if (97 <=? i) && (i <=? 102) then i - 97 + 10
       else if (65 <=? i) && (i <=? 70) then i - 65 + 10
       else -1.

(** [is_digit] with a radix, __string.h 146-149: compared as unsigned. *)
Definition is_digit_of (c : char) (radix : Z) : bool := wrap U32 (digit_value c) <? radix.

(** [__char_has_flag] for the flags [digit], [word] and [whitespace], __string.h 86-104, 150-159, with the table of
    string.cpp 13-23: the limit is checked before the conversion. *)
Definition within (c : char) : bool := wrap U64 c <? 127.
Definition is_digit (c : char) : bool := within c && ((48 <=? c) && (c <=? 57)).
Definition is_word (c : char) : bool :=
  within c && (((65 <=? c) && (c <=? 90)) || ((97 <=? c) && (c <=? 122)) || ((48 <=? c) && (c <=? 57)) || (c =? 95)).
Definition is_whitespace (c : char) : bool :=
  within c && ((c =? 32) || (c =? 9) || (c =? 13) || (c =? 10) || (c =? 0)).

(** ** Comparing characters, string.cpp 173-203 *)

Definition plain_eq (a b : char) : bool := a =? b.
Definition plain_gt (a b : char) : bool := b <? a.
Definition nocase_eq (a b : char) : bool := (a =? b) || (to_upper a =? to_upper b).
Definition nocase_gt (a b : char) : bool := to_upper b <? to_upper a.

(** ** Strings *)

(** [__str_equals], string.cpp 98-109. *)
Inductive verdict := Yes | No | No_longer.

Fixpoint str_equals (eq : char -> char -> bool) (s s0 : text) : verdict :=
  match s, s0 with
  | c :: r, d :: r0 => if eq c d then str_equals eq r r0 else No
  | _, [] => Yes
  | [], _ :: _ => No_longer
  end.

(** [__strstr], string.cpp 113-134: the position, counted from [pos]. *)
Fixpoint strstr_from (eq : char -> char -> bool) (pos : nat) (s s0 : text) : option nat :=
  match s0 with
  | [] => Some pos
  | d :: r0 =>
    match s with
    | [] => None
    | c :: r =>
      if eq c d then match str_equals eq r r0 with
                     | Yes => Some pos
                     | No_longer => None
                     | No => strstr_from eq (S pos) r s0
                     end
      else strstr_from eq (S pos) r s0
    end
  end.

(** [strstr] and [stristr], string.cpp 207-218. *)
Definition strstr := strstr_from plain_eq 0.
Definition stristr := strstr_from nocase_eq 0.

(** [__strchr], string.cpp 138-150. *)
Fixpoint strchr_from (eq : char -> char -> bool) (pos : nat) (s : text) (c : char) : option nat :=
  match s with
  | [] => None
  | d :: r => if eq d c then Some pos else strchr_from eq (S pos) r c
  end.
Definition strchr := strchr_from plain_eq 0.

(** [__strcmp], string.cpp 154-171; [None] when a string is read beyond its end. *)
Fixpoint compare (eq gt : char -> char -> bool) (s t : text) : option comparison :=
  match s, t with
  | [], [] => if eq 0 0 then Some Eq else Some (if gt 0 0 then Gt else Lt)
  | [], d :: _ => if eq 0 d then Some Eq else Some (if gt 0 d then Gt else Lt)
  | c :: _, [] => if eq c 0 then None else Some (if gt c 0 then Gt else Lt)
  | c :: r, d :: u => if eq c d then compare eq gt r u else Some (if gt c d then Gt else Lt)
  end.

(** [strcmp] and [stricmp], string.cpp 248-257. *)
Definition strcmp := compare plain_eq plain_gt.
Definition stricmp := compare nocase_eq nocase_gt.

(** [starts_with] for a string and a literal prefix, __string.h 196-217, 235-247: the characters of the prefix one by
    one; the terminating zero never equals a character of the prefix, so nothing beyond it is read. *)
Fixpoint starts_with (s prefix : text) : bool :=
  match prefix with
  | [] => true
  | d :: r => match s with
              | [] => if 0 =? d then starts_with [] r else false
              | c :: u => (c =? d) && starts_with u r
              end
  end.

(** [equals], __string.h 250-261. *)
Definition equals (s t : text) : bool := starts_with s t && (Nat.eqb (length s) (length t)).

(** ** A key of several values, include/algorithm.h 670-687 *)

Section Multikey.
Variable K : Type.
Variable ltb : K -> K -> bool.

Fixpoint cmp_items (a b : list K) : Z :=
  match a, b with
  | x :: r, y :: u => if ltb x y then -1 else if ltb y x then 1 else cmp_items r u
  | _, _ => 0
  end.

(** [__cmp]: sizes are [size_t], their difference is computed with [int]; [None] when it overflows. *)
Definition multikey_cmp (a b : list K) : option Z :=
  let n := Z.of_nat (length a) in
  let m := Z.of_nat (length b) in
  if negb (n =? m) then
    let d := wrap I32 n - wrap I32 m in
    if in_rangeb I32 d then Some d else None
  else Some (cmp_items a b).
End Multikey.
