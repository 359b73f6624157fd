(** What C47-C49 speak about. *)

From Coq Require Import ZArith List Bool.
Import ListNotations.
From Verif Require Import CppInt.
Open Scope Z_scope.

(** Bit [b] belongs to the flag set [v]. *)
Definition has_bit (t : ity) (v b : Z) : Prop := 0 <= b < bits t /\ Z.testbit v b = true.

(** A strictly ascending list of numbers that are at least [lo]. *)
Fixpoint ascending (lo : Z) (bs : list Z) : Prop :=
  match bs with [] => True | b :: r => lo <= b /\ ascending (b + 1) r end.

(** Value of a hexadecimal digit character. *)
Inductive hex : Z -> Z -> Prop :=
| hex_num c : 48 <= c <= 57 -> hex c (c - 48)          (* '0'..'9' *)
| hex_upper c : 65 <= c <= 70 -> hex c (c - 55)        (* 'A'..'F' *)
| hex_lower c : 97 <= c <= 102 -> hex c (c - 87).      (* 'a'..'f' *)

(** [octets n s bs]: [s] is [2 * n] hexadecimal digits that denote the [n] bytes [bs]. *)
Inductive octets : nat -> list Z -> list Z -> Prop :=
| oct_nil : octets 0 [] []
| oct_cons n c c' d d' s bs :
    hex c d -> hex c' d' -> octets n s bs ->
    octets (S n) (c :: c' :: s) (16 * d + d' :: bs).

(** The 8-4-4-4-12 form and the 16 bytes it denotes. *)
Definition guid_form (s bs : list Z) : Prop :=
  exists s1 s2 s3 s4 s5 b1 b2 b3 b4 b5,
    octets 4 s1 b1 /\ octets 2 s2 b2 /\ octets 2 s3 b3 /\ octets 2 s4 b4 /\ octets 6 s5 b5
    /\ s = s1 ++ [45] ++ s2 ++ [45] ++ s3 ++ [45] ++ s4 ++ [45] ++ s5
    /\ bs = b1 ++ b2 ++ b3 ++ b4 ++ b5.
