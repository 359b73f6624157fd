(** Texts, their order, and the texts of strings in memory. *)
From Coq Require Import List ZArith.
From Verif Require Import SidModel.
Import ListNotations.
Open Scope Z_scope.

(** A text: no NUL, characters of an int and a length of an int. *)
Definition valid_text (s : list Z) : Prop :=
  (forall c, In c s -> 0 < c < 2 ^ 31) /\ Z.of_nat (length s) < 2 ^ 31.

(** The order of the dictionary. *)
Inductive before : list Z -> list Z -> Prop :=
| before_end c t : before [] (c :: t)
| before_char c d s t : c < d -> before (c :: s) (d :: t)
| before_rest c s t : before s t -> before (c :: s) (c :: t).

(** The string is this text, with a NUL behind it. *)
Definition has_text (m : memory) (r : rt_string) (s : list Z) : Prop :=
  valid_text s /\ len r = Z.of_nat (length s) /\
  map m (seq (at_ r) (S (length s))) = s ++ [0].

(** The text with which a name is looked up: given, or in the memory below [t]. *)
Inductive asks (m : memory) (t : nat) : call -> list Z -> Prop :=
| asks_text s : valid_text s -> asks m t (Text s) s
| asks_given r s : has_text m r s -> (at_ r + length s < t)%nat -> asks m t (Given r) s.

(** The text of an identity. *)
Definition named (p : pool) (i : nat) (s : list Z) : Prop :=
  exists r, In (i, r) (strings p) /\ has_text (mem p) r s.
