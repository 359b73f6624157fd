(** What the string functions have to do. *)

From Coq Require Import ZArith List Bool.
Import ListNotations.
Open Scope Z_scope.

(** Text: characters of Unicode other than zero. *)
Definition proper_text (s : list Z) : Prop := Forall (fun c => 0 < c < 1114112) s.

(** ASCII text. *)
Definition ascii (s : list Z) : Prop := Forall (fun c => 0 < c < 127) s.

(** [p] occurs in [s] at position [i], comparing characters by [same]. *)
Definition occurs (same : Z -> Z -> Prop) (p s : list Z) (i : nat) : Prop :=
  exists a m b, s = a ++ m ++ b /\ length a = i /\ Forall2 same m p.

(** The result of a search: the first occurrence, or none. *)
Definition first_occurrence (same : Z -> Z -> Prop) (p s : list Z) (r : option nat) : Prop :=
  match r with
  | Some i => occurs same p s i /\ forall j, occurs same p s j -> (i <= j)%nat
  | None => forall j, ~ occurs same p s j
  end.

(** Upper case of ASCII letters. *)
Definition upper (c : Z) : Z := if (97 <=? c) && (c <=? 122) then c - 32 else c.

(** Lexicographic order: a proper prefix, or the first difference decides. *)
Definition before {A} (lt : A -> A -> Prop) (s t : list A) : Prop :=
  (exists y r, t = s ++ y :: r) \/
  (exists p x s' y t', s = p ++ x :: s' /\ t = p ++ y :: t' /\ lt x y).

(** The outcome of a comparison. *)
Definition compares {A} (lt : A -> A -> Prop) (s t : list A) (c : comparison) : Prop :=
  match c with Eq => s = t | Lt => before lt s t | Gt => before lt t s end.

(** Order of keys with several values: shorter first, then the first difference decides. *)
Definition key_before {A} (lt : A -> A -> Prop) (s t : list A) : Prop :=
  (length s < length t)%nat \/ (length s = length t /\ before lt s t).
