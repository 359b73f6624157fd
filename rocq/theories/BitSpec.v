(** What a bit array has to do. *)

From Coq Require Import ZArith List Bool.
Import ListNotations.
Open Scope Z_scope.

(** The value last written at [i], false if none. *)
Definition written (ops : list (Z * bool)) (i : Z) : bool :=
  match find (fun o => fst o =? i) (rev ops) with Some (_, v) => v | None => false end.

(** One more than the highest index written. *)
Definition span (ops : list (Z * bool)) : Z := fold_left (fun m o => Z.max m (fst o + 1)) ops 0.

(** [r] is the first index from [from] on, below [len], where [f] has value [v]; or [none]. *)
Definition first_index (f : Z -> bool) (v : bool) (from len none r : Z) : Prop :=
  (from <= r < len /\ f r = v /\ forall i, from <= i < r -> f i <> v) \/
  (r = none /\ forall i, from <= i < len -> f i <> v).
