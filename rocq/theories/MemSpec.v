(** What copying and clearing memory mean. *)

From Coq Require Import ZArith Bool.
From Verif Require Import MemModel.
Open Scope Z_scope.

(** [m'] is [m] with the [n] bytes at [dst] replaced by the bytes that were at [src]
    before, the regions may overlap. *)
Definition moved (n dst src : Z) (m m' : mem) : Prop :=
  forall a, m' a = if (dst <=? a) && (a <? dst + n) then m (src + (a - dst)) else m a.

(** [m'] is [m] with the [n] bytes at [p] zero. *)
Definition cleared (n p : Z) (m m' : mem) : Prop :=
  forall a, m' a = if (p <=? a) && (a <? p + n) then 0 else m a.

(** The destination starts inside the source, above its start. *)
Definition overlaps_above (n dst src : Z) : Prop := src < dst < src + n.
