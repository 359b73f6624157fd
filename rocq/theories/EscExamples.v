(** A string with escapes. *)
From Coq Require Import List ZArith Lia.
From Verif Require Import EscModel EscSpec.
Import ListNotations.
Open Scope Z_scope.

Definition text1 : list Z := [104; 10; 34; 92; 9; 20013].

Lemma text1_ordinary : ordinary text1.
Proof. intros c H. unfold text1 in H. unfold printable. cbn [In] in *. lia. Qed.
