(** Method bodies for the examples. *)
From Coq Require Import ZArith List Bool Lia.
From Verif Require Import BodyModel BodySpec.
Import ListNotations.
Open Scope Z_scope.

(** Three variables declared out of order, two switch tables, one of them empty, a protected block
    and the bytes of three instructions. *)
Definition demo_body : method_body :=
  mk_body [mk_variable 3 16777223 2; mk_variable 1 7 0; mk_variable 2 4294967295 65535]
          [mk_table (-5) [(-1, 4); (2147483647, -2147483648)]; mk_table 0 []]
          [mk_block 1 0 7 8 0; mk_block 255 4294967295 1 2 3]
          [[16; 2]; [33]; [1; 2; 3; 4]].

(** One byte that looks like the beginning of a part. *)
Definition cut_bytes : list Z := [2].
