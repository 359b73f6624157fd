(** C119-C120: the bytes of method bodies. *)
From Coq Require Import ZArith List Bool Lia.
From Verif Require Import BodyModel BodySpec BodyProofs BodyExamples.
Import ListNotations.
Open Scope Z_scope.

(** *** C119 *)

(** The full claim: every body is read as it was compiled.  It is proved for fewer than 2^16
    variables, tables and blocks and fewer than 2^15 rows in a table; for more see below. *)
Theorem C119_roundtrip_partial m : in_range m -> countable (2 ^ 15) m -> small m ->
  concat (m_code m) <> [] ->
  exists bytes x, compile_method m = Some (Some bytes) /\ read_body bytes = Got x [] /\ as_compiled m x.
Proof. exact (roundtrip m). Qed.
Print Assumptions C119_roundtrip_partial.

Ltac each := repeat match goal with
  | H : _ \/ _ |- _ => destruct H as [H|H]
  | H : False |- _ => destruct H
  | H : _ = ?x |- _ => is_var x; subst x
  end.

Example C119_roundtrip_case : in_range demo_body /\ countable (2 ^ 15) demo_body /\ small demo_body /\
  concat (m_code demo_body) <> [] /\
  exists bytes, compile_method demo_body = Some (Some bytes) /\ length bytes = 113%nat /\
    read_body bytes = Got (mk_exec_body [(7, 0); (4294967295, 65535); (16777223, 2)]
      [mk_exec_table 2 (-5) [(-1, 4); (2147483647, -2147483648)]; mk_exec_table 0 0 []]
      [mk_block 1 0 7 8 0; mk_block 255 4294967295 1 2 3] [16; 2; 33; 1; 2; 3; 4]) [].
Proof.
  split; [|split; [|split; [|split]]].
  - constructor; cbn [demo_body m_variables m_tables m_blocks]; intros a Ha; cbn [In] in Ha; each;
      unfold unsigned, signed; cbn; try lia.
    + split; [lia|]. intros r Hr. each; cbn; lia.
    + split; [lia|]. intros r [].
  - constructor; try reflexivity. intros t Ht. cbn in Ht. each; reflexivity.
  - reflexivity.
  - discriminate.
  - eexists. split; [vm_compute; reflexivity|]. split; vm_compute; reflexivity.
Qed.

(** 65536 variables are counted as none. *)
Theorem C119_variables_refuted :
  ~ (forall m, in_range m -> small m -> concat (m_code m) <> [] ->
     exists bytes x, compile_method m = Some (Some bytes) /\
       read_body bytes = Got x [] /\ as_compiled m x).
Proof. exact lost_refutes. Qed.
Print Assumptions C119_variables_refuted.

(** With 2^15 rows the number of rows at run time is not the number compiled. *)
Theorem C119_rows_refuted :
  ~ (forall m, in_range m -> countable (2 ^ 16) m -> small m -> concat (m_code m) <> [] ->
     exists bytes x, compile_method m = Some (Some bytes) /\
       read_body bytes = Got x [] /\ as_compiled m x).
Proof. exact wide_refutes. Qed.
Print Assumptions C119_rows_refuted.

(** A method has no body exactly if it has no instructions. *)
Theorem C119_no_body m : small m -> (compile_method m = Some None <-> concat (m_code m) = []).
Proof. exact (no_code m). Qed.
Print Assumptions C119_no_body.

Example C119_no_body_case : small (mk_body [] [] [] []) /\ compile_method (mk_body [] [] [] []) = Some None.
Proof. split; vm_compute; reflexivity. Qed.

(** *** C120 *)

(** The full claim: whatever the bytes of a body are, nothing behind their end is read.  It is proved
    for bytes with three zeros at the end, and false of a body that ends within the four bytes before
    a part. *)
Theorem C120_within_partial bytes : read_body (bytes ++ [0; 0; 0]) <> Beyond.
Proof. exact (zeros_behind bytes). Qed.
Print Assumptions C120_within_partial.

(** The same byte without and with the zeros, and a table that is cut off. *)
Example C120_within_case : read_body cut_bytes = Beyond /\
  read_body (cut_bytes ++ [0; 0; 0]) = Got (mk_exec_body [] [] [] []) [] /\
  read_body ([2; 0; 1; 0; 9] ++ [0; 0; 0]) = Overflow.
Proof. repeat split. Qed.

Theorem C120_within_refuted : ~ (forall bytes, read_body bytes <> Beyond).
Proof. intros H. apply (H cut_bytes). reflexivity. Qed.
Print Assumptions C120_within_refuted.
