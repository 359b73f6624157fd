(** Properties of the resource heap (C80) and of the constants table (C81). *)

From Coq Require Import ZArith Lia List.
From Verif Require Import AsmHeapModel AsmHeapSpec AsmHeapProofs AsmHeapExamples AsmShareProofs.
Import ListNotations.
Open Scope Z_scope.

(** Every string, block and raw entry of any history of appends is read back unchanged from the
    final heap.  Missing from the full property: strings containing NUL, blocks of 2^28 bytes and
    more, and a raw entry that ends the heap, for which it is false (below). *)
Theorem C80_heap_roundtrip_partial : forall ops, Forall storable ops ->
  exists h xs, hrun heap_new ops = Some (h, xs)
    /\ (hsize h < 4294967296 -> Forall2 (gives_back (h_bytes h)) ops xs).
Proof. exact heap_roundtrip. Qed.
Print Assumptions C80_heap_roundtrip_partial.

Example C80_heap_roundtrip_case : Forall storable ex_ops
  /\ exists h, hrun heap_new ex_ops = Some (h, [1; 4; 1; 8; 12; 20]) /\ hsize h < 4294967296.
Proof. exact (conj ex_ops_ok ex_ops_run). Qed.

(** A string with a NUL in it comes back cut at the NUL. *)
Theorem C80_string_nul_refuted : exists h r,
  append_string heap_new [65; 0; 66] = Some (h, r) /\ read_string (h_bytes h) r = OK [65].
Proof. eexists. eexists. split; [vm_compute; reflexivity|vm_compute; reflexivity]. Qed.
Print Assumptions C80_string_nul_refuted.

(** A block of 2^28 bytes or more is written, and reading it throws. *)
Theorem C80_long_block_refuted : forall h b h1 r,
  hsize h < 4294967296 -> 268435456 <= Z.of_nat (length b) < 4294967296 ->
  append_block h b = (h1, r) -> read_block (h_bytes h1) r = Throw.
Proof. exact long_block. Qed.
Print Assumptions C80_long_block_refuted.

Example C80_long_block_case :
  hsize heap_new < 4294967296
  /\ 268435456 <= Z.of_nat (length (repeat 0 (Z.to_nat 268435456))) < 4294967296.
Proof. exact long_block_exists. Qed.

(** A raw entry that is the last thing in the heap cannot be read. *)
Theorem C80_last_entry_refuted : forall h b h1 r,
  b <> [] -> append_bytes h b = (h1, r) -> hsize h1 < 4294967296 ->
  read_bytes (h_bytes h1) r (length b) = Throw.
Proof. exact last_entry. Qed.
Print Assumptions C80_last_entry_refuted.

Example C80_last_entry_case : [1; 2] <> [] /\ hsize (fst (append_bytes heap_new [1; 2])) < 4294967296.
Proof. split; [discriminate|reflexivity]. Qed.

(** Every constant of any history comes back as a constant of the history that is the value asked
    for or compares equal to it.  Missing from the full property: 64-bit numbers whose encoding is
    not exact, and histories that mix numbers and type constants, for which it is false (below).
    [d] is whatever is appended to the heap afterwards. *)
Theorem C81_constants_roundtrip_partial : forall ops,
  Forall cop_ok ops -> Forall exact_number (consts ops) ->
  Forall (fun v => ~ is_type v) (consts ops) \/ Forall (fun v => ~ is_number v) (consts ops) ->
  exists s xs, crun cstate_new ops = Some (s, xs) /\
    forall d, d <> [] -> Z.of_nat (length (h_bytes (s_heap s) ++ d)) < 4294967296 ->
    Forall2 (comes_back (s_rows s) (h_bytes (s_heap s) ++ d) (consts ops)) ops xs.
Proof. exact constants_come_back. Qed.
Print Assumptions C81_constants_roundtrip_partial.

Example C81_constants_roundtrip_case :
  Forall cop_ok ex_consts /\ Forall exact_number (consts ex_consts)
  /\ Forall (fun v => ~ is_type v) (consts ex_consts)
  /\ (forall u raw, In (CNum u raw) (consts ex_consts) -> u = NI32).
Proof. exact ex_consts_ok. Qed.

(** When all numbers are of one integer type, every constant comes back exactly. *)
Theorem C81_constants_exact_partial : forall ops t,
  Forall cop_ok ops -> Forall exact_number (consts ops) -> is_float t = false ->
  (forall u raw, In (CNum u raw) (consts ops) -> u = t) ->
  Forall (fun v => ~ is_type v) (consts ops) \/ Forall (fun v => ~ is_number v) (consts ops) ->
  exists s xs, crun cstate_new ops = Some (s, xs) /\
    forall d, d <> [] -> Z.of_nat (length (h_bytes (s_heap s) ++ d)) < 4294967296 ->
    Forall2 (comes_back_exactly (s_rows s) (h_bytes (s_heap s) ++ d)) ops xs.
Proof. exact constants_exact. Qed.
Print Assumptions C81_constants_exact_partial.

Example C81_constants_exact_case : exists s, crun cstate_new ex_consts
  = Some (s, [Some 0%nat; Some 1%nat; None; None; Some 2%nat; Some 0%nat]).
Proof. exact ex_consts_run. Qed.

(** A string, or an integer when no type constants are committed, committed again after anything
    else is given the row of its first commit, and nothing is written. *)
Theorem C81_committed_again : forall s v s1 x ops s2 xs,
  shareable ops v -> commit s v = Some (s1, x) -> crun s1 ops = Some (s2, xs) ->
  commit s2 v = Some (s2, x).
Proof. exact committed_again. Qed.
Print Assumptions C81_committed_again.

Example C81_committed_again_case :
  shareable [CommitConst (CType 16777223); CommitConst (CStr [98])] (CStr [97; 98]) /\
  exists s1 s2 xs, commit cstate_new (CStr [97; 98]) = Some (s1, Some 0%nat) /\
    crun s1 [CommitConst (CType 16777223); CommitConst (CStr [98])] = Some (s2, xs) /\
    length (s_rows s2) = 3%nat.
Proof.
  split; [exact I|]. eexists. eexists. eexists. split; [vm_compute; reflexivity|].
  split; [vm_compute; reflexivity | reflexivity].
Qed.

(** Exactly which 64-bit numbers come back: those that went to the heap and do not end it, and
    those whose low 16 bits are zero. *)
Theorem C81_wide_numbers : forall h t raw d, In t [NI64; NU64; NF64] ->
  0 <= raw < 18446744073709551616 ->
  let h1 := fst (number_row h t raw) in
  Z.of_nat (length (h_bytes h1 ++ d)) < 4294967296 ->
  (read_const (h_bytes h1 ++ d) (snd (number_row h t raw)) = OK (CNum t raw)
   <-> (goes_to_heap raw /\ d <> []) \/ (~ goes_to_heap raw /\ raw mod 65536 = 0)).
Proof. exact wide_numbers_iff. Qed.
Print Assumptions C81_wide_numbers.

Example C81_wide_numbers_case :
  goes_to_heap 1311768467463790320 /\ ~ goes_to_heap 1 /\ ~ goes_to_heap 65536 /\ 65536 mod 65536 = 0.
Proof. unfold goes_to_heap. vm_compute. intuition congruence. Qed.

(** The constant [1L] comes back as another number. *)
Theorem C81_long_one_refuted : forall d,
  last_read [CommitConst (CNum NI64 1)] d = Some (OK (CNum NI64 281474976710657)).
Proof. intro d. vm_compute. reflexivity. Qed.
Print Assumptions C81_long_one_refuted.

(** [true] after [1] comes back as the integer [1], negative zero after zero as zero. *)
Theorem C81_types_refuted : forall d,
  last_read [CommitConst (CNum NI32 1); CommitConst (CNum NBool 1)] d = Some (OK (CNum NI32 1))
  /\ last_read [CommitConst (CNum NF32 0); CommitConst (CNum NF32 2147483648)] d
     = Some (OK (CNum NF32 0)).
Proof. intro d. split; vm_compute; reflexivity. Qed.
Print Assumptions C81_types_refuted.

(** What is not a number, as zero divided by zero, comes back as the [1.5] committed before it. *)
Theorem C81_not_a_number_refuted : forall d,
  real_value NF32 2143289344 = NoNumber
  /\ last_read [CommitConst (CNum NF32 1069547520); CommitConst (CNum NF32 2143289344)] d
     = Some (OK (CNum NF32 1069547520)).
Proof. intro d. split; vm_compute; reflexivity. Qed.
Print Assumptions C81_not_a_number_refuted.

(** [true] after a type constant comes back as the type. *)
Theorem C81_type_then_true_refuted : forall d,
  last_read [CommitConst (CType 16777223); CommitConst (CNum NBool 1)] d = Some (OK (CType 16777223)).
Proof. intro d. vm_compute. reflexivity. Qed.
Print Assumptions C81_type_then_true_refuted.

(** The null constant is never given a row, in any state: it reads as no constant. *)
Theorem C81_null_refuted : forall s, commit s CNull = Some (s, None).
Proof. reflexivity. Qed.
Print Assumptions C81_null_refuted.
