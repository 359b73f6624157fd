(** Properties of the assembly file (C82). *)

From Coq Require Import ZArith Lia List.
From Verif Require Import AsmHeapModel AsmFileModel AsmFileSpec AsmFileProofs AsmFileExamples.
Import ListNotations.
Open Scope Z_scope.

(** Reading a written file gives back every table row and the heap, whatever follows the file.
    Missing from the full property: the nested type definitions of a type row (see below). *)
Theorem C82_file_roundtrip_partial : forall tables heap,
  tables_fit tables -> heap_image heap -> Z.of_nat (length heap) - 1 <= 67108864 ->
  exists f, write_file tables heap = Some f
    /\ forall junk, read_file (f ++ junk) = OK (tables_back tables, heap).
Proof.
  intros tables heap T H L. destruct (proj1 (write_file_some tables heap H) L) as [f W].
  exists f. split; [exact W|]. intro junk. exact (file_roundtrip_spec tables heap f junk T H W).
Qed.
Print Assumptions C82_file_roundtrip_partial.

Example C82_file_roundtrip_case :
  tables_fit ex_tables /\ heap_image ex_heap /\ Z.of_nat (length ex_heap) - 1 <= 67108864
  /\ (exists f, write_file ex_tables ex_heap = Some f /\ length f = 398%nat).
Proof. exact ex_file_case. Qed.

(** A heap over 64 MiB is refused when writing, any other is accepted. *)
Theorem C82_heap_limit : forall tables heap, heap_image heap ->
  (Z.of_nat (length heap) - 1 <= 67108864 <-> exists f, write_file tables heap = Some f).
Proof. exact write_file_some. Qed.
Print Assumptions C82_heap_limit.

Example C82_heap_limit_case : heap_image ex_heap /\ exists f, write_file ex_tables ex_heap = Some f.
Proof. exact ex_heap_limit. Qed.

(** A file cut anywhere is refused. *)
Theorem C82_truncated_file_rejected : forall tables heap f p q,
  tables_fit tables -> heap_image heap -> write_file tables heap = Some f ->
  f = p ++ q -> q <> [] -> read_file p = Throw.
Proof. exact file_truncated_spec. Qed.
Print Assumptions C82_truncated_file_rejected.

Example C82_truncated_file_rejected_case :
  exists f, write_file ex_tables ex_heap = Some f
    /\ f = firstn 397 f ++ skipn 397 f /\ skipn 397 f <> [] /\ read_file (firstn 397 f) = Throw.
Proof. exact ex_truncated. Qed.

(** A file that does not start with the flag of an assembly, or whose layout is not 1, is refused
    before anything of it is used. *)
Theorem C82_foreign_file_rejected : forall l,
  firstn 16 l <> [149; 88; 37; 191; 209; 58; 77; 28; 144; 213; 71; 142; 98; 206; 170; 182]
  \/ le_val (firstn 2 (skipn 16 l)) <> 1 ->
  read_file l = Throw /\ read_brief l = Throw.
Proof. intros l [H|H]; [exact (bad_flag l H)|exact (bad_layout l H)]. Qed.
Print Assumptions C82_foreign_file_rejected.

Example C82_foreign_file_rejected_case :
  exists f, write_file ex_tables ex_heap = Some f /\ firstn 16 (0 :: f) <> flag.
Proof. exact ex_foreign. Qed.

(** A brief read needs the assembly table only: it succeeds on every piece of the file that
    contains it, and throws on every shorter piece. *)
Theorem C82_brief_read : forall t ts heap f p q junk,
  tables_fit (t :: ts) -> heap_image heap -> write_file (t :: ts) heap = Some f -> f = p ++ q ->
  let needed := 276 + 20 * Z.of_nat (length t) in
  (needed <= Z.of_nat (length p) -> read_brief (p ++ junk) = OK (all_back t))
  /\ (Z.of_nat (length p) < needed -> read_brief p = Throw).
Proof. exact brief_read_spec. Qed.
Print Assumptions C82_brief_read.

Example C82_brief_read_case :
  exists f, write_file ex_tables ex_heap = Some f
    /\ read_brief (firstn 296 f) = OK [[Some 5; Some 9; Some 16777217; Some 0]].
Proof. exact ex_brief. Qed.

(** The claim that every member of every row is kept is false: the nested type definitions of a
    type are not in the file. *)
Theorem C82_type_defs_refuted :
  exists tables tables' heap f,
    tables_fit tables /\ tables_fit tables' /\ tables <> tables' /\ heap_image heap
    /\ write_file tables heap = Some f /\ write_file tables' heap = Some f.
Proof. exact ex_type_defs_lost. Qed.
Print Assumptions C82_type_defs_refuted.

(** The position of the heap recorded in the header is never the position of the heap. *)
Theorem C82_heap_offset_refuted : forall tables heap f,
  tables_fit tables -> heap_image heap -> write_file tables heap = Some f ->
  Z.of_nat (length f) < 4294967296 ->
  exists before, f = before ++ skipn 1 heap
    /\ le_val (firstn 4 (skipn 20 f)) = Z.of_nat (length before) - 268.
Proof. exact recorded_heap_offset_spec. Qed.
Print Assumptions C82_heap_offset_refuted.

Example C82_heap_offset_refuted_case :
  exists f, write_file ex_tables ex_heap = Some f /\ le_val (firstn 4 (skipn 20 f)) = 122
    /\ skipn 390 f = skipn 1 ex_heap.
Proof. exact ex_offset. Qed.
