(** Concrete files. *)

From Coq Require Import ZArith Lia List Bool.
From Verif Require Import AsmHeapModel AsmHeapProofs AsmFileModel AsmFileSpec AsmFileProofs.
Import ListNotations.
Open Scope Z_scope.

(** An assembly with a constant, one type with two fields; [d] is the member that is not
    written. *)
Definition type_row (d : Z) : row := [1; 0; 3; 0; 1; 0; 0; 0; 0; 0; 4194304; 0; 0; d].

Definition some_tables (d : Z) : list (list row) :=
  [ [[5; 9; 16777217; 0]]; [[37; 0; 0; 7]]; []; []; [type_row d]; []; []; []; []; []; []; []; []; [];
    [[3; 0; 1; 0; 0]; [5; 0; 1; 0; 0]]; []; []; []; []; []; []; []; []; []; []; []; []; []; []; []; [] ].

Definition ex_tables := some_tables 8.
Definition ex_heap : list Z := [0; 65; 0; 97; 0; 98; 0; 99; 0].

(** Decidable form of [tables_fit]. *)
Fixpoint row_fitsb (sc : list Z) (r : row) : bool :=
  match sc, r with
  | [], [] => true
  | m :: sc', v :: r' => (0 <=? v) && (v <? 256 ^ m) && row_fitsb sc' r'
  | _, _ => false
  end.

Fixpoint fitb (scs : list (list Z)) (ts : list (list row)) : bool :=
  match scs, ts with
  | [], [] => true
  | sc :: scs', t :: ts' =>
      forallb (row_fitsb sc) t && (Z.of_nat (length t) <? 4294967296) && fitb scs' ts'
  | _, _ => false
  end.

Lemma row_fitsb_ok : forall sc r, row_fitsb sc r = true -> row_fits sc r.
Proof.
  unfold row_fits. induction sc as [|m sc IH]; intros [|v r] H; cbn [row_fitsb] in H; try discriminate;
    constructor.
  - apply andb_true_iff in H. destruct H as [H _]. apply andb_true_iff in H. destruct H as [A B].
    apply Z.leb_le in A. apply Z.ltb_lt in B. lia.
  - apply IH. apply andb_true_iff in H. tauto.
Qed.

Lemma fitb_ok : forall scs ts, fitb scs ts = true ->
  Forall2 (fun sc t => Forall (row_fits sc) t /\ Z.of_nat (length t) < 4294967296) scs ts.
Proof.
  induction scs as [|sc scs IH]; intros [|t ts] H; cbn [fitb] in H; try discriminate; constructor.
  - apply andb_true_iff in H. destruct H as [H _]. apply andb_true_iff in H. destruct H as [A B].
    apply Z.ltb_lt in B. split; [|exact B]. rewrite forallb_forall in A. apply Forall_forall.
    intros r Hr. apply row_fitsb_ok. auto.
  - apply IH. apply andb_true_iff in H. tauto.
Qed.

Lemma ex_fit : forall d, 0 <= d < 10 -> tables_fit (some_tables d).
Proof.
  intros d H. assert (C : In d [0; 1; 2; 3; 4; 5; 6; 7; 8; 9]) by (cbn; lia).
  cbn [In] in C. repeat destruct C as [<-|C]; try contradiction;
    apply fitb_ok; vm_compute; reflexivity.
Qed.

Lemma ex_image : heap_image ex_heap.
Proof.
  exists [65; 0; 97; 0; 98; 0; 99; 0]. split; [reflexivity|]. split; [|reflexivity].
  repeat constructor; lia.
Qed.

Lemma ex_file_case :
  tables_fit ex_tables /\ heap_image ex_heap /\ Z.of_nat (length ex_heap) - 1 <= 67108864
  /\ (exists f, write_file ex_tables ex_heap = Some f /\ length f = 398%nat).
Proof.
  split; [apply ex_fit; lia|]. split; [apply ex_image|]. split; [vm_compute; discriminate|].
  eexists. split; [vm_compute; reflexivity|reflexivity].
Qed.

Lemma ex_heap_limit : heap_image ex_heap /\ exists f, write_file ex_tables ex_heap = Some f.
Proof. split; [apply ex_image|]. eexists. vm_compute. reflexivity. Qed.

Lemma ex_truncated :
  exists f, write_file ex_tables ex_heap = Some f
    /\ f = firstn 397 f ++ skipn 397 f /\ skipn 397 f <> [] /\ read_file (firstn 397 f) = Throw.
Proof.
  eexists. split; [vm_compute; reflexivity|]. split; [vm_compute; reflexivity|].
  split; [vm_compute; discriminate|vm_compute; reflexivity].
Qed.

Lemma ex_foreign : exists f, write_file ex_tables ex_heap = Some f /\ firstn 16 (0 :: f) <> flag.
Proof. eexists. split; [vm_compute; reflexivity|vm_compute; discriminate]. Qed.

Lemma ex_brief :
  exists f, write_file ex_tables ex_heap = Some f
    /\ read_brief (firstn 296 f) = OK [[Some 5; Some 9; Some 16777217; Some 0]].
Proof. eexists. split; [vm_compute; reflexivity|vm_compute; reflexivity]. Qed.

Lemma ex_type_defs_lost :
  exists tables tables' heap f,
    tables_fit tables /\ tables_fit tables' /\ tables <> tables' /\ heap_image heap
    /\ write_file tables heap = Some f /\ write_file tables' heap = Some f.
Proof.
  exists (some_tables 8), (some_tables 0), ex_heap.
  eexists. split; [apply ex_fit; lia|]. split; [apply ex_fit; lia|]. split; [discriminate|].
  split; [apply ex_image|]. split; vm_compute; reflexivity.
Qed.

Lemma ex_offset :
  exists f, write_file ex_tables ex_heap = Some f /\ le_val (firstn 4 (skipn 20 f)) = 122
    /\ skipn 390 f = skipn 1 ex_heap.
Proof. eexists. split; [vm_compute; reflexivity|]. split; vm_compute; reflexivity. Qed.
