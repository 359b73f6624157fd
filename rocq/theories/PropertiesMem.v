(** C56: copying and clearing memory. *)

From Coq Require Import ZArith List Bool Lia.
From Verif Require Import MemModel MemSpec MemProofs.
Open Scope Z_scope.

(** Every copy moves exactly the given bytes, also when the regions overlap; missing are
    copies of 3, 5, 6 or 7 bytes to a place above that overlaps. *)
Theorem C56_copy_partial : forall dst src size m, 0 <= size ->
  (~ overlaps_above size dst src \/ 8 < size \/ size = 1 \/ size = 2 \/ size = 4 \/ size = 8) ->
  exists m', quick_copy dst src size m = Some m' /\ moved size dst src m m'.
Proof. exact quick_copy_moved. Qed.
Print Assumptions C56_copy_partial.

Example C56_copy_case : exists m', quick_copy 103 100 21 (fun a => a) = Some m' /\ overlaps_above 21 103 100 /\
  m' 102 = 102 /\ m' 103 = 100 /\ m' 110 = 107 /\ m' 123 = 120 /\ m' 124 = 124.
Proof. eexists. split; [reflexivity|]. split; [unfold overlaps_above; lia|]. vm_compute. repeat split. Qed.

(** Those do go wrong. *)
Theorem C56_copy_refuted : forall dst src size,
  overlaps_above size dst src -> size = 3 \/ size = 5 \/ size = 6 \/ size = 7 ->
  exists m m', quick_copy dst src size m = Some m' /\ ~ moved size dst src m m'.
Proof. exact quick_copy_wrong. Qed.
Print Assumptions C56_copy_refuted.

Example C56_copy_refuted_case : overlaps_above 3 101 100.
Proof. unfold overlaps_above. lia. Qed.

(** The copy with the size as template parameter, downwards or between separate regions. *)
Theorem C56_template_copy : forall n dst src m, 0 <= n -> dst <= src \/ src + n <= dst ->
  exists m', quick_copy_t (Z.to_nat n) n dst src m = Some m' /\ moved n dst src m m'.
Proof. intros n dst src m H. apply quick_copy_t_moved; lia. Qed.
Print Assumptions C56_template_copy.

Example C56_template_case : exists m', quick_copy_t 13 13 97 100 (fun a => a) = Some m' /\ m' 97 = 100 /\ m' 109 = 112 /\ m' 110 = 110.
Proof. eexists. split; [reflexivity|]. vm_compute. repeat split. Qed.

(** Its backward variant misses bytes and writes past the end, even between separate regions. *)
Theorem C56_template_backward_refuted :
  ~ (forall n dst src m, 0 <= n -> src + n <= dst ->
       exists m', quick_copy_backward_t (Z.to_nat n) n dst src m = Some m' /\ moved n dst src m m').
Proof.
  intro H. destruct (H 16 100 0 (fun a => a) ltac:(lia) ltac:(lia)) as (m' & E & M).
  inversion E; subst m'. specialize (M 116). vm_compute in M. discriminate.
Qed.
Print Assumptions C56_template_backward_refuted.

(** Clearing changes exactly the given bytes. *)
Theorem C56_zero : forall p size m, 0 <= size ->
  exists m', quick_zero (Z.to_nat size) p size m = Some m' /\ cleared size p m m'.
Proof. intros p size m H. apply quick_zero_cleared; lia. Qed.
Print Assumptions C56_zero.

Example C56_zero_case : exists m', quick_zero 23 100 23 (fun _ => 7) = Some m' /\ m' 99 = 7 /\ m' 100 = 0 /\ m' 122 = 0 /\ m' 123 = 7.
Proof. eexists. split; [reflexivity|]. vm_compute. repeat split. Qed.
