(** C37, C38: object heaps. *)

From Coq Require Import ZArith List Bool Lia.
Import ListNotations.
From Verif Require Import HeapModel HeapSpec HeapProofs HeapAlloc.
Open Scope Z_scope.

(** ** C37: the indexed heap *)

(** Any history of appending, inserting and clearing leaves exactly the list it describes. *)
Theorem C37_append_insert : forall (V : Type) rs os, 0 < rs -> no_delete V os ->
  exists h, run V rs (empty V) os = Some h /\ holds V rs h (on_list_all V os).
Proof.
  intros V rs os P N. destruct (run_rep V rs P os (empty V) [] (empty_rep V rs P) (no_delete_gentle V rs os [] N)) as (h & E & R).
  exists h. split; [exact E|]. apply rep_holds; assumption.
Qed.
Print Assumptions C37_append_insert.

Example C37_append_insert_case :
  no_delete Z [New Z 1; New Z 2; Insert Z 0 3; Insert Z 1 4; New Z 5; Insert Z 2 6; Insert Z 9 7] /\
  on_list_all Z [New Z 1; New Z 2; Insert Z 0 3; Insert Z 1 4; New Z 5; Insert Z 2 6; Insert Z 9 7] = [3; 4; 6; 1; 2; 5].
Proof. split; [|reflexivity]. repeat constructor; cbn; lia. Qed.

(** The same with deletions that stay within the last row; missing are all other deletions. *)
Theorem C37_delete_partial : forall (V : Type) rs os, 0 < rs -> gentle V rs [] os ->
  exists h, run V rs (empty V) os = Some h /\ holds V rs h (on_list_all V os) /\
    (on_list_all V os <> [] -> exists r k, last V h = Some (r, k) /\
       cell V h r k = nth_error (on_list_all V os) (length (on_list_all V os) - 1)).
Proof.
  intros V rs os P N. destruct (run_rep V rs P os (empty V) [] (empty_rep V rs P) N) as (h & E & R).
  exists h. split; [exact E|]. split; [apply rep_holds; assumption|]. intro NE.
  destruct (last_spec V rs h _ R NE) as (r & k & L & C & _). exists r, k. split; assumption.
Qed.
Print Assumptions C37_delete_partial.

Example C37_delete_case :
  let os := [New Z 1; New Z 2; New Z 3; New Z 4; New Z 5; New Z 6; Delete Z 4; New Z 7; Delete Z 4] in
  gentle Z 4 [] os /\ on_list_all Z os = [1; 2; 3; 4; 7].
Proof. cbv zeta. split; [|reflexivity]. cbn. unfold within_last_row. cbn. repeat split; try lia; intros; vm_compute; repeat split; try discriminate; left; discriminate. Qed.

(** Deleting an element of an earlier row loses an element ([a b c] in rows of two, deleting [a], leaves [b b]). *)
Theorem C37_delete_across_refuted :
  exists h, run Z 2 (empty Z) [New Z 1; New Z 2; New Z 3; Delete Z 0] = Some h /\
    on_list_all Z [New Z 1; New Z 2; New Z 3; Delete Z 0] = [2; 3] /\
    get Z 2 h 0 = Some 2 /\ get Z 2 h 1 = Some 2 /\ ~ holds Z 2 h [2; 3].
Proof.
  eexists. split; [reflexivity|]. split; [reflexivity|]. split; [reflexivity|]. split; [reflexivity|].
  intros [_ H]. specialize (H 1 ltac:(cbn; lia)). vm_compute in H. discriminate.
Qed.
Print Assumptions C37_delete_across_refuted.

(** In rows of any size above one, a history that deletes the last element of a row that another row follows copies
    to an object before the row. *)
Theorem C37_delete_boundary_refuted : forall (V : Type) rs h i, 0 < rs -> (i + 1) mod rs = 0 -> 0 <= i -> i + 1 < size V h -> (i + 1) / rs < row V h ->
  step V rs h (Delete V i) = Undefined V.
Proof.
  intros V rs h i P M I S R. unfold step. replace (size V h <=? i) with false by (symmetry; apply Z.leb_gt; lia).
  unfold move_previous. rewrite M. replace ((i + 1) / rs <? row V h) with true by (symmetry; apply Z.ltb_lt; exact R).
  unfold copy at 1. destruct (negb _); [reflexivity|]. replace (rs - 0 =? 0) with false by (symmetry; apply Z.eqb_neq; lia).
  replace (0 <=? 0 - 1) with false by reflexivity. rewrite andb_false_r. reflexivity.
Qed.
Print Assumptions C37_delete_boundary_refuted.

Example C37_delete_boundary_case :
  exists h, run Z 2 (empty Z) [New Z 1; New Z 2; New Z 3; New Z 4; New Z 5] = Some h /\ 1 + 1 < size Z h /\ (1 + 1) / 2 < row Z h /\
    run Z 2 (empty Z) [New Z 1; New Z 2; New Z 3; New Z 4; New Z 5; Delete Z 1] = None.
Proof. eexists. split; [reflexivity|]. vm_compute. repeat split. Qed.

(** ** C38: allocators *)

(** Blocks handed out by the array heap have the sizes asked for, lie in their buffers and never share a cell. *)
Theorem C38_arrays : forall rs ns h bs, 0 < rs -> Forall (fun n => 0 <= n) ns -> acquire_all rs ns aempty [] = (h, bs) ->
  map b_size bs = rev ns /\ Forall (inside (a_bufs h)) bs /\ all_separate bs.
Proof. exact acquire_spec. Qed.
Print Assumptions C38_arrays.

Example C38_arrays_case : snd (acquire_all 8 [3; 4; 9; 1; 2; 20; 6] aempty []) =
  [Blk 2 2 6; Blk 3 0 20; Blk 2 0 2; Blk 0 7 1; Blk 1 0 9; Blk 0 3 4; Blk 0 0 3].
Proof. reflexivity. Qed.

(** For any sequence of requests of at least one byte: blocks have the sizes asked for, lie in their buffers and never
    share a byte; the destructor runs exactly once at every object and nowhere else, and frees every buffer exactly
    once. *)
Theorem C38_allocator : forall rq, Forall (fun r => 0 < fst r < 2 ^ 64 - 4) rq ->
  exists h bs, xalloc_all rq xempty [] = Some (h, bs) /\
    map (fun x => (b_size (fst x), snd x)) bs = rev rq /\
    Forall (fun x => inside (x_bufs h) (fst x)) bs /\ all_separate (map fst bs) /\
    (NoDup (destroyed h) /\ forall b o, In (b, o) (destroyed h) <-> exists x, In (x, true) bs /\ b_buf x = b /\ b_off x = o) /\
    (NoDup (freed h) /\ forall b, In b (freed h) <-> 0 <= b < Z.of_nat (length (x_bufs h))).
Proof. exact xheap_spec. Qed.
Print Assumptions C38_allocator.

Example C38_allocator_case :
  match xalloc_all [(7, true); (8, false); (5, true); (300, true); (12, true); (200, false)] xempty [] with
  | Some (h, bs) => bs = [(Blk 3 0 200, false); (Blk 2 0 12, true); (Blk 1 0 300, true); (Blk 0 8 5, true); (Blk 0 1016 8, false); (Blk 0 0 7, true)] /\
      destroyed h = [(1, 0); (0, 0); (0, 8); (2, 0)] /\ freed h = [1; 0; 2; 3]
  | None => False
  end.
Proof. vm_compute. repeat split. Qed.

(** A request of no bytes is undefined behaviour. *)
Theorem C38_zero_refuted : forall h o, xalloc 0 o h = None.
Proof. reflexivity. Qed.
Print Assumptions C38_zero_refuted.
