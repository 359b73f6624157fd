(** C32-C34, C53, C54: arrays and cleared memory. *)

From Coq Require Import ZArith List Bool Lia.
Import ListNotations.
From Verif Require Import CppInt CommonModel ArrayModel ArraySpec ArrayProofs.
Open Scope Z_scope.

(** *** C32: elements do not alias.
    Indices are pushed in source order; every command ([c]) pops them. *)

Theorem C32_row_major : forall c e ls idx st a,
  representable ls -> inside ls idx ->
  (length ls <= 8)%nat \/ Z.of_nat (length ls) mod 8 <> 2 ->
  new_array e ls = Made a ->
  element c (length ls) a (rev idx ++ st) = Element (row_major ls idx) st
  /\ 0 <= row_major ls idx < array_length a.
Proof. exact element_spec_total. Qed.
Print Assumptions C32_row_major.

Theorem C32_no_alias : forall c c' e ls i j st st' a k r r',
  representable ls -> inside ls i -> inside ls j ->
  (length ls <= 8)%nat \/ Z.of_nat (length ls) mod 8 <> 2 ->
  new_array e ls = Made a ->
  element c (length ls) a (rev i ++ st) = Element k r ->
  element c' (length ls) a (rev j ++ st') = Element k r' -> i = j.
Proof. exact element_inj. Qed.
Print Assumptions C32_no_alias.

Example C32_case : exists a,
  new_array (Scalar 4) [2; 3; 4] = Made a /\ representable [2; 3; 4] /\ inside [2; 3; 4] [1; 2; 3]
  /\ element Push 3 a (rev [1; 2; 3] ++ [77]) = Element 23 [77]
  /\ element Pop 3 a (rev [1; 0; 3] ++ [77]) = Element 15 [77].
Proof.
  eexists. split; [reflexivity|]. split; [|split; [|split; reflexivity]].
  - repeat split; [discriminate|repeat constructor; lia|vm_compute; discriminate].
  - repeat constructor; lia.
Qed.

(** Every representable array can be created. *)
Theorem C32_creation : forall e ls, representable ls -> exists a, new_array e ls = Made a.
Proof. exact creation. Qed.
Print Assumptions C32_creation.

(** Ranks 10, 18, ... : the general index loop has no case for one remaining index. *)
Theorem C32_rank_10_refuted : exists e ls idx a, representable ls /\ inside ls idx
  /\ new_array e ls = Made a /\ element Push (length ls) a (rev idx) = AccessUndef.
Proof. exact rank_10. Qed.
Print Assumptions C32_rank_10_refuted.

(** *** C33: the allocation covers every element *)

(** One-dimensional arrays of numbers, structs of at most eight bytes, and classes
    whose objects are empty or larger than four bytes. *)
Theorem C33_rank1_partial : forall e l a,
  match e with
  | Scalar w => w = 1 \/ w = 2 \/ w = 4 \/ w = 8
  | Struct n => 1 <= n <= 8
  | Class n => n = 0 \/ 5 <= n
  end ->
  0 <= l <= 2 ^ 31 - 1 -> new_array e [l] = Made a ->
  array_length a = l /\
  forall k, 0 <= k < l -> 0 <= k * stride e /\ k * stride e + stride e <= size a.
Proof. exact rank1_covers. Qed.
Print Assumptions C33_rank1_partial.

Example C33_case : exists a, new_array (Scalar 4) [5] = Made a /\ size a = 24.
Proof. eexists. split; reflexivity. Qed.

(** The header (type, total length, lengths of the dimensions) fits in front. *)
Theorem C33_header : forall e ls a, representable ls -> (length ls <= 2 ^ 15)%nat ->
  new_array e ls = Made a ->
  12 <= extern a /\ 12 + 4 * Z.of_nat (length (heads a)) <= extern a.
Proof. exact header_fits. Qed.
Print Assumptions C33_header.

(** Arrays of rank 2 and more reserve space for the first dimension only: every one
    with nine or more elements per row of the first dimension is too small. *)
Theorem C33_multi_refuted : forall w l0 l1 r a, w = 1 \/ w = 2 \/ w = 4 \/ w = 8 ->
  representable (l0 :: l1 :: r) -> 9 <= product (l1 :: r) ->
  new_array (Scalar w) (l0 :: l1 :: r) = Made a ->
  exists k, 0 <= k < array_length a /\ size a < k * stride (Scalar w) + stride (Scalar w).
Proof. exact multi_under. Qed.
Print Assumptions C33_multi_refuted.

Example C33_multi_case : exists a, new_array (Scalar 4) [2; 10] = Made a
  /\ representable [2; 10] /\ size a = 8 /\ array_length a = 20.
Proof.
  eexists. repeat split; [discriminate|repeat constructor; lia|vm_compute; discriminate].
Qed.

(** Structs larger than eight bytes get eight bytes each. *)
Theorem C33_struct_refuted : forall n l a, 9 <= n -> 8 <= l <= 2 ^ 31 - 1 ->
  new_array (Struct n) [l] = Made a ->
  exists k, 0 <= k < array_length a /\ size a < k * stride (Struct n) + stride (Struct n).
Proof. exact struct_under. Qed.
Print Assumptions C33_struct_refuted.

(** References to classes with one to four bytes of fields get that much each. *)
Theorem C33_class_refuted : forall n l a, 1 <= n <= 4 -> 2 <= l <= 2 ^ 31 - 1 ->
  new_array (Class n) [l] = Made a ->
  exists k, 0 <= k < array_length a /\ size a < k * stride (Class n) + stride (Class n).
Proof. exact class_under. Qed.
Print Assumptions C33_class_refuted.

(** *** C34: lengths *)

Theorem C34_lengths : forall e ls st, representable ls ->
  exists a, exec_new_array e (length ls) (rev ls ++ st) = Some (Made a, st)
    /\ array_length a = product ls
    /\ forall j x, nth_error ls j = Some x ->
         length_of_dimension (Z.of_nat (length ls)) a (Z.of_nat j) = Some x.
Proof. exact lengths_spec. Qed.
Print Assumptions C34_lengths.

Example C34_case : exists a, exec_new_array (Scalar 2) 3 [7; 5; 3; 99] = Some (Made a, [99])
  /\ array_length a = 105 /\ length_of_dimension 3 a 0 = Some 3
  /\ length_of_dimension 3 a 1 = Some 5 /\ length_of_dimension 3 a 2 = Some 7.
Proof. eexists. repeat split; reflexivity. Qed.

(** A zero length in an inner dimension makes the query of an outer one divide by zero. *)
Theorem C34_zero_refuted : exists a, new_array (Scalar 4) [2; 0] = Made a
  /\ length_of_dimension 2 a 0 = None.
Proof. exact zero_length. Qed.
Print Assumptions C34_zero_refuted.

(** Negative lengths are accepted. *)
Theorem C34_negative_refuted : exists a, new_array (Scalar 4) [-1] = Made a
  /\ array_length a = -1 /\ size a = 0.
Proof. eexists. repeat split; reflexivity. Qed.
Print Assumptions C34_negative_refuted.

(** *** C53: indices outside the array are rejected *)

(** A first index at or above its length is rejected by reading, by taking the
    address and by writing, whatever the other (in-range) indices are. *)
Theorem C53_first_index_partial : forall c e l0 ls idx i a st,
  (c = Push \/ c = Address \/ c = Pop) ->
  representable (l0 :: ls) -> inside ls idx -> (length ls <= 7)%nat ->
  l0 <= i -> i * product ls <= 2 ^ 31 - 1 - product ls ->
  new_array e (l0 :: ls) = Made a ->
  element c (S (length ls)) a (rev (i :: idx) ++ st) = OutOfRange.
Proof. exact first_index_rejected. Qed.
Print Assumptions C53_first_index_partial.

Example C53_case : exists a, new_array (Scalar 4) [2; 3] = Made a
  /\ element Push 2 a (rev [2; 0]) = OutOfRange /\ element Pop 2 a (rev [5; 2]) = OutOfRange.
Proof. eexists. repeat split; reflexivity. Qed.

(** A negative index passes. *)
Theorem C53_negative_refuted : forall c e l a i, 0 <= l -> i < 0 -> new_array e [l] = Made a ->
  element c 1 a [i] = Element i [].
Proof. exact negative_accepted. Qed.
Print Assumptions C53_negative_refuted.

(** An inner index past its dimension reaches another element. *)
Theorem C53_inner_refuted : exists a, new_array (Scalar 4) [2; 3] = Made a
  /\ ~ inside [2; 3] [0; 4] /\ inside [2; 3] [1; 1]
  /\ element Push 2 a (rev [0; 4]) = element Push 2 a (rev [1; 1])
  /\ element Push 2 a (rev [0; 4]) = Element 4 [].
Proof. exact inner_accepted. Qed.
Print Assumptions C53_inner_refuted.

(** Assignments used as expressions ([Pick]) never check. *)
Theorem C53_pick_refuted : forall a i, element Pick 1 a [i] = Element i [].
Proof. reflexivity. Qed.
Print Assumptions C53_pick_refuted.

(** Writing does not check above rank 8. *)
Theorem C53_rank_9_refuted : exists e ls idx a, representable ls /\ ~ inside ls idx
  /\ new_array e ls = Made a
  /\ exists k, element Pop (length ls) a (rev idx) = Element k [] /\ array_length a <= k.
Proof. exact rank_9_pop. Qed.
Print Assumptions C53_rank_9_refuted.

(** *** C54: new objects are cleared *)

Theorem C54_clear : forall p sz m, 0 <= sz ->
  exists fuel m', zero_memory fuel p sz m = Some m' /\
    forall q, m' q = if (p <=? q) && (q <? p + sz) then 0 else m q.
Proof. exact clear_spec. Qed.
Print Assumptions C54_clear.

(** Every byte of the object is zero, its type is recorded, and nothing else changes. *)
Theorem C54_new_object : forall base ts type m, 0 <= ts < 2 ^ 63 ->
  exists m', new_obj base ts type m = Some (base + 1, m') /\
    m' base = type /\
    (forall q, base + 1 <= q -> 8 * (q - (base + 1)) < ts -> m' q = 0) /\
    (forall q, q < base \/ base + 1 + alignf ts 8 / 8 <= q -> m' q = m q).
Proof. exact new_obj_spec. Qed.
Print Assumptions C54_new_object.

Example C54_case : exists m', new_obj 100 170 7 (fun _ => 5) = Some (101, m')
  /\ m' 100 = 7 /\ m' 101 = 0 /\ m' 122 = 0 /\ m' 123 = 5 /\ m' 99 = 5.
Proof. eexists. repeat split; reflexivity. Qed.
