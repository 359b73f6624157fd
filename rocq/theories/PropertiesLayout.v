(** C35, C36, C52, C55: layouts of frames, arguments and objects. *)

From Coq Require Import ZArith List Bool Lia Permutation.
Import ListNotations.
From Verif Require Import LayoutModel LayoutSpec LayoutProofs LayoutExamples.
Open Scope Z_scope.

(** *** C35: local variables do not overlap. *)

(** For every body without locals of mixed kind and at most 64K of locals, whatever the sort
    does with equal sizes: if the layout is computed without undefined behaviour, locals that can be
    live together are disjoint and inside the frame.  Missing: mixed locals, frames over 64K and
    definedness, all refuted below. *)
Theorem C35_frame_partial : forall sort b la,
  sorts_down sort -> Forall (fun x => 0 <= fst x /\ snd x <> KMix) (declared b) ->
  room (declared b) <= 65528 ->
  layout_of sort (number 0 b) = Done la -> frame_ok b la.
Proof. exact commit_ok. Qed.
Print Assumptions C35_frame_partial.

Example C35_case :
  Forall (fun x => 0 <= fst x /\ snd x <> KMix) (declared ex_block) /\ room (declared ex_block) <= 65528 /\
  exists la, layout_of sort_down (number 0 ex_block) = Done la /\ live_together ex_block 0 2 /\ ~ live_together ex_block 1 3.
Proof. exact ex_block_hyp. Qed.

Example C35_sort : sorts_down sort_down.
Proof. exact sort_down_ok. Qed.

(** With locals of one kind the layout is always computed. *)
Theorem C35_one_kind_defined : forall sort b k,
  k <> KMix -> Forall (fun x => snd x = k) (declared b) ->
  exists la, layout_of sort (number 0 b) = Done la.
Proof. exact one_kind_defined. Qed.
Print Assumptions C35_one_kind_defined.

Example C35_one_kind_case : Forall (fun x => snd x = KValue) (declared ex_values) /\ length (declared ex_values) = 4%nat.
Proof. exact ex_values_hyp. Qed.

(** The bound on the model's recursion is never reached. *)
Theorem C35_terminates : forall sort ds, layout_of sort ds <> OutOfFuel.
Proof. exact layout_fuel. Qed.
Print Assumptions C35_terminates.

(** Without the restrictions the property is false: references and numbers in nested blocks
    can make the layout undefined, mixed locals overlap and leave the frame, and so do more than 64K. *)
Theorem C35_frame_refuted :
  ~ (forall sort b, sorts_down sort -> Forall (fun x => 0 <= fst x) (declared b) ->
       exists la, layout_of sort (number 0 b) = Done la) /\
  ~ (forall sort b la, sorts_down sort -> Forall (fun x => 0 <= fst x) (declared b) -> room (declared b) <= 65528 ->
       layout_of sort (number 0 b) = Done la -> frame_ok b la) /\
  ~ (forall sort b la, sorts_down sort -> Forall (fun x => 0 <= fst x /\ snd x <> KMix) (declared b) ->
       layout_of sort (number 0 b) = Done la -> frame_ok b la).
Proof. exact frames_refuted. Qed.
Print Assumptions C35_frame_refuted.

(** Locals are not always aligned. *)
Theorem C35_alignment_refuted :
  ~ (forall sort b la i s k o, sorts_down sort -> Forall (fun x => 0 <= fst x /\ snd x <> KMix) (declared b) ->
       layout_of sort (number 0 b) = Done la -> nth_error (declared b) i = Some (s, k) ->
       nth_error (offset_of la) i = Some (Some o) -> o mod alignment s = 0).
Proof. exact locals_alignment_refuted. Qed.
Print Assumptions C35_alignment_refuted.

(** *** C36: arguments do not overlap. *)

(** The caller pushes the arguments in order and then the three units of the call: argument
    [i] is read where it was pushed. *)
Theorem C36_pushed_where_read : forall ps lp i p,
  Forall param_valid ps -> pushed_all ps < 65536 -> nth_error ps i = Some p ->
  param_address (params_layout ps) lp i = Some (lp - 3 - pushed_all ps + pushed_all (firstn i ps)).
Proof. exact param_slot. Qed.
Print Assumptions C36_pushed_where_read.

(** Every unit of the argument area belongs to exactly one argument. *)
Theorem C36_partition : forall ps lp, Forall param_valid ps -> pushed_all ps < 65536 ->
  forall a, lp - 3 - pushed_all ps <= a < lp - 3 ->
  exists i p o, nth_error ps i = Some p /\ param_address (params_layout ps) lp i = Some o /\ o <= a < o + pushed p /\
    forall j q o', nth_error ps j = Some q -> param_address (params_layout ps) lp j = Some o' -> o' <= a < o' + pushed q -> j = i.
Proof. exact slots_partition. Qed.
Print Assumptions C36_partition.

Example C36_case : Forall param_valid ex_params /\ pushed_all ex_params < 65535 /\
  param_address (params_layout ex_params) 100 2 = Some 93 /\ param_address (params_layout ex_params) 100 4 = Some 97 /\
  param_address (params_layout ex_params) 100 5 = None.
Proof. exact ex_params_hyp. Qed.

(** The address handed out for variable parameters is theirs exactly when one unit of other
    parameters precedes them. *)
Theorem C36_extends_only_after_one_unit : forall ps lp k s,
  Forall param_valid ps -> pushed_all ps < 65535 -> nth_error ps k = Some (PExtends s) ->
  (param_address (params_layout ps) lp k = Some (extends_address (params_layout ps) lp) <-> pushed_all (firstn k ps) = 1).
Proof. exact extends_iff. Qed.
Print Assumptions C36_extends_only_after_one_unit.

Theorem C36_extends_refuted :
  ~ (forall ps lp k s, Forall param_valid ps -> pushed_all ps < 65535 -> nth_error ps k = Some (PExtends s) ->
       param_address (params_layout ps) lp k = Some (extends_address (params_layout ps) lp)).
Proof. exact extends_refuted. Qed.
Print Assumptions C36_extends_refuted.

(** *** C52: fields do not overlap. *)

Theorem C52_fields : forall sort base fs size w,
  sorts_fields sort -> Forall (fun f => 0 <= f_size f) fs -> 0 <= base -> base + fields_room fs < 65536 ->
  type_layout sort base fs = (size, w) ->
  (forall i f, nth_error fs i = Some f -> exists o,
     lookup w i = Some o /\ base <= o /\ o + f_size f <= size /\ o mod alignment (f_size f) = 0) /\
  (forall i j fi fj oi oj, i <> j -> nth_error fs i = Some fi -> nth_error fs j = Some fj ->
     lookup w i = Some oi -> lookup w j = Some oj -> apart oi (f_size fi) oj (f_size fj)).
Proof. exact fields_ok. Qed.
Print Assumptions C52_fields.

Example C52_case : Forall field_valid ex_fields /\ 12 + fields_room ex_fields < 65536 /\
  type_layout sort_fields 12 ex_fields = (48, [(1%nat, 16); (0%nat, 24); (4%nat, 26); (2%nat, 28); (3%nat, 32)]).
Proof. exact ex_fields_hyp. Qed.

Example C52_sort : sorts_fields sort_fields.
Proof. exact sort_fields_ok. Qed.

(** *** C55: filling a tuple. *)

(** Afterwards field [i] holds the bytes of argument [i], and nothing outside the object (of
    whole units) has changed. *)
Theorem C55_tuple : forall sort fs size w m obj from arg,
  sorts_fields sort -> Forall field_valid fs -> fields_room fs < 65528 -> type_layout sort 0 fs = (size, w) ->
  exists m', tuple_set m obj (tuple_fields w fs) from arg = Some m' /\
    (forall i f o x, nth_error fs i = Some f -> lookup w i = Some o -> 0 <= x < f_size f ->
       m' (obj + o + x) = from (arg + 8 * unit_sum (map f_size (firstn i fs)) + x)) /\
    (forall a, a < obj \/ obj + 8 * units_of_bytes size <= a -> m' a = m a).
Proof. exact tuple_filled. Qed.
Print Assumptions C55_tuple.

Example C55_case : Forall field_valid ex_tuple /\ fields_room ex_tuple < 65528 /\
  type_layout sort_fields 0 ex_tuple = (27, [(2%nat, 0); (0%nat, 8); (1%nat, 16)]).
Proof. exact ex_tuple_hyp. Qed.

(** The store itself is not exact: it rounds the size up, so only the order of the layout keeps
    the neighbours intact. *)
Theorem C55_single_store_refuted :
  ~ (forall m dst from src n m', 0 <= n -> set_variable_value m dst from src n = Some m' ->
       forall a, ~ (dst <= a < dst + n) -> m' a = m a).
Proof. exact store_refuted. Qed.
Print Assumptions C55_single_store_refuted.
