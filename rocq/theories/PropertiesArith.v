(** C06-C10, C50: integer operators of the virtual machine and of the
    compile-time folder.  See ArithSpec.v for the specification vocabulary
    ([math], [holds], [lang_result_type]) and ArithModel.v for the model. *)

From Coq Require Import ZArith List Bool.
From Verif Require Import CppInt ArithModel ArithSpec ArithProofs.
Import ListNotations.
Open Scope Z_scope.

(** *** C06 *)

(** The result type of every arithmetic and bitwise operator is the one the
    promotion rule prescribes. *)
Theorem C06_result_type : forall a t1 t2,
  get_binary_vtype (Al a) (Vi t1) (Vi t2) = Some (Vi (lang_result_type t1 t2)).
Proof. exact result_type_al. Qed.
Print Assumptions C06_result_type.

Theorem C06_result_type_symmetric : forall a t1 t2,
  get_binary_vtype (Al a) (Vi t1) (Vi t2) = get_binary_vtype (Al a) (Vi t2) (Vi t1).
Proof.
  exact (fun a t1 t2 => eq_trans (result_type_al a t1 t2)
    (eq_trans (f_equal (fun t => Some (Vi t)) (lang_result_type_sym t1 t2))
      (eq_sym (result_type_al a t2 t1)))).
Qed.
Print Assumptions C06_result_type_symmetric.

(** Every operand value survives the conversion to the result type, unless an
    operand is uint64. *)
Theorem C06_result_type_represents_operands : forall t1 t2 v,
  t1 <> U64 -> t2 <> U64 -> in_range t1 v -> in_range (lang_result_type t1 t2) v.
Proof. exact result_type_represents. Qed.
Print Assumptions C06_result_type_represents_operands.

Example C06_instance :
  get_binary_vtype (Al Add) (Vi U32) (Vi I16) = Some (Vi I64) /\
  in_range U32 4000000000 /\ in_range I64 4000000000.
Proof. vm_compute. repeat split; discriminate. Qed.

(** *** C07 *)

(** + - * & | ^ : the exact result modulo the width of the result type; when
    the result type is signed and the exact result does not fit, the behaviour
    is undefined (C++ signed overflow).  Missing from the full property: the
    uint32-with-signed mixes, for which it is false (next theorems), and a
    defined value on signed overflow. *)
Theorem C07_exact_modular_partial : forall a t1 t2 v1 v2,
  modular a = true -> u32_with_signed t1 t2 = false ->
  in_range t1 v1 -> in_range t2 v2 ->
  vm_binary (Al a) (Vi t1, v1) (Vi t2, v2)
  = (let r := lang_result_type t1 t2 in
     if is_signed r && negb (in_rangeb r (math a v1 v2)) then VmUB
     else VmVal (Vi r, wrap r (math a v1 v2))).
Proof. exact c07_modular. Qed.
Print Assumptions C07_exact_modular_partial.

Example C07_exact_modular_instance :
  vm_binary (Al Mul) (Vi U32, 4000000000) (Vi U16, 3) = VmVal (Vi U32, 3410065408) /\
  vm_binary (Al Add) (Vi I64, -5) (Vi U32, 4294967295) = VmVal (Vi I64, 4294967290) /\
  vm_binary (Al BXor) (Vi U64, 1) (Vi I8, -1) = VmVal (Vi U64, 18446744073709551614) /\
  vm_binary (Al Add) (Vi I32, 2147483647) (Vi I32, 1) = VmUB.
Proof. vm_compute. repeat split. Qed.

(** FINDING.  uint32 with int8/int16/int32: the table says int64, but the value
    is computed in 32 bits and zero-extended: the exact result modulo 2^32. *)
Theorem C07_u32_signed_mix_is_mod_2_32 : forall a t1 t2 v1 v2,
  modular a = true -> u32_with_signed t1 t2 = true ->
  in_range t1 v1 -> in_range t2 v2 ->
  vm_binary (Al a) (Vi t1, v1) (Vi t2, v2) = VmVal (Vi I64, wrap U32 (math a v1 v2)).
Proof. exact c07_u32_mix. Qed.
Print Assumptions C07_u32_signed_mix_is_mod_2_32.

Theorem C07_exact_refuted :
  exists v1 v2, in_range U32 v1 /\ in_range I32 v2 /\
    in_range (lang_result_type U32 I32) (v1 + v2) /\
    vm_binary (Al Add) (Vi U32, v1) (Vi I32, v2) <> VmVal (Vi I64, v1 + v2).
Proof. exists 1, (-2). vm_compute. repeat split; discriminate. Qed.
Print Assumptions C07_exact_refuted.

(** / and %: truncated quotient and its remainder.  Missing from the full
    property: operands the result type cannot hold (uint64 with a negative
    operand), for which it is false. *)
Theorem C07_division_partial : forall t1 t2 v1 v2,
  u32_with_signed t1 t2 = false ->
  in_range (lang_result_type t1 t2) v1 -> in_range (lang_result_type t1 t2) v2 ->
  v2 <> 0 -> in_range (lang_result_type t1 t2) (Z.quot v1 v2) ->
  vm_binary (Al Div) (Vi t1, v1) (Vi t2, v2)
    = VmVal (Vi (lang_result_type t1 t2), Z.quot v1 v2) /\
  vm_binary (Al Mod) (Vi t1, v1) (Vi t2, v2)
    = VmVal (Vi (lang_result_type t1 t2), Z.rem v1 v2) /\
  Z.quot v1 v2 * v2 + Z.rem v1 v2 = v1.
Proof. exact c07_div. Qed.
Print Assumptions C07_division_partial.

Example C07_division_instance :
  vm_binary (Al Div) (Vi I16, -7) (Vi I64, 2) = VmVal (Vi I64, -3) /\
  vm_binary (Al Mod) (Vi I16, -7) (Vi I64, 2) = VmVal (Vi I64, -1).
Proof. vm_compute. split; reflexivity. Qed.

Theorem C07_division_u64_refuted :
  exists v1 v2, in_range I32 v1 /\ in_range U64 v2 /\ v2 <> 0 /\
    vm_binary (Al Div) (Vi I32, v1) (Vi U64, v2)
      <> VmVal (Vi U64, wrap U64 (Z.quot v1 v2)).
Proof. exists (-6), 2. vm_compute. repeat split; discriminate. Qed.
Print Assumptions C07_division_u64_refuted.

(** Division by zero is undefined behaviour in the VM: there is no check. *)
Theorem C07_division_by_zero_is_ub : forall t1 t2 v1,
  vm_binary (Al Div) (Vi t1, v1) (Vi t2, 0) = VmUB /\
  vm_binary (Al Mod) (Vi t1, v1) (Vi t2, 0) = VmUB.
Proof. exact c07_div_ub. Qed.
Print Assumptions C07_division_by_zero_is_ub.

(** Right shift by a count below the width of the left operand. *)
Theorem C07_right_shift_partial : forall t1 t2 v1 v2,
  in_range t1 v1 -> 0 <= v2 < bits (promote t1) ->
  in_range (lang_result_type t1 t2) v1 ->
  vm_binary (Al Shr) (Vi t1, v1) (Vi t2, v2)
  = VmVal (Vi (lang_result_type t1 t2), v1 / 2 ^ v2).
Proof. exact c07_shr. Qed.
Print Assumptions C07_right_shift_partial.

Example C07_right_shift_instance :
  vm_binary (Al Shr) (Vi I32, -9) (Vi I32, 1) = VmVal (Vi I32, -5).
Proof. reflexivity. Qed.

(** Left shift: exact modulo the width of the (promoted) left operand. *)
Theorem C07_left_shift_partial : forall t1 t2 v1 v2,
  in_range t1 v1 -> 0 <= v1 -> 0 <= v2 < bits (promote t1) ->
  (is_signed (promote t1) = false \/ in_range (promote t1) (v1 * 2 ^ v2)) ->
  vm_binary (Al Shl) (Vi t1, v1) (Vi t2, v2)
  = VmVal (Vi (lang_result_type t1 t2), (v1 * 2 ^ v2) mod 2 ^ bits (promote t1)).
Proof. exact c07_shl. Qed.
Print Assumptions C07_left_shift_partial.

Example C07_left_shift_instance :
  vm_binary (Al Shl) (Vi U32, 3000000001) (Vi I32, 3) = VmVal (Vi I64, 2525163528) /\
  vm_binary (Al Shl) (Vi U8, 200) (Vi I64, 4) = VmVal (Vi I64, 3200).
Proof. split; reflexivity. Qed.

(** FINDING.  A shift is computed in the width of the left operand although the
    result type may be wider. *)
Theorem C07_wide_shift_refuted :
  exists v2, in_range I64 v2 /\ 0 <= v2 < bits (lang_result_type I32 I64) /\
    vm_binary (Al Shl) (Vi I32, 1) (Vi I64, v2) = VmUB.
Proof. exists 40. vm_compute. repeat split; discriminate. Qed.
Print Assumptions C07_wide_shift_refuted.

(** *** C08 *)

(** Comparisons are exact for all type pairs except uint32/uint64 with a signed
    type no wider. *)
Theorem C08_comparison_partial : forall c t1 t2 v1 v2,
  u32_with_signed t1 t2 = false -> u64_with_signed t1 t2 = false ->
  in_range t1 v1 -> in_range t2 v2 ->
  exists b, vm_binary (Cmp c) (Vi t1, v1) (Vi t2, v2) = VmVal (Vb, b2z b)
            /\ (b = true <-> holds c v1 v2).
Proof.
  exact (fun c t1 t2 v1 v2 Ha Hb H1 H2 =>
    ex_intro _ _ (conj (vm_cmp_unfold c t1 t2 v1 v2)
                       (cpp_cmp_exact c t1 t2 v1 v2 Ha Hb H1 H2))).
Qed.
Print Assumptions C08_comparison_partial.

(** For the remaining pairs they are exact on non-negative operands. *)
Theorem C08_comparison_nonneg_partial : forall c t1 t2 v1 v2,
  in_range t1 v1 -> in_range t2 v2 -> 0 <= v1 -> 0 <= v2 ->
  exists b, vm_binary (Cmp c) (Vi t1, v1) (Vi t2, v2) = VmVal (Vb, b2z b)
            /\ (b = true <-> holds c v1 v2).
Proof.
  exact (fun c t1 t2 v1 v2 H1 H2 P1 P2 =>
    ex_intro _ _ (conj (vm_cmp_unfold c t1 t2 v1 v2)
                       (cpp_cmp_nonneg c t1 t2 v1 v2 H1 H2 P1 P2))).
Qed.
Print Assumptions C08_comparison_nonneg_partial.

Example C08_instance :
  vm_binary (Cmp Lt) (Vi I64, -1) (Vi U32, 4294967295) = VmVal (Vb, 1) /\
  holds Lt (-1) 4294967295.
Proof. vm_compute. repeat split. Qed.

(** FINDING.  -1 < 0u is false in the VM. *)
Theorem C08_comparison_refuted :
  exists t1 t2 v1 v2, in_range t1 v1 /\ in_range t2 v2 /\ holds Lt v1 v2 /\
    vm_binary (Cmp Lt) (Vi t1, v1) (Vi t2, v2) = VmVal (Vb, 0).
Proof. exists I32, U32, (-1), 0. vm_compute. repeat split; discriminate. Qed.
Print Assumptions C08_comparison_refuted.

(** *** C09 *)

(** Unary - + ~ are exact in the promoted type whenever the result fits it,
    except unary minus on uint32/uint64. *)
Theorem C09_unary_partial : forall o t v,
  (o = Minus \/ o = Positive \/ o = BNot) ->
  ~ (o = Minus /\ (t = U32 \/ t = U64)) ->
  in_range t v ->
  in_range (promote t) (math_unary o v) ->
  vm_unary o (Vi t, v) = VmVal (Vi (promote t), math_unary o v).
Proof. exact c09_unary. Qed.
Print Assumptions C09_unary_partial.

(** ~ on unsigned types complements within the width. *)
Theorem C09_bit_not_unsigned : forall t v,
  (t = U32 \/ t = U64) -> in_range t v ->
  vm_unary BNot (Vi t, v) = VmVal (Vi t, tmax t - v).
Proof. exact bnot_unsigned. Qed.
Print Assumptions C09_bit_not_unsigned.

Example C09_instance :
  vm_unary Minus (Vi U8, 255) = VmVal (Vi I32, -255) /\
  vm_unary BNot (Vi I64, 5) = VmVal (Vi I64, -6) /\
  vm_unary BNot (Vi U32, 5) = VmVal (Vi U32, 4294967290).
Proof. vm_compute. repeat split. Qed.

(** FINDING.  -x for a uint32 x has type int64 but is 2^32 - x, never negative. *)
Theorem C09_minus_uint32_refuted : forall v, in_range U32 v ->
  vm_unary Minus (Vi U32, v) = VmVal (Vi I64, if v =? 0 then 0 else 4294967296 - v).
Proof. exact minus_u32. Qed.
Print Assumptions C09_minus_uint32_refuted.

(** FINDING.  -x for a uint64 x has no table row: the VM pushes int32 0. *)
Theorem C09_minus_uint64_refuted : forall v,
  vm_unary Minus (Vi U64, v) = VmVal (Vi I32, 0).
Proof. exact minus_u64. Qed.
Print Assumptions C09_minus_uint64_refuted.

(** *** C10 *)

(** A binary operator folded at compile time gives the value and type the VM
    computes.  (Compound assignments are not VM commands; they are compiled to
    a plain operator and a store.) *)
Theorem C10_fold_binary_agrees : forall o x y v,
  fold_binary o x y = Const v ->
  (forall a, o <> Asg a) ->
  vm_binary o x y = VmVal v.
Proof. exact c10_binary. Qed.
Print Assumptions C10_fold_binary_agrees.

Theorem C10_fold_unary_agrees : forall o x v,
  fold_unary o x = Const v ->
  (o = Minus \/ o = Positive \/ o = BNot \/ o = LNot) ->
  vm_unary o x = VmVal v.
Proof. exact c10_unary. Qed.
Print Assumptions C10_fold_unary_agrees.

Example C10_instance :
  fold_binary (Al Sub) (Vi U8, 3) (Vi I16, 10) = Const (Vi I32, -7) /\
  fold_unary BNot (Vi U16, 1) = Const (Vi I32, -2).
Proof. vm_compute. split; reflexivity. Qed.

(** Conversely the folder folds every non-shift operator the VM can compute. *)
Theorem C10_fold_binary_complete : forall a t1 t2 v1 v2 v,
  a <> Shl -> a <> Shr ->
  vm_binary (Al a) (Vi t1, v1) (Vi t2, v2) = VmVal v ->
  fold_binary (Al a) (Vi t1, v1) (Vi t2, v2) = Const v.
Proof. exact fold_complete. Qed.
Print Assumptions C10_fold_binary_complete.

(** A folded compound assignment x op= y has the type of x and the exact result
    modulo its width. *)
Theorem C10_fold_compound_assignment : forall a t1 t2 v1 v2,
  modular a = true -> in_range t1 v1 -> in_range t2 v2 ->
  fold_binary (Asg a) (Vi t1, v1) (Vi t2, v2) = CompilerUB \/
  fold_binary (Asg a) (Vi t1, v1) (Vi t2, v2) = Const (Vi t1, wrap t1 (math a v1 v2)).
Proof. exact fold_assign. Qed.
Print Assumptions C10_fold_compound_assignment.
Example C10_fold_compound_assignment_instance :
  fold_binary (Asg Sub) (Vi U8, 3) (Vi I16, 10) = Const (Vi U8, 249).
Proof. reflexivity. Qed.

(** ++x and x-- of a constant: the next value and the value itself, where the next and the previous
    value exist in the type. *)
Theorem C10_fold_increment_partial : forall t v,
  in_range t v -> in_range t (v + 1) ->
  fold_unary LInc (Vi t, v) = Const (Vi t, v + 1) /\
  fold_unary RDec (Vi t, v + 1) = Const (Vi t, v + 1).
Proof. exact fold_increment. Qed.
Print Assumptions C10_fold_increment_partial.

Example C10_fold_increment_case : in_range U8 254 /\ in_range U8 (254 + 1).
Proof. vm_compute. repeat split; discriminate. Qed.

(** FINDING.  --x and x++ are exchanged for every constant: --x gives x, x++ gives x - 1. *)
Theorem C10_fold_exchanged_refuted : forall t v,
  in_range t v -> in_range t (v - 1) -> in_range t (v + 1) ->
  fold_unary LDec (Vi t, v) = Const (Vi t, v) /\
  fold_unary RInc (Vi t, v) = Const (Vi t, v - 1).
Proof. exact fold_exchanged. Qed.
Print Assumptions C10_fold_exchanged_refuted.

(** FINDING.  The folder exchanges --x and x++: folding --5 gives 5, folding
    5++ gives 4, while the operators give 4 and 5. *)
Theorem C10_fold_decrement_refuted :
  fold_unary LDec (Vi I32, 5) = Const (Vi I32, 5) /\
  unitary_operator LDec (Vi I32, 5) = Val (Vi I32, 4) /\
  fold_unary RInc (Vi I32, 5) = Const (Vi I32, 4) /\
  unitary_operator RInc (Vi I32, 5) = Val (Vi I32, 5).
Proof. vm_compute. repeat split. Qed.
Print Assumptions C10_fold_decrement_refuted.

(** FINDING.  true != false is a compile error, although the VM can compute it. *)
Theorem C10_fold_bool_not_equal_refuted :
  fold_binary (Cmp Ne) (Vb, 1) (Vb, 0) = CompileError /\
  vm_binary (Cmp Ne) (Vb, 1) (Vb, 0) = VmVal (Vb, 1).
Proof. vm_compute. split; reflexivity. Qed.
Print Assumptions C10_fold_bool_not_equal_refuted.

(** FINDING.  Folding a constant division by zero is undefined behaviour in the
    compiler itself (not a diagnostic). *)
Theorem C10_fold_division_by_zero_is_compiler_ub : forall a t1 t2 v1,
  a = Div \/ a = Mod ->
  fold_binary (Al a) (Vi t1, v1) (Vi t2, 0) = CompilerUB.
Proof.
  intros a t1 t2 v1 Ha. unfold fold_binary. cbn [fst region_default].
  rewrite in_pairs_fold.
  assert (E : binary_operator (Al a) (Vi t1, v1) (Vi t2, 0) = UB).
  { pose proof (c07_div_ub t1 t2 v1) as [Hd Hm]. unfold vm_binary in Hd, Hm.
    cbn [fst] in Hd, Hm. rewrite in_pairs_case in Hd, Hm.
    destruct Ha; subst a;
      [destruct (binary_operator (Al Div) (Vi t1, v1) (Vi t2, 0))
      |destruct (binary_operator (Al Mod) (Vi t1, v1) (Vi t2, 0))];
      simpl in *; congruence. }
  destruct Ha; subst a; rewrite E; reflexivity.
Qed.
Print Assumptions C10_fold_division_by_zero_is_compiler_ub.

(** *** C50 *)

(** Typed constants compare by value for all pairs of integer types except
    uint64 with a signed type. *)
Theorem C50_compare_partial : forall c t1 t2 v1 v2,
  u64_with_signed t1 t2 = false ->
  in_range t1 v1 -> in_range t2 v2 ->
  (compare_tvalue c t1 t2 v1 v2 = true <-> holds c v1 v2).
Proof. exact compare_tvalue_exact. Qed.
Print Assumptions C50_compare_partial.

Example C50_instance :
  compare_tvalue Lt I8 U32 (-1) 4294967295 = true /\
  compare_tvalue Eq U64 U8 200 200 = true.
Proof. vm_compute. split; reflexivity. Qed.

(** FINDING.  The constants -1 and 2^64-1 compare equal. *)
Theorem C50_compare_refuted :
  exists v1 v2, in_range I32 v1 /\ in_range U64 v2 /\ v1 <> v2 /\
    compare_tvalue Eq I32 U64 v1 v2 = true.
Proof. exists (-1), 18446744073709551615. vm_compute. repeat split; discriminate. Qed.
Print Assumptions C50_compare_refuted.

(** *** C51 *)

(** && and || are minimum and maximum of truth values, at run time and folded. *)
Theorem C51_logic_and_or : forall o x y,
  (o = LAnd \/ o = LOr) -> (x = 0 \/ x = 1) -> (y = 0 \/ y = 1) ->
  let r := match o with LAnd => Z.min x y | _ => Z.max x y end in
  vm_binary o (Vb, x) (Vb, y) = VmVal (Vb, r) /\ fold_binary o (Vb, x) (Vb, y) = Const (Vb, r).
Proof. exact logic_value. Qed.
Print Assumptions C51_logic_and_or.

Theorem C51_logic_not : forall x, (x = 0 \/ x = 1) ->
  vm_unary LNot (Vb, x) = VmVal (Vb, 1 - x) /\ fold_unary LNot (Vb, x) = Const (Vb, 1 - x).
Proof. exact not_value. Qed.
Print Assumptions C51_logic_not.

Theorem C51_bool_equality : forall x y, (x = 0 \/ x = 1) -> (y = 0 \/ y = 1) ->
  vm_binary (Cmp Eq) (Vb, x) (Vb, y) = VmVal (Vb, if x =? y then 1 else 0) /\
  vm_binary (Cmp Ne) (Vb, x) (Vb, y) = VmVal (Vb, if x =? y then 0 else 1) /\
  fold_binary (Cmp Eq) (Vb, x) (Vb, y) = Const (Vb, if x =? y then 1 else 0).
Proof. exact bool_eq_value. Qed.
Print Assumptions C51_bool_equality.
Example C51_instance : vm_binary LOr (Vb, 0) (Vb, 1) = VmVal (Vb, 1).
Proof. reflexivity. Qed.
