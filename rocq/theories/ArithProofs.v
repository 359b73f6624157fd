(** Proofs for C06-C10 and C50. *)

From Coq Require Import ZArith Lia List Bool.
From Verif Require Import CppInt ArithModel ArithSpec.
Import ListNotations.
Open Scope Z_scope.

Ltac Zify.zify_post_hook ::= Z.div_mod_to_equations.

(** *** Result types *)

Lemma find_row_spec : forall t1 t2,
  find_row int_ops t1 t2 = Some (lang_result_type t1 t2).
Proof. intros [] []; reflexivity. Qed.

Lemma result_type_al : forall a t1 t2,
  get_binary_vtype (Al a) (Vi t1) (Vi t2) = Some (Vi (lang_result_type t1 t2)).
Proof. intros a t1 t2. unfold get_binary_vtype. rewrite find_row_spec. reflexivity. Qed.

Lemma lang_result_type_sym : forall t1 t2,
  lang_result_type t1 t2 = lang_result_type t2 t1.
Proof. intros [] []; reflexivity. Qed.

Lemma subrange_in : forall t u v, subrange t u = true -> in_range t v -> in_range u v.
Proof.
  intros t u v H [H1 H2]. unfold subrange in H.
  rewrite andb_true_iff, !Z.leb_le in H. unfold in_range. lia.
Qed.

Lemma result_type_represents : forall t1 t2 v,
  t1 <> U64 -> t2 <> U64 -> in_range t1 v -> in_range (lang_result_type t1 t2) v.
Proof.
  intros t1 t2 v H1 H2 H. apply (subrange_in t1); [|assumption].
  destruct t1, t2; try congruence; reflexivity.
Qed.

Lemma in_pairs_case : forall t1 t2, in_pairs case_binaries t1 t2 = true.
Proof. intros [] []; reflexivity. Qed.

Lemma in_pairs_fold : forall t1 t2, in_pairs fold_pairs t1 t2 = true.
Proof. intros [] []; reflexivity. Qed.

Lemma common_result : forall t1 t2,
  u32_with_signed t1 t2 = false -> common t1 t2 = lang_result_type t1 t2.
Proof. intros [] []; simpl; intro H; try discriminate; reflexivity. Qed.

Lemma common_u32_signed : forall t1 t2,
  u32_with_signed t1 t2 = true -> common t1 t2 = U32 /\ lang_result_type t1 t2 = I64.
Proof. intros [] []; simpl; intro H; try discriminate; split; reflexivity. Qed.

(** *** wrap and the modular operators *)

Lemma wrap_eq_of_mod : forall t x y, x mod modulus t = y mod modulus t -> wrap t x = wrap t y.
Proof.
  intros t x y H.
  assert (Hm : modulus t <> 0) by (destruct t; simpl; lia).
  rewrite (Z.div_mod x (modulus t) Hm), (Z.div_mod y (modulus t) Hm), H.
  rewrite (Z.add_comm (modulus t * (x / modulus t))), (Z.add_comm (modulus t * (y / modulus t))).
  rewrite (Z.mul_comm _ (x / modulus t)), (Z.mul_comm _ (y / modulus t)).
  rewrite !wrap_add_modulus. reflexivity.
Qed.

Lemma wrap_mod : forall t x, wrap t x mod modulus t = x mod modulus t.
Proof.
  intros t x. destruct (wrap_cong t x) as [k Hk]. rewrite Hk.
  rewrite Z.add_mod, Z.mod_mul, Z.add_0_r, Z.mod_mod; try (destruct t; simpl; lia).
Qed.

Lemma bits_nonneg : forall t, 0 <= bits t.
Proof. intros []; simpl; lia. Qed.

Lemma bitop_mod : forall (f : Z -> Z -> Z) n x y,
  0 <= n ->
  (forall i j, Z.land (f i j) (Z.ones n) = f (Z.land i (Z.ones n)) (Z.land j (Z.ones n))) ->
  (f x y) mod 2 ^ n = (f (x mod 2 ^ n) (y mod 2 ^ n)).
Proof.
  intros f n x y Hn Hf. rewrite <- !Z.land_ones by assumption. apply Hf.
Qed.

Lemma land_ones_land : forall n i j,
  Z.land (Z.land i j) (Z.ones n) = Z.land (Z.land i (Z.ones n)) (Z.land j (Z.ones n)).
Proof.
  intros. apply Z.bits_inj'. intros k Hk. rewrite !Z.land_spec.
  destruct (Z.testbit i k), (Z.testbit j k), (Z.testbit (Z.ones n) k); reflexivity.
Qed.

Lemma lor_ones_land : forall n i j,
  Z.land (Z.lor i j) (Z.ones n) = Z.lor (Z.land i (Z.ones n)) (Z.land j (Z.ones n)).
Proof.
  intros. apply Z.bits_inj'. intros k Hk. rewrite !Z.land_spec, !Z.lor_spec, !Z.land_spec.
  destruct (Z.testbit i k), (Z.testbit j k), (Z.testbit (Z.ones n) k); reflexivity.
Qed.

Lemma lxor_ones_land : forall n i j,
  Z.land (Z.lxor i j) (Z.ones n) = Z.lxor (Z.land i (Z.ones n)) (Z.land j (Z.ones n)).
Proof.
  intros. apply Z.bits_inj'. intros k Hk. rewrite !Z.land_spec, !Z.lxor_spec, !Z.land_spec.
  destruct (Z.testbit i k), (Z.testbit j k), (Z.testbit (Z.ones n) k); reflexivity.
Qed.

(** The result modulo 2^n only depends on the operands modulo 2^n. *)
Lemma modular_wrap : forall a t x y,
  modular a = true -> wrap t (math a (wrap t x) (wrap t y)) = wrap t (math a x y).
Proof.
  intros a t x y Ha.
  assert (Hm : modulus t <> 0) by (destruct t; simpl; lia).
  apply wrap_eq_of_mod.
  destruct a; try discriminate; cbn [math].
  - rewrite Zplus_mod, !wrap_mod, <- Zplus_mod. reflexivity.
  - rewrite Zminus_mod, !wrap_mod, <- Zminus_mod. reflexivity.
  - rewrite Zmult_mod, !wrap_mod, <- Zmult_mod. reflexivity.
  - rewrite modulus_pow.
    rewrite (bitop_mod Z.land _ (wrap t x)), (bitop_mod Z.land _ x);
      auto using bits_nonneg, land_ones_land.
    rewrite <- modulus_pow, !wrap_mod. reflexivity.
  - rewrite modulus_pow.
    rewrite (bitop_mod Z.lor _ (wrap t x)), (bitop_mod Z.lor _ x);
      auto using bits_nonneg, lor_ones_land.
    rewrite <- modulus_pow, !wrap_mod. reflexivity.
  - rewrite modulus_pow.
    rewrite (bitop_mod Z.lxor _ (wrap t x)), (bitop_mod Z.lxor _ x);
      auto using bits_nonneg, lxor_ones_land.
    rewrite <- modulus_pow, !wrap_mod. reflexivity.
Qed.

(** Bitwise operators stay within a signed range. *)
Lemma shiftr_range : forall k x, 0 <= k -> (- 2 ^ k <= x < 2 ^ k <-> Z.shiftr x k = 0 \/ Z.shiftr x k = -1).
Proof.
  intros k x Hk. rewrite Z.shiftr_div_pow2 by assumption.
  assert (0 < 2 ^ k) by (apply Z.pow_pos_nonneg; lia).
  split; intro H0.
  - destruct (Z_lt_le_dec x 0).
    + right. symmetry. apply (Z.div_unique x (2 ^ k) (-1) (x + 2 ^ k)); lia.
    + left. apply Z.div_small; lia.
  - pose proof (Z.div_mod x (2 ^ k)). pose proof (Z.mod_pos_bound x (2 ^ k)).
    destruct H0 as [E|E]; rewrite E in *; lia.
Qed.

Lemma signed_range_pow : forall t x,
  is_signed t = true -> (in_range t x <-> - 2 ^ (bits t - 1) <= x < 2 ^ (bits t - 1)).
Proof.
  intros t x H. unfold in_range, tmin, tmax. rewrite H, <- half_pow. lia.
Qed.

Lemma bitop_signed_range : forall a t x y,
  (a = BAnd \/ a = BOr \/ a = BXor) -> is_signed t = true ->
  in_range t x -> in_range t y -> in_range t (math a x y).
Proof.
  intros a t x y Ha Hs Hx Hy.
  apply signed_range_pow in Hx; [|assumption].
  apply signed_range_pow in Hy; [|assumption].
  apply signed_range_pow; [assumption|].
  assert (Hb : 0 <= bits t - 1) by (destruct t; simpl; lia).
  apply shiftr_range in Hx; [|assumption]. apply shiftr_range in Hy; [|assumption].
  apply shiftr_range; [assumption|].
  destruct Ha as [ -> | [ -> | -> ]]; cbn [math];
    [rewrite Z.shiftr_land|rewrite Z.shiftr_lor|rewrite Z.shiftr_lxor];
    destruct Hx as [-> | ->], Hy as [-> | ->]; cbv; auto.
Qed.

(** *** C07 *)

Definition arith_outcome (a : arith) (r : ity) (z : Z) : vmres :=
  if is_signed r && negb (in_rangeb r z) then VmUB else VmVal (Vi r, wrap r z).

Lemma represents_signed : forall t1 t2 v1 v2,
  is_signed (lang_result_type t1 t2) = true ->
  in_range t1 v1 -> in_range t2 v2 ->
  in_range (lang_result_type t1 t2) v1 /\ in_range (lang_result_type t1 t2) v2.
Proof.
  intros t1 t2 v1 v2 Hs H1 H2. split.
  - apply (subrange_in t1); [|assumption]. destruct t1, t2; simpl in Hs; try discriminate; reflexivity.
  - apply (subrange_in t2); [|assumption]. destruct t1, t2; simpl in Hs; try discriminate; reflexivity.
Qed.

Lemma vm_al_unfold : forall a t1 t2 v1 v2,
  vm_binary (Al a) (Vi t1, v1) (Vi t2, v2)
  = match cpp_arith a t1 t2 v1 v2 with
    | Val z => VmVal (Vi (lang_result_type t1 t2), wrap (lang_result_type t1 t2) z)
    | UB => VmUB
    end.
Proof.
  intros. unfold vm_binary, binary_operator. cbn [fst].
  rewrite in_pairs_case, result_type_al. destruct (cpp_arith a t1 t2 v1 v2); reflexivity.
Qed.

Lemma fit_wrap_shape : forall r z,
  match fit r z with
  | Val z' => VmVal (Vi r, wrap r z')
  | UB => VmUB
  end = if is_signed r && negb (in_rangeb r z) then VmUB else VmVal (Vi r, wrap r z).
Proof.
  intros r z. unfold fit. destruct (is_signed r) eqn:Hs; simpl.
  - destruct (in_rangeb r z); reflexivity.
  - rewrite wrap_wrap by lia. reflexivity.
Qed.

Lemma fit_wrapped_operands : forall a r x y,
  modular a = true ->
  (is_signed r = true -> in_range r x /\ in_range r y) ->
  match fit r (math a (wrap r x) (wrap r y)) with
  | Val z => VmVal (Vi r, wrap r z)
  | UB => VmUB
  end = if is_signed r && negb (in_rangeb r (math a x y)) then VmUB
        else VmVal (Vi r, wrap r (math a x y)).
Proof.
  intros a r x y Ha Hr. rewrite fit_wrap_shape.
  destruct (is_signed r) eqn:Hs; simpl.
  - destruct (Hr eq_refl) as [Hx Hy]. rewrite !(wrap_id r) by assumption. reflexivity.
  - rewrite modular_wrap by assumption. reflexivity.
Qed.

Lemma modular_not_shift : forall a t1 t2, modular a = true -> cpp_arith_type a t1 t2 = common t1 t2.
Proof. intros [] t1 t2 H; try discriminate; reflexivity. Qed.

Lemma c07_modular : forall a t1 t2 v1 v2,
  modular a = true -> u32_with_signed t1 t2 = false ->
  in_range t1 v1 -> in_range t2 v2 ->
  vm_binary (Al a) (Vi t1, v1) (Vi t2, v2)
  = arith_outcome a (lang_result_type t1 t2) (math a v1 v2).
Proof.
  intros a t1 t2 v1 v2 Ha Hmix H1 H2.
  rewrite vm_al_unfold. unfold arith_outcome.
  pose proof (represents_signed t1 t2 v1 v2) as Hrep.
  unfold cpp_arith. rewrite modular_not_shift by assumption.
  rewrite (common_result _ _ Hmix).
  set (r := lang_result_type t1 t2) in *.
  destruct a; try discriminate.
  - exact (fit_wrapped_operands Add r v1 v2 eq_refl (fun h => Hrep h H1 H2)).
  - exact (fit_wrapped_operands Sub r v1 v2 eq_refl (fun h => Hrep h H1 H2)).
  - exact (fit_wrapped_operands Mul r v1 v2 eq_refl (fun h => Hrep h H1 H2)).
  - rewrite (modular_wrap BAnd r v1 v2 eq_refl : wrap r (Z.land _ _) = _). cbn [math].
    destruct (is_signed r) eqn:Hs; [|reflexivity].
    destruct (Hrep eq_refl H1 H2) as [Hx Hy].
    pose proof (bitop_signed_range BAnd r v1 v2 (or_introl eq_refl) Hs Hx Hy) as Hin.
    cbn [math] in Hin. apply in_rangeb_iff in Hin. rewrite Hin. reflexivity.
  - rewrite (modular_wrap BOr r v1 v2 eq_refl : wrap r (Z.lor _ _) = _). cbn [math].
    destruct (is_signed r) eqn:Hs; [|reflexivity].
    destruct (Hrep eq_refl H1 H2) as [Hx Hy].
    pose proof (bitop_signed_range BOr r v1 v2 (or_intror (or_introl eq_refl)) Hs Hx Hy) as Hin.
    cbn [math] in Hin. apply in_rangeb_iff in Hin. rewrite Hin. reflexivity.
  - rewrite (modular_wrap BXor r v1 v2 eq_refl : wrap r (Z.lxor _ _) = _). cbn [math].
    destruct (is_signed r) eqn:Hs; [|reflexivity].
    destruct (Hrep eq_refl H1 H2) as [Hx Hy].
    pose proof (bitop_signed_range BXor r v1 v2 (or_intror (or_intror eq_refl)) Hs Hx Hy) as Hin.
    cbn [math] in Hin. apply in_rangeb_iff in Hin. rewrite Hin. reflexivity.
Qed.

(** The uint32/signed mixes: computed modulo 2^32, then zero-extended. *)
Lemma c07_u32_mix : forall a t1 t2 v1 v2,
  modular a = true -> u32_with_signed t1 t2 = true ->
  in_range t1 v1 -> in_range t2 v2 ->
  vm_binary (Al a) (Vi t1, v1) (Vi t2, v2)
  = VmVal (Vi I64, wrap U32 (math a v1 v2)).
Proof.
  intros a t1 t2 v1 v2 Ha Hmix H1 H2.
  destruct (common_u32_signed _ _ Hmix) as [Hc Hr].
  rewrite vm_al_unfold, Hr. unfold cpp_arith. rewrite modular_not_shift, Hc by assumption.
  assert (Hout : forall z, wrap I64 (wrap U32 z) = wrap U32 z).
  { intro z. apply wrap_id. pose proof (wrap_in_range U32 z) as [A B].
    unfold in_range, tmin, tmax in *; simpl in *; lia. }
  pose proof (modular_wrap a U32 v1 v2 Ha) as Hw.
  destruct a; try discriminate; cbn [math] in *; unfold fit; cbn [is_signed];
    rewrite ?Hw, ?Hout; try reflexivity.
  (* bitwise: the C++ result is already a uint32 value *)
  all: rewrite <- Hw, <- (Hout (_ (wrap U32 v1) (wrap U32 v2))); do 3 f_equal;
       symmetry; apply wrap_id.
  all: pose proof (wrap_in_range U32 v1) as Hx; pose proof (wrap_in_range U32 v2) as Hy;
       set (x := wrap U32 v1) in *; set (y := wrap U32 v2) in *.
  all: unfold in_range, tmin, tmax in *; cbn [is_signed modulus] in *.
  all: assert (Ex : x = Z.land x (Z.ones 32)) by
         (rewrite Z.land_ones by lia; symmetry; apply Z.mod_small; simpl; lia);
       assert (Ey : y = Z.land y (Z.ones 32)) by
         (rewrite Z.land_ones by lia; symmetry; apply Z.mod_small; simpl; lia).
  - rewrite Ex, Ey, <- land_ones_land, Z.land_ones by lia.
    pose proof (Z.mod_pos_bound (Z.land x y) (2 ^ 32)); simpl in *; lia.
  - rewrite Ex, Ey, <- lor_ones_land, Z.land_ones by lia.
    pose proof (Z.mod_pos_bound (Z.lor x y) (2 ^ 32)); simpl in *; lia.
  - rewrite Ex, Ey, <- lxor_ones_land, Z.land_ones by lia.
    pose proof (Z.mod_pos_bound (Z.lxor x y) (2 ^ 32)); simpl in *; lia.
Qed.

(** Division and remainder, when the result type can hold both operands. *)
Lemma rem_in_range : forall r x y,
  in_range r x -> in_range r y -> y <> 0 -> in_range r (Z.rem x y).
Proof.
  intros r x y [Hx1 Hx2] [Hy1 Hy2] Hy.
  assert (H0 : tmin r <= 0 <= tmax r) by (destruct r; cbv; split; discriminate).
  unfold in_range.
  destruct (Z_lt_le_dec x 0) as [Hn|Hp].
  - pose proof (Z.rem_bound_neg_pos x y) as A. pose proof (Z.rem_bound_neg_neg x y) as B.
    pose proof (Z.rem_opp_l x y Hy) as C.
    pose proof (Z.rem_le (- x) (Z.abs y)) as D.
    rewrite Z.rem_abs_r in D by assumption.
    assert (Hle : Z.rem (- x) y <= - x) by (apply D; lia).
    assert (Hge : 0 <= Z.rem (-x) y) by (apply Z.rem_nonneg; lia).
    lia.
  - pose proof (Z.rem_le x (Z.abs y)) as D. rewrite Z.rem_abs_r in D by assumption.
    assert (Hle : Z.rem x y <= x) by (apply D; lia).
    assert (Hge : 0 <= Z.rem x y) by (apply Z.rem_nonneg; lia).
    lia.
Qed.

Lemma c07_div : forall t1 t2 v1 v2,
  u32_with_signed t1 t2 = false ->
  in_range (lang_result_type t1 t2) v1 -> in_range (lang_result_type t1 t2) v2 ->
  v2 <> 0 -> in_range (lang_result_type t1 t2) (Z.quot v1 v2) ->
  vm_binary (Al Div) (Vi t1, v1) (Vi t2, v2)
    = VmVal (Vi (lang_result_type t1 t2), Z.quot v1 v2) /\
  vm_binary (Al Mod) (Vi t1, v1) (Vi t2, v2)
    = VmVal (Vi (lang_result_type t1 t2), Z.rem v1 v2) /\
  Z.quot v1 v2 * v2 + Z.rem v1 v2 = v1.
Proof.
  intros t1 t2 v1 v2 Hmix H1 H2 Hnz Hq.
  rewrite !vm_al_unfold. unfold cpp_arith, cpp_arith_type.
  rewrite (common_result _ _ Hmix). set (r := lang_result_type t1 t2) in *.
  rewrite !(wrap_id r v1), !(wrap_id r v2) by assumption.
  apply Z.eqb_neq in Hnz. rewrite Hnz. apply Z.eqb_neq in Hnz.
  rewrite (fit_in_range r) by assumption.
  rewrite (wrap_id r) by assumption.
  apply in_rangeb_iff in Hq. rewrite Hq.
  rewrite (wrap_id r) by (apply rem_in_range; assumption).
  repeat split. pose proof (Z.quot_rem' v1 v2). lia.
Qed.

Lemma c07_div_ub : forall t1 t2 v1,
  vm_binary (Al Div) (Vi t1, v1) (Vi t2, 0) = VmUB /\
  vm_binary (Al Mod) (Vi t1, v1) (Vi t2, 0) = VmUB.
Proof.
  intros. rewrite !vm_al_unfold. unfold cpp_arith, cpp_arith_type.
  assert (E : forall t, wrap t 0 = 0) by (intros []; reflexivity).
  rewrite E. split; reflexivity.
Qed.

(** Shifts whose count is within the width of the (promoted) left operand. *)
Lemma c07_shr : forall t1 t2 v1 v2,
  in_range t1 v1 -> 0 <= v2 < bits (promote t1) ->
  in_range (lang_result_type t1 t2) v1 ->
  vm_binary (Al Shr) (Vi t1, v1) (Vi t2, v2)
  = VmVal (Vi (lang_result_type t1 t2), v1 / 2 ^ v2).
Proof.
  intros t1 t2 v1 v2 H1 Hs Hr. rewrite vm_al_unfold. unfold cpp_arith, cpp_arith_type.
  assert (Hp : in_range (promote t1) v1).
  { apply (subrange_in t1); [destruct t1; reflexivity|assumption]. }
  rewrite (wrap_id _ _ Hp).
  destruct (Z.ltb_spec v2 0); [lia|]. destruct (Z.leb_spec (bits (promote t1)) v2); [lia|].
  simpl. rewrite wrap_id; [reflexivity|].
  assert (P : 0 < 2 ^ v2) by (apply Z.pow_pos_nonneg; lia).
  destruct Hr as [Ha Hb]. unfold in_range.
  assert (Hz0 : tmin (lang_result_type t1 t2) <= 0 <= tmax (lang_result_type t1 t2))
    by (destruct t1, t2; cbv; split; discriminate).
  destruct (Z_lt_le_dec v1 0).
  - assert (v1 <= v1 / 2 ^ v2) by (apply Z.div_le_lower_bound; nia).
    assert (v1 / 2 ^ v2 < 0) by (apply Z.div_lt_upper_bound; lia). lia.
  - assert (0 <= v1 / 2 ^ v2) by (apply Z.div_pos; lia).
    assert (v1 / 2 ^ v2 <= v1) by (apply Z.div_le_upper_bound; nia). lia.
Qed.

(** *** C08 *)

Lemma cmp_exact : forall c x y,
  (match c with
   | Gt => y <? x | Ge => y <=? x | Lt => x <? y | Le => x <=? y
   | Eq => x =? y | Ne => negb (x =? y) end) = true <-> holds c x y.
Proof.
  intros [] x y; simpl; rewrite ?negb_true_iff, ?Z.eqb_neq; lia.
Qed.

Lemma cpp_cmp_exact : forall c t1 t2 v1 v2,
  u32_with_signed t1 t2 = false -> u64_with_signed t1 t2 = false ->
  in_range t1 v1 -> in_range t2 v2 ->
  (cpp_cmp c t1 t2 v1 v2 = true <-> holds c v1 v2).
Proof.
  intros c t1 t2 v1 v2 Ha Hb H1 H2. unfold cpp_cmp.
  assert (E1 : in_range (common t1 t2) v1).
  { apply (subrange_in t1); [|assumption]. destruct t1, t2; simpl in *; try discriminate; reflexivity. }
  assert (E2 : in_range (common t1 t2) v2).
  { apply (subrange_in t2); [|assumption]. destruct t1, t2; simpl in *; try discriminate; reflexivity. }
  rewrite (wrap_id _ _ E1), (wrap_id _ _ E2). apply cmp_exact.
Qed.

Lemma vm_cmp_unfold : forall c t1 t2 v1 v2,
  vm_binary (Cmp c) (Vi t1, v1) (Vi t2, v2) = VmVal (Vb, b2z (cpp_cmp c t1 t2 v1 v2)).
Proof.
  intros. unfold vm_binary, binary_operator. cbn [fst]. rewrite in_pairs_case.
  cbn [get_binary_vtype]. rewrite find_row_spec. cbn [option_map].
  destruct c; cbn [vm_of vcast]; destruct (cpp_cmp _ t1 t2 v1 v2); reflexivity.
Qed.

Lemma nonneg_in_common : forall t1 t2 v1 v2,
  in_range t1 v1 -> in_range t2 v2 -> 0 <= v1 -> 0 <= v2 ->
  in_range (common t1 t2) v1 /\ in_range (common t1 t2) v2.
Proof.
  intros t1 t2 v1 v2. unfold in_range, tmin, tmax.
  destruct t1, t2; cbn; lia.
Qed.

(** Non-negative operands always compare correctly, whatever their types. *)
Lemma cpp_cmp_nonneg : forall c t1 t2 v1 v2,
  in_range t1 v1 -> in_range t2 v2 -> 0 <= v1 -> 0 <= v2 ->
  (cpp_cmp c t1 t2 v1 v2 = true <-> holds c v1 v2).
Proof.
  intros c t1 t2 v1 v2 H1 H2 P1 P2. unfold cpp_cmp.
  destruct (nonneg_in_common t1 t2 v1 v2 H1 H2 P1 P2) as [E1 E2].
  rewrite (wrap_id _ _ E1), (wrap_id _ _ E2). apply cmp_exact.
Qed.

Lemma vm_cmp_bool : forall c x y,
  (c = Eq \/ c = Ne) ->
  vm_binary (Cmp c) (Vb, b2z x) (Vb, b2z y) = VmVal (Vb, b2z (match c with Eq => eqb x y | _ => negb (eqb x y) end)).
Proof. intros c [] [] [-> | ->]; reflexivity. Qed.

(** *** C09 *)

Lemma c09_unary : forall o t v,
  (o = Minus \/ o = Positive \/ o = BNot) ->
  ~ (o = Minus /\ (t = U32 \/ t = U64)) ->
  in_range t v ->
  in_range (promote t) (math_unary o v) ->
  vm_unary o (Vi t, v) = VmVal (Vi (promote t), math_unary o v).
Proof.
  intros o t v Ho Hno Ht Hr.
  assert (Hp : in_range (promote t) v).
  { apply (subrange_in t); [destruct t; reflexivity|assumption]. }
  destruct Ho as [ -> | [ -> | -> ]];
    unfold vm_unary, unitary_operator; cbn [fst].
  - destruct t; try (exfalso; apply Hno; split; tauto);
      cbn [get_unitary_vtype promote cpp_unary math_unary] in *;
      rewrite (wrap_id _ _ Hp), (fit_in_range _ _ Hr);
      cbn [bind vm_of vcast]; rewrite (wrap_id _ _ Hr); reflexivity.
  - destruct t; cbn [get_unitary_vtype promote cpp_unary bind vm_of vcast] in *;
      rewrite !(wrap_id _ _ Hp); reflexivity.
  - destruct t; cbn [get_unitary_vtype promote cpp_unary bind vm_of vcast] in *;
      rewrite !(wrap_id _ _ Hp); cbn [math_unary] in Hr; rewrite !(wrap_id _ _ Hr); reflexivity.
Qed.

Lemma bnot_unsigned : forall t v,
  (t = U32 \/ t = U64) -> in_range t v ->
  vm_unary BNot (Vi t, v) = VmVal (Vi t, tmax t - v).
Proof.
  intros t v Ht H.
  assert (Hp : promote t = t) by (destruct Ht; subst; reflexivity).
  assert (E : wrap t (-1 - v) = tmax t - v).
  { symmetry. apply (wrap_unique t _ _ 1);
      destruct Ht; subst; unfold in_range, tmin, tmax in *; cbn [is_signed modulus] in *; lia. }
  assert (V : vm_unary BNot (Vi t, v)
              = VmVal (Vi t, wrap t (wrap (promote t) (-1 - wrap (promote t) v)))).
  { destruct Ht; subst; reflexivity. }
  rewrite V, Hp, (wrap_id _ _ H), wrap_wrap by apply Z.le_refl. rewrite E. reflexivity.
Qed.

Lemma minus_u32 : forall v, in_range U32 v ->
  vm_unary Minus (Vi U32, v) = VmVal (Vi I64, if v =? 0 then 0 else 4294967296 - v).
Proof.
  intros v H.
  assert (V : vm_unary Minus (Vi U32, v) = VmVal (Vi I64, wrap I64 (wrap U32 (- wrap U32 v)))).
  { reflexivity. }
  rewrite V, (wrap_id _ _ H). clear V.
  assert (E : wrap I64 (wrap U32 (- v)) = if v =? 0 then 0 else 4294967296 - v).
  { unfold in_range, tmin, tmax in H; cbn [is_signed modulus] in H.
    destruct (Z.eqb_spec v 0) as [->|Hv]; [reflexivity|].
    assert (E : 4294967296 - v = wrap U32 (- v)).
    { apply (wrap_unique U32 _ _ 1);
        [unfold in_range, tmin, tmax; cbn [is_signed modulus]; lia | cbn [modulus]; lia]. }
    rewrite <- E. apply wrap_id. unfold in_range, tmin, tmax; cbn [is_signed half]; lia. }
  rewrite E. reflexivity.
Qed.

Lemma minus_u64 : forall v, vm_unary Minus (Vi U64, v) = VmVal (Vi I32, 0).
Proof. reflexivity. Qed.

(** *** C10 *)

(** Operators both sides implement. *)
Lemma c10_binary : forall o x y v,
  fold_binary o x y = Const v ->
  (forall a, o <> Asg a) ->
  vm_binary o x y = VmVal v.
Proof.
  intros o [t1 v1] [t2 v2] v H Hasg.
  assert (Hof : forall r, of_res r = Const v -> vm_of r = VmVal v).
  { intros [a|] E; simpl in *; congruence. }
  destruct o as [a|a|c| |].
  - unfold fold_binary in H.
    destruct t1 as [i|], t2 as [j|]; cbn [fst region_default region_bool] in H;
      try (destruct a; discriminate).
    rewrite in_pairs_fold in H. unfold vm_binary. cbn [fst]. rewrite in_pairs_case.
    apply Hof. destruct a; try discriminate; exact H.
  - exfalso. apply (Hasg a). reflexivity.
  - unfold fold_binary in H.
    destruct t1 as [i|], t2 as [j|]; cbn [fst region_default region_bool] in H;
      try (destruct c; discriminate).
    + rewrite in_pairs_fold in H. unfold vm_binary.
      destruct c; cbn [fst]; rewrite in_pairs_case; apply Hof; exact H.
    + destruct c; try discriminate. apply Hof. exact H.
  - destruct t1, t2; try discriminate. apply Hof. exact H.
  - destruct t1, t2; try discriminate. apply Hof. exact H.
Qed.

Lemma c10_unary : forall o x v,
  fold_unary o x = Const v ->
  (o = Minus \/ o = Positive \/ o = BNot \/ o = LNot) ->
  vm_unary o x = VmVal v.
Proof.
  intros o [t w] v H Ho.
  assert (Hof : forall r, of_res r = Const v -> vm_of r = VmVal v).
  { intros [a|] E; simpl in *; congruence. }
  destruct Ho as [ -> | [ -> | [ -> | -> ]]]; destruct t; try discriminate; apply Hof; exact H.
Qed.

(** *** C50 *)

Lemma compare_tvalue_exact : forall c t1 t2 v1 v2,
  u64_with_signed t1 t2 = false ->
  in_range t1 v1 -> in_range t2 v2 ->
  (compare_tvalue c t1 t2 v1 v2 = true <-> holds c v1 v2).
Proof.
  intros c t1 t2 v1 v2 Hb H1 H2. unfold compare_tvalue.
  destruct (ity_eqb t1 t2) eqn:E.
  - apply ity_eqb_eq in E; subst t2. apply cpp_cmp_exact; try assumption; destruct t1; reflexivity.
  - destruct (ity_eqb t1 U64) eqn:E1.
    + apply ity_eqb_eq in E1; subst t1. rewrite (wrap_id U64) by assumption.
      assert (Hp : 0 <= v2 /\ in_range I64 v2).
      { unfold in_range, tmin, tmax in *. destruct t2; simpl in *; try discriminate; lia. }
      destruct Hp. rewrite (wrap_id I64) by assumption.
      apply cpp_cmp_nonneg; try assumption. unfold in_range, tmin in H1; simpl in H1; lia.
    + destruct (ity_eqb t2 U64) eqn:E2.
      * apply ity_eqb_eq in E2; subst t2. rewrite (wrap_id U64) by assumption.
        assert (Hp : 0 <= v1 /\ in_range I64 v1).
        { unfold in_range, tmin, tmax in *. destruct t1; simpl in *; try discriminate; lia. }
        destruct Hp. rewrite (wrap_id I64) by assumption.
        apply cpp_cmp_nonneg; try assumption. unfold in_range, tmin in H2; simpl in H2; lia.
      * assert (Hp : in_range I64 v1 /\ in_range I64 v2).
        { unfold in_range, tmin, tmax in *. destruct t1, t2; simpl in *; try discriminate; lia. }
        destruct Hp. rewrite !(wrap_id I64) by assumption.
        apply cpp_cmp_exact; try assumption; reflexivity.
Qed.

(** *** Left shift, compound assignment and logic *)

Lemma promote_sub_result : forall t1 t2 v, 0 <= v -> in_range (promote t1) v ->
  in_range (lang_result_type t1 t2) v.
Proof.
  intros t1 t2 v H [_ Hb]. unfold in_range.
  assert (E : tmin (lang_result_type t1 t2) <= 0 /\ tmax (promote t1) <= tmax (lang_result_type t1 t2))
    by (destruct t1, t2; cbv; split; discriminate).
  lia.
Qed.

Lemma c07_shl : forall t1 t2 v1 v2,
  in_range t1 v1 -> 0 <= v1 -> 0 <= v2 < bits (promote t1) ->
  (is_signed (promote t1) = false \/ in_range (promote t1) (v1 * 2 ^ v2)) ->
  vm_binary (Al Shl) (Vi t1, v1) (Vi t2, v2)
  = VmVal (Vi (lang_result_type t1 t2), (v1 * 2 ^ v2) mod 2 ^ bits (promote t1)).
Proof.
  intros t1 t2 v1 v2 H1 Hv Hs Hr. rewrite vm_al_unfold. unfold cpp_arith, cpp_arith_type.
  assert (Hp : in_range (promote t1) v1).
  { apply (subrange_in t1); [destruct t1; reflexivity|assumption]. }
  rewrite (wrap_id _ _ Hp).
  destruct (Z.ltb_spec v2 0); [lia|]. destruct (Z.leb_spec (bits (promote t1)) v2); [lia|].
  cbn [orb]. destruct (Z.ltb_spec v1 0); [lia|].
  assert (P : 0 < 2 ^ v2) by (apply Z.pow_pos_nonneg; lia).
  assert (P0 : 0 <= v1 * 2 ^ v2) by nia.
  rewrite <- modulus_pow.
  assert (W : (is_signed (promote t1) = true -> v1 * 2 ^ v2 < modulus (promote t1)) /\
    wrap (promote t1) (v1 * 2 ^ v2) = (v1 * 2 ^ v2) mod modulus (promote t1)).
  { split.
    - intros Hsg. destruct Hr as [Hr|Hr]; [congruence|].
      destruct Hr as [_ Hr]. unfold tmax in Hr. rewrite Hsg in Hr.
      assert (half (promote t1) <= modulus (promote t1)) by (destruct t1; cbv; discriminate). lia.
    - destruct Hr as [Hr|Hr].
      + unfold wrap. rewrite Hr. reflexivity.
      + rewrite wrap_id by auto. symmetry. apply Z.mod_small. split; [lia|].
        destruct Hr as [_ Hr].
        assert (tmax (promote t1) < modulus (promote t1)) by (destruct t1; cbv; reflexivity). lia. }
  destruct W as [W1 W2].
  assert (F : in_range (lang_result_type t1 t2) ((v1 * 2 ^ v2) mod modulus (promote t1))).
  { apply promote_sub_result.
    - apply Z.mod_pos_bound. destruct t1; reflexivity.
    - rewrite <- W2. apply wrap_in_range. }
  destruct (is_signed (promote t1)).
  - destruct (Z.ltb_spec (v1 * 2 ^ v2) (modulus (promote t1))); [|specialize (W1 eq_refl); lia].
    rewrite W2. cbn [bind vm_of vcast]. rewrite wrap_id by auto. reflexivity.
  - rewrite W2. cbn [bind vm_of vcast]. rewrite wrap_id by auto. reflexivity.
Qed.

Lemma bits_common : forall t1 t2, bits t1 <= bits (common t1 t2).
Proof. destruct t1, t2; cbv; discriminate. Qed.

Lemma fold_assign : forall a t1 t2 v1 v2,
  modular a = true -> in_range t1 v1 -> in_range t2 v2 ->
  fold_binary (Asg a) (Vi t1, v1) (Vi t2, v2) = CompilerUB \/
  fold_binary (Asg a) (Vi t1, v1) (Vi t2, v2) = Const (Vi t1, wrap t1 (math a v1 v2)).
Proof.
  intros a t1 t2 v1 v2 Ha H1 H2.
  assert (E : fold_binary (Asg a) (Vi t1, v1) (Vi t2, v2) =
    of_res (binary_operator (Asg a) (Vi t1, v1) (Vi t2, v2))).
  { unfold fold_binary. cbn [fst region_default]. rewrite in_pairs_fold.
    destruct a; try discriminate; reflexivity. }
  rewrite E. clear E. unfold binary_operator, get_binary_vtype. rewrite find_row_spec.
  cbn [option_map]. unfold cpp_arith_assign, cpp_arith.
  rewrite modular_not_shift by auto.
  assert (M : wrap t1 (math a (wrap (common t1 t2) v1) (wrap (common t1 t2) v2)) = wrap t1 (math a v1 v2)).
  { rewrite <- (wrap_wrap t1 (common t1 t2) (math a v1 v2)) by apply bits_common.
    rewrite <- (wrap_wrap t1 (common t1 t2)) by apply bits_common.
    f_equal. symmetry. rewrite modular_wrap by auto. reflexivity. }
  assert (K : forall z, wrap t1 z = wrap t1 (math a v1 v2) ->
     of_res (bind (bind (fit (common t1 t2) z) (fun z0 => Val (wrap t1 z0)))
               (fun z0 => Val (Vi t1, vcast (Vi t1) z0))) = CompilerUB \/
     of_res (bind (bind (fit (common t1 t2) z) (fun z0 => Val (wrap t1 z0)))
               (fun z0 => Val (Vi t1, vcast (Vi t1) z0))) = Const (Vi t1, wrap t1 (math a v1 v2))).
  { intros z Hz. destruct (fit (common t1 t2) z) as [w|] eqn:F; cbn [bind of_res]; [right|left; auto].
    apply fit_val in F. subst w. cbn [vcast].
    rewrite wrap_wrap by lia. rewrite wrap_wrap by apply bits_common. rewrite Hz. reflexivity. }
  destruct a; try discriminate; cbn [math] in *; try (apply K; exact M);
    right; cbn [bind of_res vcast]; rewrite wrap_wrap by lia; rewrite M; reflexivity.
Qed.

Lemma logic_value : forall o x y, (o = LAnd \/ o = LOr) -> (x = 0 \/ x = 1) -> (y = 0 \/ y = 1) ->
  let r := match o with LAnd => Z.min x y | _ => Z.max x y end in
  vm_binary o (Vb, x) (Vb, y) = VmVal (Vb, r) /\ fold_binary o (Vb, x) (Vb, y) = Const (Vb, r).
Proof. intros o x y [->| ->] [->| ->] [->| ->]; vm_compute; auto. Qed.

Lemma not_value : forall x, (x = 0 \/ x = 1) ->
  vm_unary LNot (Vb, x) = VmVal (Vb, 1 - x) /\ fold_unary LNot (Vb, x) = Const (Vb, 1 - x).
Proof. intros x [->| ->]; vm_compute; auto. Qed.

Lemma bool_eq_value : forall x y, (x = 0 \/ x = 1) -> (y = 0 \/ y = 1) ->
  vm_binary (Cmp Eq) (Vb, x) (Vb, y) = VmVal (Vb, if x =? y then 1 else 0) /\
  vm_binary (Cmp Ne) (Vb, x) (Vb, y) = VmVal (Vb, if x =? y then 0 else 1) /\
  fold_binary (Cmp Eq) (Vb, x) (Vb, y) = Const (Vb, if x =? y then 1 else 0).
Proof. intros x y [->| ->] [->| ->]; vm_compute; auto. Qed.

(** Folding succeeds for every non-shift operator on integers unless the
    computation itself is undefined. *)
Lemma fold_complete : forall a t1 t2 v1 v2 v,
  a <> Shl -> a <> Shr ->
  vm_binary (Al a) (Vi t1, v1) (Vi t2, v2) = VmVal v ->
  fold_binary (Al a) (Vi t1, v1) (Vi t2, v2) = Const v.
Proof.
  intros a t1 t2 v1 v2 v Ha Hb. unfold vm_binary, fold_binary. cbn [fst region_default].
  rewrite in_pairs_case, in_pairs_fold.
  destruct a; try congruence; destruct (binary_operator _ _ _); cbn [vm_of of_res]; congruence.
Qed.

(** *** Increments of constants *)

Lemma in_range_promote : forall t v, in_range t v -> in_range (promote t) v.
Proof. intros t v H. destruct t; unfold in_range in *; cbn in *; lia. Qed.

Lemma inc_dec_value : forall o t v w r,
  in_range t v -> in_range t w ->
  (o = LInc /\ w = v + 1 /\ r = w \/ o = LDec /\ w = v - 1 /\ r = w \/
   o = RInc /\ w = v + 1 /\ r = v \/ o = RDec /\ w = v - 1 /\ r = v) ->
  unitary_operator o (Vi t, v) = Val (Vi t, r).
Proof.
  intros o t v w r Hv Hw H.
  pose proof (wrap_id _ _ (in_range_promote t v Hv)) as E1.
  pose proof (fit_in_range _ _ (in_range_promote t w Hw)) as E2.
  pose proof (wrap_id t v Hv) as E3. pose proof (wrap_id t w Hw) as E4.
  destruct H as [(-> & -> & ->)|[(-> & -> & ->)|[(-> & -> & ->)|(-> & -> & ->)]]];
    unfold unitary_operator; cbn [get_unitary_vtype cpp_unary]; rewrite E1, E2; cbn [bind vcast];
    rewrite ?E3, ?E4; rewrite ?E3, ?E4; reflexivity.
Qed.

Lemma fold_increment : forall t v,
  in_range t v -> in_range t (v + 1) ->
  fold_unary LInc (Vi t, v) = Const (Vi t, v + 1) /\
  fold_unary RDec (Vi t, v + 1) = Const (Vi t, v + 1).
Proof.
  intros t v H H1. unfold fold_unary. cbn [fst].
  rewrite (inc_dec_value LInc t v (v + 1) (v + 1) H H1) by tauto.
  rewrite (inc_dec_value RDec t (v + 1) v (v + 1) H1 H)
    by (right; right; right; split; [reflexivity | split; [lia | reflexivity]]).
  split; reflexivity.
Qed.

Lemma fold_exchanged : forall t v,
  in_range t v -> in_range t (v - 1) -> in_range t (v + 1) ->
  fold_unary LDec (Vi t, v) = Const (Vi t, v) /\
  fold_unary RInc (Vi t, v) = Const (Vi t, v - 1).
Proof.
  intros t v H H0 H1. unfold fold_unary. cbn [fst].
  rewrite (inc_dec_value RInc t v (v + 1) v H H1) by tauto.
  rewrite (inc_dec_value LDec t v (v - 1) (v - 1) H H0) by tauto.
  split; reflexivity.
Qed.
