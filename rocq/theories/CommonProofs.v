(** Proofs for C47-C49. *)

From Coq Require Import ZArith List Bool Lia Arith Permutation.
Import ListNotations.
From Verif Require Import CppInt CommonModel CommonSpec.
Open Scope Z_scope.
Ltac Zify.zify_post_hook ::= Z.div_mod_to_equations.

(** *** Alignment *)

Lemma pow_pos : forall k, 0 <= k -> 0 < 2 ^ k.
Proof. intros. apply Z.pow_pos_nonneg; lia. Qed.

Lemma pow_lt_64 : forall k, 0 <= k < 64 -> 2 ^ k < modulus U64.
Proof. intros k H. change (modulus U64) with (2 ^ 64). apply Z.pow_lt_mono_r; lia. Qed.

Lemma mask_high : forall s k, 0 <= k < 64 -> 0 <= s < modulus U64 ->
  Z.land s (size_not (2 ^ k - 1)) = 2 ^ k * (s / 2 ^ k).
Proof.
  intros s k Hk Hs.
  assert (E : size_not (2 ^ k - 1) = Z.shiftl (Z.ones (64 - k)) k).
  { unfold size_not. rewrite Z.shiftl_mul_pow2 by lia. rewrite Z.ones_equiv.
    assert (2 ^ 64 = 2 ^ (64 - k) * 2 ^ k) by (rewrite <- Z.pow_add_r by lia; f_equal; lia).
    change (modulus U64) with (2 ^ 64). nia. }
  rewrite E. replace (2 ^ k * (s / 2 ^ k)) with (Z.shiftl (Z.shiftr s k) k)
    by (rewrite Z.shiftl_mul_pow2, Z.shiftr_div_pow2 by lia; ring).
  apply Z.bits_inj'. intros n Hn. rewrite Z.land_spec.
  destruct (Z_lt_le_dec n k) as [L|L].
  - rewrite !Z.shiftl_spec_low by lia. apply andb_false_r.
  - rewrite !Z.shiftl_spec_high by lia. rewrite Z.shiftr_spec by lia.
    replace (n - k + k) with n by lia.
    destruct (Z_lt_le_dec n 64) as [M|M].
    + rewrite Z.ones_spec_low by lia. apply andb_true_r.
    + rewrite Z.ones_spec_high by lia. rewrite andb_false_r. symmetry.
      destruct (Z.eq_dec s 0) as [->|N]; [apply Z.testbit_0_l|].
      apply Z.bits_above_log2; [lia|].
      enough (Z.log2 s < 64) by lia. apply Z.log2_lt_pow2; [lia|]. exact (proj2 Hs).
Qed.

Lemma wrap_u64_small : forall z, 0 <= z < modulus U64 -> wrap U64 z = z.
Proof. intros. apply wrap_id. unfold in_range, tmin, tmax. cbn in *. lia. Qed.

Lemma align_down : forall s k, 0 <= k < 64 -> 0 <= s < modulus U64 ->
  align s (2 ^ k) = 2 ^ k * (s / 2 ^ k).
Proof.
  intros s k Hk Hs. unfold align. rewrite wrap_u64_small.
  - apply mask_high; assumption.
  - pose proof (pow_pos k). pose proof (pow_lt_64 k). lia.
Qed.

Lemma align_up : forall s k, 0 <= k < 64 -> 0 <= s -> s + 2 ^ k - 1 < modulus U64 ->
  alignf s (2 ^ k) = 2 ^ k * ((s + 2 ^ k - 1) / 2 ^ k).
Proof.
  intros s k Hk Hs Hb. unfold alignf. pose proof (pow_pos k). pose proof (pow_lt_64 k).
  rewrite !wrap_u64_small by lia. apply mask_high; lia.
Qed.

Lemma is_aligned_iff : forall s k, 0 <= k < 64 -> 0 <= s < modulus U64 ->
  (is_aligned s (2 ^ k) = true <-> (2 ^ k | s)).
Proof.
  intros s k Hk Hs. unfold is_aligned. pose proof (pow_pos k). pose proof (pow_lt_64 k).
  rewrite wrap_u64_small by lia.
  replace (2 ^ k - 1) with (Z.ones k) by (rewrite Z.ones_equiv; lia).
  rewrite Z.land_ones, Z.eqb_eq by lia. rewrite Z.mod_divide by lia. tauto.
Qed.

Lemma double_spec : forall fuel s a, 0 < s < modulus U64 -> 0 <= a < modulus U64 ->
  a <= s * 2 ^ Z.of_nat fuel -> a <= 2 ^ 63 ->
  exists j, 0 <= j /\ double_until fuel s a = Some (s * 2 ^ j)
            /\ a <= s * 2 ^ j /\ forall i, 0 <= i < j -> s * 2 ^ i < a.
Proof.
  induction fuel as [|fuel IH]; intros s a Hs Ha Hf H63.
  - exists 0. cbn [double_until]. change (2 ^ Z.of_nat 0) with 1 in Hf.
    destruct (Z.ltb_spec s a); [lia|]. rewrite Z.pow_0_r, Z.mul_1_r.
    repeat split; try lia.
  - cbn [double_until]. destruct (Z.ltb_spec s a) as [L|L].
    + rewrite Z.shiftl_mul_pow2 by lia. change (2 ^ 1) with 2.
      rewrite wrap_u64_small by (change (2 ^ 63) with 9223372036854775808 in *; cbn in *; lia).
      destruct (IH (s * 2) a) as (j & Hj & E & Hm & Hl); try assumption.
      * change (2 ^ 63) with 9223372036854775808 in *; cbn in *; lia.
      * rewrite Nat2Z.inj_succ, Z.pow_succ_r in Hf by lia. lia.
      * exists (j + 1). replace (s * 2 ^ (j + 1)) with (s * 2 * 2 ^ j)
          by (rewrite Z.pow_add_r by lia; change (2 ^ 1) with 2; ring).
        split; [lia|]. split; [exact E|]. split; [exact Hm|].
        intros i Hi. destruct (Z.eq_dec i 0) as [->|N]; [rewrite Z.pow_0_r; lia|].
        replace (s * 2 ^ i) with (s * 2 * 2 ^ (i - 1)).
        2: { replace i with (i - 1 + 1) at 2 by lia. rewrite Z.pow_add_r by lia.
             change (2 ^ 1) with 2. ring. }
        apply Hl. lia.
    + exists 0. rewrite Z.pow_0_r, Z.mul_1_r. repeat split; try lia.
Qed.

(** *** Bits *)

Lemma bits_pos : forall t, 0 < bits t.
Proof. destruct t; reflexivity. Qed.

Lemma wrap_mod_pow : forall t z, wrap t z mod 2 ^ bits t = z mod 2 ^ bits t.
Proof.
  intros t z. destruct (wrap_cong t z) as [k ->]. rewrite modulus_pow. apply Z_mod_plus_full.
Qed.

Lemma testbit_wrap : forall t z n, 0 <= n < bits t ->
  Z.testbit (wrap t z) n = Z.testbit z n.
Proof.
  intros t z n H.
  rewrite <- (Z.mod_pow2_bits_low (wrap t z) (bits t)) by lia.
  rewrite wrap_mod_pow. apply Z.mod_pow2_bits_low. lia.
Qed.

Lemma in_range_bit : forall t v, in_range t v -> v <> 0 -> exists b, has_bit t v b.
Proof.
  intros t v R N.
  assert (M : v mod 2 ^ bits t <> 0).
  { intro E. apply N. rewrite <- modulus_pow in E.
    unfold in_range, tmin, tmax in R. destruct t; cbn in *; lia. }
  set (m := v mod 2 ^ bits t) in *.
  assert (P : 0 < m). { pose proof (Z.mod_pos_bound v (2 ^ bits t) (pow_pos _ (Z.lt_le_incl _ _ (bits_pos t)))). lia. }
  exists (Z.log2 m). pose proof (Z.bit_log2 m P) as B.
  assert (L : Z.log2 m < bits t).
  { apply Z.log2_lt_pow2; [assumption|]. apply Z.mod_pos_bound. apply pow_pos.
    pose proof (bits_pos t). lia. }
  pose proof (Z.log2_nonneg m). split; [lia|].
  unfold m in B. rewrite Z.mod_pow2_bits_low in B by exact L. exact B.
Qed.

Lemma in_range_ext : forall t u v, in_range t u -> in_range t v ->
  (forall b, 0 <= b < bits t -> Z.testbit u b = Z.testbit v b) -> u = v.
Proof.
  intros t u v Hu Hv H. rewrite <- (wrap_id t u Hu), <- (wrap_id t v Hv).
  assert (E : u mod 2 ^ bits t = v mod 2 ^ bits t).
  { apply Z.bits_inj'. intros n Hn. destruct (Z_lt_le_dec n (bits t)).
    - rewrite !Z.mod_pow2_bits_low by lia. apply H. lia.
    - rewrite !Z.mod_pow2_bits_high; auto; pose proof (bits_pos t); lia. }
  rewrite <- modulus_pow in E. unfold wrap. destruct t; cbn in *; lia.
Qed.

(** Sign-extended: the shape of a value in range. *)
Definition narrow (t : ity) (z : Z) : Prop :=
  if is_signed t then Z.shiftr z (bits t - 1) = 0 \/ Z.shiftr z (bits t - 1) = -1
  else Z.shiftr z (bits t) = 0.

Lemma narrow_iff : forall t z, in_range t z <-> narrow t z.
Proof.
  intros t z. unfold narrow, in_range, tmin, tmax.
  destruct t; cbn [is_signed bits half modulus]; rewrite Z.shiftr_div_pow2 by lia;
    match goal with |- context [2 ^ ?k] => let v := eval vm_compute in (2 ^ k) in change (2 ^ k) with v end;
    lia.
Qed.

Lemma narrow_land : forall t x y, in_range t x -> in_range t y -> in_range t (Z.land x y).
Proof.
  intros t x y Hx Hy. apply narrow_iff in Hx, Hy. apply narrow_iff. unfold narrow in *.
  destruct (is_signed t); rewrite Z.shiftr_land.
  - destruct Hx as [-> | ->], Hy as [-> | ->]; cbv; auto.
  - rewrite Hx. reflexivity.
Qed.
Lemma narrow_lor : forall t x y, in_range t x -> in_range t y -> in_range t (Z.lor x y).
Proof.
  intros t x y Hx Hy. apply narrow_iff in Hx, Hy. apply narrow_iff. unfold narrow in *.
  destruct (is_signed t); rewrite Z.shiftr_lor.
  - destruct Hx as [-> | ->], Hy as [-> | ->]; cbv; auto.
  - rewrite Hx, Hy. reflexivity.
Qed.
Lemma narrow_lxor : forall t x y, in_range t x -> in_range t y -> in_range t (Z.lxor x y).
Proof.
  intros t x y Hx Hy. apply narrow_iff in Hx, Hy. apply narrow_iff. unfold narrow in *.
  destruct (is_signed t); rewrite Z.shiftr_lxor.
  - destruct Hx as [-> | ->], Hy as [-> | ->]; cbv; auto.
  - rewrite Hx, Hy. reflexivity.
Qed.

Lemma narrow_ldiff : forall t x y, in_range t x -> in_range t y -> in_range t (Z.ldiff x y).
Proof.
  intros t x y Hx Hy. apply narrow_iff in Hx, Hy. apply narrow_iff. unfold narrow in *.
  destruct (is_signed t); rewrite Z.shiftr_ldiff.
  - destruct Hx as [-> | ->], Hy as [-> | ->]; cbv; auto.
  - rewrite Hx. reflexivity.
Qed.

Lemma zero_in_range : forall t, in_range t 0.
Proof. destruct t; unfold in_range; cbn; lia. Qed.

(** *** Flags *)

Lemma fold_lor_bit : forall l a b,
  Z.testbit (fold_left Z.lor l a) b = Z.testbit a b || existsb (fun f => Z.testbit f b) l.
Proof.
  induction l as [|f l IH]; intros a b; cbn [fold_left existsb]; [symmetry; apply orb_false_r|].
  rewrite IH, Z.lor_spec. symmetry. apply orb_assoc.
Qed.
Lemma fold_land_bit : forall l a b,
  Z.testbit (fold_left Z.land l a) b = Z.testbit a b && forallb (fun f => Z.testbit f b) l.
Proof.
  induction l as [|f l IH]; intros a b; cbn [fold_left forallb]; [symmetry; apply andb_true_r|].
  rewrite IH, Z.land_spec. symmetry. apply andb_assoc.
Qed.

Lemma fold_lor_range : forall t l a, in_range t a -> Forall (in_range t) l ->
  in_range t (fold_left Z.lor l a).
Proof.
  induction l as [|f l IH]; intros a Ha Hl; cbn [fold_left]; [assumption|].
  inversion Hl; subst. apply IH; [apply narrow_lor|]; assumption.
Qed.
Lemma fold_land_range : forall t l a, in_range t a -> Forall (in_range t) l ->
  in_range t (fold_left Z.land l a).
Proof.
  induction l as [|f l IH]; intros a Ha Hl; cbn [fold_left]; [assumption|].
  inversion Hl; subst. apply IH; [apply narrow_land|]; assumption.
Qed.

Lemma bit_or_bit : forall l b,
  Z.testbit (bit_or l) b = existsb (fun f => Z.testbit f b) l.
Proof. intros. unfold bit_or. rewrite fold_lor_bit, Z.testbit_0_l. reflexivity. Qed.

Lemma bit_or_range : forall t l, Forall (in_range t) l -> in_range t (bit_or l).
Proof. intros. apply fold_lor_range; [apply zero_in_range|assumption]. Qed.

Lemma bit_and_bit : forall t l b, 0 <= b < bits t ->
  Z.testbit (bit_and t l) b = forallb (fun f => Z.testbit f b) l.
Proof.
  intros. unfold bit_and. rewrite fold_land_bit, testbit_wrap by assumption.
  rewrite Z.bits_m1 by lia. reflexivity.
Qed.

Lemma bit_and_range : forall t l, Forall (in_range t) l -> in_range t (bit_and t l).
Proof. intros. apply fold_land_range; [apply wrap_in_range|assumption]. Qed.

Lemma bit_not_bit : forall t v b, 0 <= b < bits t ->
  Z.testbit (bit_not t v) b = negb (Z.testbit v b).
Proof. intros. unfold bit_not. rewrite testbit_wrap by assumption. apply Z.lnot_spec. lia. Qed.

Lemma existsb_bit : forall (l : list Z) b,
  existsb (fun f => Z.testbit f b) l = true <-> exists f, In f l /\ Z.testbit f b = true.
Proof. intros. rewrite existsb_exists. tauto. Qed.

Lemma add_spec : forall t v fs b, 0 <= b < bits t ->
  (has_bit t (bit_add_flag v fs) b <-> has_bit t v b \/ exists f, In f fs /\ has_bit t f b).
Proof.
  intros t v fs b Hb. unfold has_bit, bit_add_flag. rewrite bit_or_bit. cbn [existsb].
  rewrite orb_true_iff, existsb_bit. firstorder.
Qed.

Lemma remove_spec : forall t v fs b,
  has_bit t (bit_remove_flag t v fs) b
  <-> has_bit t v b /\ ~ exists f, In f fs /\ has_bit t f b.
Proof.
  intros t v fs b. unfold has_bit, bit_remove_flag. split.
  - intros [Hb H]. rewrite bit_and_bit in H by assumption. cbn [forallb] in H.
    apply andb_true_iff in H. destruct H as [Hv H]. split; [auto|].
    intros (f & If & _ & Hf). rewrite forallb_forall in H.
    specialize (H (bit_not t f) (in_map _ _ _ If)).
    rewrite bit_not_bit, Hf in H by assumption. discriminate.
  - intros [[Hb Hv] N]. split; [assumption|]. rewrite bit_and_bit by assumption.
    cbn [forallb]. rewrite Hv. cbn [andb]. apply forallb_forall.
    intros x Hx. apply in_map_iff in Hx. destruct Hx as (f & <- & If).
    rewrite bit_not_bit by assumption. destruct (Z.testbit f b) eqn:E; [|reflexivity].
    exfalso. apply N. exists f. auto.
Qed.

Lemma nonzero_iff : forall t v, in_range t v -> (v <> 0 <-> exists b, has_bit t v b).
Proof.
  intros t v R. split; [apply in_range_bit; assumption|].
  intros (b & _ & H) ->. rewrite Z.testbit_0_l in H. discriminate.
Qed.

Lemma has_one_spec : forall t v f, in_range t v -> in_range t f ->
  (bit_has_flag t v [f] = true <-> exists b, has_bit t v b /\ has_bit t f b).
Proof.
  intros t v f Hv Hf. unfold bit_has_flag, bit_xor. cbn [fold_left]. rewrite Z.lxor_0_l.
  rewrite negb_true_iff, Z.eqb_neq.
  rewrite (nonzero_iff t) by (apply bit_and_range; auto).
  split; intros (b & H); exists b.
  - destruct H as [Hb H]. rewrite bit_and_bit in H by assumption. cbn [forallb] in H.
    rewrite andb_true_r, andb_true_iff in H. unfold has_bit. tauto.
  - unfold has_bit in *. destruct H as [[Hb H1] [_ H2]]. split; [assumption|].
    rewrite bit_and_bit by assumption. cbn [forallb]. rewrite H1, H2. reflexivity.
Qed.

Lemma or_has : forall t l b, has_bit t (bit_or l) b <-> exists f, In f l /\ has_bit t f b.
Proof. intros. unfold has_bit. rewrite bit_or_bit, existsb_bit. firstorder. Qed.

Lemma enum_has_spec : forall t v f fs,
  in_range t v -> Forall (in_range t) (f :: fs) ->
  (enum_has t v f fs = true <->
   exists b, has_bit t v b /\ exists g, In g (f :: fs) /\ has_bit t g b).
Proof.
  intros t v f fs Hv Hf. unfold enum_has. rewrite has_one_spec; auto using bit_or_range.
  split; intros (b & H1 & H2); exists b; (split; [assumption|]); apply or_has; assumption.
Qed.

Lemma enum_has_only_spec : forall t v f fs,
  in_range t v -> Forall (in_range t) (f :: fs) ->
  (enum_has_only t v f fs = true <->
   (exists b, has_bit t v b) /\
   forall b, has_bit t v b -> exists g, In g (f :: fs) /\ has_bit t g b).
Proof.
  intros t v f fs Hv Hf. unfold enum_has_only.
  rewrite andb_true_iff, negb_true_iff, Z.eqb_neq, Z.eqb_eq, (nonzero_iff t) by assumption.
  apply and_iff_compat_l. split.
  - intros E b [Hb H]. apply or_has. split; [assumption|].
    apply (f_equal (fun z => Z.testbit z b)) in E.
    rewrite Z.land_spec, Z.lnot_spec, H, Z.testbit_0_l in E by lia.
    destruct (Z.testbit (bit_or (f :: fs)) b); [reflexivity|discriminate].
  - intro H. rewrite <- Z.ldiff_land. apply (in_range_ext t).
    + apply narrow_ldiff; [assumption|apply bit_or_range; assumption].
    + apply zero_in_range.
    + intros b Hb. rewrite Z.ldiff_spec, Z.testbit_0_l.
      destruct (Z.testbit v b) eqn:E; [|reflexivity].
      destruct (H b) as (g & Hg); [split; assumption|].
      assert (X : has_bit t (bit_or (f :: fs)) b) by (apply or_has; exists g; assumption).
      destruct X as [_ ->]. reflexivity.
Qed.

Lemma enum_remove_spec : forall t v f fs b,
  has_bit t (enum_remove t v f fs) b
  <-> has_bit t v b /\ ~ exists g, In g (f :: fs) /\ has_bit t g b.
Proof.
  intros t v f fs b. unfold enum_remove. rewrite remove_spec.
  apply and_iff_compat_l. apply not_iff_compat. rewrite <- (or_has t (f :: fs) b). split.
  - intros (g & [<-|[]] & H). exact H.
  - intro H. exists (bit_or (f :: fs)). split; [left; reflexivity|exact H].
Qed.

Lemma bit_not_range : forall t v, in_range t (bit_not t v).
Proof. intros. apply wrap_in_range. Qed.

Lemma remove_range : forall t v fs, in_range t v -> in_range t (bit_remove_flag t v fs).
Proof.
  intros t v fs H. apply bit_and_range. constructor; [assumption|].
  apply Forall_forall. intros x Hx. apply in_map_iff in Hx.
  destruct Hx as (f & <- & _). apply bit_not_range.
Qed.

Lemma match_spec : forall t v f, in_range t v -> in_range t f ->
  (bit_match_flag t v f = true <-> forall b, has_bit t f b -> has_bit t v b).
Proof.
  intros t v f Hv Hf. unfold bit_match_flag. rewrite Z.eqb_eq. split.
  - intros E b [Hb H]. rewrite <- E, bit_and_bit in H by assumption.
    cbn [forallb] in H. apply andb_true_iff in H. split; tauto.
  - intro H. apply (in_range_ext t); [apply bit_and_range; auto|assumption|].
    intros b Hb. rewrite bit_and_bit by assumption. cbn [forallb]. rewrite andb_true_r.
    destruct (Z.testbit f b) eqn:E; [|apply andb_false_r].
    destruct (H b) as [_ ->]; [split; assumption|reflexivity].
Qed.

(** *** Listing the flags *)

Lemma pos_odd_part : forall p, exists b k, 0 <= b /\ 0 <= k /\ Zpos p = 2 ^ b * (2 * k + 1).
Proof.
  induction p as [p IH|p IH|].
  - exists 0, (Zpos p). repeat split; try lia.
  - destruct IH as (b & k & Hb & Hk & E). exists (b + 1), k. repeat split; try lia.
    rewrite Pos2Z.inj_xO, E, Z.pow_add_r by lia. change (2 ^ 1) with 2. ring.
  - exists 0, 0. repeat split; lia.
Qed.

Lemma odd_part : forall v, v <> 0 -> exists b k, 0 <= b /\ v = 2 ^ b * (2 * k + 1).
Proof.
  intros [|p|p] N; [congruence| |].
  - destruct (pos_odd_part p) as (b & k & Hb & Hk & E). exists b, k. auto.
  - destruct (pos_odd_part p) as (b & k & Hb & Hk & E). exists b, (- k - 1). split; [assumption|].
    rewrite <- Pos2Z.opp_pos, E. ring.
Qed.

Lemma bit_low : forall b k n, 0 <= n < b -> Z.testbit (2 ^ b * k) n = false.
Proof. intros. rewrite Z.mul_comm. apply Z.mul_pow2_bits_low. lia. Qed.

Lemma bit_mid : forall b k, 0 <= b -> Z.testbit (2 ^ b * (2 * k + 1)) b = true.
Proof.
  intros. rewrite Z.mul_comm, Z.mul_pow2_bits by lia. rewrite Z.sub_diag, Z.testbit_odd_0. reflexivity.
Qed.

Lemma bit_high : forall b k n, 0 <= b < n -> Z.testbit (2 ^ b * (2 * k + 1)) n = Z.testbit k (n - b - 1).
Proof.
  intros b k n H. rewrite Z.mul_comm, Z.mul_pow2_bits by lia.
  transitivity (Z.testbit (2 * k + 1) (Z.succ (n - b - 1))); [f_equal; lia|].
  apply Z.testbit_odd_succ. lia.
Qed.

Lemma clear_lowest : forall b k, 0 <= b ->
  Z.land (2 ^ b * (2 * k + 1)) (2 ^ b * (2 * k + 1) - 1) = 2 ^ b * (2 * k).
Proof.
  intros b k Hb. pose proof (pow_pos b Hb) as P.
  replace (2 ^ b * (2 * k + 1) - 1) with (k * 2 ^ (b + 1) + (2 ^ b - 1))
    by (rewrite Z.pow_add_r by lia; change (2 ^ 1) with 2; ring).
  assert (H2 : 2 ^ (b + 1) = 2 * 2 ^ b) by (rewrite Z.pow_add_r by lia; change (2 ^ 1) with 2; ring).
  apply Z.bits_inj'. intros n Hn. rewrite Z.land_spec.
  destruct (Z.lt_trichotomy n b) as [L|[->|G]].
  - rewrite !bit_low by lia. reflexivity.
  - rewrite bit_mid by lia. cbn [andb].
    replace (2 ^ b * (2 * k)) with (2 ^ (b + 1) * k) by (rewrite H2; ring).
    rewrite bit_low by lia.
    rewrite <- (Z.mod_pow2_bits_low _ (b + 1)) by lia.
    replace ((k * 2 ^ (b + 1) + (2 ^ b - 1)) mod 2 ^ (b + 1)) with (2 ^ b - 1).
    + replace (2 ^ b - 1) with (Z.ones b) by (rewrite Z.ones_equiv; lia).
      apply Z.ones_spec_high. lia.
    + rewrite Z.add_comm, Z_mod_plus_full, Z.mod_small; lia.
  - rewrite bit_high by lia.
    replace (2 ^ b * (2 * k)) with (k * 2 ^ (b + 1)) by (rewrite H2; ring).
    rewrite Z.mul_pow2_bits by lia. replace (n - (b + 1)) with (n - b - 1) by lia.
    replace (Z.testbit (k * 2 ^ (b + 1) + (2 ^ b - 1)) n) with (Z.testbit k (n - b - 1)).
    + apply andb_diag.
    + replace k with ((k * 2 ^ (b + 1) + (2 ^ b - 1)) / 2 ^ (b + 1)) at 1.
      * rewrite <- Z.shiftr_div_pow2, Z.shiftr_spec by lia. f_equal. lia.
      * rewrite Z.div_add_l by lia. rewrite Z.div_small by lia. lia.
Qed.

Lemma ascending_ge : forall bs lo b, ascending lo bs -> In b bs -> lo <= b.
Proof.
  induction bs as [|c bs IH]; intros lo b H I; [destruct I|].
  cbn [ascending] in H. destruct I as [->|I]; [tauto|].
  pose proof (IH (c + 1) b (proj2 H) I). lia.
Qed.

Lemma flags_step : forall fuel t v lo, is_signed t = true -> in_range t v ->
  0 <= v \/ bits t < 32 -> 0 <= lo ->
  (forall n, 0 <= n < lo -> Z.testbit v n = false) -> bits t - lo <= Z.of_nat fuel ->
  exists bs, flags_from fuel t v = Some (map (fun b => wrap t (2 ^ b)) bs)
             /\ ascending lo bs /\ forall b, In b bs <-> has_bit t v b.
Proof.
  induction fuel as [|fuel IH]; intros t v lo St R Safe Hlo Clear Hf.
  - assert (E : v = 0).
    { destruct (Z.eq_dec v 0) as [|N]; [assumption|]. destruct (in_range_bit t v R N) as (b & Hb & B).
      rewrite Clear in B by lia. discriminate. }
    subst v. exists []. split; [reflexivity|]. split; [exact I|]. intro b. split; [intros []|].
    intros [_ H]. rewrite Z.testbit_0_l in H. discriminate.
  - cbn [flags_from]. destruct (Z.eqb_spec v 0) as [->|N].
    { exists []. split; [reflexivity|]. split; [exact I|]. intro b. split; [intros []|].
    intros [_ H]. rewrite Z.testbit_0_l in H. discriminate. }
    destruct (odd_part v N) as (b & k & Hb & E).
    assert (Lob : lo <= b).
    { destruct (Z_lt_le_dec b lo); [|assumption].
      pose proof (bit_mid b k Hb) as B. rewrite <- E, Clear in B by lia. discriminate. }
    assert (Hbt : b < bits t).
    { destruct (in_range_bit t v R N) as (c & Hc & B). destruct (Z_lt_le_dec c b); [|lia].
      rewrite E, bit_low in B by lia. discriminate. }
    assert (F : fit (promote t) (v - 1) = Val (v - 1)).
    { unfold fit. replace (in_rangeb (promote t) (v - 1)) with true;
        [destruct t; try discriminate St; reflexivity|].
      symmetry. apply in_rangeb_iff. revert R Safe. unfold in_range, tmin, tmax.
      destruct t; cbn in *; try discriminate; lia. }
    rewrite F. replace (Z.land v (v - 1)) with (2 ^ b * (2 * k)) by (rewrite E; symmetry; apply clear_lowest; lia).
    assert (B0 : forall n, 0 <= n < bits t ->
               Z.testbit (wrap t (2 ^ b * (2 * k))) n = Z.testbit v n && (b <? n)).
    { intros n Hn. rewrite testbit_wrap by assumption.
      replace (2 ^ b * (2 * k)) with (k * 2 ^ (b + 1))
        by (rewrite Z.pow_add_r by lia; change (2 ^ 1) with 2; ring).
      destruct (Z.ltb_spec b n).
      - rewrite E, bit_high, Z.mul_pow2_bits, andb_true_r by lia. f_equal. lia.
      - rewrite andb_false_r. apply Z.mul_pow2_bits_low. lia. }
    destruct (IH t (wrap t (2 ^ b * (2 * k))) (b + 1)) as (bs & Ef & As & Hbs).
    + assumption.
    + apply wrap_in_range.
    + destruct Safe as [Sv|Sb]; [left|right; assumption].
      pose proof (pow_pos b Hb). assert (0 <= k) by nia. rewrite wrap_id.
      * nia.
      * revert R. unfold in_range. assert (tmin t <= 0) by (destruct t; cbn; lia). nia.
    + lia.
    + intros n Hn. destruct (Z_lt_le_dec n (bits t)).
      * rewrite B0 by lia. destruct (Z.ltb_spec b n); [lia|]. apply andb_false_r.
      * lia.
    + lia.
    + exists (b :: bs). rewrite Ef. split; [|split; [split|intro c; split]].
      * cbn [map]. do 2 f_equal.
        destruct (wrap_cong t (2 ^ b * (2 * k))) as [m Em].
        rewrite <- (wrap_add_modulus t (2 ^ b) (- m)). f_equal. rewrite Em, E. ring.
      * assumption.
      * assumption.
      * intros [->|I].
        -- split; [lia|]. rewrite E. apply bit_mid. lia.
        -- apply Hbs in I. destruct I as [Hn I]. split; [assumption|].
           rewrite B0 in I by assumption. apply andb_true_iff in I. tauto.
      * intros [Hn I]. destruct (Z.lt_trichotomy c b) as [L|[->|G]].
        -- rewrite E, bit_low in I by lia. discriminate.
        -- left. reflexivity.
        -- right. apply Hbs. split; [assumption|]. rewrite B0, I by assumption.
           destruct (Z.ltb_spec b c); [reflexivity|lia].
Qed.

(** *** GUIDs *)

Lemma hex_digit : forall c d, hex c d -> digit_value c = d /\ 0 <= d < 16 /\ c <> 45.
Proof.
  intros c d H. unfold digit_value.
  destruct H as [c H|c H|c H];
    repeat match goal with |- context [Z.leb ?a ?b] => destruct (Z.leb_spec a b) end;
    cbn [andb]; lia.
Qed.

Lemma digit_hex : forall c, 0 <= digit_value c -> hex c (digit_value c).
Proof.
  intros c. unfold digit_value.
  destruct (Z.leb_spec c 57), (Z.leb_spec 48 c), (Z.leb_spec c 70), (Z.leb_spec 65 c),
    (Z.leb_spec c 102), (Z.leb_spec 97 c); cbn [andb]; intros; try lia;
  try (replace (c - 65 + 10) with (c - 55) by lia); try (replace (c - 97 + 10) with (c - 87) by lia);
  constructor; lia.
Qed.

Lemma nibbles : forall d d', 0 <= d < 16 -> 0 <= d' < 16 ->
  wrap U8 (Z.lor (Z.shiftl d 4) d') = 16 * d + d'.
Proof.
  intros d d' H H'. replace (Z.lor (Z.shiftl d 4) d') with (16 * d + d').
  - apply wrap_id. unfold in_range. change (tmin U8) with 0. change (tmax U8) with 255. lia.
  - rewrite Z.shiftl_mul_pow2 by lia. change (2 ^ 4) with 16.
    assert (L : Z.land (d * 16) d' = 0).
    { apply Z.bits_inj'. intros n Hn. rewrite Z.land_spec, Z.testbit_0_l.
      change 16 with (2 ^ 4). destruct (Z_lt_le_dec n 4).
      - rewrite Z.mul_pow2_bits_low by lia. reflexivity.
      - destruct (Z.eq_dec d' 0) as [->|N]; [rewrite Z.testbit_0_l; apply andb_false_r|].
        rewrite (Z.bits_above_log2 d' n); [apply andb_false_r|lia|].
        enough (Z.log2 d' < 4) by lia. apply Z.log2_lt_pow2; [lia|]. exact (proj2 H'). }
    rewrite <- Z.lxor_lor by assumption. rewrite <- Z.add_nocarry_lxor by assumption. lia.
Qed.

Definition is_dash_pos (i : nat) : bool := ((i =? 8) || (i =? 13) || (i =? 18) || (i =? 23))%nat.
Definition dashes (i : nat) : nat :=
  (Nat.b2n (8 <? i) + Nat.b2n (13 <? i) + Nat.b2n (18 <? i) + Nat.b2n (23 <? i))%nat.

Lemma ltb_step : forall a i : nat,
  Nat.b2n (a <? i + 1)%nat = (Nat.b2n (a <? i) + Nat.b2n (i =? a))%nat.
Proof.
  intros a i. destruct (Nat.ltb_spec a (i + 1)), (Nat.ltb_spec a i), (Nat.eqb_spec i a);
    cbn [Nat.b2n]; lia.
Qed.

Lemma dashes_step : forall i, dashes (i + 1) = (dashes i + Nat.b2n (is_dash_pos i))%nat.
Proof.
  intro i. unfold dashes. rewrite !ltb_step.
  replace (Nat.b2n (is_dash_pos i))
    with (Nat.b2n (i =? 8) + Nat.b2n (i =? 13) + Nat.b2n (i =? 18) + Nat.b2n (i =? 23))%nat; [lia|].
  unfold is_dash_pos.
  destruct (Nat.eqb_spec i 8); [subst; reflexivity|].
  destruct (Nat.eqb_spec i 13); [subst; reflexivity|].
  destruct (Nat.eqb_spec i 18); [subst; reflexivity|].
  destruct (Nat.eqb_spec i 23); [subst; reflexivity|]. reflexivity.
Qed.

Lemma dashes_end : forall i, (36 <= i)%nat -> dashes i = 4%nat.
Proof.
  intros i H. unfold dashes.
  destruct (Nat.ltb_spec 8 i); [|lia]. destruct (Nat.ltb_spec 13 i); [|lia].
  destruct (Nat.ltb_spec 18 i); [|lia]. destruct (Nat.ltb_spec 23 i); [|lia]. reflexivity.
Qed.

Lemma dashes_step2 : forall i,
  dashes (i + 2) = (dashes i + Nat.b2n (is_dash_pos i) + Nat.b2n (is_dash_pos (i + 1)))%nat.
Proof.
  intro i. replace (i + 2)%nat with (i + 1 + 1)%nat by lia. rewrite !dashes_step. reflexivity.
Qed.

Lemma b2n_le : forall b, (Nat.b2n b <= 1)%nat.
Proof. intros []; cbn; lia. Qed.

Lemma guid_loop_eq : forall f s i bytes, (i < 36)%nat ->
  guid_loop (S f) s i bytes =
  match char_at s i with
  | None => GUndef
  | Some c =>
    if c =? 45 then
      if negb (is_dash_pos i) then GFormat else guid_loop f s (i + 1) bytes
    else
      match char_at s (i + 1) with
      | None => GUndef
      | Some c' =>
        if (digit_value c <? 0) || (digit_value c' <? 0) then GFormat
        else if (16 <=? length bytes)%nat then GUndef
        else guid_loop f s (i + 2)
               (bytes ++ [wrap U8 (Z.lor (Z.shiftl (digit_value c) 4) (digit_value c'))])
      end
  end.
Proof.
  intros f s i bytes H. cbn [guid_loop]. destruct (Nat.leb_spec 36 i); [lia|]. reflexivity.
Qed.

(** A run that ends well has no room to skip a dash. *)
Lemma guid_slack : forall fuel s i bytes r, guid_loop fuel s i bytes = GOk r ->
  (length bytes <= 16)%nat ->
  (length r <= 16 /\ 36 + 2 * length bytes + dashes i <= 2 * length r + 4 + i)%nat.
Proof.
  induction fuel as [|fuel IH]; intros s i bytes r H L.
  - cbn [guid_loop] in H. destruct (Nat.leb_spec 36 i); [|discriminate].
    inversion H; subst. split; [assumption|].
    rewrite dashes_end by assumption. lia.
  - destruct (Nat.leb_spec 36 i) as [G|G].
    + cbn [guid_loop] in H. destruct (Nat.leb_spec 36 i); [|lia].
      inversion H; subst. split; [assumption|].
    rewrite dashes_end by assumption. lia.
    + rewrite guid_loop_eq in H by assumption.
      destruct (char_at s i) as [c|]; [|discriminate].
      destruct (c =? 45).
      * destruct (is_dash_pos i) eqn:D; cbn [negb] in H; [|discriminate].
        destruct (IH _ _ _ _ H L) as [L' Q]. split; [assumption|].
        rewrite dashes_step, D in Q. cbn [Nat.b2n] in Q. lia.
      * destruct (char_at s (i + 1)) as [c'|]; [|discriminate].
        destruct ((digit_value c <? 0) || (digit_value c' <? 0)); [discriminate|].
        destruct (Nat.leb_spec 16 (length bytes)); [discriminate|].
        destruct (IH _ _ _ _ H) as [L' Q]; [rewrite app_length; cbn; lia|].
        rewrite app_length in Q. cbn [length] in Q. split; [assumption|].
        rewrite dashes_step2 in Q. lia.
Qed.

(** No slack: positions of dashes hold dashes, other positions hold pairs. *)
Lemma guid_pair : forall fuel s i bytes r, guid_loop fuel s i bytes = GOk r ->
  (2 * length bytes + dashes i = i)%nat -> (length bytes < 16)%nat ->
  (i < 36)%nat -> is_dash_pos i = false ->
  exists f c c' d d', fuel = S f /\ char_at s i = Some c /\ char_at s (i + 1) = Some c'
    /\ hex c d /\ hex c' d' /\ guid_loop f s (i + 2) (bytes ++ [16 * d + d']) = GOk r.
Proof.
  intros fuel s i bytes r H E L I D. destruct fuel as [|f].
  { cbn [guid_loop] in H. destruct (Nat.leb_spec 36 i); [lia|discriminate]. }
  rewrite guid_loop_eq in H by assumption.
  destruct (char_at s i) as [c|] eqn:Ec; [|discriminate].
  destruct (c =? 45); [rewrite D in H; discriminate|].
  destruct (char_at s (i + 1)) as [c'|] eqn:Ec'; [|discriminate].
  destruct (Z.ltb_spec (digit_value c) 0); [discriminate|].
  destruct (Z.ltb_spec (digit_value c') 0); [discriminate|]. cbn [orb] in H.
  destruct (Nat.leb_spec 16 (length bytes)); [discriminate|].
  exists f, c, c', (digit_value c), (digit_value c').
  pose proof (digit_hex c ltac:(assumption)) as Hc.
  pose proof (digit_hex c' ltac:(assumption)) as Hc'.
  rewrite nibbles in H by (eapply hex_digit; eassumption). auto 10.
Qed.

Lemma guid_dash : forall fuel s i bytes r, guid_loop fuel s i bytes = GOk r ->
  (2 * length bytes + dashes i = i)%nat -> (length bytes <= 16)%nat ->
  (i < 36)%nat -> is_dash_pos i = true ->
  exists f, fuel = S f /\ char_at s i = Some 45 /\ guid_loop f s (i + 1) bytes = GOk r.
Proof.
  intros fuel s i bytes r H E L I D. destruct fuel as [|f].
  { cbn [guid_loop] in H. destruct (Nat.leb_spec 36 i); [lia|discriminate]. }
  rewrite guid_loop_eq in H by assumption.
  destruct (char_at s i) as [c|] eqn:Ec; [|discriminate].
  destruct (Z.eqb_spec c 45) as [->|N].
  { rewrite D in H. cbn [negb] in H. exists f. auto. }
  exfalso. destruct (char_at s (i + 1)) as [c'|]; [|discriminate].
  destruct ((digit_value c <? 0) || (digit_value c' <? 0)); [discriminate|].
  destruct (Nat.leb_spec 16 (length bytes)); [discriminate|].
  apply guid_slack in H; [|rewrite app_length; cbn; lia].
  destruct H as [Lr Q]. rewrite app_length in Q. cbn [length] in Q.
  rewrite dashes_step2, D in Q. cbn [Nat.b2n] in Q. lia.
Qed.

(** The characters from position [i] on. *)
Definition sees (s : list Z) (i : nat) (u : list Z) : Prop :=
  forall j, (j < length u)%nat -> char_at s (i + j) = nth_error u j.

Lemma sees_cons : forall s i c u, char_at s i = Some c -> sees s (i + 1) u -> sees s i (c :: u).
Proof.
  intros s i c u H S j Hj. destruct j as [|j].
  - rewrite Nat.add_0_r. exact H.
  - cbn [length] in Hj. replace (i + Datatypes.S j)%nat with (i + 1 + j)%nat by lia. apply S. lia.
Qed.

Lemma sees_app : forall s u i v, sees s i u -> sees s (i + length u) v -> sees s i (u ++ v).
Proof.
  intros s u. induction u as [|c u IH]; intros i v Hu Hv.
  - cbn [app]. cbn [length] in Hv. rewrite Nat.add_0_r in Hv. exact Hv.
  - cbn [app]. apply sees_cons.
    + specialize (Hu O). cbn in Hu. rewrite Nat.add_0_r in Hu. apply Hu. lia.
    + apply IH.
      * intros j Hj. specialize (Hu (S j)). cbn [length nth_error] in Hu.
        replace (i + 1 + j)%nat with (i + S j)%nat by lia. apply Hu. lia.
      * replace (i + 1 + length u)%nat with (i + length (c :: u))%nat by (cbn; lia). exact Hv.
Qed.

Lemma sees_prefix : forall s u, sees s 0 u -> (forall c, In c u -> c <> 0) ->
  exists rest, s = u ++ rest.
Proof.
  intros s u H N. exists (skipn (length u) s).
  assert (G : forall v t, (forall j, (j < length v)%nat -> nth_error (t ++ [0]) j = nth_error v j) ->
              (forall c, In c v -> c <> 0) -> t = v ++ skipn (length v) t).
  { induction v as [|c v IH]; intros t Ht Nv; [reflexivity|].
    destruct t as [|x t].
    - specialize (Ht O). cbn in Ht. assert (E : Some 0 = Some c) by (apply Ht; lia).
      inversion E; subst. exfalso. exact (Nv 0 (or_introl eq_refl) eq_refl).
    - pose proof (Ht O) as H0. cbn in H0. assert (E : Some x = Some c) by (apply H0; lia).
      inversion E; subst. cbn [app length skipn]. f_equal. apply IH.
      + intros j Hj. specialize (Ht (S j)). cbn [length nth_error app] in Ht. apply Ht. lia.
      + intros d Hd. apply Nv. right. exact Hd. }
  apply G; [|exact N]. intros j Hj. apply (H j Hj).
Qed.

(** [n] pairs in a row. *)
Lemma guid_pairs : forall n fuel s i bytes r, guid_loop fuel s i bytes = GOk r ->
  (2 * length bytes + dashes i = i)%nat -> (length bytes + n <= 16)%nat ->
  (i + 2 * n <= 36)%nat -> (forall j, (i <= j < i + 2 * n)%nat -> is_dash_pos j = false) ->
  exists f u b, octets n u b /\ sees s i u /\ guid_loop f s (i + 2 * n) (bytes ++ b) = GOk r.
Proof.
  induction n as [|n IH]; intros fuel s i bytes r H E L I D.
  - exists fuel, [], []. repeat split; [constructor|intros j Hj; cbn in Hj; lia|].
    rewrite app_nil_r. replace (i + 2 * 0)%nat with i by lia. exact H.
  - destruct (guid_pair fuel s i bytes r) as (f & c & c' & d & d' & -> & Ec & Ec' & Hc & Hc' & H');
      try assumption; try lia.
    { apply D. lia. }
    destruct (IH f s (i + 2)%nat (bytes ++ [16 * d + d']) r) as (f' & u & b & Ho & Hs & Hr).
    + exact H'.
    + rewrite app_length. cbn [length]. pose proof (D i ltac:(lia)) as D1.
      pose proof (D (i + 1)%nat ltac:(lia)) as D2. rewrite dashes_step2, D1, D2. cbn [Nat.b2n]. lia.
    + rewrite app_length. cbn [length]. lia.
    + lia.
    + intros j Hj. apply D. lia.
    + exists f', (c :: c' :: u), (16 * d + d' :: b). split; [|split].
      * constructor; assumption.
      * apply sees_cons; [assumption|]. apply sees_cons; [assumption|].
        replace (i + 1 + 1)%nat with (i + 2)%nat by lia. assumption.
      * rewrite <- app_assoc in Hr. cbn [app] in Hr.
        replace (i + 2 * S n)%nat with (i + 2 + 2 * n)%nat by lia. exact Hr.
Qed.

Lemma octets_length : forall n u b, octets n u b -> length u = (2 * n)%nat /\ length b = n.
Proof. induction 1; cbn [length]; lia. Qed.

Lemma octets_nonzero : forall n u b, octets n u b -> forall c, In c u -> c <> 0.
Proof.
  induction 1 as [|n c c' d d' s bs H H' O IH]; intros x [].
  - subst. destruct H; lia.
  - destruct H0; [subst; destruct H'; lia|]. apply IH; assumption.
Qed.

Lemma no_dash_dec : forall a n, forallb (fun j => negb (is_dash_pos j)) (seq a n) = true ->
  forall j, (a <= j < a + n)%nat -> is_dash_pos j = false.
Proof.
  intros a n H j Hj. rewrite forallb_forall in H. specialize (H j).
  rewrite negb_true_iff in H. apply H. apply in_seq. lia.
Qed.

Lemma guid_sound_fuel : forall fuel s r, guid_loop fuel s 0 [] = GOk r ->
  exists u rest, s = u ++ rest /\ guid_form u r.
Proof.
  intros fuel s r H.
  destruct (guid_pairs 4 _ _ _ _ _ H) as (f1 & s1 & b1 & O1 & S1 & H1); try reflexivity; cbn [length app]; try lia.
  { apply (no_dash_dec 0 8). reflexivity. }
  destruct (octets_length _ _ _ O1) as [Ls1 Lb1]. cbn [Nat.add Nat.mul app] in H1.
  destruct (guid_dash _ _ _ _ _ H1) as (f2 & _ & D1 & H2); try reflexivity; try (rewrite Lb1; reflexivity); try lia.
  destruct (guid_pairs 2 _ _ _ _ _ H2) as (f3 & s2 & b2 & O2 & S2 & H3);
    try (rewrite Lb1; reflexivity); try lia.
  { apply (no_dash_dec 9 4). reflexivity. }
  destruct (octets_length _ _ _ O2) as [Ls2 Lb2]. cbn [Nat.add Nat.mul] in H3.
  assert (L12 : length (b1 ++ b2) = 6%nat) by (rewrite app_length; lia).
  destruct (guid_dash _ _ _ _ _ H3) as (f4 & _ & D2 & H4); try reflexivity; try (rewrite L12; reflexivity); try lia.
  destruct (guid_pairs 2 _ _ _ _ _ H4) as (f5 & s3 & b3 & O3 & S3 & H5);
    try (rewrite L12; reflexivity); try lia.
  { apply (no_dash_dec 14 4). reflexivity. }
  destruct (octets_length _ _ _ O3) as [Ls3 Lb3]. cbn [Nat.add Nat.mul] in H5.
  assert (L123 : length ((b1 ++ b2) ++ b3) = 8%nat) by (rewrite app_length; lia).
  destruct (guid_dash _ _ _ _ _ H5) as (f6 & _ & D3 & H6); try reflexivity; try (rewrite L123; reflexivity); try lia.
  destruct (guid_pairs 2 _ _ _ _ _ H6) as (f7 & s4 & b4 & O4 & S4 & H7);
    try (rewrite L123; reflexivity); try lia.
  { apply (no_dash_dec 19 4). reflexivity. }
  destruct (octets_length _ _ _ O4) as [Ls4 Lb4]. cbn [Nat.add Nat.mul] in H7.
  assert (L1234 : length (((b1 ++ b2) ++ b3) ++ b4) = 10%nat) by (rewrite app_length; lia).
  destruct (guid_dash _ _ _ _ _ H7) as (f8 & _ & D4 & H8); try reflexivity; try (rewrite L1234; reflexivity); try lia.
  destruct (guid_pairs 6 _ _ _ _ _ H8) as (f9 & s5 & b5 & O5 & S5 & H9);
    try (rewrite L1234; reflexivity); try lia.
  { apply (no_dash_dec 24 12). reflexivity. }
  destruct (octets_length _ _ _ O5) as [Ls5 Lb5]. cbn [Nat.add Nat.mul] in H9.
  assert (R : r = (((b1 ++ b2) ++ b3) ++ b4) ++ b5) by (destruct f9; cbn in H9; congruence).
  set (u := s1 ++ [45] ++ s2 ++ [45] ++ s3 ++ [45] ++ s4 ++ [45] ++ s5).
  assert (Su : sees s 0 u).
  { unfold u. apply sees_app; [exact S1|]. rewrite Ls1. cbn [Nat.add Nat.mul].
    apply sees_cons; [exact D1|]. apply sees_app; [exact S2|]. rewrite Ls2. cbn [Nat.add Nat.mul].
    apply sees_cons; [exact D2|]. apply sees_app; [exact S3|]. rewrite Ls3. cbn [Nat.add Nat.mul].
    apply sees_cons; [exact D3|]. apply sees_app; [exact S4|]. rewrite Ls4. cbn [Nat.add Nat.mul].
    apply sees_cons; [exact D4|]. exact S5. }
  destruct (sees_prefix s u Su) as [rest Er].
  { intros c Hc. unfold u in Hc. rewrite !in_app_iff in Hc. cbn [In] in Hc.
    destruct Hc as [Hc|[[Hc|[]]|[Hc|[[Hc|[]]|[Hc|[[Hc|[]]|[Hc|[[Hc|[]]|Hc]]]]]]]];
      try (subst c; discriminate); (eapply octets_nonzero; [|exact Hc]; eassumption). }
  exists u, rest. split; [exact Er|].
  exists s1, s2, s3, s4, s5, b1, b2, b3, b4, b5. repeat split; try assumption.
  rewrite R, !app_assoc. reflexivity.
Qed.

Strategy expand [guid_parse].
Lemma guid_sound : forall s r, guid_parse s = GOk r ->
  exists u rest, s = u ++ rest /\ guid_form u r.
Proof. intros s r H. exact (guid_sound_fuel _ s r H). Qed.

Lemma sees_at : forall pre u rest, sees (pre ++ u ++ rest) (length pre) u.
Proof.
  intros pre u rest j Hj. unfold char_at.
  rewrite <- !app_assoc, nth_error_app2 by lia.
  replace (length pre + j - length pre)%nat with j by lia. apply nth_error_app1. exact Hj.
Qed.

Lemma loop_pairs : forall n u b, octets n u b -> forall f s i bytes,
  sees s i u -> (i + 2 * n <= 36)%nat -> (length bytes + n <= 16)%nat ->
  guid_loop (n + f) s i bytes = guid_loop f s (i + 2 * n) (bytes ++ b).
Proof.
  induction 1 as [|n c c' d d' u b Hc Hc' O IH]; intros f s i bytes S I L.
  - rewrite app_nil_r. replace (i + 2 * 0)%nat with i by lia. reflexivity.
  - cbn [Nat.add]. rewrite guid_loop_eq by lia.
    pose proof (S 0%nat) as E0. pose proof (S 1%nat) as E1. cbn [length nth_error] in E0, E1.
    rewrite Nat.add_0_r in E0. rewrite E0, E1 by lia.
    destruct (hex_digit _ _ Hc) as (V & B & N), (hex_digit _ _ Hc') as (V' & B' & N').
    destruct (Z.eqb_spec c 45); [contradiction|]. rewrite V, V'.
    destruct (Z.ltb_spec d 0); [lia|]. destruct (Z.ltb_spec d' 0); [lia|]. cbn [orb].
    destruct (Nat.leb_spec 16 (length bytes)); [lia|]. rewrite nibbles by assumption.
    rewrite IH.
    + rewrite <- app_assoc. cbn [app]. f_equal; lia.
    + intros j Hj. specialize (S (Datatypes.S (Datatypes.S j))). cbn [length nth_error] in S.
      replace (i + 2 + j)%nat with (i + Datatypes.S (Datatypes.S j))%nat by lia. apply S. lia.
    + lia.
    + rewrite app_length. cbn [length]. lia.
Qed.

Lemma loop_dash : forall f s i bytes, char_at s i = Some 45 -> (i < 36)%nat -> is_dash_pos i = true ->
  guid_loop (S f) s i bytes = guid_loop f s (i + 1) bytes.
Proof. intros f s i bytes E I D. rewrite guid_loop_eq, E, D by assumption. reflexivity. Qed.

Lemma sees_split : forall s i u v, sees s i (u ++ v) -> sees s i u /\ sees s (i + length u) v.
Proof.
  intros s i u v H. split; intros j Hj.
  - rewrite H by (rewrite app_length; lia). apply nth_error_app1. exact Hj.
  - replace (i + length u + j)%nat with (i + (length u + j))%nat by lia.
    rewrite H by (rewrite app_length; lia). rewrite nth_error_app2 by lia.
    f_equal. lia.
Qed.
Lemma sees_hd : forall s i c v, sees s i ([c] ++ v) -> char_at s i = Some c /\ sees s (i + 1) v.
Proof.
  intros s i c v H. apply sees_split in H. destruct H as [H H']. split; [|exact H'].
  specialize (H O). rewrite Nat.add_0_r in H. apply H. cbn. lia.
Qed.

Lemma guid_complete : forall u rest r, guid_form u r -> guid_parse (u ++ rest) = GOk r.
Proof.
  intros u rest r (s1 & s2 & s3 & s4 & s5 & b1 & b2 & b3 & b4 & b5 & O1 & O2 & O3 & O4 & O5 & E & ->).
  pose proof (sees_at [] u rest) as S. cbn [app length] in S. set (s := u ++ rest) in *. clearbody s.
  subst u.
  destruct (octets_length _ _ _ O1) as [Ls1 Lb1], (octets_length _ _ _ O2) as [Ls2 Lb2],
    (octets_length _ _ _ O3) as [Ls3 Lb3], (octets_length _ _ _ O4) as [Ls4 Lb4],
    (octets_length _ _ _ O5) as [Ls5 Lb5].
  apply sees_split in S. destruct S as [S1 S]. rewrite Ls1 in S. apply sees_hd in S. destruct S as [D1 S].
  apply sees_split in S. destruct S as [S2 S]. rewrite Ls2 in S. apply sees_hd in S. destruct S as [D2 S].
  apply sees_split in S. destruct S as [S3 S]. rewrite Ls3 in S. apply sees_hd in S. destruct S as [D3 S].
  apply sees_split in S. destruct S as [S4 S]. rewrite Ls4 in S. apply sees_hd in S. destruct S as [D4 S5].
  cbn [Nat.add Nat.mul] in *.
  unfold guid_parse.
  change 36%nat with (4 + 32)%nat. rewrite (loop_pairs 4 _ _ O1) by (assumption || cbn; lia).
  cbn [Nat.add Nat.mul app]. rewrite loop_dash by (assumption || reflexivity || lia).
  change 31%nat with (2 + 29)%nat. rewrite (loop_pairs 2 _ _ O2) by (assumption || cbn; lia).
  cbn [Nat.add Nat.mul]. rewrite loop_dash by (assumption || reflexivity || lia).
  change 28%nat with (2 + 26)%nat. rewrite (loop_pairs 2 _ _ O3) by (assumption || rewrite ?app_length; lia).
  cbn [Nat.add Nat.mul]. rewrite loop_dash by (assumption || reflexivity || lia).
  change 25%nat with (2 + 23)%nat. rewrite (loop_pairs 2 _ _ O4) by (assumption || rewrite ?app_length; lia).
  cbn [Nat.add Nat.mul]. rewrite loop_dash by (assumption || reflexivity || lia).
  change 22%nat with (6 + 16)%nat. rewrite (loop_pairs 6 _ _ O5) by (assumption || rewrite ?app_length; lia).
  rewrite <- !app_assoc. reflexivity.
Qed.

(** *** Statements used by the property file *)

Lemma align_up_least : forall s k m, 0 <= k < 64 -> 0 <= s ->
  (2 ^ k | m) -> s <= m < 2 ^ 64 ->
  (2 ^ k | alignf s (2 ^ k)) /\ s <= alignf s (2 ^ k) <= m.
Proof.
  intros s k m Hk Hs [q ->] [Hm Hb]. pose proof (pow_pos k (proj1 Hk)) as P.
  assert (B : s + 2 ^ k - 1 < modulus U64).
  { change (modulus U64) with (2 ^ 64).
    assert (E : 2 ^ 64 = 2 ^ (64 - k) * 2 ^ k) by (rewrite <- Z.pow_add_r by lia; f_equal; lia).
    rewrite E in Hb. apply Z.mul_lt_mono_pos_r in Hb; [|assumption].
    assert ((q + 1) * 2 ^ k <= 2 ^ (64 - k) * 2 ^ k) by (apply Z.mul_le_mono_nonneg_r; lia).
    lia. }
  rewrite align_up by assumption. split; [apply Z.divide_factor_l|].
  pose proof (Z.mul_div_le (s + 2 ^ k - 1) (2 ^ k) P).
  pose proof (Z.mul_succ_div_gt (s + 2 ^ k - 1) (2 ^ k) P).
  split; [lia|].
  assert (Q : (s + 2 ^ k - 1) / 2 ^ k < q + 1) by (apply Z.div_lt_upper_bound; nia).
  rewrite (Z.mul_comm q). apply Z.mul_le_mono_nonneg_l; lia.
Qed.

Lemma align_down_greatest : forall s k, 0 <= k < 64 -> 0 <= s < 2 ^ 64 ->
  (2 ^ k | align s (2 ^ k)) /\ align s (2 ^ k) <= s
  /\ forall m, (2 ^ k | m) -> m <= s -> m <= align s (2 ^ k).
Proof.
  intros s k Hk Hs. pose proof (pow_pos k (proj1 Hk)) as P.
  rewrite align_down by assumption. split; [apply Z.divide_factor_l|].
  pose proof (Z.mul_div_le s (2 ^ k) P). pose proof (Z.mul_succ_div_gt s (2 ^ k) P).
  split; [lia|]. intros m [q ->] Hm.
  assert (Q : q <= s / 2 ^ k) by (apply Z.div_le_lower_bound; lia).
  rewrite (Z.mul_comm q). apply Z.mul_le_mono_nonneg_l; lia.
Qed.

Lemma align_up_wraps : forall s k, 0 <= k < 64 ->
  2 ^ 64 - 2 ^ k < s < 2 ^ 64 -> alignf s (2 ^ k) = 0.
Proof.
  intros s k Hk Hs. unfold alignf. pose proof (pow_pos k (proj1 Hk)) as P.
  pose proof (pow_lt_64 k Hk) as L.
  replace (wrap U64 (s + 2 ^ k - 1)) with (s + 2 ^ k - 1 - 2 ^ 64).
  2: { replace (s + 2 ^ k - 1) with (s + 2 ^ k - 1 - 2 ^ 64 + 1 * modulus U64)
         by (change (modulus U64) with (2 ^ 64); lia).
       rewrite wrap_add_modulus. rewrite wrap_u64_small; change (modulus U64) with (2 ^ 64) in *; lia. }
  rewrite (wrap_u64_small (2 ^ k - 1)) by (change (modulus U64) with (2 ^ 64) in *; lia).
  change (modulus U64) with (2 ^ 64) in *.
  rewrite mask_high by (change (modulus U64) with (2 ^ 64) in *; lia).
  rewrite Z.div_small by lia. lia.
Qed.

Lemma alignd_spec : forall s a, 0 <= s < 2 ^ 64 -> 0 <= a <= 2 ^ 63 ->
  exists j, 0 <= j /\ alignd s a = Some (Z.max 1 s * 2 ^ j)
            /\ a <= Z.max 1 s * 2 ^ j
            /\ forall i, 0 <= i < j -> Z.max 1 s * 2 ^ i < a.
Proof.
  intros s a Hs Ha. unfold alignd.
  replace (if s =? 0 then 1 else s) with (Z.max 1 s) by (destruct (Z.eqb_spec s 0); lia).
  apply double_spec.
  - change (modulus U64) with (2 ^ 64). lia.
  - change (modulus U64) with (2 ^ 64). assert (2 ^ 63 < 2 ^ 64) by (apply Z.pow_lt_mono_r; lia). lia.
  - change (Z.of_nat 64) with 64.
    assert (2 ^ 63 < 2 ^ 64) by (apply Z.pow_lt_mono_r; lia). nia.
  - lia.
Qed.

Lemma double_zero : forall fuel a, 0 < a -> double_until fuel 0 a = None.
Proof.
  induction fuel as [|fuel IH]; intros a H; cbn [double_until];
    (destruct (Z.ltb_spec 0 a); [|lia]); [reflexivity|].
  change (wrap U64 (Z.shiftl 0 1)) with 0. apply IH. exact H.
Qed.

Lemma double_endless_from : forall n fuel, (n <= 63)%nat ->
  double_until fuel (2 ^ Z.of_nat (63 - n)) (2 ^ 63 + 1) = None.
Proof.
  induction n as [|n IH]; intros fuel Hn.
  - change (Z.of_nat (63 - 0)) with 63. destruct fuel; cbn [double_until];
      (destruct (Z.ltb_spec (2 ^ 63) (2 ^ 63 + 1)); [|lia]); [reflexivity|].
    change (wrap U64 (Z.shiftl (2 ^ 63) 1)) with 0. apply double_zero. reflexivity.
  - assert (L : 2 ^ Z.of_nat (63 - S n) < 2 ^ 63) by (apply Z.pow_lt_mono_r; lia).
    pose proof (pow_pos (Z.of_nat (63 - S n)) ltac:(lia)) as P.
    destruct fuel; cbn [double_until];
      (destruct (Z.ltb_spec (2 ^ Z.of_nat (63 - S n)) (2 ^ 63 + 1)); [|lia]); [reflexivity|].
    rewrite Z.shiftl_mul_pow2 by lia.
    replace (2 ^ Z.of_nat (63 - S n) * 2 ^ 1) with (2 ^ Z.of_nat (63 - n)).
    + rewrite wrap_u64_small; [apply IH; lia|]. split; [apply Z.pow_nonneg; lia|].
      apply pow_lt_64. lia.
    + rewrite <- Z.pow_add_r by lia. f_equal. lia.
Qed.

Lemma doubling_endless : exists a, 0 <= a < 2 ^ 64 /\ forall fuel, double_until fuel 1 a = None.
Proof.
  exists (2 ^ 63 + 1). split.
  - split; [|reflexivity]. discriminate.
  - intro fuel. exact (double_endless_from 63 fuel (le_n _)).
Qed.

Lemma enum_add_spec : forall t v f fs b, in_range t v -> Forall (in_range t) (f :: fs) ->
  in_range t (enum_add v f fs)
  /\ (has_bit t (enum_add v f fs) b
      <-> has_bit t v b \/ exists g, In g (f :: fs) /\ has_bit t g b).
Proof.
  intros t v f fs b Hv Hf. split; [apply bit_or_range; constructor; assumption|].
  unfold enum_add. rewrite or_has. split.
  - intros (g & [<-|I] & H); [left; exact H|right; exists g; split; assumption].
  - intros [H|(g & I & H)]; [exists v|exists g]; (split; [|exact H]); [left; reflexivity|right; exact I].
Qed.

Lemma has_bit_ext : forall t u v, in_range t u -> in_range t v ->
  (forall b, has_bit t u b <-> has_bit t v b) -> u = v.
Proof.
  intros t u v Hu Hv H. apply (in_range_ext t); try assumption.
  intros b Hb. specialize (H b). unfold has_bit in H.
  destruct (Z.testbit u b), (Z.testbit v b); try reflexivity.
  - symmetry. apply H. auto.
  - apply H. auto.
Qed.

Lemma has_many_refuted : exists t v f,
  in_range t v /\ in_range t f /\ bit_has_flag t v [f; f] = false
  /\ exists b, has_bit t v b /\ has_bit t f b.
Proof.
  exists I32, 1, 1. unfold in_range. cbn. repeat split; try lia.
  exists 0. unfold has_bit. cbn. repeat split; lia.
Qed.

Lemma and_int_refuted : exists t u v b,
  in_range t u /\ in_range t v /\ has_bit t (bit_and_int t [u; v]) b
  /\ ~ has_bit t u b /\ ~ has_bit t v b.
Proof.
  exists I32, 0, 0, 0. unfold in_range, has_bit. cbn.
  repeat split; try lia; intros [_ H]; discriminate.
Qed.

Lemma enum_flags_spec : forall t v, is_signed t = true -> in_range t v -> 0 <= v \/ bits t < 32 ->
  exists bs, enum_flags t v = Some (map (fun b => wrap t (2 ^ b)) bs)
             /\ ascending 0 bs /\ forall b, In b bs <-> has_bit t v b.
Proof.
  intros t v St R Safe. apply flags_step; try assumption; try lia.
  destruct t; cbn; lia.
Qed.

Lemma flags_negative : forall fuel t v, t = I32 \/ t = I64 -> in_range t v -> v < 0 ->
  flags_from fuel t v = None.
Proof.
  induction fuel as [|fuel IH]; intros t v Ht R Hv; cbn [flags_from];
    (destruct (Z.eqb_spec v 0); [lia|]); [reflexivity|].
  destruct (fit (promote t) (v - 1)) as [w|] eqn:F; [|reflexivity].
  assert (W : w = v - 1 /\ in_range t (v - 1)).
  { unfold fit in F. destruct Ht as [-> | ->]; cbn [promote is_signed] in F;
      destruct (in_rangeb _ (v - 1)) eqn:E; try discriminate;
      apply in_rangeb_iff in E; inversion F; auto. }
  destruct W as [-> W].
  rewrite IH; [reflexivity|assumption|apply wrap_in_range|].
  rewrite wrap_id by (apply narrow_land; assumption).
  apply Z.land_neg. lia.
Qed.

Lemma enum_flags_negative : forall t v, t = I32 \/ t = I64 -> in_range t v -> v < 0 ->
  enum_flags t v = None.
Proof. intros. apply flags_negative; assumption. Qed.

Lemma guid_accepts : forall s bs,
  guid_parse s = GOk bs <-> exists u rest, s = u ++ rest /\ guid_form u bs.
Proof.
  intros s bs. split; [apply guid_sound|]. intros (u & rest & -> & F). apply guid_complete. exact F.
Qed.

Lemma octets_bytes : forall n u b, octets n u b -> Forall (fun x => 0 <= x < 256) b.
Proof.
  induction 1 as [|n c c' d d' u b H H' O IH]; constructor; [|assumption].
  apply hex_digit in H, H'. lia.
Qed.

Lemma form_lengths : forall u bs, guid_form u bs -> length u = 36%nat /\ length bs = 16%nat
  /\ Forall (fun b => 0 <= b < 256) bs.
Proof.
  intros u r (s1 & s2 & s3 & s4 & s5 & b1 & b2 & b3 & b4 & b5 & O1 & O2 & O3 & O4 & O5 & -> & ->).
  destruct (octets_length _ _ _ O1) as [Ls1 Lb1], (octets_length _ _ _ O2) as [Ls2 Lb2],
    (octets_length _ _ _ O3) as [Ls3 Lb3], (octets_length _ _ _ O4) as [Ls4 Lb4],
    (octets_length _ _ _ O5) as [Ls5 Lb5].
  rewrite !app_length. cbn [length]. split; [lia|]. split; [lia|].
  rewrite !Forall_app. repeat split; eapply octets_bytes; eassumption.
Qed.

Lemma guid_sixteen : forall s bs, guid_parse s = GOk bs ->
  length bs = 16%nat /\ Forall (fun b => 0 <= b < 256) bs.
Proof.
  intros s bs H. apply guid_sound in H. destruct H as (u & rest & _ & F).
  apply form_lengths in F. tauto.
Qed.

Lemma app_same_length : forall (A : Type) (u v r r' : list A),
  length u = length v -> u ++ r = v ++ r' -> u = v.
Proof.
  induction u as [|x u IH]; intros [|y v] r r' L E; try discriminate; [reflexivity|].
  cbn in *. inversion E. f_equal. eapply IH; [lia|eassumption].
Qed.

Lemma guid_first_36 : forall u rest rest' bs, length u = 36%nat ->
  guid_parse (u ++ rest) = GOk bs -> guid_parse (u ++ rest') = GOk bs.
Proof.
  intros u rest rest' bs L H. apply guid_sound in H. destruct H as (v & r & E & F).
  destruct (form_lengths _ _ F) as [Lv _].
  assert (u = v) by (eapply app_same_length; [|exact E]; lia). subst v.
  apply guid_complete. exact F.
Qed.

Definition hex36 : list Z := repeat 48 36.
Definition plain_guid : list Z :=
  repeat 48 8 ++ [45] ++ repeat 48 4 ++ [45] ++ repeat 48 4 ++ [45] ++ repeat 48 4 ++ [45] ++ repeat 48 12.

Lemma guid_trailing : exists s bs, guid_parse s = GOk bs /\ length s <> 36%nat.
Proof.
  exists (plain_guid ++ [120]), (repeat 0 16). split; [vm_compute; reflexivity|discriminate].
Qed.

Lemma guid_overflow : exists s, length s = 36%nat /\
  Forall (fun c => exists d, hex c d) s /\ guid_parse s = GUndef.
Proof.
  exists hex36. split; [reflexivity|]. split; [|vm_compute; reflexivity].
  apply Forall_forall. intros c Hc. apply repeat_spec in Hc. subst c.
  exists (48 - 48). constructor. lia.
Qed.

Lemma guid_short : exists s, guid_parse s = GUndef /\ (length s < 36)%nat
  /\ Forall (fun c => c <> 0) s.
Proof.
  exists (repeat 48 8). split; [vm_compute; reflexivity|]. split; [cbn; lia|].
  apply Forall_forall. intros c Hc. apply repeat_spec in Hc. subst c. discriminate.
Qed.

Lemma guid_defined_from : forall fuel s i bytes, (36 <= length s)%nat ->
  (forall j, is_dash_pos j = true -> char_at s j = Some 45) ->
  (2 * length bytes + dashes i = i)%nat -> (36 - i <= fuel)%nat ->
  guid_loop fuel s i bytes <> GUndef.
Proof.
  induction fuel as [|fuel IH]; intros s i bytes L D E F.
  - cbn [guid_loop]. destruct (Nat.leb_spec 36 i); [discriminate|lia].
  - destruct (Nat.leb_spec 36 i) as [G|G].
    + cbn [guid_loop]. destruct (Nat.leb_spec 36 i); [discriminate|lia].
    + rewrite guid_loop_eq by assumption.
      assert (Dom : forall j, (j <= 36)%nat -> exists c, char_at s j = Some c).
      { intros j Hj. unfold char_at. destruct (nth_error (s ++ [0]) j) eqn:En; [eauto|].
        apply nth_error_None in En. rewrite app_length in En. cbn in En. lia. }
      destruct (Dom i ltac:(lia)) as [c Ec]. rewrite Ec.
      destruct (Z.eqb_spec c 45) as [->|N].
      * destruct (is_dash_pos i) eqn:Di; cbn [negb]; [|discriminate].
        apply IH; try assumption; [|lia]. rewrite dashes_step, Di. cbn [Nat.b2n]. lia.
      * destruct (Dom (i + 1)%nat ltac:(lia)) as [c' Ec']. rewrite Ec'.
        destruct (Z.ltb_spec (digit_value c) 0); [discriminate|].
        destruct (Z.ltb_spec (digit_value c') 0); [discriminate|]. cbn [orb].
        assert (D1 : is_dash_pos i = false).
        { destruct (is_dash_pos i) eqn:Di; [|reflexivity]. apply D in Di. congruence. }
        assert (D2 : is_dash_pos (i + 1) = false).
        { destruct (is_dash_pos (i + 1)) eqn:Di; [|reflexivity]. apply D in Di.
          rewrite Ec' in Di. inversion Di; subst c'. cbn in *. lia. }
        destruct (Nat.leb_spec 16 (length bytes)).
        -- exfalso. destruct (Nat.leb_spec 31 i).
           ++ assert (dashes i = 4)%nat.
              { unfold dashes. destruct (Nat.ltb_spec 8 i); [|lia]. destruct (Nat.ltb_spec 13 i); [|lia].
                destruct (Nat.ltb_spec 18 i); [|lia]. destruct (Nat.ltb_spec 23 i); [|lia]. reflexivity. }
              lia.
           ++ lia.
        -- apply IH; try assumption; [|lia]. rewrite app_length, dashes_step2, D1, D2.
           cbn [length Nat.b2n]. lia.
Qed.

Lemma guid_defined : forall s,
  (36 <= length s)%nat ->
  nth_error s 8 = Some 45 -> nth_error s 13 = Some 45 ->
  nth_error s 18 = Some 45 -> nth_error s 23 = Some 45 -> guid_parse s <> GUndef.
Proof.
  intros s L H8 H13 H18 H23. apply guid_defined_from; [assumption| |reflexivity|lia].
  intros j Dj. unfold char_at. rewrite nth_error_app1.
  - unfold is_dash_pos in Dj. rewrite !orb_true_iff, !Nat.eqb_eq in Dj.
    destruct Dj as [[[-> | ->]| ->]| ->]; assumption.
  - unfold is_dash_pos in Dj. rewrite !orb_true_iff, !Nat.eqb_eq in Dj. lia.
Qed.
