(** Main results about the expression compiler model. *)

From Coq Require Import ZArith Lia List Bool.
From Verif Require Import CppInt ArithModel ArithSpec ArithProofs ExprModel ExprSpec ExprProofs ExprSim.
Import ListNotations.
Open Scope Z_scope.

Ltac Zify.zify_post_hook ::= Z.div_mod_to_equations.

Section Main.

Variable vt : vref -> vty.

(** *** The compiler's output computes the meaning *)

Lemma value_correct : forall l e t code st v st' stk,
  typed vt e = Some t -> sound l vt e = true -> store_ok vt st ->
  compile_value l vt e = Code code ->
  meaning false vt e st = Some (v, st') ->
  exists u, run vt code 0 stk st = Done (u :: stk) st' /\ read t u = Some (snd v).
Proof.
  intros l e t code st v st' stk T So S C M.
  destruct (meaning_typed _ _ _ _ _ _ _ T S M) as (_ & R & _).
  pose proof (proj1 (simulation vt l e) t None code st v st' T So I S C M) as P.
  cbn [target] in P. rewrite vcast_id in P by exact R.
  destruct (P [] stk) as (u & _ & Ru & E). rewrite app_nil_r in E. exists u. auto.
Qed.

Lemma return_correct : forall l e t u code st v st' stk,
  typed vt e = Some t -> sound l vt e = true -> may_convert l e t u = true -> store_ok vt st ->
  compile_return l vt u e = Code code ->
  meaning false vt e st = Some (v, st') ->
  exists s, run vt code 0 stk st = Done (s :: stk) st' /\ read u s = Some (convert u (snd v)).
Proof.
  intros l e t u code st v st' stk T So E S C M.
  pose proof (proj1 (simulation vt l e) t (Some u) code st v st' T So E S C M) as P.
  destruct (P [] stk) as (s & _ & Rs & X). rewrite app_nil_r in X. exists s.
  split; [exact X|exact Rs].
Qed.

Lemma init_correct : forall l e t x code st v st' stk,
  typed vt e = Some t -> sound l vt e = true -> may_convert l e t (vt x) = true -> store_ok vt st ->
  compile_init l vt x e = Code code ->
  meaning false vt e st = Some (v, st') ->
  run vt code 0 stk st = Done stk (put st' x (convert (vt x) (snd v))).
Proof.
  intros l e t x code st v st' stk T So E S C M.
  unfold compile_init in C. apply cseq_inv in C. destruct C as (k1 & k2 & K1 & K2 & ->).
  injection K2 as <-.
  pose proof (proj1 (simulation vt l e) t (Some (vt x)) k1 st v st' T So E S K1 M) as P.
  pose proof (pushes_pop vt _ _ _ _ _ P [] stk) as X. rewrite app_nil_r in X. exact X.
Qed.

Lemma statement_correct : forall l e t code st v st' stk,
  typed vt e = Some t -> sound l vt e = true -> discardable l e = true -> store_ok vt st ->
  compile_statement l vt e = Code code ->
  meaning false vt e st = Some (v, st') ->
  run vt code 0 stk st = Done stk st'.
Proof.
  intros l e t code st v st' stk T So D S C M.
  pose proof (proj2 (simulation vt l e) true t code st v st' (fun _ => eq_refl) T So D S C M [] stk) as X.
  rewrite app_nil_r in X. exact X.
Qed.

(** *** Exact arithmetic *)

Lemma mixes_none : forall t1 t2, mixes_sign t1 t2 = false ->
  u32_with_signed t1 t2 = false /\ u64_with_signed t1 t2 = false.
Proof. intros t1 t2 H. apply orb_false_iff in H. exact H. Qed.

Lemma not_mixed_represents : forall t1 t2 v, mixes_sign t1 t2 = false ->
  in_range t1 v -> in_range (lang_result_type t1 t2) v.
Proof.
  intros t1 t2 v H R. apply (subrange_in t1); [|exact R].
  destruct t1, t2; try discriminate; reflexivity.
Qed.

Lemma lang_result_comm : forall t1 t2, lang_result_type t1 t2 = lang_result_type t2 t1.
Proof. exact lang_result_type_sym. Qed.

Lemma exact_op_value : forall a t1 t2 x y r,
  in_range t1 x -> in_range t2 y -> exact_op a t1 t2 x y = Some r ->
  vm_binary (Al a) (Vi t1, x) (Vi t2, y) = VmVal (Vi (lang_result_type t1 t2), r)
  /\ in_range (lang_result_type t1 t2) r.
Proof.
  intros a t1 t2 x y r R1 R2 H. unfold exact_op in H.
  destruct (mixes_sign t1 t2) eqn:Mx; [discriminate|]. cbn [orb] in H.
  destruct (mixes_none _ _ Mx) as [Ha Hb].
  pose proof (not_mixed_represents _ _ _ Mx R1) as W1.
  assert (W2 : in_range (lang_result_type t1 t2) y).
  { rewrite lang_result_comm. apply not_mixed_represents; [|exact R2].
    destruct t1, t2; try discriminate; reflexivity. }
  destruct (match a with
    | Div | Mod => negb (y =? 0)
    | Shl => (0 <=? x) && (0 <=? y) && (y <? bits (promote t1)) && in_rangeb (promote t1) (x * 2 ^ y)
    | Shr => (0 <=? y) && (y <? bits (promote t1))
    | _ => true end) eqn:Pr; [|discriminate]. cbn [negb] in H.
  destruct (in_rangeb (lang_result_type t1 t2) (math a x y)) eqn:F; [|discriminate].
  cbn [andb] in H. pose proof (proj1 (in_rangeb_iff _ _) F) as F'.
  assert (Rr : r = math a x y)
    by (destruct a; try (destruct (in_rangeb _ (Z.quot x y)); [|discriminate]); congruence).
  subst r. split; [|exact F'].
  destruct (modular a) eqn:Mo.
  - rewrite c07_modular by assumption. unfold arith_outcome. rewrite F, andb_false_r, wrap_id by exact F'. reflexivity.
  - destruct a; try discriminate; cbn [math] in *.
    + apply negb_true_iff, Z.eqb_neq in Pr. exact (proj1 (c07_div t1 t2 x y Ha W1 W2 Pr F')).
    + apply negb_true_iff, Z.eqb_neq in Pr.
      destruct (in_rangeb (lang_result_type t1 t2) (Z.quot x y)) eqn:Q; [|discriminate].
      apply in_rangeb_iff in Q.
      exact (proj1 (proj2 (c07_div t1 t2 x y Ha W1 W2 Pr Q))).
    + rewrite !andb_true_iff in Pr. destruct Pr as [[[P1 P2] P3] P4].
      apply in_rangeb_iff in P4.
      rewrite c07_shl; try lia; try assumption; [|right; exact P4].
      f_equal. f_equal. apply Z.mod_small. split; [nia|].
      unfold in_range in P4. destruct (promote t1); cbn in *; lia.
    + rewrite andb_true_iff in Pr. destruct Pr as [P1 P2].
      rewrite c07_shr; try lia; try assumption. reflexivity.
Qed.

Lemma holds_holdsb : forall c x y, holds c x y <-> holdsb c x y = true.
Proof.
  intros [] x y; cbn [holds holdsb]; rewrite ?negb_true_iff, ?Z.ltb_lt, ?Z.leb_le, ?Z.eqb_eq, ?Z.eqb_neq; lia.
Qed.

Lemma exact_cmp_value : forall c t1 t2 x y,
  mixes_sign t1 t2 = false -> in_range t1 x -> in_range t2 y ->
  vm_binary (Cmp c) (Vi t1, x) (Vi t2, y) = VmVal (Vb, b2z (holdsb c x y)).
Proof.
  intros c t1 t2 x y Mx R1 R2. destruct (mixes_none _ _ Mx) as [Ha Hb].
  rewrite vm_cmp_unfold. do 3 f_equal.
  pose proof (cpp_cmp_exact c t1 t2 x y Ha Hb R1 R2) as H.
  rewrite holds_holdsb in H. destruct (cpp_cmp c t1 t2 x y), (holdsb c x y); try reflexivity.
  - destruct H as [H _]. discriminate (H eq_refl).
  - destruct H as [_ H]. discriminate (H eq_refl).
Qed.

Lemma inc_value : forall i d x r,
  in_range i x -> r = (if d : bool then x - 1 else x + 1) -> in_range i r ->
  exists z, vm_binary (Al (if d then Sub else Add)) (Vi i, x) (Vi I32, 1) = VmVal z
            /\ vcast (Vi i) (snd z) = r.
Proof.
  intros i d x r Rx Er Rr.
  assert (O : in_range I32 1) by (split; discriminate || reflexivity).
  assert (Mo : modular (if d then Sub else Add) = true) by (destruct d; reflexivity).
  assert (E : math (if d then Sub else Add) x 1 = r) by (destruct d; subst r; reflexivity).
  destruct (u32_with_signed i I32) eqn:U.
  - rewrite c07_u32_mix by assumption. eexists. split; [reflexivity|]. cbn [snd vcast].
    rewrite E. destruct i; try discriminate. rewrite (wrap_id U32 r) by exact Rr.
    apply wrap_id. exact Rr.
  - rewrite c07_modular by assumption. unfold arith_outcome. rewrite E.
    assert (F : in_rangeb (lang_result_type i I32) r = true).
    { apply in_rangeb_iff. apply (subrange_in i); [destruct i; try discriminate; reflexivity|exact Rr]. }
    rewrite F, andb_false_r. eexists. split; [reflexivity|]. cbn [snd vcast].
    apply in_rangeb_iff in F. rewrite (wrap_id _ r) by exact F. apply wrap_id. exact Rr.
Qed.

Lemma and_or_value : forall o v1 v2, (o = OAnd \/ o = OOr) -> vrange Vb v1 -> vrange Vb v2 ->
  vm_binary (to_binop o) (Vb, v1) (Vb, v2)
  = VmVal (Vb, match o with OAnd => v1 * v2 | _ => Z.max v1 v2 end).
Proof. intros o v1 v2 [->| ->] [->| ->] [->| ->]; reflexivity. Qed.

Lemma bool_cmp_value : forall c v1 v2 t, vrange Vb v1 -> vrange Vb v2 ->
  get_binary_vtype (Cmp c) Vb Vb = Some t ->
  vm_binary (Cmp c) (Vb, v1) (Vb, v2) = VmVal (Vb, b2z (holdsb c v1 v2)).
Proof. intros [] v1 v2 t [->| ->] [->| ->] G; try discriminate; reflexivity. Qed.

Lemma unary_value : forall o i v w t,
  in_range i v -> get_unitary_vtype (to_unop o) (Vi i) = Some t ->
  match o with
  | ONeg => if is_signed (promote i) && in_rangeb (promote i) (- v) then Some (- v) else None
  | OPos => Some v
  | OBNot => Some (if is_signed (promote i) then -1 - v else tmax i - v)
  | ONot => None
  end = Some w ->
  vm_unary (to_unop o) (Vi i, v) = VmVal (t, w).
Proof.
  intros o i v w t R G H.
  assert (Tt : forall z, vm_unary (to_unop o) (Vi i, v) = VmVal z -> fst z = t)
    by (intros z Hz; exact (proj1 (unary_type _ _ _ G _ _ Hz))).
  assert (K : forall t' w', vm_unary (to_unop o) (Vi i, v) = VmVal (t', w') -> w' = w ->
              vm_unary (to_unop o) (Vi i, v) = VmVal (t, w)).
  { intros t' w' E ->. pose proof (Tt _ E) as F. cbn in F. subst t'. exact E. }
  destruct o; try discriminate; cbn [to_unop] in *.
  - injection H as <-. eapply K; [|reflexivity]. apply c09_unary.
    + auto.
    + intros [E _]. discriminate.
    + exact R.
    + cbn [math_unary]. apply (subrange_in i); [destruct i; reflexivity|exact R].
  - destruct (is_signed (promote i)) eqn:Sg; [|discriminate]. cbn [andb] in H.
    destruct (in_rangeb (promote i) (- v)) eqn:F; [|discriminate]. injection H as <-.
    eapply K; [|reflexivity]. apply c09_unary.
    + auto.
    + intros [_ [-> | ->]]; discriminate.
    + exact R.
    + apply in_rangeb_iff. exact F.
  - injection H as <-. destruct (is_signed (promote i)) eqn:Sg.
    + eapply K; [|reflexivity]. apply c09_unary.
      * auto.
      * intros [E _]. discriminate.
      * exact R.
      * cbn [math_unary]. destruct i; try discriminate; unfold in_range, tmin, tmax in *;
          cbn [is_signed modulus half promote] in *; lia.
    + eapply K; [|reflexivity]. apply bnot_unsigned; [|exact R].
      destruct i; try discriminate; auto.
Qed.

Lemma exact_meaning : forall e t st v st',
  typed vt e = Some t -> store_ok vt st -> exact vt e st = Some (v, st') ->
  meaning false vt e st = Some ((t, v), st').
Proof.
  induction e as [[t0 v0]|x|t0 i IHi|o e1 IH1 e2 IH2|o e1 IH1|x e1 IH1|a x e1 IH1|p d x|t0 e1 IH1
                 |c IHc e1 IH1 e2 IH2|e1 IH1 e2 IH2]; intros t st v st' T S X;
    cbn [exact] in X; cbn [meaning].
  - cbn [typed] in T. destruct (vrangeb t0 v0); [|discriminate].
    injection T as <-. injection X as <- <-. reflexivity.
  - cbn [typed] in T. injection T as <-. injection X as <- <-. reflexivity.
  - cbn [typed] in T. destruct (typed vt i) as [ti|] eqn:Ti; [|discriminate].
    destruct (vty_eqb t0 ti) eqn:E; [|discriminate]. apply vty_eqb_eq in E. subst ti.
    injection T as <-. destruct (exact vt i st) as [[w s]|] eqn:Xi; [|discriminate].
    pose proof (IHi _ _ _ _ eq_refl S Xi) as M. injection X as <- <-.
    destruct (meaning_typed _ _ _ _ _ _ _ Ti S M) as (_ & R & _).
    rewrite M. cbn [snd] in *. rewrite vcast_id by exact R. reflexivity.
  - destruct (typed_bin _ _ _ _ _ T) as (t1 & t2 & T1 & T2 & G).
    destruct (exact vt e1 st) as [[v1 st1]|] eqn:X1; [|discriminate].
    pose proof (IH1 _ _ _ _ T1 S X1) as M1.
    destruct (meaning_typed _ _ _ _ _ _ _ T1 S M1) as (_ & R1 & S1).
    destruct (exact vt e2 st1) as [[v2 st2]|] eqn:X2; [|discriminate].
    pose proof (IH2 _ _ _ _ T2 S1 X2) as M2.
    destruct (meaning_typed _ _ _ _ _ _ _ T2 S1 M2) as (_ & R2 & _).
    cbn [snd] in R1, R2. rewrite T1, T2 in X. rewrite M1.
    replace (match o with OAnd => false && _ | OOr => false && _ | _ => false end) with false
      by (destruct o; reflexivity).
    rewrite M2.
    destruct o as [a|c| |]; cbn [to_binop] in *.
    + destruct t1 as [i|]; [|discriminate]. destruct t2 as [j|]; [|discriminate].
      destruct (exact_op a i j v1 v2) as [r|] eqn:Op; [|discriminate]. injection X as <- <-.
      destruct (exact_op_value _ _ _ _ _ _ R1 R2 Op) as [E _]. rewrite E.
      rewrite result_type_al in G. injection G as <-. reflexivity.
    + destruct t1 as [i|], t2 as [j|]; try (destruct c; discriminate G).
      * destruct (mixes_sign i j) eqn:Mx; [discriminate|]. injection X as <- <-.
        rewrite exact_cmp_value by assumption. cbn [get_binary_vtype] in G.
        rewrite find_row_spec in G. destruct c; injection G as <-; reflexivity.
      * injection X as <- <-. rewrite (bool_cmp_value _ _ _ _ R1 R2 G).
        destruct c; try discriminate; injection G as <-; reflexivity.
    + destruct (bool_logic OAnd _ _ _ (or_introl eq_refl) G) as (-> & -> & ->).
      injection X as <- <-.
      rewrite (and_or_value OAnd) by auto. reflexivity.
    + destruct (bool_logic OOr _ _ _ (or_intror eq_refl) G) as (-> & -> & ->).
      injection X as <- <-.
      rewrite (and_or_value OOr) by auto. reflexivity.
  - destruct (typed_un _ _ _ _ T) as (t1 & T1 & G).
    destruct (exact vt e1 st) as [[v1 st1]|] eqn:X1; [|discriminate].
    pose proof (IH1 _ _ _ _ T1 S X1) as M1.
    destruct (meaning_typed _ _ _ _ _ _ _ T1 S M1) as (_ & R1 & _). cbn [snd] in R1.
    rewrite T1 in X. rewrite M1.
    destruct t1 as [i|].
    + assert (Y : exists w, match o with
        | ONeg => if is_signed (promote i) && in_rangeb (promote i) (- v1) then Some (- v1) else None
        | OPos => Some v1
        | OBNot => Some (if is_signed (promote i) then -1 - v1 else tmax i - v1)
        | ONot => None
        end = Some w /\ v = w /\ st' = st1).
      { destruct o; try discriminate.
        - injection X as <- <-. eauto.
        - destruct (is_signed (promote i) && in_rangeb (promote i) (- v1)); [|discriminate].
          injection X as <- <-. eauto.
        - injection X as <- <-. eauto. }
      destruct Y as (w & Y & -> & ->). rewrite (unary_value _ _ _ _ _ R1 G Y). reflexivity.
    + destruct o; try discriminate. injection X as <- <-. injection G as <-.
      destruct R1; subst v1; reflexivity.
  - cbn [typed] in T. destruct (typed vt e1) as [t1|] eqn:T1; [|discriminate]. injection T as <-.
    destruct (exact vt e1 st) as [[v1 st1]|] eqn:X1; [|discriminate].
    rewrite (IH1 _ _ _ _ eq_refl S X1). injection X as <- <-. reflexivity.
  - cbn [typed] in T. destruct (vt x) as [i|] eqn:Vx; [|discriminate].
    destruct (typed vt e1) as [[j|]|] eqn:T1; try discriminate. injection T as <-.
    destruct (exact vt e1 st) as [[v1 st1]|] eqn:X1; [|discriminate].
    pose proof (IH1 _ _ _ _ eq_refl S X1) as M1.
    destruct (meaning_typed _ _ _ _ _ _ _ T1 S M1) as (_ & R1 & _). cbn [snd] in R1.
    destruct (exact_op a i j (st x) v1) as [r|] eqn:Op; [|discriminate]. injection X as <- <-.
    assert (Rx : in_range i (st x)) by (pose proof (S x) as Sx; rewrite Vx in Sx; exact Sx).
    destruct (exact_op_value _ _ _ _ _ _ Rx R1 Op) as [E _]. rewrite M1, E. reflexivity.
  - cbn [typed] in T. destruct (vt x) as [i|] eqn:Vx; [|discriminate]. injection T as <-.
    destruct (in_rangeb i (if d then st x - 1 else st x + 1)) eqn:F; [|discriminate].
    injection X as <- <-. apply in_rangeb_iff in F.
    assert (Rx : in_range i (st x)) by (pose proof (S x) as Sx; rewrite Vx in Sx; exact Sx).
    destruct (inc_value i d (st x) _ Rx eq_refl F) as (z & E & C). rewrite E, C. reflexivity.
  - cbn [typed] in T. destruct (typed vt e1) as [t1|] eqn:T1; [|discriminate]. injection T as <-.
    destruct (exact vt e1 st) as [[v1 st1]|] eqn:X1; [|discriminate].
    rewrite (IH1 _ _ _ _ eq_refl S X1). injection X as <- <-. reflexivity.
  - cbn [typed] in T.
    destruct (typed vt c) as [[|]|] eqn:Tc; try discriminate.
    destruct (typed vt e1) as [t1|] eqn:T1; [|discriminate].
    destruct (typed vt e2) as [t2|] eqn:T2; [|discriminate].
    destruct (vty_eqb t1 t2) eqn:E; [|discriminate]. apply vty_eqb_eq in E. subst t2.
    injection T as <-.
    destruct (exact vt c st) as [[v1 st1]|] eqn:Xc; [|discriminate].
    pose proof (IHc _ _ _ _ eq_refl S Xc) as Mc.
    destruct (meaning_typed _ _ _ _ _ _ _ Tc S Mc) as (_ & _ & S1).
    rewrite Mc. cbn [snd]. destruct (v1 =? 0).
    + exact (IH2 _ _ _ _ eq_refl S1 X).
    + exact (IH1 _ _ _ _ eq_refl S1 X).
  - cbn [typed] in T. destruct (typed vt e1) as [t1|] eqn:T1; [|discriminate].
    destruct (typed vt e2) as [t2|] eqn:T2; [|discriminate]. injection T as <-.
    destruct (exact vt e1 st) as [[v1 st1]|] eqn:X1; [|discriminate].
    pose proof (IH1 _ _ _ _ eq_refl S X1) as M1.
    destruct (meaning_typed _ _ _ _ _ _ _ T1 S M1) as (_ & _ & S1).
    rewrite M1. exact (IH2 _ _ _ _ eq_refl S1 X).
Qed.

(** *** Short circuit *)

Lemma harmless_meaning : forall lazy e t st,
  typed vt e = Some t -> store_ok vt st -> harmless e = true ->
  exists v, meaning lazy vt e st = Some ((t, v), st) /\ meaning false vt e st = Some ((t, v), st).
Proof.
  intros lazy.
  induction e as [[t0 v0]|x|t0 i IHi|o e1 IH1 e2 IH2|o e1 IH1|x e1 IH1|a x e1 IH1|p d x|t0 e1 IH1
                 |c IHc e1 IH1 e2 IH2|e1 IH1 e2 IH2]; intros t st T S H;
    cbn [harmless] in H; try discriminate; cbn [meaning].
  - cbn [typed] in T. destruct (vrangeb t0 v0); [|discriminate]. injection T as <-. eauto.
  - cbn [typed] in T. injection T as <-. eauto.
  - assert (Hh : harmless e1 && harmless e2 = true /\ forall a, o <> OAl a)
      by (destruct o; try discriminate; split; [exact H|discriminate|exact H|discriminate
                                               |exact H|discriminate]).
    destruct Hh as [Hh No]. apply andb_true_iff in Hh. destruct Hh as [H1 H2].
    destruct (typed_bin _ _ _ _ _ T) as (t1 & t2 & T1 & T2 & G).
    destruct (IH1 _ _ T1 S H1) as (v1 & M1 & M1').
    destruct (IH2 _ _ T2 S H2) as (v2 & M2 & M2').
    destruct (meaning_typed _ _ _ _ _ _ _ T1 S M1) as (_ & R1 & _).
    destruct (meaning_typed _ _ _ _ _ _ _ T2 S M2) as (_ & R2 & _). cbn [snd] in R1, R2.
    rewrite M1, M1', M2, M2'.
    destruct o as [a|c| |]; [destruct (No a eq_refl)| | |]; cbn [to_binop snd] in *.
    + assert (V : exists z, vm_binary (Cmp c) (t1, v1) (t2, v2) = VmVal (t, z)).
      { destruct t1 as [i|], t2 as [j|]; try (destruct c; discriminate G).
        - cbn [get_binary_vtype] in G. rewrite find_row_spec in G.
          rewrite vm_cmp_unfold. destruct c; injection G as <-; eauto.
        - rewrite (bool_cmp_value _ _ _ _ R1 R2 G).
          destruct c; try discriminate; injection G as <-; eauto. }
      destruct V as (z & V). rewrite V. eauto.
    + destruct (bool_logic OAnd _ _ _ (or_introl eq_refl) G) as (-> & -> & ->).
      pose proof (and_or_value OAnd _ _ (or_introl eq_refl) R1 R2) as V. cbn [to_binop] in V.
      rewrite V. cbn [andb]. destruct (lazy && (v1 =? 0)) eqn:Z; [|eauto].
      apply andb_true_iff in Z. destruct Z as [_ Z]. apply Z.eqb_eq in Z. subst v1. eauto.
    + destruct (bool_logic OOr _ _ _ (or_intror eq_refl) G) as (-> & -> & ->).
      pose proof (and_or_value OOr _ _ (or_intror eq_refl) R1 R2) as V. cbn [to_binop] in V.
      rewrite V. cbn [andb]. destruct (lazy && negb (v1 =? 0)) eqn:Z; [|eauto].
      apply andb_true_iff in Z. destruct Z as [_ Z].
      destruct R1; subst v1; [discriminate|]. exists 1.
      destruct R2; subst v2; auto.
  - assert (Hh : o = ONot /\ harmless e1 = true) by (destruct o; try discriminate; auto).
    destruct Hh as [-> H1].
    destruct (typed_un _ _ _ _ T) as (t1 & T1 & G).
    destruct (IH1 _ _ T1 S H1) as (v1 & M1 & M1'). rewrite M1, M1'.
    destruct t1 as [i|]; [discriminate|]. injection G as <-. cbn. eauto.
Qed.

Lemma lazy_meaning : forall e t st,
  typed vt e = Some t -> store_ok vt st -> harmless_rights e = true ->
  meaning true vt e st = meaning false vt e st.
Proof.
  induction e as [[t0 v0]|x|t0 i IHi|o e1 IH1 e2 IH2|o e1 IH1|x e1 IH1|a x e1 IH1|p d x|t0 e1 IH1
                 |c IHc e1 IH1 e2 IH2|e1 IH1 e2 IH2]; intros t st T S H;
    cbn [harmless_rights] in H; try reflexivity; cbn [meaning].
  - cbn [typed] in T. destruct (typed vt i) as [ti|]; [|discriminate].
    rewrite (IHi _ _ eq_refl S H). reflexivity.
  - destruct (typed_bin _ _ _ _ _ T) as (t1 & t2 & T1 & T2 & G).
    apply andb_true_iff in H. destruct H as [H Hr]. apply andb_true_iff in H. destruct H as [H1 H2].
    rewrite (IH1 _ _ T1 S H1).
    destruct (meaning false vt e1 st) as [[[u1 v1] st1]|] eqn:M1; [|reflexivity].
    destruct (meaning_typed _ _ _ _ _ _ _ T1 S M1) as (F1 & R1 & S1). cbn [fst snd] in *. subst u1.
    rewrite (IH2 _ _ T2 S1 H2).
    destruct o as [a|c| |]; cbn [to_binop] in *; try reflexivity.
    + destruct (bool_logic OAnd _ _ _ (or_introl eq_refl) G) as (-> & -> & ->).
      destruct (harmless_meaning false _ _ _ T2 S1 Hr) as (v2 & M2 & _).
      destruct (meaning_typed _ _ _ _ _ _ _ T2 S1 M2) as (_ & R2 & _). cbn [snd] in R2.
      pose proof (and_or_value OAnd _ _ (or_introl eq_refl) R1 R2) as V. cbn [to_binop] in V.
      rewrite M2, V. cbn [andb]. destruct (v1 =? 0) eqn:Z; [|reflexivity].
      apply Z.eqb_eq in Z. subst v1. reflexivity.
    + destruct (bool_logic OOr _ _ _ (or_intror eq_refl) G) as (-> & -> & ->).
      destruct (harmless_meaning false _ _ _ T2 S1 Hr) as (v2 & M2 & _).
      destruct (meaning_typed _ _ _ _ _ _ _ T2 S1 M2) as (_ & R2 & _). cbn [snd] in R2.
      pose proof (and_or_value OOr _ _ (or_intror eq_refl) R1 R2) as V. cbn [to_binop] in V.
      rewrite M2, V. cbn [andb]. destruct (v1 =? 0) eqn:Z; [reflexivity|].
      destruct R1; subst v1; [discriminate|]. destruct R2; subst v2; reflexivity.
  - destruct (typed_un _ _ _ _ T) as (t1 & T1 & G). rewrite (IH1 _ _ T1 S H). reflexivity.
  - cbn [typed] in T. destruct (typed vt e1) as [t1|] eqn:T1; [|discriminate].
    rewrite (IH1 _ _ eq_refl S H). reflexivity.
  - cbn [typed] in T. destruct (vt x); [|discriminate].
    destruct (typed vt e1) as [t1|] eqn:T1; [|discriminate].
    rewrite (IH1 _ _ eq_refl S H). reflexivity.
  - cbn [typed] in T. destruct (typed vt e1) as [t1|] eqn:T1; [|discriminate].
    rewrite (IH1 _ _ eq_refl S H). reflexivity.
  - cbn [typed] in T.
    destruct (typed vt c) as [[|]|] eqn:Tc; try discriminate.
    destruct (typed vt e1) as [t1|] eqn:T1; [|discriminate].
    destruct (typed vt e2) as [t2|] eqn:T2; [|discriminate].
    apply andb_true_iff in H. destruct H as [H H2]. apply andb_true_iff in H. destruct H as [Hc H1].
    rewrite (IHc _ _ eq_refl S Hc).
    destruct (meaning false vt c st) as [[v1 st1]|] eqn:Mc; [|reflexivity].
    destruct (meaning_typed _ _ _ _ _ _ _ Tc S Mc) as (_ & _ & S1).
    destruct (snd v1 =? 0).
    + exact (IH2 _ _ eq_refl S1 H2).
    + exact (IH1 _ _ eq_refl S1 H1).
  - cbn [typed] in T. destruct (typed vt e1) as [t1|] eqn:T1; [|discriminate].
    destruct (typed vt e2) as [t2|] eqn:T2; [|discriminate].
    apply andb_true_iff in H. destruct H as [H1 H2].
    rewrite (IH1 _ _ eq_refl S H1).
    destruct (meaning false vt e1 st) as [[v1 st1]|] eqn:M1; [|reflexivity].
    destruct (meaning_typed _ _ _ _ _ _ _ T1 S M1) as (_ & _ & S1).
    exact (IH2 _ _ eq_refl S1 H2).
Qed.

(** *** The compiler accepts *)

Definition fine (r : folded) : Prop := match r with Const _ | NotConst => True | _ => False end.

Definition coded (r : cres) : Prop := exists code, r = Code code.

Lemma folds_nothing_execute : forall e, folds_nothing e = true -> fine (execute e).
Proof.
  induction e as [[t0 v0]|x|t0 i IHi|o e1 IH1 e2 IH2|o e1 IH1|x e1 IH1|a x e1 IH1|p d x|t0 e1 IH1
                 |c IHc e1 IH1 e2 IH2|e1 IH1 e2 IH2]; intros H; cbn [folds_nothing] in H;
    cbn [execute]; try exact I; try discriminate.
  - apply andb_true_iff in H. destruct H as [H H2]. apply andb_true_iff in H. destruct H as [H0 H1].
    specialize (IH1 H1). specialize (IH2 H2).
    destruct (execute e1) eqn:X1; try contradiction; destruct (execute e2) eqn:X2; try contradiction;
      try exact I.
    rewrite (execute_maybe _ _ X1), (execute_maybe _ _ X2) in H0. discriminate.
  - apply andb_true_iff in H. destruct H as [H0 H1]. specialize (IH1 H1).
    destruct (execute e1) eqn:X1; try contradiction; try exact I.
    rewrite (execute_maybe _ _ X1) in H0. discriminate.
  - specialize (IH1 H). destruct (execute e1); try contradiction; exact I.
  - specialize (IH1 H). destruct (execute e1); try contradiction; exact I.
  - specialize (IH1 H). destruct (execute e1); try contradiction; exact I.
  - apply andb_true_iff in H. destruct H as [H H2]. apply andb_true_iff in H. destruct H as [H0 H1].
    specialize (IHc H0). specialize (IH1 H1). specialize (IH2 H2).
    destruct (execute c) as [[[|] v]| | |]; try contradiction; try exact I.
    destruct (v =? 0); assumption.
Qed.

Lemma fold_binary_fine : forall o t1 t2 v1 v2 z,
  (match o, t1 with OCmp Ne, Vb => False | _, _ => True end) ->
  vm_binary (to_binop o) (t1, v1) (t2, v2) = VmVal z ->
  fine (fold_binary (to_binop o) (t1, v1) (t2, v2)).
Proof.
  intros o t1 t2 v1 v2 z N V.
  destruct o as [a|c| |]; cbn [to_binop] in *.
  - destruct t1 as [i|]; [|destruct t2; discriminate]. destruct t2 as [j|]; [|discriminate].
    destruct (match a with Shl | Shr => true | _ => false end) eqn:Sh.
    + destruct a; try discriminate; exact I.
    + rewrite (fold_complete a i j v1 v2 z); try exact I; try exact V;
        intros ->; discriminate.
  - unfold vm_binary, fold_binary in *. cbn [fst] in *.
    destruct t1 as [i|], t2 as [j|]; try (destruct c; discriminate).
    + cbn [region_default]. rewrite in_pairs_case in V. rewrite in_pairs_fold. cbn [orb].
      assert (F : fine (of_res (binary_operator (Cmp c) (Vi i, v1) (Vi j, v2))))
        by (destruct (binary_operator (Cmp c) (Vi i, v1) (Vi j, v2));
            [exact I | destruct c; discriminate]).
      destruct c; exact F.
    + cbn [region_default region_bool]. destruct c; try discriminate; try contradiction. exact I.
  - unfold vm_binary, fold_binary in *. cbn [fst] in *.
    destruct t1, t2; try discriminate. exact I.
  - unfold vm_binary, fold_binary in *. cbn [fst] in *.
    destruct t1, t2; try discriminate. exact I.
Qed.

Lemma fold_unary_fine : forall o t v z,
  vm_unary (to_unop o) (t, v) = VmVal z -> fine (fold_unary (to_unop o) (t, v)).
Proof.
  intros o t v z V. unfold vm_unary, fold_unary in *.
  destruct o, t as [i|]; cbn [to_unop fst negb] in *; try discriminate;
    try (destruct (unitary_operator _ _); [exact I | discriminate]).
Qed.

Lemma execute_defined : forall e t st v st',
  typed vt e = Some t -> store_ok vt st -> foldable vt e = true ->
  meaning false vt e st = Some (v, st') -> fine (execute e).
Proof.
  induction e as [[t0 v0]|x|t0 i IHi|o e1 IH1 e2 IH2|o e1 IH1|x e1 IH1|a x e1 IH1|p d x|t0 e1 IH1
                 |c IHc e1 IH1 e2 IH2|e1 IH1 e2 IH2]; intros t st v st' T S H M;
    cbn [foldable] in H; cbn [execute]; try exact I; cbn [meaning] in M.
  - cbn [typed] in T. destruct (typed vt i) as [ti|]; [|discriminate].
    apply andb_true_iff in H. destruct H as [_ H].
    destruct (meaning false vt i st) as [[w s]|] eqn:Mi; [|discriminate].
    exact (IHi _ _ _ _ eq_refl S H Mi).
  - destruct (typed_bin _ _ _ _ _ T) as (t1 & t2 & T1 & T2 & G). rewrite T1 in H.
    apply andb_true_iff in H. destruct H as [H N]. apply andb_true_iff in H. destruct H as [H1 H2].
    destruct (meaning false vt e1 st) as [[v1 st1]|] eqn:M1; [|discriminate].
    destruct (meaning_typed _ _ _ _ _ _ _ T1 S M1) as (F1 & R1 & S1).
    replace (match o with OAnd => false && _ | OOr => false && _ | _ => false end) with false in M
      by (destruct o; reflexivity).
    destruct (meaning false vt e2 st1) as [[v2 st2]|] eqn:M2; [|discriminate].
    destruct (vm_binary (to_binop o) v1 v2) as [z| |] eqn:B; try discriminate.
    pose proof (IH1 _ _ _ _ T1 S H1 M1) as X1. pose proof (IH2 _ _ _ _ T2 S1 H2 M2) as X2.
    destruct (execute e1) as [[u1 w1]| | |] eqn:E1; try contradiction;
      destruct (execute e2) as [[u2 w2]| | |] eqn:E2; try contradiction; try exact I.
    destruct (execute_meaning vt false _ _ _ T1 E1) as (G1 & _ & K1).
    destruct (execute_meaning vt false _ _ _ T2 E2) as (_ & _ & K2).
    rewrite K1 in M1. injection M1 as <- <-. rewrite K2 in M2. injection M2 as <- <-.
    apply (fold_binary_fine _ _ _ _ _ _) in B; [exact B|].
    cbn in G1. subst u1. destruct o as [a|[]| |]; try exact I. destruct t1; [exact I|].
    rewrite (execute_maybe _ _ E1), (execute_maybe _ _ E2) in N. discriminate.
  - destruct (typed_un _ _ _ _ T) as (t1 & T1 & G).
    destruct (meaning false vt e1 st) as [[v1 st1]|] eqn:M1; [|discriminate].
    destruct (vm_unary (to_unop o) v1) as [z| |] eqn:B; try discriminate.
    pose proof (IH1 _ _ _ _ T1 S H M1) as X1.
    destruct (execute e1) as [[u1 w1]| | |] eqn:E1; try contradiction; try exact I.
    destruct (execute_meaning vt false _ _ _ T1 E1) as (_ & _ & K1).
    rewrite K1 in M1. injection M1 as <- <-. exact (fold_unary_fine _ _ _ _ B).
  - cbn [typed] in T. destruct (typed vt e1) as [t1|] eqn:T1; [|discriminate].
    destruct (meaning false vt e1 st) as [[v1 st1]|] eqn:M1; [|discriminate].
    pose proof (IH1 _ _ _ _ eq_refl S H M1) as X1. destruct (execute e1); try contradiction; exact I.
  - cbn [typed] in T. destruct (vt x); [|discriminate].
    destruct (typed vt e1) as [t1|] eqn:T1; [|discriminate].
    destruct (meaning false vt e1 st) as [[v1 st1]|] eqn:M1; [|discriminate].
    pose proof (IH1 _ _ _ _ eq_refl S H M1) as X1. destruct (execute e1); try contradiction; exact I.
  - cbn [typed] in T. destruct (typed vt e1) as [t1|] eqn:T1; [|discriminate].
    destruct (meaning false vt e1 st) as [[v1 st1]|] eqn:M1; [|discriminate].
    pose proof (IH1 _ _ _ _ eq_refl S H M1) as X1. destruct (execute e1); try contradiction; exact I.
  - cbn [typed] in T.
    destruct (typed vt c) as [[|]|] eqn:Tc; try discriminate.
    apply andb_true_iff in H. destruct H as [H H2]. apply andb_true_iff in H. destruct H as [Hc H1].
    destruct (meaning false vt c st) as [[v1 st1]|] eqn:Mc; [|discriminate].
    pose proof (IHc _ _ _ _ eq_refl S Hc Mc) as Xc.
    destruct (execute c) as [[[|] w]| | |]; try contradiction; try exact I.
    destruct (w =? 0); apply folds_nothing_execute; assumption.
Qed.

Lemma folding_coded : forall l here env e k,
  fine (execute e) -> coded k -> coded (folding l here env e k).
Proof.
  intros l here env e k F K. unfold folding. destruct (folds_constants l); [|exact K].
  destruct (execute e); try contradiction; [|exact K].
  destruct here; eexists; reflexivity.
Qed.

Lemma cseq_coded : forall a b, coded a -> coded b -> coded (cseq a b).
Proof. intros a b [x ->] [y ->]. eexists. reflexivity. Qed.

Lemma bin_code_coded : forall l o c1 c2 x1 x2 t1 t2,
  coded c1 -> coded c2 -> coded (bin_code l o c1 c2 x1 x2 t1 t2).
Proof.
  intros l o c1 c2 x1 x2 t1 t2 [k1 ->] [k2 ->]. unfold bin_code.
  destruct (negb (simplifies l)); [eexists; reflexivity|].
  destruct o as [[]|c| |]; try (eexists; reflexivity);
    repeat match goal with |- context [is_number ?n ?x] => destruct (is_number n x) end;
    eexists; reflexivity.
Qed.

Lemma post_coded : forall root e, coded (post root e).
Proof. intros root e. unfold post. destruct (root && negb (behaves e)); eexists; reflexivity. Qed.

Lemma compile_assign : forall l root eff env x e1,
  compile l vt root eff env (EAssign x e1)
  = folding l true env (EAssign x e1)
      (cseq (compile l vt false true (Some (vt x)) e1) (Code [if eff then PickV x else PopV x])).
Proof. intros. cbn [compile behaves]. rewrite orb_true_r. reflexivity. Qed.

Lemma compile_assignop : forall l root eff env a x e1,
  compile l vt root eff env (EAssignOp a x e1)
  = folding l true env (EAssignOp a x e1)
      (match styp vt e1 with
       | Some t1 =>
           cseq (bin_code l (OAl a) (Code [push_var vt None x])
                   (compile l vt false true None e1) NotConst (execute e1) (vt x) t1)
                (Code [if eff then PickV x else PopV x])
       | None => CErr
       end).
Proof. intros. cbn [compile behaves]. rewrite orb_true_r. reflexivity. Qed.

Lemma nothing_coded : forall l e t, typed vt e = Some t -> folds_nothing e = true ->
  forall root eff env, coded (compile l vt root eff env e).
Proof.
  intros l.
  induction e as [[t0 v0]|x|t0 i IHi|o e1 IH1 e2 IH2|o e1 IH1|x e1 IH1|a x e1 IH1|p d x|t0 e1 IH1
                 |c IHc e1 IH1 e2 IH2|e1 IH1 e2 IH2]; intros t T H root eff env;
    pose proof (folds_nothing_execute _ H) as F; cbn [folds_nothing] in H; try discriminate.
  - cbn [compile]. destruct eff; eexists; reflexivity.
  - cbn [compile]. destruct eff; eexists; reflexivity.
  - apply andb_true_iff in H. destruct H as [H H2]. apply andb_true_iff in H. destruct H as [H0 H1].
    destruct (typed_bin _ _ _ _ _ T) as (t1 & t2 & T1 & T2 & G).
    rewrite compile_bin. cbn zeta. apply folding_coded; [exact F|].
    rewrite (typed_styp _ _ _ T1), (typed_styp _ _ _ T2).
    match goal with |- coded (if ?b then _ else _) => destruct b end;
      [apply cseq_coded | apply cseq_coded; [apply bin_code_coded|apply post_coded]];
      eauto.
  - apply andb_true_iff in H. destruct H as [H0 H1].
    destruct (typed_un _ _ _ _ T) as (t1 & T1 & G).
    rewrite compile_un. cbn zeta. apply folding_coded; [exact F|].
    rewrite (typed_styp _ _ _ T1).
    match goal with |- coded (if ?b then _ else _) => destruct b end; [eauto|].
    apply cseq_coded; [|apply post_coded].
    apply cseq_coded; [eauto|eexists; reflexivity].
  - cbn [typed] in T. destruct (typed vt e1) as [t1|] eqn:T1; [|discriminate].
    rewrite compile_assign. apply folding_coded; [exact F|].
    apply cseq_coded; [eauto|eexists; reflexivity].
  - cbn [typed] in T. destruct (vt x); [|discriminate].
    destruct (typed vt e1) as [t1|] eqn:T1; [|discriminate].
    rewrite compile_assignop, (typed_styp _ _ _ T1). apply folding_coded; [exact F|].
    apply cseq_coded; [|eexists; reflexivity].
    apply bin_code_coded; [eexists; reflexivity|eauto].
  - cbn [compile]. eexists; reflexivity.
  - cbn [typed] in T. destruct (typed vt e1) as [t1|] eqn:T1; [|discriminate].
    cbn [compile]. match goal with |- coded (if ?b then _ else _) => destruct b end; [|eexists; reflexivity].
    apply cseq_coded; [eauto|apply post_coded].
  - cbn [typed] in T.
    destruct (typed vt c) as [[|]|] eqn:Tc; try discriminate.
    destruct (typed vt e1) as [t1|] eqn:T1; [|discriminate].
    destruct (typed vt e2) as [t2|] eqn:T2; [|discriminate].
    apply andb_true_iff in H. destruct H as [H H2]. apply andb_true_iff in H. destruct H as [H0 H1].
    cbn [compile].
    assert (A : forall ef, coded (compile l vt false ef None e1)) by (intro; eauto).
    assert (B : forall ef, coded (compile l vt false ef None e2)) by (intro; eauto).
    assert (C : forall ef, coded (compile l vt false ef None c)) by (intro; eauto).
    pose proof (folds_nothing_execute _ H0) as Fc.
    destruct (execute c) as [[[|] w]| | |]; try contradiction;
      (match goal with |- coded (if ?b then _ else _) => destruct b end; [|eexists; reflexivity]).
    + match goal with |- context [compile l vt false ?h None c] => destruct (A h) as [k1 ->], (B h) as [k2 ->], (C h) as [k0 ->] end.
      eexists; reflexivity.
    + destruct (w =? 0); auto.
    + match goal with |- context [compile l vt false ?h None c] => destruct (A h) as [k1 ->], (B h) as [k2 ->], (C h) as [k0 ->] end.
      eexists; reflexivity.
  - cbn [typed] in T.
    destruct (typed vt e1) as [t1|] eqn:T1; [|discriminate].
    destruct (typed vt e2) as [t2|] eqn:T2; [|discriminate].
    apply andb_true_iff in H. destruct H as [H1 H2].
    cbn [compile]. apply cseq_coded; eauto.
Qed.

Lemma compiles : forall l e t st v st',
  typed vt e = Some t -> store_ok vt st -> foldable vt e = true ->
  meaning false vt e st = Some (v, st') ->
  forall root eff env, coded (compile l vt root eff env e).
Proof.
  intros l.
  induction e as [[t0 v0]|x|t0 i IHi|o e1 IH1 e2 IH2|o e1 IH1|x e1 IH1|a x e1 IH1|p d x|t0 e1 IH1
                 |c IHc e1 IH1 e2 IH2|e1 IH1 e2 IH2]; intros t st v st' T S H M root eff env;
    pose proof (execute_defined _ _ _ _ _ T S H M) as F; cbn [foldable] in H; cbn [meaning] in M.
  - cbn [compile]. destruct eff; eexists; reflexivity.
  - cbn [compile]. destruct eff; eexists; reflexivity.
  - cbn [compile]. destruct eff; [|eexists; reflexivity].
    apply andb_true_iff in H. destruct H as [L _]. pose proof (literal_execute _ L) as N.
    cbn [execute] in F. destruct (execute i); try contradiction; eexists; reflexivity.
  - apply andb_true_iff in H. destruct H as [H N]. apply andb_true_iff in H. destruct H as [H1 H2].
    destruct (typed_bin _ _ _ _ _ T) as (t1 & t2 & T1 & T2 & G).
    destruct (meaning false vt e1 st) as [[v1 st1]|] eqn:M1; [|discriminate].
    destruct (meaning_typed _ _ _ _ _ _ _ T1 S M1) as (F1 & R1 & S1).
    replace (match o with OAnd => false && _ | OOr => false && _ | _ => false end) with false in M
      by (destruct o; reflexivity).
    destruct (meaning false vt e2 st1) as [[v2 st2]|] eqn:M2; [|discriminate].
    rewrite compile_bin. cbn zeta. apply folding_coded; [exact F|].
    rewrite (typed_styp _ _ _ T1), (typed_styp _ _ _ T2).
    match goal with |- coded (if ?b then _ else _) => destruct b end;
      [apply cseq_coded | apply cseq_coded; [apply bin_code_coded|apply post_coded]];
      eauto.
  - destruct (typed_un _ _ _ _ T) as (t1 & T1 & G).
    destruct (meaning false vt e1 st) as [[v1 st1]|] eqn:M1; [|discriminate].
    rewrite compile_un. cbn zeta. apply folding_coded; [exact F|].
    rewrite (typed_styp _ _ _ T1).
    match goal with |- coded (if ?b then _ else _) => destruct b end; [eauto|].
    apply cseq_coded; [|apply post_coded].
    apply cseq_coded; [eauto|eexists; reflexivity].
  - cbn [typed] in T. destruct (typed vt e1) as [t1|] eqn:T1; [|discriminate].
    destruct (meaning false vt e1 st) as [[v1 st1]|] eqn:M1; [|discriminate].
    rewrite compile_assign. apply folding_coded; [exact F|].
    apply cseq_coded; [eauto|eexists; reflexivity].
  - cbn [typed] in T. destruct (vt x); [|discriminate].
    destruct (typed vt e1) as [t1|] eqn:T1; [|discriminate].
    destruct (meaning false vt e1 st) as [[v1 st1]|] eqn:M1; [|discriminate].
    rewrite compile_assignop, (typed_styp _ _ _ T1). apply folding_coded; [exact F|].
    apply cseq_coded; [|eexists; reflexivity].
    apply bin_code_coded; [eexists; reflexivity|eauto].
  - cbn [compile]. eexists; reflexivity.
  - cbn [typed] in T. destruct (typed vt e1) as [t1|] eqn:T1; [|discriminate].
    destruct (meaning false vt e1 st) as [[v1 st1]|] eqn:M1; [|discriminate].
    cbn [compile]. match goal with |- coded (if ?b then _ else _) => destruct b end; [|eexists; reflexivity].
    apply cseq_coded; [eauto|apply post_coded].
  - cbn [typed] in T.
    destruct (typed vt c) as [[|]|] eqn:Tc; try discriminate.
    destruct (typed vt e1) as [t1|] eqn:T1; [|discriminate].
    destruct (typed vt e2) as [t2|] eqn:T2; [|discriminate].
    apply andb_true_iff in H. destruct H as [H H2]. apply andb_true_iff in H. destruct H as [H0 H1].
    destruct (meaning false vt c st) as [[v1 st1]|] eqn:Mc; [|discriminate].
    cbn [compile].
    assert (A : forall ef, coded (compile l vt false ef None e1))
      by (intro; exact (nothing_coded l _ _ T1 H1 _ _ _)).
    assert (B : forall ef, coded (compile l vt false ef None e2))
      by (intro; exact (nothing_coded l _ _ T2 H2 _ _ _)).
    assert (C : forall ef, coded (compile l vt false ef None c)) by (intro; eauto).
    pose proof (execute_defined _ _ _ _ _ Tc S H0 Mc) as Fc.
    destruct (execute c) as [[[|] w]| | |]; try contradiction;
      (match goal with |- coded (if ?b then _ else _) => destruct b end; [|eexists; reflexivity]).
    + match goal with |- context [compile l vt false ?h None c] => destruct (A h) as [k1 ->], (B h) as [k2 ->], (C h) as [k0 ->] end.
      eexists; reflexivity.
    + destruct (w =? 0); auto.
    + match goal with |- context [compile l vt false ?h None c] => destruct (A h) as [k1 ->], (B h) as [k2 ->], (C h) as [k0 ->] end.
      eexists; reflexivity.
  - cbn [typed] in T.
    destruct (typed vt e1) as [t1|] eqn:T1; [|discriminate].
    destruct (typed vt e2) as [t2|] eqn:T2; [|discriminate].
    apply andb_true_iff in H. destruct H as [H1 H2].
    destruct (meaning false vt e1 st) as [[v1 st1]|] eqn:M1; [|discriminate].
    destruct (meaning_typed _ _ _ _ _ _ _ T1 S M1) as (_ & _ & S1).
    cbn [compile]. apply cseq_coded; eauto.
Qed.

End Main.

(** *** Statements of PropertiesExpr.v *)

Lemma c70_value : forall l vt e t st v st' stk,
  typed vt e = Some t -> sound l vt e = true -> foldable vt e = true -> store_ok vt st ->
  meaning false vt e st = Some (v, st') ->
  exists code u, compile_value l vt e = Code code
    /\ run vt code 0 stk st = Done (u :: stk) st' /\ read t u = Some (snd v).
Proof.
  intros l vt e t st v st' stk T So Fo S M.
  destruct (compiles vt l e t st v st' T S Fo M false true None) as [code C].
  destruct (value_correct vt l e t code st v st' stk T So S C M) as (u & R & E).
  exists code, u. auto.
Qed.

Lemma c71_value : forall l vt e t st v st' stk,
  typed vt e = Some t -> sound l vt e = true -> foldable vt e = true -> store_ok vt st ->
  exact vt e st = Some (v, st') ->
  exists code u, compile_value l vt e = Code code
    /\ run vt code 0 stk st = Done (u :: stk) st' /\ read t u = Some v.
Proof.
  intros l vt e t st v st' stk T So Fo S X.
  exact (c70_value l vt e t st (t, v) st' stk T So Fo S (exact_meaning vt e t st v st' T S X)).
Qed.

Lemma c72_lazy : forall l vt e t st v st' stk,
  typed vt e = Some t -> sound l vt e = true -> foldable vt e = true -> store_ok vt st ->
  harmless_rights e = true ->
  meaning true vt e st = Some (v, st') ->
  exists code u, compile_value l vt e = Code code
    /\ run vt code 0 stk st = Done (u :: stk) st' /\ read t u = Some (snd v).
Proof.
  intros l vt e t st v st' stk T So Fo S H M.
  rewrite (lazy_meaning vt e t st T S H) in M. eapply c70_value; eassumption.
Qed.

Lemma c73_levels : forall l1 l2 vt e t code1 code2 st v st' stk,
  typed vt e = Some t -> sound l1 vt e = true -> sound l2 vt e = true -> store_ok vt st ->
  meaning false vt e st = Some (v, st') ->
  compile_value l1 vt e = Code code1 -> compile_value l2 vt e = Code code2 ->
  exists u1 u2 st2,
    run vt code1 0 stk st = Done (u1 :: stk) st2 /\
    run vt code2 0 stk st = Done (u2 :: stk) st2 /\
    read t u1 = read t u2 /\ read t u1 <> None.
Proof.
  intros l1 l2 vt e t code1 code2 st v st' stk T S1 S2 S M C1 C2.
  destruct (value_correct vt l1 e t code1 st v st' stk T S1 S C1 M) as (u1 & R1 & E1).
  destruct (value_correct vt l2 e t code2 st v st' stk T S2 S C2 M) as (u2 & R2 & E2).
  exists u1, u2, st'. rewrite E1, E2. repeat split; auto. discriminate.
Qed.

Lemma c74_statement : forall l vt e t st v st' stk,
  typed vt e = Some t -> sound l vt e = true -> discardable l e = true -> foldable vt e = true ->
  store_ok vt st ->
  meaning false vt e st = Some (v, st') ->
  exists code, compile_statement l vt e = Code code /\ run vt code 0 stk st = Done stk st'.
Proof.
  intros l vt e t st v st' stk T So D Fo S M.
  destruct (compiles vt l e t st v st' T S Fo M true false None) as [code C].
  exists code. split; [exact C|]. eapply statement_correct; eassumption.
Qed.

Lemma c75_init : forall l vt e t x st v st' stk,
  typed vt e = Some t -> sound l vt e = true -> foldable vt e = true -> store_ok vt st ->
  may_convert l e t (vt x) = true ->
  meaning false vt e st = Some (v, st') ->
  exists code, compile_init l vt x e = Code code
    /\ run vt code 0 stk st = Done stk (put st' x (convert (vt x) (snd v))).
Proof.
  intros l vt e t x st v st' stk T So Fo S E M.
  destruct (compiles vt l e t st v st' T S Fo M false true (Some (vt x))) as [code C].
  assert (K : compile_init l vt x e = Code (code ++ [PopV x])).
  { unfold compile_init. rewrite C. reflexivity. }
  exists (code ++ [PopV x]). split; [exact K|]. eapply init_correct; eassumption.
Qed.

Lemma c75_return : forall l vt e t r st v st' stk,
  typed vt e = Some t -> sound l vt e = true -> foldable vt e = true -> store_ok vt st ->
  may_convert l e t r = true ->
  meaning false vt e st = Some (v, st') ->
  exists code s, compile_return l vt r e = Code code
    /\ run vt code 0 stk st = Done (s :: stk) st' /\ read r s = Some (convert r (snd v)).
Proof.
  intros l vt e t r st v st' stk T So Fo S E M.
  destruct (compiles vt l e t st v st' T S Fo M false true (Some r)) as [code C].
  destruct (return_correct vt l e t r code st v st' stk T So E S C M) as (s & R & X).
  exists code, s. auto.
Qed.

(** An operator on constants is one push of its value. *)
Lemma c76_fold : forall l vt e t st v st',
  match e with EBin _ _ _ | EUn _ _ => True | _ => False end ->
  l <> O0 ->
  typed vt e = Some t -> literal e = true -> foldable vt e = true -> store_ok vt st ->
  meaning false vt e st = Some (v, st') ->
  compile_value l vt e = Code [PushC v].
Proof.
  intros l vt e t st v st' Sh Lv T L Fo S M.
  pose proof (execute_defined vt _ _ _ _ _ T S Fo M) as F.
  pose proof (literal_execute _ L) as N.
  destruct (execute e) as [w| | |] eqn:X; try contradiction; try congruence.
  destruct (execute_meaning vt false _ _ _ T X) as (_ & _ & K). rewrite K in M. injection M as <- <-.
  unfold compile_value.
  destruct e; try contradiction.
  - rewrite compile_bin, orb_true_r. cbn zeta. unfold folding. rewrite X.
    destruct l; [congruence|reflexivity|reflexivity].
  - rewrite compile_un, orb_true_r. cbn zeta. unfold folding. rewrite X.
    destruct l; [congruence|reflexivity|reflexivity].
Qed.
