(** The generated code computes the meaning of the expression. *)

From Coq Require Import ZArith Lia List Bool.
From Verif Require Import CppInt ArithModel ArithSpec ArithProofs ExprModel ExprSpec ExprProofs.
Import ListNotations.
Open Scope Z_scope.

(** *** Neutral elements *)

Definition right_neutral (a : arith) : option Z :=
  match a with
  | Add | BOr | Sub | Shl | Shr => Some 0
  | Mul | Div => Some 1
  | _ => None
  end.

Definition left_neutral (a : arith) : option Z :=
  match a with Add | BOr => Some 0 | Mul => Some 1 | _ => None end.

Lemma bits_common_l : forall i j, bits i <= bits (common i j).
Proof. intros [] []; cbn; lia. Qed.
Lemma bits_common_r : forall i j, bits j <= bits (common i j).
Proof. intros [] []; cbn; lia. Qed.
Lemma bits_promote : forall i, bits i <= bits (promote i).
Proof. intros []; cbn; lia. Qed.
Lemma bits_lang_l : forall i j, bits i <= bits (lang_result_type i j).
Proof. intros [] []; vm_compute; discriminate. Qed.
Lemma bits_lang_r : forall i j, bits j <= bits (lang_result_type i j).
Proof. intros [] []; vm_compute; discriminate. Qed.
Lemma wrap_0 : forall t, wrap t 0 = 0.
Proof. intros []; reflexivity. Qed.
Lemma wrap_1 : forall t, wrap t 1 = 1.
Proof. intros []; reflexivity. Qed.

Lemma fit_wrapped : forall t v z, fit t (wrap t v) = Val z -> z = wrap t v.
Proof. intros t v z H. apply fit_val in H. rewrite wrap_wrap in H by lia. exact H. Qed.

Lemma right_neutral_arith : forall a n i j v z,
  right_neutral a = Some n -> cpp_arith a i j v n = Val z ->
  z = wrap (cpp_arith_type a i j) v.
Proof.
  intros a n i j v z N H.
  unfold cpp_arith in H.
  destruct a; cbn [right_neutral] in N; try discriminate; injection N as <-;
    cbn [cpp_arith_type] in *.
  - rewrite wrap_0, Z.add_0_r in H. apply fit_wrapped. exact H.
  - rewrite wrap_0, Z.sub_0_r in H. apply fit_wrapped. exact H.
  - rewrite wrap_1, Z.mul_1_r in H. apply fit_wrapped. exact H.
  - rewrite wrap_1, Z.quot_1_r in H. apply fit_wrapped. exact H.
  - rewrite wrap_0, Z.lor_0_r in H. injection H as <-. reflexivity.
  - change (2 ^ 0) with 1 in H. rewrite Z.mul_1_r in H. rewrite wrap_wrap in H by lia.
    destruct ((0 <? 0) || (bits (promote i) <=? 0)); [discriminate|].
    destruct (wrap (promote i) v <? 0); [discriminate|].
    destruct (is_signed (promote i)); [|injection H as <-; reflexivity].
    destruct (_ <? modulus (promote i)); [injection H as <-; reflexivity | discriminate].
  - change (2 ^ 0) with 1 in H. rewrite Z.div_1_r in H.
    destruct ((0 <? 0) || (bits (promote i) <=? 0)); [discriminate|].
    injection H as <-. reflexivity.
Qed.

Lemma left_neutral_arith : forall a n i j v z,
  left_neutral a = Some n -> cpp_arith a i j n v = Val z ->
  z = wrap (common i j) v.
Proof.
  intros a n i j v z N H.
  unfold cpp_arith in H.
  destruct a; cbn [left_neutral] in N; try discriminate; injection N as <-;
    cbn [cpp_arith_type] in *.
  - rewrite wrap_0, Z.add_0_l in H. apply fit_wrapped. exact H.
  - rewrite wrap_1, Z.mul_1_l in H. apply fit_wrapped. exact H.
  - rewrite wrap_0, Z.lor_0_l in H. injection H as <-. reflexivity.
Qed.

Lemma bits_arith_type : forall a i j, bits i <= bits (cpp_arith_type a i j).
Proof.
  intros a i j. destruct a; cbn [cpp_arith_type]; try apply bits_common_l; apply bits_promote.
Qed.

Lemma right_neutral_value : forall a n i j v r w,
  right_neutral a = Some n -> in_range i v ->
  vm_binary (Al a) (Vi i, v) (Vi j, n) = VmVal (r, w) ->
  wrap i w = v /\ (bits (lang_result_type i j) <= bits i -> w = wrap (lang_result_type i j) v).
Proof.
  intros a n i j v r w N R H. rewrite vm_al_unfold in H.
  destruct (cpp_arith a i j v n) as [z|] eqn:C; [|discriminate].
  injection H as <- <-. rewrite (right_neutral_arith _ _ _ _ _ _ N C).
  pose proof (bits_arith_type a i j). pose proof (bits_lang_l i j).
  split.
  - rewrite !wrap_wrap by lia. apply wrap_id. exact R.
  - intro L. apply wrap_wrap. lia.
Qed.

Lemma left_neutral_value : forall a n i j v r w,
  left_neutral a = Some n -> in_range j v ->
  vm_binary (Al a) (Vi i, n) (Vi j, v) = VmVal (r, w) ->
  bits (lang_result_type i j) <= bits j -> w = wrap (lang_result_type i j) v.
Proof.
  intros a n i j v r w N R H L. rewrite vm_al_unfold in H.
  destruct (cpp_arith a i j n v) as [z|] eqn:C; [|discriminate].
  injection H as <- <-. rewrite (left_neutral_arith _ _ _ _ _ _ N C).
  pose proof (bits_common_r i j).
  apply wrap_wrap. lia.
Qed.

(** [0 - x] as a negation of [x]. *)
Lemma zero_sub_value : forall i v r w,
  i <> U64 -> in_range i v ->
  vm_binary (Al Sub) (Vi i, 0) (Vi i, v) = VmVal (r, w) ->
  exists r' w', vm_unary Minus (Vi i, v) = VmVal (Vi r', w')
    /\ in_range r' w'
    /\ bits (lang_result_type i i) <= bits r'
    /\ w = wrap (lang_result_type i i) w'.
Proof.
  intros i v r w N R H. rewrite vm_al_unfold in H.
  unfold cpp_arith in H. cbn [cpp_arith_type] in H. rewrite wrap_0, Z.sub_0_l in H.
  destruct (fit (common i i) (- wrap (common i i) v)) as [z|] eqn:F; [|discriminate].
  injection H as <- <-.
  unfold vm_unary, unitary_operator, cpp_unary. cbn [fst].
  assert (P : common i i = promote i) by (destruct i; reflexivity).
  rewrite P in F. rewrite F. cbn [bind].
  apply fit_val in F.
  destruct i; try congruence; cbn [get_unitary_vtype vm_of bind vcast].
  all: eexists; eexists; split; [reflexivity|]; split; [apply wrap_in_range|].
  all: split; [vm_compute; discriminate|].
  all: cbn [promote] in F.
  all: match goal with
       | |- wrap (lang_result_type ?i ?i) _ = _ =>
           let t := eval vm_compute in (lang_result_type i i) in
           change (lang_result_type i i) with t
       end.
  all: subst z; rewrite !wrap_wrap by (cbn; lia); reflexivity.
Qed.

(** *** Reading units *)

Definition slot_ok (u : slot) : Prop := vrange (fst u) (snd u).

Lemma read_same : forall t v, vrange t v -> read t (t, v) = Some v.
Proof.
  intros [i|] v H; cbn [read].
  - rewrite Z.leb_refl, wrap_id by exact H. reflexivity.
  - reflexivity.
Qed.

Lemma read_range : forall t u v, slot_ok u -> read t u = Some v -> vrange t v.
Proof.
  intros [i|] [[j|] w] v S H; cbn [read] in H.
  - destruct (bits i <=? bits j); [|discriminate]. injection H as <-. apply wrap_in_range.
  - destruct (bits i <=? 8); [|discriminate]. injection H as <-.
    cbn in S. destruct S; subst; destruct i; cbn [vrange]; unfold in_range; cbn; lia.
  - destruct (w mod 256 <=? 1) eqn:E; [|discriminate]. injection H as <-.
    apply Z.leb_le in E. cbn [vrange]. pose proof (Z.mod_pos_bound w 256). lia.
  - injection H as <-. exact S.
Qed.

Lemma read_narrow : forall t t' u v,
  slot_ok u -> read t u = Some v -> no_wider t t' = true -> read t' u = Some (vcast t' v).
Proof.
  intros [i|] [k|] [[j|] w] v S H N; cbn [no_wider] in N; try discriminate.
  - cbn [read vcast] in *. apply Z.leb_le in N.
    destruct (bits i <=? bits j) eqn:E; [|discriminate]. apply Z.leb_le in E.
    injection H as <-. rewrite (proj2 (Z.leb_le _ _)) by lia.
    rewrite wrap_wrap by lia. reflexivity.
  - cbn [read vcast] in *. apply Z.leb_le in N.
    destruct (bits i <=? 8) eqn:E; [|discriminate]. apply Z.leb_le in E.
    injection H as <-. rewrite (proj2 (Z.leb_le _ _)) by lia.
    cbn in S. destruct S; subst w; destruct k; reflexivity.
  - rewrite H. pose proof (read_range Vb _ _ S H) as R.
    rewrite vcast_id by exact R. reflexivity.
  - rewrite H. pose proof (read_range Vb _ _ S H) as R.
    rewrite vcast_id by exact R. reflexivity.
Qed.

Lemma no_wider_refl : forall t, no_wider t t = true.
Proof. intros [i|]; cbn; [apply Z.leb_refl | reflexivity]. Qed.

Section Sim.

Variable vt : vref -> vty.

(** Running [code] pushes one unit that reads, as type [t], as [v]. *)
Definition Pushes (code : list instr) (st : store) (t : vty) (v : Z) (st' : store) : Prop :=
  forall rest stk, exists u, slot_ok u /\ read t u = Some v
    /\ run vt (code ++ rest) 0 stk st = run vt rest 0 (u :: stk) st'.

(** Running [code] leaves the stack as it was. *)
Definition Leaves (code : list instr) (st st' : store) : Prop :=
  forall rest stk, run vt (code ++ rest) 0 stk st = run vt rest 0 stk st'.

Lemma leaves_app : forall c1 c2 s0 s1 s2,
  Leaves c1 s0 s1 -> Leaves c2 s1 s2 -> Leaves (c1 ++ c2) s0 s2.
Proof. intros c1 c2 s0 s1 s2 H1 H2 rest stk. rewrite <- app_assoc, H1. apply H2. Qed.

Lemma leaves_pushes : forall c1 c2 s0 s1 s2 t v,
  Leaves c1 s0 s1 -> Pushes c2 s1 t v s2 -> Pushes (c1 ++ c2) s0 t v s2.
Proof.
  intros c1 c2 s0 s1 s2 t v H1 H2 rest stk. destruct (H2 rest stk) as (u & S & R & E).
  exists u. rewrite <- app_assoc, H1. auto.
Qed.

Lemma pushes_drop : forall c s0 s1 t v, Pushes c s0 t v s1 -> Leaves (c ++ [Drop]) s0 s1.
Proof.
  intros c s0 s1 t v H rest stk. rewrite <- app_assoc.
  destruct (H ([Drop] ++ rest) stk) as (u & S & R & E). rewrite E. reflexivity.
Qed.

Lemma pushes_weaken : forall c s0 s1 t t' v,
  Pushes c s0 t v s1 -> no_wider t t' = true -> Pushes c s0 t' (vcast t' v) s1.
Proof.
  intros c s0 s1 t t' v H N rest stk. destruct (H rest stk) as (u & S & R & E).
  exists u. split; [exact S|]. split; [|exact E]. eapply read_narrow; eassumption.
Qed.

Lemma pushes_const : forall t v st, vrange t v -> Pushes [PushC (t, v)] st t v st.
Proof.
  intros t v st R rest stk. exists (t, v). split; [exact R|]. split; [|reflexivity].
  apply read_same. exact R.
Qed.

Lemma pushes_var : forall x st, store_ok vt st ->
  Pushes [push_var vt None x] st (vt x) (st x) st.
Proof.
  intros [n|n] st S rest stk; cbn [push_var app run].
  - exists (vt (VLocal n), st (VLocal n)). pose proof (S (VLocal n)).
    rewrite vcast_id by assumption. split; [assumption|]. split; [|reflexivity].
    apply read_same. assumption.
  - exists (vt (VParam n), st (VParam n)). pose proof (S (VParam n)).
    split; [assumption|]. split; [|reflexivity]. apply read_same. assumption.
Qed.

Lemma pushes_pop : forall c s0 s1 x v,
  Pushes c s0 (vt x) v s1 -> Leaves (c ++ [PopV x]) s0 (put s1 x v).
Proof.
  intros c s0 s1 x v H rest stk. rewrite <- app_assoc.
  destruct (H ([PopV x] ++ rest) stk) as (u & S & R & E). rewrite E. cbn [app run].
  rewrite R. reflexivity.
Qed.

Lemma pushes_pick : forall c s0 s1 x v,
  Pushes c s0 (vt x) v s1 -> Pushes (c ++ [PickV x]) s0 (vt x) v (put s1 x v).
Proof.
  intros c s0 s1 x v H rest stk. rewrite <- app_assoc.
  destruct (H ([PickV x] ++ rest) stk) as (u & S & R & E). exists u.
  split; [exact S|]. split; [exact R|]. rewrite E. cbn [app run]. rewrite R. reflexivity.
Qed.

Lemma pushes_binary : forall c1 c2 o t1 t2 r v1 v2 z s0 s1 s2,
  get_binary_vtype (to_binop o) t1 t2 = Some r ->
  Pushes c1 s0 t1 v1 s1 -> Pushes c2 s1 t2 v2 s2 ->
  vm_binary (to_binop o) (t1, v1) (t2, v2) = VmVal z ->
  Pushes (c1 ++ c2 ++ [BinI (to_binop o) t1 t2]) s0 r (snd z) s2.
Proof.
  intros c1 c2 o t1 t2 r v1 v2 z s0 s1 s2 G H1 H2 B rest stk.
  rewrite <- !app_assoc.
  destruct (H1 (c2 ++ [BinI (to_binop o) t1 t2] ++ rest) stk) as (u1 & S1 & R1 & E1).
  destruct (H2 ([BinI (to_binop o) t1 t2] ++ rest) (u1 :: stk)) as (u2 & S2 & R2 & E2).
  destruct (binary_type _ _ _ _ G _ _ _ B) as [F R].
  exists z. split; [|split].
  - unfold slot_ok. rewrite F. exact R.
  - destruct z as [tz vz]. cbn [fst snd] in *. subst tz. apply read_same. exact R.
  - rewrite E1, E2. cbn [app run]. rewrite R1, R2, B. reflexivity.
Qed.

Lemma pushes_unary : forall c o t r v z s0 s1,
  get_unitary_vtype (to_unop o) t = Some r ->
  Pushes c s0 t v s1 ->
  vm_unary (to_unop o) (t, v) = VmVal z ->
  Pushes (c ++ [UnI (to_unop o) t]) s0 r (snd z) s1.
Proof.
  intros c o t r v z s0 s1 G H B rest stk. rewrite <- !app_assoc.
  destruct (H ([UnI (to_unop o) t] ++ rest) stk) as (u & S & R & E).
  destruct (unary_type _ _ _ G _ _ B) as [F Rz].
  exists z. split; [|split].
  - unfold slot_ok. rewrite F. exact Rz.
  - destruct z as [tz vz]. cbn [fst snd] in *. subst tz. apply read_same. exact Rz.
  - rewrite E. cbn [app run]. rewrite R, B. reflexivity.
Qed.

(** *** Jumps *)

Lemma run_skip : forall c rest stk st, run vt (c ++ rest) (length c) stk st = run vt rest 0 stk st.
Proof.
  induction c as [|i c IH]; intros rest stk st; [reflexivity|]. cbn [app length run]. apply IH.
Qed.

Lemma pushes_cond : forall b k1 k2 vc s0 s1 s2 t v,
  Pushes b s0 Vb vc s1 ->
  Pushes (if vc =? 0 then k2 else k1) s1 t v s2 ->
  Pushes (b ++ JmpF (length k1 + 1) :: k1 ++ Jmp (length k2) :: k2) s0 t v s2.
Proof.
  intros b k1 k2 vc s0 s1 s2 t v Hb Hk rest stk. rewrite <- app_assoc. cbn [app].
  destruct (Hb (JmpF (length k1 + 1) :: (k1 ++ Jmp (length k2) :: k2) ++ rest) stk)
    as (u & S & R & E).
  rewrite E. cbn [run]. rewrite R. rewrite <- app_assoc. cbn [app].
  destruct (vc =? 0).
  - destruct (Hk rest stk) as (u2 & S2 & R2 & E2). exists u2. split; [exact S2|].
    split; [exact R2|]. rewrite <- E2.
    replace (k1 ++ Jmp (length k2) :: k2 ++ rest)
      with ((k1 ++ [Jmp (length k2)]) ++ k2 ++ rest) by (rewrite <- app_assoc; reflexivity).
    replace (length k1 + 1)%nat with (length (k1 ++ [Jmp (length k2)]))
      by (rewrite app_length; reflexivity).
    apply run_skip.
  - destruct (Hk (Jmp (length k2) :: k2 ++ rest) stk) as (u2 & S2 & R2 & E2).
    exists u2. split; [exact S2|]. split; [exact R2|]. rewrite E2. cbn [run].
    apply run_skip.
Qed.

(** *** Binary operators with the level 2 simplifications *)

Lemma cseq_inv : forall r1 r2 c, cseq r1 r2 = Code c ->
  exists c1 c2, r1 = Code c1 /\ r2 = Code c2 /\ c = c1 ++ c2.
Proof.
  intros [c1| |] r2 c H; try discriminate. destruct r2 as [c2| |]; try discriminate.
  injection H as <-. exists c1, c2. auto.
Qed.

Lemma number_is : forall n e t v, typed vt e = Some t ->
  is_number n (execute e) = true -> execute e = Const v -> snd v = n.
Proof.
  intros n e t [u w] T N X. rewrite X in N. apply Z.eqb_eq in N. exact N.
Qed.

(** What is known about an operand that [execute] finds to be the number [n]. *)
Lemma number_meaning : forall n e t v st st',
  typed vt e = Some t -> is_number n (execute e) = true ->
  meaning false vt e st = Some (v, st') -> v = (t, n) /\ st' = st.
Proof.
  intros n e t v st st' T N M.
  destruct (execute e) as [[u w]| | |] eqn:X; try discriminate.
  cbn [is_number] in N. apply Z.eqb_eq in N. subst w.
  destruct (execute_meaning vt false _ _ _ T X) as (F & _ & M').
  rewrite M' in M. injection M as <- <-. cbn in F. subst u. auto.
Qed.

Lemma bin_code_pushes : forall l o e1 e2 c1 c2 code t1 t2 r v1 v2 z s0 s1 s2,
  typed vt e1 = Some t1 -> typed vt e2 = Some t2 ->
  get_binary_vtype (to_binop o) t1 t2 = Some r ->
  match o, t1, t2 with
  | OAl a, Vi i, Vi j => neutral_ok l vt a e1 e2 i j (lang_result_type i j) = true
  | _, _, _ => True
  end ->
  store_ok vt s0 ->
  meaning false vt e1 s0 = Some ((t1, v1), s1) ->
  meaning false vt e2 s1 = Some ((t2, v2), s2) ->
  (forall k, c1 = Code k -> Pushes k s0 t1 v1 s1) ->
  (forall k, c2 = Code k -> Pushes k s1 t2 v2 s2) ->
  vm_binary (to_binop o) (t1, v1) (t2, v2) = VmVal z ->
  bin_code l o c1 c2 (execute e1) (execute e2) t1 t2 = Code code ->
  Pushes code s0 r (snd z) s2.
Proof.
  intros l o e1 e2 c1 c2 code t1 t2 r v1 v2 z s0 s1 s2 T1 T2 G NO S M1 M2 P1 P2 B C.
  destruct (meaning_typed _ _ _ _ _ _ _ T1 S M1) as (_ & R1 & S1). cbn [snd] in R1.
  destruct (meaning_typed _ _ _ _ _ _ _ T2 S1 M2) as (_ & R2 & _). cbn [snd] in R2.
  assert (Full : cseq c1 (cseq c2 (Code [BinI (to_binop o) t1 t2])) = Code code ->
                 Pushes code s0 r (snd z) s2).
  { intro E. apply cseq_inv in E. destruct E as (k1 & k & E1 & E & ->).
    apply cseq_inv in E. destruct E as (k2 & k3 & E2 & E3 & ->). injection E3 as <-.
    eapply pushes_binary; eauto. }
  unfold bin_code in C. destruct (simplifies l) eqn:L; cbn [negb] in C; [|auto].
  (* the operand that stays *)
  assert (StayL : forall n, is_number n (execute e2) = true -> c1 = Code code ->
            snd z = vcast r v1 -> no_wider t1 r = true ->
            Pushes code s0 r (snd z) s2).
  { intros n N E Z W.
    destruct (number_meaning _ _ _ _ _ _ T2 N M2) as [_ ->]. rewrite Z.
    eapply pushes_weaken; eauto. }
  assert (StayR : forall n, is_number n (execute e1) = true -> c2 = Code code ->
            snd z = vcast r v2 -> no_wider t2 r = true ->
            Pushes code s0 r (snd z) s2).
  { intros n N E Z W.
    destruct (number_meaning _ _ _ _ _ _ T1 N M1) as [_ ->]. rewrite Z.
    eapply pushes_weaken; eauto. }
  destruct o as [a|cm| |].
  - (* arithmetic *)
    destruct t1 as [i|], t2 as [j|]; cbn [to_binop] in G;
      try (destruct a; discriminate).
    rewrite result_type_al in G. injection G as <-. cbn [to_binop] in B.
    destruct z as [tz vz]. cbn [snd] in *.
    assert (RN : forall n, right_neutral a = Some n -> is_number n (execute e2) = true ->
              implb (constant_is vt n e2) (bits (lang_result_type i j) <=? bits i) = true ->
              c1 = Code code -> Pushes code s0 (Vi (lang_result_type i j)) vz s2).
    { intros n N I W E.
      rewrite (constant_is_execute vt _ _ _ T2 I) in W. cbn [implb] in W.
      destruct (number_meaning _ _ _ _ _ _ T2 I M2) as [V _]. injection V as ->.
      apply (StayL n I E).
      - cbn [vcast]. apply (proj2 (right_neutral_value _ _ _ _ _ _ _ N R1 B)).
        apply Z.leb_le. exact W.
      - cbn [no_wider]. exact W. }
    assert (LN : forall n, left_neutral a = Some n -> is_number n (execute e1) = true ->
              implb (constant_is vt n e1) (bits (lang_result_type i j) <=? bits j) = true ->
              c2 = Code code -> Pushes code s0 (Vi (lang_result_type i j)) vz s2).
    { intros n N I W E.
      rewrite (constant_is_execute vt _ _ _ T1 I) in W. cbn [implb] in W.
      destruct (number_meaning _ _ _ _ _ _ T1 I M1) as [V _]. injection V as ->.
      apply (StayR n I E).
      - cbn [vcast]. apply (left_neutral_value _ _ _ _ _ _ _ N R2 B).
        apply Z.leb_le. exact W.
      - cbn [no_wider]. exact W. }
    unfold neutral_ok in NO. rewrite L in NO. cbn [negb] in NO.
    destruct a; try (apply Full; exact C); try (apply andb_true_iff in NO; destruct NO as [NO1 NO2]).
    + destruct (is_number 0 (execute e1)) eqn:I1; [apply (LN 0); auto|].
      destruct (is_number 0 (execute e2)) eqn:I2; [apply (RN 0); auto | apply Full; exact C].
    + destruct (is_number 0 (execute e1)) eqn:I1.
      * rewrite (constant_is_execute vt _ _ _ T1 I1) in NO2. cbn [implb] in NO2.
        apply andb_true_iff in NO2. destruct NO2 as [Eij N64].
        apply ity_eqb_eq in Eij. subst j.
        destruct (number_meaning _ _ _ _ _ _ T1 I1 M1) as [V ->]. injection V as ->.
        assert (N : i <> U64) by (intros ->; discriminate).
        destruct (zero_sub_value _ _ _ _ N R2 B) as (r' & w' & U & Rw & Lb & ->).
        apply cseq_inv in C. destruct C as (k2 & k3 & E2 & E3 & ->). injection E3 as <-.
        specialize (P2 _ E2). intros rest stk. rewrite <- app_assoc.
        destruct (P2 ([UnI Minus (Vi i)] ++ rest) stk) as (u & Su & Ru & E).
        exists (Vi r', w'). split; [exact Rw|]. split.
        { cbn [read]. rewrite (proj2 (Z.leb_le _ _)) by lia. reflexivity. }
        rewrite E. cbn [app run]. rewrite Ru, U. reflexivity.
      * destruct (is_number 0 (execute e2)) eqn:I2; [apply (RN 0); auto | apply Full; exact C].
    + destruct (is_number 1 (execute e1)) eqn:I1; [apply (LN 1); auto|].
      destruct (is_number 1 (execute e2)) eqn:I2; [apply (RN 1); auto | apply Full; exact C].
    + destruct (is_number 1 (execute e2)) eqn:I2; [apply (RN 1); auto | apply Full; exact C].
    + destruct (is_number 0 (execute e1)) eqn:I1; [apply (LN 0); auto|].
      destruct (is_number 0 (execute e2)) eqn:I2; [apply (RN 0); auto | apply Full; exact C].
    + destruct (is_number 0 (execute e2)) eqn:I2; [apply (RN 0); auto | apply Full; exact C].
    + destruct (is_number 0 (execute e2)) eqn:I2; [apply (RN 0); auto | apply Full; exact C].
  - apply Full. exact C.
  - destruct (bool_logic OAnd _ _ _ (or_introl eq_refl) G) as (-> & -> & ->).
    destruct (is_number 1 (execute e1)) eqn:I1.
    + destruct (number_meaning _ _ _ _ _ _ T1 I1 M1) as [V _]. injection V as ->.
      apply (StayR 1 I1 C); [|reflexivity].
      destruct R2; subst v2; cbn in B; injection B as <-; reflexivity.
    + destruct (is_number 1 (execute e2)) eqn:I2; [|apply Full; exact C].
      destruct (number_meaning _ _ _ _ _ _ T2 I2 M2) as [V _]. injection V as ->.
      apply (StayL 1 I2 C); [|reflexivity].
      destruct R1; subst v1; cbn in B; injection B as <-; reflexivity.
  - destruct (bool_logic OOr _ _ _ (or_intror eq_refl) G) as (-> & -> & ->).
    destruct (is_number 0 (execute e1)) eqn:I1.
    + destruct (number_meaning _ _ _ _ _ _ T1 I1 M1) as [V _]. injection V as ->.
      apply (StayR 0 I1 C); [|reflexivity].
      destruct R2; subst v2; cbn in B; injection B as <-; reflexivity.
    + destruct (is_number 0 (execute e2)) eqn:I2; [|apply Full; exact C].
      destruct (number_meaning _ _ _ _ _ _ T2 I2 M2) as [V _]. injection V as ->.
      apply (StayL 0 I2 C); [|reflexivity].
      destruct R1; subst v1; cbn in B; injection B as <-; reflexivity.
Qed.

(** Compound assignment: the left operand is the variable. *)
Lemma assign_code_pushes : forall l a x e c2 code i j v2 z s0 s2,
  vt x = Vi i -> typed vt e = Some (Vi j) -> store_ok vt s0 ->
  meaning false vt e s0 = Some ((Vi j, v2), s2) ->
  (forall k, c2 = Code k -> Pushes k s0 (Vi j) v2 s2) ->
  vm_binary (Al a) (Vi i, s0 x) (Vi j, v2) = VmVal z ->
  bin_code l (OAl a) (Code [push_var vt None x]) c2 NotConst (execute e) (Vi i) (Vi j)
    = Code code ->
  Pushes code s0 (Vi i) (vcast (Vi i) (snd z)) s2.
Proof.
  intros l a x e c2 code i j v2 z s0 s2 X T S M P2 B C.
  pose proof (pushes_var x _ S) as P1. rewrite X in P1.
  pose proof (S x) as Rx. rewrite X in Rx. cbn [vrange] in Rx.
  assert (G : get_binary_vtype (to_binop (OAl a)) (Vi i) (Vi j)
              = Some (Vi (lang_result_type i j))) by apply result_type_al.
  assert (Full : cseq (Code [push_var vt None x])
                      (cseq c2 (Code [BinI (to_binop (OAl a)) (Vi i) (Vi j)])) = Code code ->
                 Pushes code s0 (Vi i) (vcast (Vi i) (snd z)) s2).
  { intro E. apply cseq_inv in E. destruct E as (k1 & k & E1 & E & ->). injection E1 as <-.
    apply cseq_inv in E. destruct E as (k2 & k3 & E2 & E3 & ->). injection E3 as <-.
    apply (pushes_weaken _ _ _ (Vi (lang_result_type i j))).
    - eapply (pushes_binary _ _ (OAl a)); eauto.
    - cbn [no_wider]. apply Z.leb_le. apply bits_lang_l. }
  unfold bin_code in C. destruct (simplifies l); cbn [negb] in C; [|auto].
  assert (RN : forall n, right_neutral a = Some n -> is_number n (execute e) = true ->
            Code [push_var vt None x] = Code code ->
            Pushes code s0 (Vi i) (vcast (Vi i) (snd z)) s2).
  { intros n N I E. injection E as <-.
    destruct (number_meaning _ _ _ _ _ _ T I M) as [V ->]. injection V as ->.
    destruct z as [tz vz]. cbn [snd vcast].
    rewrite (proj1 (right_neutral_value _ _ _ _ _ _ _ N Rx B)). exact P1. }
  destruct a; cbn [is_number] in C; try (apply Full; exact C).
  - destruct (is_number 0 (execute e)) eqn:I2; [apply (RN 0); auto | apply Full; exact C].
  - destruct (is_number 0 (execute e)) eqn:I2; [apply (RN 0); auto | apply Full; exact C].
  - destruct (is_number 1 (execute e)) eqn:I2; [apply (RN 1); auto | apply Full; exact C].
  - destruct (is_number 1 (execute e)) eqn:I2; [apply (RN 1); auto | apply Full; exact C].
  - destruct (is_number 0 (execute e)) eqn:I2; [apply (RN 0); auto | apply Full; exact C].
  - destruct (is_number 0 (execute e)) eqn:I2; [apply (RN 0); auto | apply Full; exact C].
  - destruct (is_number 0 (execute e)) eqn:I2; [apply (RN 0); auto | apply Full; exact C].
Qed.

(** Increments. *)
Lemma inc_step_pushes : forall (dec : bool) x i z s0,
  vt x = Vi i -> store_ok vt s0 ->
  vm_binary (Al (if dec then Sub else Add)) (vt x, s0 x) (Vi I32, 1) = VmVal z ->
  Pushes [ push_var vt None x; PushC (Vi I32, 1);
           BinI (Al (if dec then Sub else Add)) (vt x) (Vi I32) ]
         s0 (vt x) (vcast (vt x) (snd z)) s0.
Proof.
  intros dec x i z s0 X S B.
  pose proof (pushes_var x _ S) as P1. rewrite X in *.
  apply (pushes_weaken _ _ _ (Vi (lang_result_type i I32))).
  - change [push_var vt None x; PushC (Vi I32, 1);
            BinI (Al (if dec then Sub else Add)) (Vi i) (Vi I32)]
      with ([push_var vt None x] ++ [PushC (Vi I32, 1)]
            ++ [BinI (to_binop (OAl (if dec then Sub else Add))) (Vi i) (Vi I32)]).
    eapply (pushes_binary _ _ (OAl (if dec then Sub else Add)));
      [apply result_type_al | exact P1 | | exact B].
    apply pushes_const. cbn. unfold in_range. cbn. lia.
  - cbn [no_wider]. apply Z.leb_le. apply bits_lang_l.
Qed.

Lemma pure_meaning : forall lazy e st v st', pure e = true ->
  meaning lazy vt e st = Some (v, st') -> st' = st.
Proof.
  intros lazy.
  induction e as [[t0 v0]|x|t0 i IHi|o e1 IH1 e2 IH2|o e1 IH1|x e1 IH1|a x e1 IH1|p d x|t0 e1 IH1
                 |c IHc e1 IH1 e2 IH2|e1 IH1 e2 IH2]; intros st v st' P M; cbn [pure meaning] in *;
    try discriminate.
  - congruence.
  - congruence.
  - destruct (meaning lazy vt i st) as [[]|]; congruence.
  - apply andb_true_iff in P. destruct P as [P1 P2].
    destruct (meaning lazy vt e1 st) as [[v1 s1]|] eqn:M1; [|discriminate].
    rewrite (IH1 _ _ _ P1 M1) in *.
    destruct (match o with OAnd => _ | OOr => _ | _ => false end); [congruence|].
    destruct (meaning lazy vt e2 st) as [[v2 s2]|] eqn:M2; [|discriminate].
    rewrite (IH2 _ _ _ P2 M2) in *.
    destruct (vm_binary _ _ _); congruence.
  - destruct (meaning lazy vt e1 st) as [[v1 s1]|] eqn:M1; [|discriminate].
    rewrite (IH1 _ _ _ P M1) in *. destruct (vm_unary _ _); congruence.
  - destruct (meaning lazy vt e1 st) as [[v1 s1]|] eqn:M1; [|discriminate].
    rewrite (IH1 _ _ _ P M1) in *. congruence.
  - apply andb_true_iff in P. destruct P as [P P2]. apply andb_true_iff in P. destruct P as [Pc P1].
    destruct (meaning lazy vt c st) as [[v1 s1]|] eqn:M1; [|discriminate].
    rewrite (IHc _ _ _ Pc M1) in *.
    destruct (snd v1 =? 0); [eapply IH2 | eapply IH1]; eassumption.
  - apply andb_true_iff in P. destruct P as [P1 P2].
    destruct (meaning lazy vt e1 st) as [[v1 s1]|] eqn:M1; [|discriminate].
    rewrite (IH1 _ _ _ P1 M1) in *. eapply IH2; eassumption.
Qed.

Lemma pure_behaves : forall e, pure e = true -> behaves e = false.
Proof. intros [] H; try reflexivity; discriminate. Qed.

(** *** The simulation *)

(** The type in which the value of [e] is read: the environment's, or [e]'s. *)
Definition target (env : option vty) (t : vty) : vty := match env with Some u => u | None => t end.

Definition env_ok (l : level) (e : expr) (t : vty) (env : option vty) : Prop :=
  match env with Some u => may_convert l e t u = true | None => True end.

Definition ValueOk (l : level) (e : expr) : Prop :=
  forall t env code st v st',
  typed vt e = Some t -> sound l vt e = true -> env_ok l e t env -> store_ok vt st ->
  compile l vt false true env e = Code code ->
  meaning false vt e st = Some (v, st') ->
  Pushes code st (target env t) (vcast (target env t) (snd v)) st'.

Definition DiscardOk (l : level) (e : expr) : Prop :=
  forall root t code st v st',
  (l = O0 -> root = true) ->
  typed vt e = Some t -> sound l vt e = true -> discardable l e = true -> store_ok vt st ->
  compile l vt root false None e = Code code ->
  meaning false vt e st = Some (v, st') ->
  Leaves code st st'.

Lemma value_none : forall l e t code st v st', ValueOk l e ->
  typed vt e = Some t -> sound l vt e = true -> store_ok vt st ->
  compile l vt false true None e = Code code ->
  meaning false vt e st = Some ((t, v), st') ->
  Pushes code st t v st'.
Proof.
  intros l e t code st v st' H T So S C M.
  destruct (meaning_typed _ _ _ _ _ _ _ T S M) as (_ & R & _). cbn [snd] in R.
  pose proof (H t None code st (t, v) st' T So I S C M) as P. cbn [target snd] in P.
  rewrite vcast_id in P by exact R. exact P.
Qed.

(** A constant pushed in the environment's type. *)
Lemma pushes_to_env : forall env t v st, vrange t v ->
  Pushes [PushC (to_env env (t, v))] st (target env t) (vcast (target env t) v) st.
Proof.
  intros env t v st R. destruct env as [u|]; cbn [to_env target snd].
  - apply pushes_const. apply vcast_range.
  - rewrite vcast_id by exact R. apply pushes_const. exact R.
Qed.

Lemma leaves_nil : forall st, Leaves [] st st.
Proof. intros st rest stk. reflexivity. Qed.

(** A result read in a type that is no wider than its own. *)
Lemma to_target : forall env t code st v st',
  Pushes code st t v st' ->
  (forall u, env = Some u -> no_wider t u = true) ->
  vrange t v ->
  Pushes code st (target env t) (vcast (target env t) v) st'.
Proof.
  intros [u|] t code st v st' P N R; cbn [target].
  - eapply pushes_weaken; [exact P|]. apply N. reflexivity.
  - rewrite vcast_id by exact R. exact P.
Qed.

(** Code of an expression that [execute] makes a constant. *)
Definition folding (l : level) (here : bool) (env : option vty) (e : expr) (k : cres) : cres :=
  if folds_constants l then
    match execute e with
    | Const v => if here then Code [PushC (to_env env v)] else Code []
    | CompileError => CErr
    | CompilerUB => CUB
    | NotConst => k
    end
  else k.

Lemma folding_value : forall l env e k code t st v st',
  typed vt e = Some t ->
  folding l true env e k = Code code ->
  meaning false vt e st = Some (v, st') ->
  (k = Code code -> execute e = NotConst \/ folds_constants l = false ->
   Pushes code st (target env t) (vcast (target env t) (snd v)) st') ->
  Pushes code st (target env t) (vcast (target env t) (snd v)) st'.
Proof.
  intros l env e k code t st v st' T F M K. unfold folding in F.
  destruct (folds_constants l) eqn:L; [|auto].
  destruct (execute e) as [[u w]| | |] eqn:X; try discriminate; [|auto].
  injection F as <-.
  destruct (execute_meaning vt false _ _ _ T X) as (Fv & R & M').
  rewrite M' in M. injection M as <- <-. cbn [fst snd] in *. subst u.
  apply pushes_to_env. exact R.
Qed.

Lemma folding_discard : forall l e k code t st v st',
  typed vt e = Some t ->
  folding l false None e k = Code code ->
  meaning false vt e st = Some (v, st') ->
  (k = Code code -> Leaves code st st') ->
  Leaves code st st'.
Proof.
  intros l e k code t st v st' T F M K. unfold folding in F.
  destruct (folds_constants l) eqn:L; [|auto].
  destruct (execute e) as [[u w]| | |] eqn:X; try discriminate; [|auto].
  injection F as <-.
  destruct (execute_meaning vt false _ _ _ T X) as (Fv & R & M').
  rewrite M' in M. injection M as <- <-. apply leaves_nil.
Qed.

(** A conversion asked of an operator that was not folded does not widen. *)
Lemma operator_env : forall l e t env,
  match e with EBin _ _ _ | EUn _ _ => True | _ => False end ->
  env_ok l e t env ->
  execute e = NotConst \/ folds_constants l = false ->
  forall u, env = Some u -> no_wider t u = true.
Proof.
  intros l e t env Sh E X u ->. cbn [env_ok] in E.
  assert (H : (folds_constants l && literal e) || no_wider t u = true)
    by (destruct e; try contradiction; exact E).
  apply orb_true_iff in H. destruct H as [H|H]; [|exact H].
  apply andb_true_iff in H. destruct H as [H1 H2].
  destruct X as [X|X]; [|congruence].
  destruct (literal_execute e H2 X).
Qed.

Lemma post_false : forall e, post false e = Code [].
Proof. reflexivity. Qed.

Lemma cseq_nil : forall r, cseq r (Code []) = r.
Proof. intros [c| |]; cbn [cseq]; [rewrite app_nil_r|..]; reflexivity. Qed.

Lemma compile_bin : forall l root eff env o e1 e2,
  compile l vt root eff env (EBin o e1 e2)
  = let here := negb (removes_unused l) || eff in
    folding l here env (EBin o e1 e2)
      (if negb here then
         cseq (compile l vt false here None e1) (compile l vt false here None e2)
       else match styp vt e1, styp vt e2 with
            | Some t1, Some t2 =>
                cseq (bin_code l o (compile l vt false here None e1)
                        (compile l vt false here None e2) (execute e1) (execute e2) t1 t2)
                     (post root (EBin o e1 e2))
            | _, _ => CErr
            end).
Proof. intros. cbn [compile behaves]. rewrite orb_false_r. reflexivity. Qed.

Lemma compile_un : forall l root eff env o e1,
  compile l vt root eff env (EUn o e1)
  = let here := negb (removes_unused l) || eff in
    folding l here env (EUn o e1)
      (if negb here then compile l vt false here None e1
       else match styp vt e1 with
            | Some t1 =>
                cseq (cseq (compile l vt false here None e1) (Code [UnI (to_unop o) t1]))
                     (post root (EUn o e1))
            | None => CErr
            end).
Proof. intros. cbn [compile behaves]. rewrite orb_false_r. reflexivity. Qed.

(** Value of an operator without folding. *)
Lemma bin_value : forall l o e1 e2 code t t1 t2 st v st',
  ValueOk l e1 -> ValueOk l e2 ->
  typed vt (EBin o e1 e2) = Some t -> sound l vt (EBin o e1 e2) = true -> store_ok vt st ->
  typed vt e1 = Some t1 -> typed vt e2 = Some t2 ->
  bin_code l o (compile l vt false true None e1) (compile l vt false true None e2)
    (execute e1) (execute e2) t1 t2 = Code code ->
  meaning false vt (EBin o e1 e2) st = Some (v, st') ->
  Pushes code st t (snd v) st' /\ vrange t (snd v).
Proof.
  intros l o e1 e2 code t t1 t2 st v st' V1 V2 T So S T1 T2 C M.
  destruct (meaning_typed _ _ _ _ _ _ _ T S M) as (_ & Rv & _).
  split; [|exact Rv].
  destruct (typed_bin _ _ _ _ _ T) as (t1' & t2' & T1' & T2' & G).
  rewrite T1 in T1'. injection T1' as <-. rewrite T2 in T2'. injection T2' as <-.
  cbn [sound] in So. rewrite T1, T2 in So.
  apply andb_true_iff in So. destruct So as [So NO].
  apply andb_true_iff in So. destruct So as [So1 So2].
  cbn [meaning] in M.
  destruct (meaning false vt e1 st) as [[[u1 v1] st1]|] eqn:M1; [|discriminate].
  destruct (meaning_typed _ _ _ _ _ _ _ T1 S M1) as (F1 & R1 & S1). cbn [fst snd] in F1, R1. subst u1.
  replace (match o with OAnd => false && _ | OOr => false && _ | _ => false end) with false in M
    by (destruct o; reflexivity).
  destruct (meaning false vt e2 st1) as [[[u2 v2] st2]|] eqn:M2; [|discriminate].
  destruct (meaning_typed _ _ _ _ _ _ _ T2 S1 M2) as (F2 & R2 & S2). cbn [fst snd] in F2, R2. subst u2.
  destruct (vm_binary (to_binop o) (t1, v1) (t2, v2)) as [z| |] eqn:B; try discriminate.
  injection M as <- <-.
  eapply bin_code_pushes with (e1 := e1) (e2 := e2) (v1 := v1) (v2 := v2) (s1 := st1);
    try eassumption.
  - destruct o as [a|c| |]; try exact I. destruct t1 as [i|]; try exact I.
    destruct t2 as [j|]; try exact I. exact NO.
  - intros k K. exact (value_none _ _ _ _ _ _ _ V1 T1 So1 S K M1).
  - intros k K. exact (value_none _ _ _ _ _ _ _ V2 T2 So2 S1 K M2).
Qed.

Lemma un_value : forall l o e1 code t t1 st v st',
  ValueOk l e1 ->
  typed vt (EUn o e1) = Some t -> sound l vt (EUn o e1) = true -> store_ok vt st ->
  typed vt e1 = Some t1 ->
  cseq (compile l vt false true None e1) (Code [UnI (to_unop o) t1]) = Code code ->
  meaning false vt (EUn o e1) st = Some (v, st') ->
  Pushes code st t (snd v) st' /\ vrange t (snd v).
Proof.
  intros l o e1 code t t1 st v st' V1 T So S T1 C M.
  destruct (meaning_typed _ _ _ _ _ _ _ T S M) as (_ & Rv & _).
  split; [|exact Rv].
  destruct (typed_un _ _ _ _ T) as (t1' & T1' & G).
  rewrite T1 in T1'. injection T1' as <-.
  cbn [sound] in So. cbn [meaning] in M.
  destruct (meaning false vt e1 st) as [[[u1 v1] st1]|] eqn:M1; [|discriminate].
  destruct (meaning_typed _ _ _ _ _ _ _ T1 S M1) as (F1 & R1 & S1). cbn [fst snd] in F1, R1. subst u1.
  destruct (vm_unary (to_unop o) (t1, v1)) as [z| |] eqn:B; try discriminate.
  injection M as <- <-.
  apply cseq_inv in C. destruct C as (k1 & k2 & K1 & K2 & ->). injection K2 as <-.
  eapply pushes_unary; [exact G | | exact B].
  exact (value_none _ _ _ _ _ _ _ V1 T1 So S K1 M1).
Qed.

(** An assignment, compiled for its value ([PickV]) or not ([PopV]). *)
Lemma assign_both : forall l eff root env x e1 code t st v st',
  ValueOk l e1 ->
  typed vt (EAssign x e1) = Some t -> sound l vt (EAssign x e1) = true -> store_ok vt st ->
  compile l vt root eff env (EAssign x e1) = Code code ->
  meaning false vt (EAssign x e1) st = Some (v, st') ->
  if eff then Pushes code st t (snd v) st' else Leaves code st st'.
Proof.
  intros l eff root env x e1 code t st v st' V1 T So S C M.
  cbn [typed] in T. destruct (typed vt e1) as [t1|] eqn:T1; [|discriminate]. injection T as <-.
  cbn [sound] in So. rewrite T1 in So. apply andb_true_iff in So. destruct So as [So MC].
  cbn [meaning] in M.
  destruct (meaning false vt e1 st) as [[v1 st1]|] eqn:M1; [|discriminate]. injection M as <- <-.
  assert (C' : cseq (compile l vt false true (Some (vt x)) e1)
                    (Code [if eff then PickV x else PopV x]) = Code code).
  { cbn [compile behaves] in C. rewrite orb_true_r in C. cbn [orb] in C.
    destruct (folds_constants l); [|exact C].
    cbn [execute] in C. destruct (execute e1); try discriminate; exact C. }
  apply cseq_inv in C'. destruct C' as (k1 & k2 & K1 & K2 & ->). injection K2 as <-.
  assert (P : Pushes k1 st (vt x) (vcast (vt x) (snd v1)) st1)
    by (apply (V1 t1 (Some (vt x)) k1 st v1 st1 T1 So MC S K1 M1)).
  cbn [snd]. destruct eff; [apply pushes_pick | apply pushes_pop]; exact P.
Qed.

Lemma assignop_both : forall l eff root env a x e1 code t st v st',
  ValueOk l e1 ->
  typed vt (EAssignOp a x e1) = Some t -> sound l vt (EAssignOp a x e1) = true -> store_ok vt st ->
  compile l vt root eff env (EAssignOp a x e1) = Code code ->
  meaning false vt (EAssignOp a x e1) st = Some (v, st') ->
  if eff then Pushes code st t (snd v) st' else Leaves code st st'.
Proof.
  intros l eff root env a x e1 code t st v st' V1 T So S C M.
  cbn [typed] in T. destruct (vt x) as [i|] eqn:X; [|discriminate].
  destruct (typed vt e1) as [[j|]|] eqn:T1; try discriminate. injection T as <-.
  cbn [sound] in So. cbn [meaning] in M.
  destruct (meaning false vt e1 st) as [[[u1 v1] st1]|] eqn:M1; [|discriminate].
  destruct (meaning_typed _ _ _ _ _ _ _ T1 S M1) as (F1 & R1 & S1). cbn [fst snd] in F1, R1. subst u1.
  rewrite X in M.
  destruct (vm_binary (Al a) (Vi i, st x) (Vi j, v1)) as [z| |] eqn:B; try discriminate.
  injection M as <- <-.
  assert (C' : cseq (bin_code l (OAl a) (Code [push_var vt None x])
                       (compile l vt false true None e1) NotConst (execute e1) (Vi i) (Vi j))
                    (Code [if eff then PickV x else PopV x]) = Code code).
  { cbn [compile behaves] in C. rewrite orb_true_r in C. cbn [orb] in C.
    rewrite (typed_styp _ _ _ T1), X in C.
    destruct (folds_constants l); [|exact C].
    cbn [execute] in C. destruct (execute e1); try discriminate; exact C. }
  apply cseq_inv in C'. destruct C' as (k1 & k2 & K1 & K2 & ->). injection K2 as <-.
  assert (P : Pushes k1 st (vt x) (vcast (Vi i) (snd z)) st1).
  { rewrite X. eapply assign_code_pushes; try eassumption.
    intros k K. exact (value_none _ _ _ _ _ _ _ V1 T1 So S K M1). }
  cbn [snd]. destruct eff.
  - rewrite <- X. apply pushes_pick. exact P.
  - apply pushes_pop. exact P.
Qed.

Lemma inc_both : forall l eff root env p d x code t st v st',
  typed vt (EInc p d x) = Some t -> store_ok vt st ->
  compile l vt root eff env (EInc p d x) = Code code ->
  meaning false vt (EInc p d x) st = Some (v, st') ->
  if eff then Pushes code st t (snd v) st' else Leaves code st st'.
Proof.
  intros l eff root env p d x code t st v st' T S C M.
  cbn [typed] in T. destruct (vt x) as [i|] eqn:X; [|discriminate]. injection T as <-.
  cbn [compile] in C. injection C as <-.
  cbn [meaning] in M. rewrite X in M. rewrite <- X in M.
  destruct (vm_binary (Al (if d then Sub else Add)) (vt x, st x) (Vi I32, 1)) as [z| |] eqn:B;
    try discriminate.
  injection M as <- <-.
  pose proof (inc_step_pushes _ _ _ _ _ X S B) as P.
  unfold inc_code. destruct p.
  - destruct eff; cbn [app snd].
    + intros rest stk. pose proof (pushes_var x _ S) as Px.
      destruct (Px ((push_var vt None x :: PushC (Vi I32, 1)
                 :: BinI (Al (if d then Sub else Add)) (vt x) (Vi I32) :: [PopV x]) ++ rest) stk)
        as (u & Su & Ru & E).
      exists u. split; [exact Su|]. split; [rewrite <- X; exact Ru|].
      change ((push_var vt None x :: ?a) ++ rest) with ([push_var vt None x] ++ a ++ rest).
      etransitivity; [exact E|].
      exact (pushes_pop _ _ _ _ _ P rest (u :: stk)).
    + exact (pushes_pop _ _ _ _ _ P).
  - destruct eff; cbn [snd].
    + rewrite <- X. exact (pushes_pick _ _ _ _ _ P).
    + exact (pushes_pop _ _ _ _ _ P).
Qed.

(** A conversion asked of anything but a leaf or an operator. *)
Lemma other_env : forall l e t env,
  match e with
  | EVar (VParam _) | EAssign _ _ | EAssignOp _ _ _ | EInc _ _ _ | ECast _ _
  | ECond _ _ _ | EComma _ _ => True
  | _ => False
  end ->
  env_ok l e t env -> forall u, env = Some u -> no_wider t u = true.
Proof.
  intros l e t env Sh E u ->. cbn [env_ok] in E.
  destruct e as [|[|]| | | | | | | | |]; try contradiction; exact E.
Qed.

Theorem simulation : forall l e, ValueOk l e /\ DiscardOk l e.
Proof.
  intros l.
  induction e as [[t0 v0]|x|t0 i IHi|o e1 [V1 D1] e2 [V2 D2]|o e1 [V1 D1]|x e1 [V1 D1]
                 |a x e1 [V1 D1]|p d x|t0 e1 [V1 D1]|c [Vc Dc] e1 [V1 D1] e2 [V2 D2]
                 |e1 [V1 D1] e2 [V2 D2]]; split.
  - (* number *)
    intros t env code st v st' T So E S C M.
    cbn [compile] in C. injection C as <-. cbn [meaning] in M. injection M as <- <-.
    destruct (meaning_typed _ false _ _ _ _ _ T S eq_refl) as (F & R & _). cbn [fst snd] in *.
    subst t0. apply pushes_to_env. exact R.
  - intros root t code st v st' Rt T So D S C M.
    cbn [compile] in C. injection C as <-. cbn [meaning] in M. injection M as <- <-.
    apply leaves_nil.
  - (* variable *)
    intros t env code st v st' T So E S C M.
    cbn [compile] in C. injection C as <-. cbn [meaning] in M. injection M as <- <-.
    cbn [typed] in T. injection T as <-. cbn [snd].
    destruct env as [u|]; cbn [target].
    + destruct x as [n|n].
      * intros rest stk. cbn [push_var app run].
        exists (u, vcast u (st (VLocal n))). pose proof (vcast_range u (st (VLocal n))) as R.
        split; [exact R|]. split; [|reflexivity]. apply read_same. exact R.
      * apply (pushes_weaken _ _ _ (vt (VParam n))).
        -- exact (pushes_var (VParam n) _ S).
        -- apply (other_env l (EVar (VParam n)) _ (Some u) I E). reflexivity.
    + rewrite vcast_id by apply S. apply pushes_var. exact S.
  - intros root t code st v st' Rt T So D S C M.
    cbn [compile] in C. injection C as <-. cbn [meaning] in M. injection M as <- <-.
    apply leaves_nil.
  - (* named constant *)
    intros t env code st v st' T So E S C M.
    cbn [compile] in C.
    destruct (execute i) as [w| | |] eqn:X; try discriminate. injection C as <-.
    assert (X' : execute (EConst t0 i) = Const w) by exact X.
    destruct (execute_meaning vt false _ _ _ T X') as (F & R & M').
    rewrite M' in M. injection M as <- <-. destruct w as [tw vw]. cbn [fst snd] in *. subst tw.
    apply pushes_to_env. exact R.
  - intros root t code st v st' Rt T So D S C M.
    cbn [compile] in C. injection C as <-. cbn [meaning] in M.
    destruct (meaning false vt i st) as [[]|]; [|discriminate]. injection M as <- <-.
    apply leaves_nil.
  - (* binary *)
    intros t env code st v st' T So E S C M.
    rewrite compile_bin in C. rewrite orb_true_r in C. cbn zeta in C. cbn [negb] in C.
    eapply folding_value; [exact T | exact C | exact M |]. intros K X.
    destruct (typed_bin _ _ _ _ _ T) as (t1 & t2 & T1 & T2 & G).
    rewrite (typed_styp _ _ _ T1), (typed_styp _ _ _ T2), post_false, cseq_nil in K.
    destruct (bin_value _ _ _ _ _ _ _ _ _ _ _ V1 V2 T So S T1 T2 K M) as [P R].
    apply to_target; [exact P | | exact R].
    exact (operator_env l (EBin o e1 e2) _ _ I E X).
  - intros root t code st v st' Rt T So D S C M.
    destruct (typed_bin _ _ _ _ _ T) as (t1 & t2 & T1 & T2 & G).
    rewrite compile_bin, orb_false_r in C. cbn zeta in C.
    destruct (removes_unused l) eqn:L; cbn [negb] in C.
    + eapply folding_discard; [exact T | exact C | exact M |]. intro K.
      assert (Lv : l <> O0) by (intros ->; discriminate).
      assert (D' : discardable l e1 && discardable l e2 = true)
        by (destruct l; [congruence|exact D|exact D]).
      apply andb_true_iff in D'. destruct D' as [Da Db].
      cbn [sound] in So. apply andb_true_iff in So. destruct So as [So _].
      apply andb_true_iff in So. destruct So as [So1 So2].
      apply cseq_inv in K. destruct K as (k1 & k2 & K1 & K2 & ->).
      cbn [meaning] in M.
      destruct (meaning false vt e1 st) as [[v1 st1]|] eqn:M1; [|discriminate].
      destruct (meaning_typed _ _ _ _ _ _ _ T1 S M1) as (_ & _ & S1).
      replace (match o with OAnd => false && _ | OOr => false && _ | _ => false end) with false in M
        by (destruct o; reflexivity).
      destruct (meaning false vt e2 st1) as [[v2 st2]|] eqn:M2; [|discriminate].
      destruct (vm_binary (to_binop o) v1 v2) as [z| |] eqn:B; try discriminate.
      injection M as <- <-.
      eapply leaves_app.
      * eapply (D1 false t1 k1 st v1 st1); try assumption. intro; congruence.
      * eapply (D2 false t2 k2 st1 v2 st2); try assumption. intro; congruence.
    + assert (Lv : l = O0) by (destruct l; [reflexivity|discriminate|discriminate]).
      subst l. rewrite (Rt eq_refl) in C.
      unfold folding in C. cbn [folds_constants] in C.
      rewrite (typed_styp _ _ _ T1), (typed_styp _ _ _ T2) in C.
      apply cseq_inv in C. destruct C as (k1 & k2 & K1 & K2 & ->). injection K2 as <-.
      destruct (bin_value _ _ _ _ _ _ _ _ _ _ _ V1 V2 T So S T1 T2 K1 M) as [P R].
      eapply pushes_drop. exact P.
  - (* unary *)
    intros t env code st v st' T So E S C M.
    rewrite compile_un in C. rewrite orb_true_r in C. cbn zeta in C. cbn [negb] in C.
    eapply folding_value; [exact T | exact C | exact M |]. intros K X.
    destruct (typed_un _ _ _ _ T) as (t1 & T1 & G).
    rewrite (typed_styp _ _ _ T1), post_false, cseq_nil in K.
    destruct (un_value _ _ _ _ _ _ _ _ _ V1 T So S T1 K M) as [P R].
    apply to_target; [exact P | | exact R].
    exact (operator_env l (EUn o e1) _ _ I E X).
  - intros root t code st v st' Rt T So D S C M.
    destruct (typed_un _ _ _ _ T) as (t1 & T1 & G).
    rewrite compile_un, orb_false_r in C. cbn zeta in C.
    destruct (removes_unused l) eqn:L; cbn [negb] in C.
    + eapply folding_discard; [exact T | exact C | exact M |]. intro K.
      assert (Lv : l <> O0) by (intros ->; discriminate).
      assert (Da : discardable l e1 = true) by (destruct l; [congruence|exact D|exact D]).
      cbn [sound] in So. cbn [meaning] in M.
      destruct (meaning false vt e1 st) as [[v1 st1]|] eqn:M1; [|discriminate].
      destruct (vm_unary (to_unop o) v1) as [z| |] eqn:B; try discriminate.
      injection M as <- <-.
      eapply (D1 false t1 code st v1 st1); try assumption. intro; congruence.
    + assert (Lv : l = O0) by (destruct l; [reflexivity|discriminate|discriminate]).
      subst l. rewrite (Rt eq_refl) in C.
      unfold folding in C. cbn [folds_constants] in C.
      rewrite (typed_styp _ _ _ T1) in C.
      apply cseq_inv in C. destruct C as (k1 & k2 & K1 & K2 & ->). injection K2 as <-.
      destruct (un_value _ _ _ _ _ _ _ _ _ V1 T So S T1 K1 M) as [P R].
      eapply pushes_drop. exact P.
  - (* assignment *)
    intros t env code st v st' T So E S C M.
    pose proof (assign_both l true _ _ _ _ _ _ _ _ _ V1 T So S C M) as P.
    destruct (meaning_typed _ _ _ _ _ _ _ T S M) as (_ & R & _).
    apply to_target; [exact P | | exact R]. exact (other_env l (EAssign x e1) _ _ I E).
  - intros root t code st v st' Rt T So D S C M.
    exact (assign_both l false _ _ _ _ _ _ _ _ _ V1 T So S C M).
  - intros t env code st v st' T So E S C M.
    pose proof (assignop_both l true _ _ _ _ _ _ _ _ _ _ V1 T So S C M) as P.
    destruct (meaning_typed _ _ _ _ _ _ _ T S M) as (_ & R & _).
    apply to_target; [exact P | | exact R]. exact (other_env l (EAssignOp a x e1) _ _ I E).
  - intros root t code st v st' Rt T So D S C M.
    exact (assignop_both l false _ _ _ _ _ _ _ _ _ _ V1 T So S C M).
  - intros t env code st v st' T So E S C M.
    pose proof (inc_both l true _ _ _ _ _ _ _ _ _ _ T S C M) as P.
    destruct (meaning_typed _ _ _ _ _ _ _ T S M) as (_ & R & _).
    apply to_target; [exact P | | exact R]. exact (other_env l (EInc p d x) _ _ I E).
  - intros root t code st v st' Rt T So D S C M.
    exact (inc_both l false _ _ _ _ _ _ _ _ _ _ T S C M).
  - (* cast *)
    intros t env code st v st' T So E S C M.
    destruct (meaning_typed _ _ _ _ _ _ _ T S M) as (_ & R & _).
    pose proof (other_env l (ECast t0 e1) _ _ I E) as W.
    cbn [compile] in C. rewrite orb_true_r, post_false, cseq_nil in C.
    cbn [typed] in T. destruct (typed vt e1) as [t1|] eqn:T1; [|discriminate]. injection T as <-.
    cbn [sound] in So. rewrite T1 in So. apply andb_true_iff in So. destruct So as [So MC].
    cbn [meaning] in M.
    destruct (meaning false vt e1 st) as [[v1 st1]|] eqn:M1; [|discriminate]. injection M as <- <-.
    cbn [snd] in *.
    apply to_target; [| exact W | exact R].
    exact (V1 t1 (Some t0) code st v1 st1 T1 So MC S C M1).
  - intros root t code st v st' Rt T So D S C M.
    cbn [compile behaves] in C. rewrite !orb_false_r in C.
    cbn [typed] in T. destruct (typed vt e1) as [t1|] eqn:T1; [|discriminate]. injection T as <-.
    cbn [sound] in So. rewrite T1 in So. apply andb_true_iff in So. destruct So as [So MC].
    cbn [meaning] in M.
    destruct (meaning false vt e1 st) as [[v1 st1]|] eqn:M1; [|discriminate]. injection M as <- <-.
    destruct l; cbn [removes_unused negb] in C.
    + rewrite (Rt eq_refl) in C.
      apply cseq_inv in C. destruct C as (k1 & k2 & K1 & K2 & ->). injection K2 as <-.
      eapply pushes_drop.
      exact (V1 t1 (Some t0) k1 st v1 st1 T1 So MC S K1 M1).
    + injection C as <-. cbn [discardable] in D. rewrite (pure_meaning _ _ _ _ _ D M1).
      apply leaves_nil.
    + injection C as <-. cbn [discardable] in D. rewrite (pure_meaning _ _ _ _ _ D M1).
      apply leaves_nil.
  - (* conditional *)
    intros t env code st v st' T So E S C M.
    destruct (meaning_typed _ _ _ _ _ _ _ T S M) as (Fv & R & _).
    pose proof (other_env l (ECond c e1 e2) _ _ I E) as W.
    apply to_target; [| exact W | exact R]. clear W E.
    cbn [compile] in C. rewrite orb_true_r in C. cbn [orb] in C.
    cbn [typed] in T.
    destruct (typed vt c) as [[|]|] eqn:Tc; try discriminate.
    destruct (typed vt e1) as [t1|] eqn:T1; [|discriminate].
    destruct (typed vt e2) as [t2|] eqn:T2; [|discriminate].
    destruct (vty_eqb t1 t2) eqn:Eq; [|discriminate]. apply vty_eqb_eq in Eq. subst t2.
    injection T as <-.
    cbn [sound] in So. apply andb_true_iff in So. destruct So as [So So2].
    apply andb_true_iff in So. destruct So as [Soc So1].
    cbn [meaning] in M.
    destruct (meaning false vt c st) as [[[uc vc] st1]|] eqn:Mc; [|discriminate].
    destruct (meaning_typed _ _ _ _ _ _ _ Tc S Mc) as (Fc & Rc & Sc).
    cbn [fst snd] in *. subst uc.
    assert (P1 : forall k, vc =? 0 = false -> compile l vt false true None e1 = Code k ->
                 Pushes k st1 t1 (snd v) st').
    { intros k Z K. rewrite Z in M. destruct v as [tv vv]. cbn [fst snd] in *. subst tv.
      exact (value_none _ _ _ _ _ _ _ V1 T1 So1 Sc K M). }
    assert (P2 : forall k, vc =? 0 = true -> compile l vt false true None e2 = Code k ->
                 Pushes k st1 t1 (snd v) st').
    { intros k Z K. rewrite Z in M. destruct v as [tv vv]. cbn [fst snd] in *. subst tv.
      exact (value_none _ _ _ _ _ _ _ V2 T2 So2 Sc K M). }
    destruct (execute c) as [[uw w]| | |] eqn:Xc; try discriminate.
    + destruct (execute_meaning vt false _ _ _ Tc Xc) as (Fw & _ & Mc').
      cbn in Fw. subst uw. rewrite Mc' in Mc. injection Mc as -> ->.
      destruct (vc =? 0); auto.
    + destruct (compile l vt false true None c) as [b| |] eqn:Kc; try discriminate.
      destruct (compile l vt false true None e1) as [k1| |] eqn:K1; try discriminate.
      destruct (compile l vt false true None e2) as [k2| |] eqn:K2; try discriminate.
      injection C as <-.
      eapply pushes_cond with (vc := vc) (s1 := st1).
      * exact (value_none _ _ _ _ _ _ _ Vc Tc Soc S Kc Mc).
      * destruct (vc =? 0); auto.
  - intros root t code st v st' Rt T So D S C M.
    cbn [compile behaves] in C. rewrite !orb_false_r in C.
    destruct l; cbn [discardable] in D; [discriminate| |].
    + apply andb_true_iff in D. destruct D as [D P2]. apply andb_true_iff in D. destruct D as [Pc P1].
      rewrite (pure_behaves _ P1), (pure_behaves _ P2) in C. cbn [removes_unused negb orb] in C.
      assert (P : pure (ECond c e1 e2) = true) by (cbn [pure]; rewrite Pc, P1, P2; reflexivity).
      rewrite (pure_meaning _ _ _ _ _ P M).
      destruct (execute c); try discriminate; injection C as <-; apply leaves_nil.
    + apply andb_true_iff in D. destruct D as [D P2]. apply andb_true_iff in D. destruct D as [Pc P1].
      rewrite (pure_behaves _ P1), (pure_behaves _ P2) in C. cbn [removes_unused negb orb] in C.
      assert (P : pure (ECond c e1 e2) = true) by (cbn [pure]; rewrite Pc, P1, P2; reflexivity).
      rewrite (pure_meaning _ _ _ _ _ P M).
      destruct (execute c); try discriminate; injection C as <-; apply leaves_nil.
  - (* list *)
    intros t env code st v st' T So E S C M.
    destruct (meaning_typed _ _ _ _ _ _ _ T S M) as (Fv & R & _).
    pose proof (other_env l (EComma e1 e2) _ _ I E) as W.
    apply to_target; [| exact W | exact R]. clear W E.
    cbn [compile] in C. rewrite orb_true_r in C.
    apply cseq_inv in C. destruct C as (k1 & k2 & K1 & K2 & ->).
    cbn [typed] in T.
    destruct (typed vt e1) as [t1|] eqn:T1; [|discriminate].
    destruct (typed vt e2) as [t2|] eqn:T2; [|discriminate]. injection T as <-.
    cbn [sound] in So. apply andb_true_iff in So. destruct So as [So So2].
    apply andb_true_iff in So. destruct So as [So1 D].
    cbn [meaning] in M.
    destruct (meaning false vt e1 st) as [[v1 st1]|] eqn:M1; [|discriminate].
    destruct (meaning_typed _ _ _ _ _ _ _ T1 S M1) as (_ & _ & S1).
    eapply leaves_pushes.
    + eapply (D1 true t1 k1 st v1 st1); try assumption. reflexivity.
    + destruct v as [tv vv]. cbn [fst snd] in *. subst tv. exact (value_none _ _ _ _ _ _ _ V2 T2 So2 S1 K2 M).
  - intros root t code st v st' Rt T So D S C M.
    assert (Lv : l <> O0) by (intros ->; discriminate D).
    assert (D2' : discardable l e2 = true) by (destruct l; [congruence|exact D|exact D]).
    cbn [compile behaves] in C.
    assert (Here : negb (removes_unused l) || false || false = false)
      by (destruct l; [congruence|reflexivity|reflexivity]).
    rewrite Here in C.
    apply cseq_inv in C. destruct C as (k1 & k2 & K1 & K2 & ->).
    cbn [typed] in T.
    destruct (typed vt e1) as [t1|] eqn:T1; [|discriminate].
    destruct (typed vt e2) as [t2|] eqn:T2; [|discriminate]. injection T as <-.
    cbn [sound] in So. apply andb_true_iff in So. destruct So as [So So2].
    apply andb_true_iff in So. destruct So as [So1 Dd].
    cbn [meaning] in M.
    destruct (meaning false vt e1 st) as [[v1 st1]|] eqn:M1; [|discriminate].
    destruct (meaning_typed _ _ _ _ _ _ _ T1 S M1) as (_ & _ & S1).
    eapply leaves_app.
    + eapply (D1 true t1 k1 st v1 st1); try assumption. reflexivity.
    + eapply (D2 false t2 k2 st1 v st'); try assumption. intro; congruence.
Qed.

End Sim.
