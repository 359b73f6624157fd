(** Proofs about the expression compiler model. *)

From Coq Require Import ZArith Lia List Bool.
From Verif Require Import CppInt ArithModel ArithSpec ArithProofs ExprModel ExprSpec.
Import ListNotations.
Open Scope Z_scope.

Ltac Zify.zify_post_hook ::= Z.div_mod_to_equations.

(** *** Types and ranges *)

Lemma vty_eqb_eq : forall a b, vty_eqb a b = true -> a = b.
Proof.
  intros [i|] [j|] H; cbn in H; try discriminate; try reflexivity.
  apply ity_eqb_eq in H. subst. reflexivity.
Qed.

Lemma vrangeb_iff : forall t v, vrangeb t v = true <-> vrange t v.
Proof.
  intros [i|] v; cbn [vrangeb vrange].
  - apply in_rangeb_iff.
  - rewrite orb_true_iff, !Z.eqb_eq. tauto.
Qed.

Lemma vcast_range : forall t v, vrange t (vcast t v).
Proof.
  intros [i|] v; cbn [vrange vcast].
  - apply wrap_in_range.
  - destruct (v =? 0); auto.
Qed.

Lemma vcast_id : forall t v, vrange t v -> vcast t v = v.
Proof.
  intros [i|] v H; cbn [vrange vcast] in *.
  - apply wrap_id. exact H.
  - destruct H; subst; reflexivity.
Qed.

Lemma b2z_range : forall b, vrange Vb (b2z b).
Proof. intros []; cbn; auto. Qed.

Lemma unary_type : forall o t r,
  get_unitary_vtype (to_unop o) t = Some r ->
  forall v z, vm_unary (to_unop o) (t, v) = VmVal z -> fst z = r /\ vrange r (snd z).
Proof.
  intros o t r G v z H. unfold vm_unary, unitary_operator, vm_of in H.
  destruct o, t as [i|]; cbn [to_unop fst] in *; try discriminate;
    rewrite G in H; unfold bind in H.
  all: try (destruct (cpp_unary _ i v) as [w|]; [|discriminate]; injection H as <-;
    cbn [fst snd]; split; [reflexivity | apply vcast_range]).
  injection H as <-. cbn in G. injection G as <-. split; [reflexivity | apply b2z_range].
Qed.

Lemma binary_type : forall o t1 t2 r,
  get_binary_vtype (to_binop o) t1 t2 = Some r ->
  forall v1 v2 z, vm_binary (to_binop o) (t1, v1) (t2, v2) = VmVal z ->
  fst z = r /\ vrange r (snd z).
Proof.
  intros o t1 t2 r G v1 v2 z H. unfold vm_binary, binary_operator in H.
  rewrite G in H. unfold vm_of, bind in H.
  destruct o as [a|c| |], t1 as [i|], t2 as [j|]; cbn [to_binop fst] in H; try discriminate.
  - rewrite in_pairs_case in H. destruct (cpp_arith a i j v1 v2); [|discriminate].
    injection H as <-. split; [reflexivity | apply vcast_range].
  - rewrite in_pairs_case in H.
    destruct c; injection H as <-; (split; [reflexivity | apply vcast_range]).
  - destruct c; discriminate.
  - destruct c; discriminate.
  - destruct c; try discriminate; injection H as <-; (split; [reflexivity | apply vcast_range]).
  - injection H as <-. cbn in G. injection G as <-. split; [reflexivity | apply b2z_range].
  - injection H as <-. cbn in G. injection G as <-. split; [reflexivity | apply b2z_range].
Qed.

Section WithTypes.

Variable vt : vref -> vty.

Lemma styp_bin : forall o e1 e2,
  styp vt (EBin o e1 e2)
  = match styp vt e1, styp vt e2 with
    | Some t1, Some t2 => get_binary_vtype (to_binop o) t1 t2
    | _, _ => None
    end.
Proof. reflexivity. Qed.

(** The type the compiler gives an expression is the type of the language. *)
Lemma typed_styp : forall e t, typed vt e = Some t -> styp vt e = Some t.
Proof.
  induction e as [[t0 v0]|x|t0 i IHi|o e1 IH1 e2 IH2|o e1 IH1|x e1 IH1|a x e1 IH1|p d x|t0 e1 IH1
                 |c IHc e1 IH1 e2 IH2|e1 IH1 e2 IH2]; intros t H; cbn [typed styp] in *.
  - destruct (vrangeb t0 v0); [exact H | discriminate].
  - exact H.
  - destruct (typed vt i); [|discriminate]. destruct (vty_eqb t0 v); [exact H|discriminate].
  - destruct (typed vt e1) as [t1|]; [|destruct o as [|[]| |]; discriminate].
    destruct (typed vt e2) as [t2|]; [|destruct o as [|[]| |], t1; discriminate].
    rewrite (IH1 _ eq_refl), (IH2 _ eq_refl).
    destruct o as [a|c| |], t1 as [i|], t2 as [j|]; try discriminate;
      cbn [to_binop].
    + rewrite result_type_al. exact H.
    + cbn [get_binary_vtype]. rewrite find_row_spec. exact H.
    + destruct c; discriminate.
    + destruct c; discriminate.
    + destruct c; try discriminate; exact H.
    + exact H.
    + exact H.
  - destruct (typed vt e1) as [t1|]; [|destruct o; discriminate].
    rewrite (IH1 _ eq_refl).
    destruct o, t1 as [[]|]; try discriminate; exact H.
  - destruct (typed vt e1); [exact H|discriminate].
  - destruct (vt x) as [i|]; [|discriminate].
    destruct (typed vt e1) as [[j|]|]; try discriminate.
    rewrite (IH1 _ eq_refl). cbn [get_binary_vtype]. rewrite find_row_spec. exact H.
  - destruct (vt x) as [i|]; [|discriminate]. destruct p, d; exact H.
  - destruct (typed vt e1); [exact H|discriminate].
  - destruct (typed vt c) as [[|]|]; try discriminate.
    destruct (typed vt e1) as [t1|]; [|discriminate].
    destruct (typed vt e2) as [t2|]; [|discriminate].
    destruct (vty_eqb t1 t2); [|discriminate]. apply IH1. exact H.
  - destruct (typed vt e1); [|discriminate]. destruct (typed vt e2); [|discriminate].
    apply IH2. exact H.
Qed.

Lemma put_ok : forall st x w, store_ok vt st -> vrange (vt x) w -> store_ok vt (put st x w).
Proof.
  intros st x w H Hw y. unfold put. destruct (vref_eqb x y) eqn:E; [|apply H].
  destruct x as [n|n], y as [m|m]; cbn in E; try discriminate;
    apply Nat.eqb_eq in E; subst; exact Hw.
Qed.

(** Inversion of typing, one operator at a time. *)
Lemma typed_bin : forall o e1 e2 t,
  typed vt (EBin o e1 e2) = Some t ->
  exists t1 t2, typed vt e1 = Some t1 /\ typed vt e2 = Some t2
                /\ get_binary_vtype (to_binop o) t1 t2 = Some t.
Proof.
  intros o e1 e2 t H. pose proof (typed_styp _ _ H) as G. rewrite styp_bin in G.
  cbn [typed] in H.
  destruct (typed vt e1) as [t1|] eqn:E1; [|destruct o as [|[]| |]; discriminate].
  destruct (typed vt e2) as [t2|] eqn:E2; [|destruct o as [|[]| |], t1; discriminate].
  rewrite (typed_styp _ _ E1), (typed_styp _ _ E2) in G.
  exists t1, t2. auto.
Qed.

Lemma typed_un : forall o e1 t,
  typed vt (EUn o e1) = Some t ->
  exists t1, typed vt e1 = Some t1 /\ get_unitary_vtype (to_unop o) t1 = Some t.
Proof.
  intros o e1 t H. pose proof (typed_styp _ _ H) as G. cbn [styp] in G. cbn [typed] in H.
  destruct (typed vt e1) as [t1|] eqn:E1; [|destruct o; discriminate].
  rewrite (typed_styp _ _ E1) in G. exists t1. auto.
Qed.

Lemma bool_logic : forall o t1 t2 r, o = OAnd \/ o = OOr ->
  get_binary_vtype (to_binop o) t1 t2 = Some r -> t1 = Vb /\ t2 = Vb /\ r = Vb.
Proof.
  intros o [i|] [j|] r [-> | ->] H; cbn in H; try discriminate;
    injection H as <-; auto.
Qed.

(** The meaning of a typed expression has its type, and keeps variables in
    range. *)
Lemma meaning_typed : forall lazy e t st v st',
  typed vt e = Some t -> store_ok vt st -> meaning lazy vt e st = Some (v, st') ->
  fst v = t /\ vrange t (snd v) /\ store_ok vt st'.
Proof.
  intros lazy.
  induction e as [[t0 v0]|x|t0 i IHi|o e1 IH1 e2 IH2|o e1 IH1|x e1 IH1|a x e1 IH1|p d x|t0 e1 IH1
                 |c IHc e1 IH1 e2 IH2|e1 IH1 e2 IH2]; intros t st v st' T S M; cbn [meaning] in M.
  - cbn [typed] in T. destruct (vrangeb t0 v0) eqn:R; [|discriminate].
    injection T as <-. injection M as <- <-. apply vrangeb_iff in R. auto.
  - injection T as <-. injection M as <- <-. cbn [fst snd]. auto.
  - cbn [typed] in T. destruct (typed vt i) as [ti|]; [|discriminate].
    destruct (vty_eqb t0 ti); [|discriminate]. injection T as <-.
    destruct (meaning lazy vt i st) as [[vi si]|]; [|discriminate].
    injection M as <- <-. cbn [fst snd]. split; [reflexivity|]. split; [apply vcast_range|auto].
  - destruct (typed_bin _ _ _ _ T) as (t1 & t2 & T1 & T2 & G).
    destruct (meaning lazy vt e1 st) as [[[u1 v1] st1]|] eqn:M1; [|discriminate].
    destruct (IH1 _ _ _ _ T1 S M1) as (F1 & R1 & S1). cbn [fst snd] in F1, R1.
    destruct (match o with
              | OAnd => lazy && (snd (u1, v1) =? 0)
              | OOr => lazy && negb (snd (u1, v1) =? 0)
              | _ => false end) eqn:St.
    + injection M as <- <-.
      assert (L : o = OAnd \/ o = OOr) by (destruct o; try discriminate; auto).
      destruct (bool_logic _ _ _ _ L G) as (-> & -> & ->). cbn [fst snd]. auto.
    + destruct (meaning lazy vt e2 st1) as [[[u2 v2] st2]|] eqn:M2; [|discriminate].
      destruct (IH2 _ _ _ _ T2 S1 M2) as (F2 & R2 & S2). cbn [fst snd] in F2, R2. subst u1 u2.
      destruct (vm_binary (to_binop o) (t1, v1) (t2, v2)) as [r| |] eqn:B; try discriminate.
      injection M as <- <-. destruct (binary_type _ _ _ _ G _ _ _ B). auto.
  - destruct (typed_un _ _ _ T) as (t1 & T1 & G).
    destruct (meaning lazy vt e1 st) as [[[u1 v1] st1]|] eqn:M1; [|discriminate].
    destruct (IH1 _ _ _ _ T1 S M1) as (F1 & R1 & S1). cbn [fst snd] in F1, R1. subst u1.
    destruct (vm_unary (to_unop o) (t1, v1)) as [r| |] eqn:B; try discriminate.
    injection M as <- <-. destruct (unary_type _ _ _ G _ _ B). auto.
  - cbn [typed] in T. destruct (typed vt e1) as [t1|] eqn:T1; [|discriminate]. injection T as <-.
    destruct (meaning lazy vt e1 st) as [[v1 st1]|] eqn:M1; [|discriminate].
    destruct (IH1 _ _ _ _ eq_refl S M1) as (F1 & R1 & S1). injection M as <- <-. cbn [fst snd].
    split; [reflexivity|]. split; [apply vcast_range|].
    apply put_ok; [exact S1 | apply vcast_range].
  - cbn [typed] in T. destruct (vt x) as [i|] eqn:X; [|discriminate].
    destruct (typed vt e1) as [[j|]|] eqn:T1; try discriminate. injection T as <-.
    destruct (meaning lazy vt e1 st) as [[v1 st1]|] eqn:M1; [|discriminate].
    destruct (IH1 _ _ _ _ eq_refl S M1) as (F1 & R1 & S1).
    destruct (vm_binary _ _ _) as [r| |] eqn:B; try discriminate.
    injection M as <- <-. cbn [fst snd].
    split; [reflexivity|]. split; [apply (vcast_range (Vi i))|].
    apply put_ok; [exact S1 | rewrite X; apply (vcast_range (Vi i))].
  - cbn [typed] in T. destruct (vt x) as [i|] eqn:X; [|discriminate]. injection T as <-.
    destruct (vm_binary _ _ _) as [r| |] eqn:B; try discriminate.
    injection M as <- <-. cbn [fst snd].
    pose proof (S x) as Sx. rewrite X in Sx.
    split; [reflexivity|]. split.
    + destruct p; [exact Sx | apply (vcast_range (Vi i))].
    + apply put_ok; [exact S | rewrite X; apply (vcast_range (Vi i))].
  - cbn [typed] in T. destruct (typed vt e1) as [t1|] eqn:T1; [|discriminate]. injection T as <-.
    destruct (meaning lazy vt e1 st) as [[v1 st1]|] eqn:M1; [|discriminate].
    destruct (IH1 _ _ _ _ eq_refl S M1) as (F1 & R1 & S1). injection M as <- <-. cbn [fst snd].
    split; [reflexivity|]. split; [apply vcast_range | exact S1].
  - cbn [typed] in T.
    destruct (typed vt c) as [[|]|] eqn:Tc; try discriminate.
    destruct (typed vt e1) as [t1|] eqn:T1; [|discriminate].
    destruct (typed vt e2) as [t2|] eqn:T2; [|discriminate].
    destruct (vty_eqb t1 t2) eqn:E; [|discriminate]. apply vty_eqb_eq in E. subst t2.
    injection T as <-.
    destruct (meaning lazy vt c st) as [[vc st1]|] eqn:Mc; [|discriminate].
    destruct (IHc _ _ _ _ eq_refl S Mc) as (_ & _ & S1).
    destruct (snd vc =? 0); [apply (IH2 _ st1) | apply (IH1 _ st1)]; auto.
  - cbn [typed] in T.
    destruct (typed vt e1) as [t1|] eqn:T1; [|discriminate].
    destruct (typed vt e2) as [t2|] eqn:T2; [|discriminate]. injection T as <-.
    destruct (meaning lazy vt e1 st) as [[v1 st1]|] eqn:M1; [|discriminate].
    destruct (IH1 _ _ _ _ eq_refl S M1) as (_ & _ & S1). apply (IH2 _ st1); auto.
Qed.

(** *** The constant evaluator *)

Lemma execute_meaning : forall lazy e t v,
  typed vt e = Some t -> execute e = Const v ->
  fst v = t /\ vrange t (snd v) /\ forall st, meaning lazy vt e st = Some (v, st).
Proof.
  intros lazy.
  induction e as [[t0 v0]|x|t0 i IHi|o e1 IH1 e2 IH2|o e1 IH1|x e1 IH1|a x e1 IH1|p d x|t0 e1 IH1
                 |c IHc e1 IH1 e2 IH2|e1 IH1 e2 IH2]; intros t v T X; cbn [execute] in X;
    try discriminate.
  - cbn [typed] in T. destruct (vrangeb t0 v0) eqn:R; [|discriminate].
    injection T as <-. injection X as <-. apply vrangeb_iff in R. auto.
  - cbn [typed] in T. destruct (typed vt i) as [ti|]; [|discriminate].
    destruct (vty_eqb t0 ti) eqn:E; [|discriminate]. apply vty_eqb_eq in E. subst ti.
    injection T as <-. destruct (IHi _ _ eq_refl X) as (F & R & M).
    split; [exact F|]. split; [exact R|]. intro st. cbn [meaning]. rewrite M.
    rewrite vcast_id by exact R. destruct v as [tv vv]. cbn [fst snd] in *. subst. reflexivity.
  - destruct (typed_bin _ _ _ _ T) as (t1 & t2 & T1 & T2 & G).
    destruct (execute e1) as [[u1 v1]| | |] eqn:X1; try discriminate.
    2: destruct (execute e2); discriminate.
    destruct (execute e2) as [[u2 v2]| | |] eqn:X2; try discriminate.
    destruct (IH1 _ _ T1 eq_refl) as (F1 & R1 & M1).
    destruct (IH2 _ _ T2 eq_refl) as (F2 & R2 & M2). cbn [fst snd] in *. subst u1 u2.
    apply c10_binary in X; [|destruct o; discriminate].
    destruct (binary_type _ _ _ _ G _ _ _ X) as [Fz Rz].
    split; [exact Fz|]. split; [exact Rz|]. intro st. cbn [meaning]. rewrite M1. cbn [snd].
    destruct o as [a|c| |]; cbn [to_binop] in *.
    + rewrite M2, X. reflexivity.
    + rewrite M2, X. reflexivity.
    + destruct (bool_logic OAnd _ _ _ (or_introl eq_refl) G) as (-> & -> & ->).
      destruct (lazy && (v1 =? 0)) eqn:Z.
      * apply andb_true_iff in Z. destruct Z as [_ Z]. apply Z.eqb_eq in Z. subst v1.
        cbn in X. injection X as <-. reflexivity.
      * rewrite M2, X. reflexivity.
    + destruct (bool_logic OOr _ _ _ (or_intror eq_refl) G) as (-> & -> & ->).
      destruct (lazy && negb (v1 =? 0)) eqn:Z.
      * apply andb_true_iff in Z. destruct Z as [_ Z]. destruct R1; subst v1; [discriminate|].
        cbn in X. injection X as <-. reflexivity.
      * rewrite M2, X. reflexivity.
  - destruct (typed_un _ _ _ T) as (t1 & T1 & G).
    destruct (execute e1) as [[u1 v1]| | |] eqn:X1; try discriminate.
    destruct (IH1 _ _ T1 eq_refl) as (F1 & R1 & M1). cbn [fst snd] in *. subst u1.
    apply c10_unary in X; [|destruct o; auto].
    destruct (unary_type _ _ _ G _ _ X) as [Fz Rz].
    split; [exact Fz|]. split; [exact Rz|]. intro st. cbn [meaning]. rewrite M1, X. reflexivity.
  - destruct (execute e1); discriminate.
  - destruct (execute e1); discriminate.
  - cbn [typed] in T. destruct (typed vt e1) as [t1|] eqn:T1; [|discriminate]. injection T as <-.
    destruct (execute e1) as [v1| | |]; try discriminate. injection X as <-.
    destruct (IH1 _ _ eq_refl eq_refl) as (F1 & R1 & M1). cbn [fst snd].
    split; [reflexivity|]. split; [apply vcast_range|]. intro st. cbn [meaning]. rewrite M1.
    reflexivity.
  - cbn [typed] in T.
    destruct (typed vt c) as [[|]|] eqn:Tc; try discriminate.
    destruct (typed vt e1) as [t1|] eqn:T1; [|discriminate].
    destruct (typed vt e2) as [t2|] eqn:T2; [|discriminate].
    destruct (vty_eqb t1 t2) eqn:E; [|discriminate]. apply vty_eqb_eq in E. subst t2.
    injection T as <-.
    destruct (execute c) as [[[|] vc]| | |]; try discriminate.
    destruct (IHc _ _ eq_refl eq_refl) as (_ & _ & Mc).
    destruct (vc =? 0) eqn:Z.
    + destruct (IH2 _ _ eq_refl X) as (F & R & M). split; [exact F|]. split; [exact R|].
      intro st. cbn [meaning]. rewrite Mc. cbn [snd]. rewrite Z. apply M.
    + destruct (IH1 _ _ eq_refl X) as (F & R & M). split; [exact F|]. split; [exact R|].
      intro st. cbn [meaning]. rewrite Mc. cbn [snd]. rewrite Z. apply M.
Qed.

Lemma execute_maybe : forall e v, execute e = Const v -> maybe_constant e = true.
Proof.
  induction e as [[t0 v0]|x|t0 i IHi|o e1 IH1 e2 IH2|o e1 IH1|x e1 IH1|a x e1 IH1|p d x|t0 e1 IH1
                 |c IHc e1 IH1 e2 IH2|e1 IH1 e2 IH2]; intros v X; cbn [execute maybe_constant] in *;
    try discriminate.
  - reflexivity.
  - eapply IHi. exact X.
  - destruct (execute e1) eqn:X1; try discriminate; destruct (execute e2) eqn:X2; try discriminate.
    rewrite (IH1 _ eq_refl), (IH2 _ eq_refl). reflexivity.
  - destruct (execute e1) eqn:X1; try discriminate. eapply IH1. reflexivity.
  - destruct (execute e1); discriminate.
  - destruct (execute e1); discriminate.
  - destruct (execute e1) eqn:X1; try discriminate. eapply IH1. reflexivity.
  - destruct (execute c) as [[[|] vc]| | |] eqn:Xc; try discriminate.
    rewrite (IHc _ eq_refl). destruct (vc =? 0).
    + rewrite (IH2 _ X). apply orb_true_r.
    + rewrite (IH1 _ X). reflexivity.
Qed.

Lemma constant_is_execute : forall e t n,
  typed vt e = Some t -> is_number n (execute e) = true -> constant_is vt n e = true.
Proof.
  intros e t n T N. destruct (execute e) as [[u v]| | |] eqn:X; try discriminate.
  cbn [is_number] in N. unfold constant_is.
  rewrite (execute_maybe _ _ X).
  destruct (execute_meaning false _ _ _ T X) as (_ & _ & M). rewrite M. exact N.
Qed.

Lemma literal_execute : forall e, literal e = true -> execute e <> NotConst.
Proof.
  induction e as [[t0 v0]|x|t0 i IHi|o e1 IH1 e2 IH2|o e1 IH1|x e1 IH1|a x e1 IH1|p d x|t0 e1 IH1
                 |c IHc e1 IH1 e2 IH2|e1 IH1 e2 IH2]; intros L; cbn [execute literal] in *;
    try discriminate.
  - apply IHi. exact L.
  - assert (L2 : literal e1 && literal e2 = true /\ o <> OAl Shl /\ o <> OAl Shr).
    { destruct o as [[]|c| |]; try discriminate; (split; [exact L | split; discriminate]). }
    destruct L2 as (L2 & N1 & N2). apply andb_true_iff in L2. destruct L2 as [L1 L2].
    specialize (IH1 L1). specialize (IH2 L2).
    destruct (execute e1); try discriminate; try contradiction.
    destruct (execute e2); try discriminate; try contradiction.
    unfold fold_binary, of_res. destruct o as [[]|[]| |]; cbn [to_binop]; try contradiction;
      repeat match goal with
             | |- context [if ?b then _ else _] => destruct b
             | |- context [match binary_operator ?o ?x ?y with _ => _ end] =>
                 destruct (binary_operator o x y)
             end; discriminate.
  - specialize (IH1 L). destruct (execute e1); try discriminate; try contradiction.
    unfold fold_unary, of_res. destruct o; cbn [to_unop];
      repeat match goal with
             | |- context [if ?b then _ else _] => destruct b
             | |- context [match unitary_operator ?o ?x with _ => _ end] =>
                 destruct (unitary_operator o x)
             end; discriminate.
  - specialize (IH1 L). destruct (execute e1); try discriminate; try contradiction.
Qed.

End WithTypes.
