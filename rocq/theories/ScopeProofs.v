From Coq Require Import List ZArith Bool Arith Lia Permutation.
Import ListNotations.
From Verif Require Import ScopeModel ScopeSpec.
Open Scope nat_scope.

Lemma name_eqb_eq a b : name_eqb a b = true <-> a = b.
Proof.
  destruct a, b; cbn; split; intros H; try discriminate H; try congruence.
  - apply Nat.eqb_eq in H. congruence.
  - injection H as ->. apply Nat.eqb_refl.
  - apply Z.eqb_eq in H. congruence.
  - injection H as ->. apply Z.eqb_refl.
Qed.

Lemma name_eqb_refl a : name_eqb a a = true.
Proof. apply name_eqb_eq. reflexivity. Qed.

Lemma decl_eqb_eq a b : decl_eqb a b = true <-> a = b.
Proof.
  destruct a, b; cbn; split; intros H; try discriminate H; try congruence;
    rewrite ?andb_true_iff, ?Nat.eqb_eq in *; try (injection H; intros); try (destruct H); subst; auto.
Qed.

Lemma find_var_none x vs : find_var x vs = None <-> forall v, ~ In (x, v) vs.
Proof.
  induction vs as [|[y w] vs IH]; cbn; [intuition|]. destruct (name_eqb x y) eqn:E.
  - apply name_eqb_eq in E. subst y. split; [discriminate|]. intros H. exfalso. apply (H w). left. reflexivity.
  - rewrite IH. split.
    + intros H v [H1|H1]; [|exact (H v H1)]. injection H1 as -> _. rewrite name_eqb_refl in E. discriminate E.
    + intros H v H1. apply (H v). right. exact H1.
Qed.

Lemma find_var_some x vs v : find_var x vs = Some v <->
  exists before after, vs = before ++ (x, v) :: after /\ forall w, ~ In (x, w) before.
Proof.
  split.
  - induction vs as [|[y w] vs IH]; cbn; [discriminate|]. destruct (name_eqb x y) eqn:E.
    + apply name_eqb_eq in E. subst y. intros H. injection H as ->. exists [], vs. split; [reflexivity|]. intros w [].
    + intros H. destruct (IH H) as (be & af & -> & HN). exists ((y, w) :: be), af. split; [reflexivity|].
      intros w' [H1|H1]; [|exact (HN w' H1)]. injection H1 as -> _. rewrite name_eqb_refl in E. discriminate E.
  - intros (be & af & -> & HN). induction be as [|[y w] be IH]; cbn.
    + rewrite name_eqb_refl. reflexivity.
    + destruct (name_eqb x y) eqn:E.
      * apply name_eqb_eq in E. subst y. exfalso. apply (HN w). left. reflexivity.
      * apply IH. intros w' H. apply (HN w'). right. exact H.
Qed.

Lemma find_var_app x a b : find_var x (a ++ b) =
  match find_var x a with Some v => Some v | None => find_var x b end.
Proof. induction a as [|[y w] a IH]; cbn; [reflexivity|]. destruct (name_eqb x y); [reflexivity|exact IH]. Qed.

(** Looking up follows the scopes. *)
Lemma get_means rs chain x v :
  get rs chain x = Some v <-> means (map (fun i => r_vars (rs i)) chain) x v.
Proof.
  induction chain as [|r chain IH]; cbn.
  - split; [discriminate|]. intros H. inversion H.
  - destruct (find_var x (r_vars (rs r))) as [w|] eqn:E.
    + split.
      * intros H. injection H as ->. apply find_var_some in E. destruct E as (be & af & E & HN).
        eapply means_here; eassumption.
      * intros H. inversion H; subst.
        -- f_equal. assert (E1 : find_var x (r_vars (rs r)) = Some v) by (apply find_var_some; eauto).
           congruence.
        -- match goal with HN : forall w, ~ In _ _ |- _ => apply find_var_none in HN end. congruence.
    + rewrite IH. split.
      * intros H. apply means_outer; [apply find_var_none, E|exact H].
      * intros H. inversion H; subst; [|assumption].
        assert (E1 : find_var x (r_vars (rs r)) = Some v) by (apply find_var_some; eauto). congruence.
Qed.

Lemma walk_name_meaning rs tn use :
  meaning tn (map (fun i => r_vars (rs i)) (snd use :: r_previous (rs (snd use)))) (fst use) (walk_name rs tn use).
Proof.
  unfold walk_name. destruct (get rs (snd use :: r_previous (rs (snd use))) (fst use)) as [[k d]|] eqn:E.
  - apply get_means. exact E.
  - assert (N : forall v, ~ means (map (fun i => r_vars (rs i)) (snd use :: r_previous (rs (snd use)))) (fst use) v).
    { intros v H. apply get_means in H. congruence. }
    destruct (tn (fst use)) eqn:T; split; assumption.
Qed.

(** What does not change. *)
Definition same_but_index (a b : regions) : Prop :=
  forall i, r_previous (b i) = r_previous (a i) /\ r_kinds (b i) = r_kinds (a i) /\
            r_vars (b i) = r_vars (a i) /\ r_identity (b i) = r_identity (a i) /\ r_last (b i) = r_last (a i).

Lemma upd_same rs r g : upd rs r g r = g.
Proof. unfold upd. rewrite Nat.eqb_refl. reflexivity. Qed.
Lemma upd_other rs r g i : i <> r -> upd rs r g i = rs i.
Proof. intros H. unfold upd. destruct (Nat.eqb_spec i r); congruence. Qed.

Lemma current_index_frame r previous : forall rs, same_but_index rs (snd (current_index rs r previous)).
Proof.
  assert (U : forall rs r v, same_but_index rs (upd rs r (set_index (rs r) v))).
  { intros rs q v i. unfold upd. destruct (Nat.eqb_spec i q); [subst; repeat split|repeat split]. }
  revert r. induction previous as [|p more IH]; intros r rs; cbn [current_index].
  - destruct (_ =? _)%Z; [apply U|]. intros i. repeat split.
  - destruct (_ =? _)%Z; [|intros i; repeat split].
    destruct (local_supported rs p); [|apply U].
    specialize (IH p rs). destruct (current_index rs p more) as [v rs'] eqn:E. cbn [snd] in *.
    intros i. specialize (U rs' r v i). specialize (IH i).
    destruct U as (U1 & U2 & U3 & U4 & U5), IH as (I1 & I2 & I3 & I4 & I5).
    repeat split; congruence.
Qed.

(** Effect of [define_local] on everything but the counters and the locals. *)
Lemma define_local_some st r x d st' : define_local st r x d = Some st' ->
  find_var x (r_vars (s_regions st r)) = None /\ r_kinds (s_regions st r) VLocal = true /\
  s_next st' = s_next st /\ s_reports st' = s_reports st /\ s_null st' = s_null st /\
  s_pending st' = s_pending st /\ s_sites st' = s_sites st /\
  (forall i, r_previous (s_regions st' i) = r_previous (s_regions st i) /\
             r_kinds (s_regions st' i) = r_kinds (s_regions st i)) /\
  r_vars (s_regions st' r) = r_vars (s_regions st r) ++ [(x, (VLocal, d))] /\
  (forall i, i <> r -> r_vars (s_regions st' i) = r_vars (s_regions st i)).
Proof.
  unfold define_local, define. destruct (r_kinds (s_regions st r) VLocal) eqn:K; [|discriminate].
  destruct (find_var x (r_vars (s_regions st r))) as [[k' d']|] eqn:E; [cbn; discriminate|].
  set (rs := upd (s_regions st) r (add_var (s_regions st r) x (VLocal, d))).
  set (root := identity_root rs r (r_previous (rs r))).
  set (rs1 := upd rs root (set_identity (rs root) (msucc (r_identity (rs root))))).
  assert (F := current_index_frame r (r_previous (rs1 r)) rs1).
  destruct (current_index rs1 r (r_previous (rs1 r))) as [index rs2]. cbn [snd] in F. cbv zeta.
  set (rs3 := upd rs2 r (set_index (rs2 r) (msucc index))).
  assert (A : forall i, r_previous (rs3 i) = r_previous (s_regions st i) /\
                        r_kinds (rs3 i) = r_kinds (s_regions st i) /\ r_vars (rs3 i) = r_vars (rs i)).
  { intros i. destruct (F i) as (F1 & F2 & F3 & _).
    assert (B : r_previous (rs3 i) = r_previous (rs2 i) /\ r_kinds (rs3 i) = r_kinds (rs2 i) /\ r_vars (rs3 i) = r_vars (rs2 i)).
    { unfold rs3, upd. destruct (Nat.eqb_spec i r); [subst i|]; repeat split. }
    assert (C : r_previous (rs1 i) = r_previous (rs i) /\ r_kinds (rs1 i) = r_kinds (rs i) /\ r_vars (rs1 i) = r_vars (rs i)).
    { unfold rs1, upd. destruct (Nat.eqb_spec i root); [subst i|]; repeat split. }
    assert (G : r_previous (rs i) = r_previous (s_regions st i) /\ r_kinds (rs i) = r_kinds (s_regions st i)).
    { unfold rs, upd. destruct (Nat.eqb_spec i r); [subst i|]; repeat split. }
    destruct B as (B1 & B2 & B3), C as (C1 & C2 & C3), G as (G1 & G2). repeat split; congruence. }
  assert (V1 : r_vars (rs r) = r_vars (s_regions st r) ++ [(x, (VLocal, d))]).
  { unfold rs. rewrite upd_same. reflexivity. }
  assert (V2 : forall i, i <> r -> r_vars (rs i) = r_vars (s_regions st i)).
  { intros i H. unfold rs. rewrite upd_other by exact H. reflexivity. }
  assert (L : forall l i, let rs4 := upd rs3 r (set_last (rs3 r) l) in
     r_previous (rs4 i) = r_previous (rs3 i) /\ r_kinds (rs4 i) = r_kinds (rs3 i) /\ r_vars (rs4 i) = r_vars (rs3 i)).
  { intros l i. unfold upd. destruct (Nat.eqb_spec i r); [subst i|]; repeat split. }
  intros H. split; [reflexivity|]. split; [reflexivity|].
  destruct (r_last (rs3 r)); injection H as <-; unfold with_regions; cbn [s_next s_reports s_null s_pending s_sites s_regions];
    do 5 (split; [reflexivity|]).
  - split; [intros i; split; apply A|]. split.
    + destruct (A r) as (_ & _ & ->). exact V1.
    + intros i HI. destruct (A i) as (_ & _ & ->). apply V2, HI.
  - split.
    { intros i. destruct (L (Node d) i) as (-> & -> & _). split; apply A. }
    split.
    + destruct (L (Node d) r) as (_ & _ & ->). destruct (A r) as (_ & _ & ->). exact V1.
    + intros i HI. destruct (L (Node d) i) as (_ & _ & ->). destruct (A i) as (_ & _ & ->). apply V2, HI.
  - split.
    { intros i. destruct (L (Node d) i) as (-> & -> & _). split; apply A. }
    split.
    + destruct (L (Node d) r) as (_ & _ & ->). destruct (A r) as (_ & _ & ->). exact V1.
    + intros i HI. destruct (L (Node d) i) as (_ & _ & ->). destruct (A i) as (_ & _ & ->). apply V2, HI.
Qed.

Lemma define_local_none st r x d : r_kinds (s_regions st r) VLocal = true ->
  (define_local st r x d = None <-> find_var x (r_vars (s_regions st r)) <> None).
Proof.
  intros K. unfold define_local, define. rewrite K.
  destruct (find_var x (r_vars (s_regions st r))) as [[k' d']|] eqn:E; cbn.
  - split; [intros _; discriminate|reflexivity].
  - destruct (current_index _ _ _) as [index rs2].
    destruct (r_last _); split; congruence.
Qed.

(** The names of a walk. *)
Definition scopes_of (F : regions) (i : nat) : list scope :=
  map (fun j => r_vars (F j)) (i :: r_previous (F i)).

Lemma own_names b : forall n m, map fst (own n b) = map fst (own m b).
Proof.
  induction b; intros n m; cbn; auto.
  - f_equal. apply IHb.
  - rewrite !map_app. f_equal; auto.
Qed.

Lemma local_scope_app a b : local_scope (a ++ b) = local_scope a ++ local_scope b.
Proof. apply map_app. Qed.

Definition fresh (vs : scope) (l : list (name * decl)) : Prop :=
  forall x d, In (x, d) l -> find_var x vs = None.

(** [E] is empty exactly if no scope is ambiguous. *)
Definition fine (vs : scope) (b : body) : Prop :=
  NoDup (map fst (own 0 b)) /\ (forall x, In x (map fst (own 0 b)) -> find_var x vs = None) /\ unambiguous b.

Record grown (st st' : state) (r : nat) (b : body) : Prop := {
  g_next : s_next st' = s_next st + regions_in b;
  g_sites : s_sites st' = s_sites st + count b;
  g_regions : forall i, i < s_next st ->
     r_previous (s_regions st' i) = r_previous (s_regions st i) /\
     r_kinds (s_regions st' i) = r_kinds (s_regions st i) /\
     (i <> r -> r_vars (s_regions st' i) = r_vars (s_regions st i));
  g_reports : exists E, s_reports st' = s_reports st ++ E /\
     (s_null st' = true <-> s_null st = true \/ E <> []) /\
     (E = [] <-> fine (r_vars (s_regions st r)) b) /\
     (E = [] ->
        r_vars (s_regions st' r) = r_vars (s_regions st r) ++ local_scope (own (s_sites st) b) /\
        exists P, s_pending st' = s_pending st ++ P /\
          forall F, (forall i, i < s_next st' -> r_previous (F i) = r_previous (s_regions st' i)) ->
            (forall i, s_next st <= i < s_next st' -> r_vars (F i) = r_vars (s_regions st' i)) ->
            map (fun p => (fst p, scopes_of F (snd p))) P = uses (scopes_of F r) (s_sites st) b)
}.

Lemma declare_cases st r x : r_kinds (s_regions st r) VLocal = true ->
  (exists v, find_var x (r_vars (s_regions st r)) = Some v /\ declare st r x = met (report st x true)) \/
  (find_var x (r_vars (s_regions st r)) = None /\
   exists st1, define_local st r x (DLocal (s_sites st)) = Some st1 /\ declare st r x = met st1).
Proof.
  intros K. unfold declare. destruct (define_local st r x (DLocal (s_sites st))) as [st1|] eqn:E.
  - right. split; [apply (define_local_some _ _ _ _ _ E)|]. exists st1. auto.
  - left. apply (define_local_none _ _ _ _ K) in E.
    destruct (find_var x (r_vars (s_regions st r))) as [v|]; [|congruence]. exists v. auto.
Qed.

Lemma fine_declare vs x rest v : fst v = VLocal ->
  (fine vs (Declare x rest) <-> find_var x vs = None /\ fine (vs ++ [(x, v)]) rest).
Proof.
  intros _. unfold fine. cbn [own map fst unambiguous]. rewrite (own_names rest 1 0). split.
  - intros (H1 & H2 & H3). inversion H1 as [|? ? N1 N2]; subst. split; [apply H2; left; reflexivity|].
    split; [exact N2|]. split; [|exact H3]. intros y HY. rewrite find_var_app, (H2 y) by (right; exact HY).
    cbn. destruct (name_eqb y x) eqn:E; [|reflexivity]. apply name_eqb_eq in E. subst y. contradiction.
  - intros (H1 & N & H2 & H3). split; [|split; [|exact H3]].
    + constructor; [|exact N]. intros HX. specialize (H2 x HX). rewrite find_var_app, H1 in H2. cbn in H2.
      rewrite name_eqb_refl in H2. discriminate H2.
    + intros y [<-|HY]; [exact H1|]. specialize (H2 y HY). rewrite find_var_app in H2.
      destruct (find_var y vs); [discriminate H2|reflexivity].
Qed.

Lemma fine_block vs inner rest : fine vs (Block inner rest) <-> fine [] inner /\ fine vs rest.
Proof.
  unfold fine. cbn [own unambiguous]. rewrite (own_names rest (0 + count inner) 0). split.
  - intros (H1 & H2 & H3 & H4 & H5). repeat split; auto.
  - intros ((H1 & _ & H2) & H3 & H4 & H5). repeat split; auto.
Qed.

Lemma find_local_scope y l : find_var y (local_scope l) = None <-> ~ In y (map fst l).
Proof.
  rewrite find_var_none. unfold local_scope. split.
  - intros H HI. apply in_map_iff in HI. destruct HI as ((a & d) & <- & HI).
    apply (H (VLocal, d)). apply in_map_iff. exists (a, d). split; [reflexivity|exact HI].
  - intros H v HI. apply H. apply in_map_iff in HI. destruct HI as ((a & d) & E & HI). cbn in E.
    injection E as <- _. apply in_map_iff. exists (a, d). split; [reflexivity|exact HI].
Qed.

Lemma nodup_app {A} (a b : list A) : NoDup (a ++ b) <-> NoDup a /\ NoDup b /\ forall x, In x a -> ~ In x b.
Proof.
  induction a as [|h a IH]; cbn.
  - split; [intros H; repeat split; [constructor|exact H|intros x []]|intros (_ & H & _); exact H].
  - split.
    + intros H. inversion H as [|? ? N1 N2]; subst. apply IH in N2. destruct N2 as (Na & Nb & D).
      repeat split; [constructor; [|exact Na]|exact Nb|].
      * intros HI. apply N1. apply in_or_app. left. exact HI.
      * intros x [<-|HX] HB; [apply N1, in_or_app; right; exact HB|exact (D x HX HB)].
    + intros (Na & Nb & D). inversion Na as [|? ? N1 N2]; subst. constructor.
      * intros HI. apply in_app_or in HI. destruct HI as [HI|HI]; [exact (N1 HI)|]. exact (D h (or_introl eq_refl) HI).
      * apply IH. repeat split; [exact N2|exact Nb|]. intros x HX. apply D. right. exact HX.
Qed.

Lemma fine_nested vs inner rest n : fine vs (Nested inner rest) <->
  fine vs inner /\ fine (vs ++ local_scope (own n inner)) rest.
Proof.
  unfold fine. cbn [own unambiguous]. rewrite map_app, (own_names rest (0 + count inner) 0), nodup_app.
  split.
  - intros ((H1 & H2 & H3) & H4 & H5 & H6). repeat split; auto.
    + intros x HX. apply H4. apply in_or_app. left. exact HX.
    + intros x HX. rewrite find_var_app, (H4 x) by (apply in_or_app; right; exact HX).
      apply find_local_scope. rewrite (own_names inner n 0). intros HI. exact (H3 x HI HX).
  - intros ((H1 & H2 & H3) & H4 & H5 & H6).
    assert (D : forall x, In x (map fst (own 0 rest)) -> find_var x vs = None /\ ~ In x (map fst (own 0 inner))).
    { intros x HX. specialize (H5 x HX). rewrite find_var_app in H5. destruct (find_var x vs); [discriminate H5|].
      split; [reflexivity|]. apply find_local_scope in H5. rewrite (own_names inner n 0) in H5. exact H5. }
    repeat split; auto.
    + intros x HX HY. exact (proj2 (D x HY) HX).
    + intros x HX. apply in_app_or in HX. destruct HX as [HX|HX]; [auto|]. apply D, HX.
Qed.

Lemma grown_nested st st1 st2 r inner rest : r < s_next st ->
  grown st st1 r inner -> grown st1 st2 r rest -> grown st st2 r (Nested inner rest).
Proof.
  intros HR [N1 S1 R1 (E1 & RE1 & NU1 & FI1 & OK1)] [N2 S2 R2 (E2 & RE2 & NU2 & FI2 & OK2)]. split.
  - cbn [regions_in]. lia.
  - cbn [count]. lia.
  - intros i HI. destruct (R1 i HI) as (A1 & A2 & A3). destruct (R2 i ltac:(lia)) as (B1 & B2 & B3).
    split; [congruence|]. split; [congruence|]. intros NE. rewrite (B3 NE). apply A3, NE.
  - exists (E1 ++ E2). split; [rewrite RE2, RE1, app_assoc; reflexivity|]. split.
    { rewrite NU2, NU1. destruct E1, E2; cbn; intuition congruence. }
    assert (EE : E1 ++ E2 = [] <-> E1 = [] /\ E2 = []).
    { split; [apply app_eq_nil|intros [-> ->]; reflexivity]. }
    split.
    { rewrite EE, (fine_nested _ _ _ (s_sites st)). split.
      - intros [-> ->]. split; [apply FI1; reflexivity|].
        destruct (OK1 eq_refl) as (V1 & _). rewrite <- V1. apply FI2. reflexivity.
      - intros (F1 & F2). apply FI1 in F1. split; [exact F1|]. destruct (OK1 F1) as (V1 & _). rewrite <- V1 in F2.
        apply FI2, F2. }
    rewrite EE. intros [Z1 Z2]. destruct (OK1 Z1) as (V1 & P1 & PE1 & U1). destruct (OK2 Z2) as (V2 & P2 & PE2 & U2).
    split.
    { rewrite V2, V1. cbn [own]. rewrite local_scope_app, S1, app_assoc. reflexivity. }
    exists (P1 ++ P2). split; [rewrite PE2, PE1, app_assoc; reflexivity|].
    intros F HP HV. rewrite map_app. cbn [uses]. f_equal.
    + apply U1.
      * intros i HI. rewrite HP by lia. apply R2. exact HI.
      * intros i HI. rewrite HV by lia. apply R2; lia.
    + rewrite <- S1. apply U2; [exact HP|]. intros i HI. apply HV. lia.
Qed.

Lemma grown_block st st1 st2 r inner rest : r < s_next st ->
  grown (push_region st r) st1 (s_next st) inner -> grown st1 st2 r rest -> grown st st2 r (Block inner rest).
Proof.
  intros HR [N1 S1 R1 (E1 & RE1 & NU1 & FI1 & OK1)] [N2 S2 R2 (E2 & RE2 & NU2 & FI2 & OK2)].
  cbn [push_region s_next s_sites s_reports s_null s_pending] in *.
  assert (P0 : s_regions (push_region st r) (s_next st) =
     mk_region (r :: r_previous (s_regions st r)) block_kinds [] empty_index 0 (r_last (s_regions st r))).
  { cbn. apply upd_same. }
  assert (P1 : forall i, i < s_next st -> s_regions (push_region st r) i = s_regions st i).
  { intros i HI. cbn. apply upd_other. lia. }
  assert (VR : r_vars (s_regions st1 r) = r_vars (s_regions st r)).
  { rewrite <- (P1 r HR). apply R1; lia. }
  rewrite P0 in FI1, OK1. cbn [r_vars] in FI1, OK1. rewrite VR in FI2, OK2.
  split.
  - cbn [regions_in]. lia.
  - cbn [count]. lia.
  - intros i HI. destruct (R1 i ltac:(lia)) as (A1 & A2 & A3). destruct (R2 i ltac:(lia)) as (B1 & B2 & B3).
    rewrite P1 in A1, A2, A3 by exact HI.
    split; [congruence|]. split; [congruence|]. intros NE. rewrite (B3 NE). apply A3. lia.
  - exists (E1 ++ E2). split; [rewrite RE2, RE1, app_assoc; reflexivity|]. split.
    { rewrite NU2, NU1. destruct E1, E2; cbn; intuition congruence. }
    assert (EE : E1 ++ E2 = [] <-> E1 = [] /\ E2 = []).
    { split; [apply app_eq_nil|intros [-> ->]; reflexivity]. }
    split.
    { rewrite EE, fine_block, FI1, FI2. reflexivity. }
    rewrite EE. intros [Z1 Z2]. destruct (OK1 Z1) as (V1 & Q1 & PE1 & U1). destruct (OK2 Z2) as (V2 & Q2 & PE2 & U2).
    split; [rewrite V2; cbn [own]; rewrite S1; reflexivity|].
    exists (Q1 ++ Q2). split; [rewrite PE2, PE1, app_assoc; reflexivity|].
    intros F HP HV. rewrite map_app. cbn [uses]. f_equal.
    + rewrite U1.
      * f_equal. unfold scopes_of. cbn [map]. f_equal.
        -- rewrite HV by lia. destruct (R2 (s_next st) ltac:(lia)) as (_ & _ & B3). rewrite B3 by lia. exact V1.
        -- rewrite HP by lia. destruct (R2 (s_next st) ltac:(lia)) as (-> & _ & _).
           destruct (R1 (s_next st) ltac:(lia)) as (-> & _ & _). rewrite P0. cbn [r_previous map]. f_equal.
           rewrite HP by lia. destruct (R2 r ltac:(lia)) as (-> & _ & _). destruct (R1 r ltac:(lia)) as (-> & _ & _).
           rewrite P1 by lia. reflexivity.
      * intros i HI. rewrite HP by lia. apply R2. exact HI.
      * intros i HI. rewrite HV by lia. apply R2; lia.
    + rewrite <- S1. apply U2; [exact HP|]. intros i HI. apply HV. lia.
Qed.

Lemma grown_catch st st' r x inner rest :
  grown st st' r (Block (Declare x inner) rest) -> grown st st' r (Catch x inner rest).
Proof.
  intros [N CS R (E & RE & NU & FI & OK)]. split; [exact N|exact CS|exact R|].
  exists E. split; [exact RE|]. split; [exact NU|]. split.
  - rewrite FI. unfold fine. cbn [own unambiguous map fst count].
    rewrite (own_names rest (0 + S (count inner)) 0), (own_names rest (S (0 + count inner)) 0), (own_names inner 1 0).
    reflexivity.
  - intros Z. destruct (OK Z) as (V & P & PE & U). split.
    + rewrite V. cbn [own count]. rewrite Nat.add_succ_r. reflexivity.
    + exists P. split; [exact PE|]. intros F HP HV. rewrite (U F HP HV). cbn [uses own count].
      rewrite Nat.add_succ_r. reflexivity.
Qed.

Lemma grown_for st st' r inner rest :
  grown st st' r (Block inner rest) -> grown st st' r (For inner rest).
Proof. intros [N S R E]. split; assumption. Qed.

Lemma grown_declare b x :
  (forall r st, r < s_next st -> r_kinds (s_regions st r) VLocal = true -> grown st (walk r b st) r b) ->
  forall r st, r < s_next st -> r_kinds (s_regions st r) VLocal = true ->
  grown st (walk r b (declare st r x)) r (Declare x b).
Proof.
  intros IHb r st HR HK.
  destruct (declare_cases st r x HK) as [(v & FV & ->)|(FV & st1 & E1 & ->)].
    + destruct (IHb r (met (report st x true)) HR HK) as [N S R (E & RE & NU & FI & OK)].
      cbn [met report s_next s_sites s_regions s_reports s_null s_pending] in *.
      split; [exact N|cbn [count]; lia|exact R|]. exists (x :: E).
      split; [rewrite RE, <- app_assoc; reflexivity|]. split.
      { rewrite NU. rewrite orb_true_r. intuition congruence. }
      split.
      { split; [discriminate|]. intros H. apply (fine_declare _ x b (VLocal, DLocal 0) eq_refl) in H. destruct H. congruence. }
      discriminate.
    + destruct (define_local_some _ _ _ _ _ E1) as (_ & _ & A1 & A2 & A3 & A4 & A5 & A6 & A7 & A8).
      destruct (IHb r (met st1)) as [N S R (E & RE & NU & FI & OK)].
      { cbn. lia. }
      { cbn. rewrite (proj2 (A6 r)). exact HK. }
      cbn [met s_next s_sites s_regions s_reports s_null s_pending] in *.
      split; [cbn [regions_in]; lia|cbn [count]; lia| |].
      * intros i HI. destruct (R i ltac:(lia)) as (B1 & B2 & B3). destruct (A6 i) as (C1 & C2).
        split; [congruence|]. split; [congruence|]. intros NE. rewrite (B3 NE). apply A8, NE.
      * exists E. split; [congruence|]. split; [rewrite NU, A3; reflexivity|]. split.
        -- rewrite FI, A7. rewrite (fine_declare _ x b (VLocal, DLocal (s_sites st)) eq_refl). intuition.
        -- intros Z. destruct (OK Z) as (V & P & PE & U). split.
           { rewrite V, A7, A5. cbn [own local_scope map fst snd]. rewrite <- app_assoc. reflexivity. }
           exists P. split; [congruence|]. intros F HP HV. cbn [uses]. rewrite <- A5. apply U; [exact HP|].
           intros i HI. apply HV. lia.
Qed.

Lemma walk_grown b : forall r st, r < s_next st -> r_kinds (s_regions st r) VLocal = true ->
  grown st (walk r b st) r b.
Proof.
  induction b; intros r st HR HK; cbn [walk].
  - split; cbn [regions_in count]; [lia|lia|intros i HI; repeat split|].
    exists []. rewrite app_nil_r. split; [reflexivity|]. split; [intuition|]. split.
    + split; [|reflexivity]. intros _. split; [constructor|]. split; [intros x []|exact I].
    + intros _. cbn [own local_scope map]. rewrite app_nil_r. split; [reflexivity|].
      exists []. rewrite app_nil_r. split; [reflexivity|]. intros F _ _. reflexivity.
  - destruct (IHb r (delay st x r) HR HK) as [N S R (E & RE & NU & FI & OK)].
    split; [exact N|exact S|exact R|]. exists E. split; [exact RE|]. split; [exact NU|].
    split; [exact FI|]. intros Z. destruct (OK Z) as (V & P & PE & U). split; [exact V|].
    exists ((x, r) :: P). split; [rewrite PE; cbn; rewrite <- app_assoc; reflexivity|].
    intros F HP HV. cbn [map uses fst snd]. f_equal. apply U; assumption.
  - destruct (IHb r st HR HK) as [N S R (E & RE & NU & FI & OK)].
    split; [exact N|exact S|exact R|]. exists E. split; [exact RE|]. split; [exact NU|].
    split; [exact FI|exact OK].
  - apply grown_declare; [exact IHb|exact HR|exact HK].
  - assert (G1 : grown (push_region st r) (walk (s_next st) b1 (push_region st r)) (s_next st) b1).
    { apply IHb1; [cbn; lia|]. cbn. rewrite upd_same. reflexivity. }
    eapply grown_block; [exact HR|exact G1|]. apply IHb2.
    + rewrite (g_next _ _ _ _ G1). cbn. lia.
    + destruct (g_regions _ _ _ _ G1 r) as (_ & -> & _); [cbn; lia|]. cbn. rewrite upd_other by lia. exact HK.
  - assert (G1 : grown st (walk r b1 st) r b1) by (apply IHb1; assumption).
    eapply grown_nested; [exact HR|exact G1|]. apply IHb2.
    + rewrite (g_next _ _ _ _ G1). lia.
    + destruct (g_regions _ _ _ _ G1 r HR) as (_ & -> & _). exact HK.
  - assert (G1 : grown (push_region st r) (walk (s_next st) b1 (push_region st r)) (s_next st) b1).
    { apply IHb1; [cbn; lia|]. cbn. rewrite upd_same. reflexivity. }
    apply grown_for. eapply grown_block; [exact HR|exact G1|]. apply IHb2.
    + rewrite (g_next _ _ _ _ G1). cbn. lia.
    + destruct (g_regions _ _ _ _ G1 r) as (_ & -> & _); [cbn; lia|]. cbn. rewrite upd_other by lia. exact HK.
  - assert (G1 : grown (push_region st r) (walk (s_next st) b1 (declare (push_region st r) (s_next st) x))
                       (s_next st) (Declare x b1)).
    { apply grown_declare; [exact IHb1|cbn; lia|]. cbn. rewrite upd_same. reflexivity. }
    apply grown_catch. eapply grown_block; [exact HR|exact G1|]. apply IHb2.
    + rewrite (g_next _ _ _ _ G1). cbn. lia.
    + destruct (g_regions _ _ _ _ G1 r) as (_ & -> & _); [cbn; lia|]. cbn. rewrite upd_other by lia. exact HK.
Qed.

(* ------------------------------------------------------------------ *)
(** * Members and parameters *)

Definition may_share (a b : name * (vkind * decl)) : Prop :=
  fst a = fst b -> fst (snd a) = VMethod /\ fst (snd b) = VMethod.

Definition apart (vs : scope) : Prop := ForallOrdPairs may_share vs.

Lemma apart_snoc e : forall vs, apart (vs ++ [e]) <-> apart vs /\ Forall (fun a => may_share a e) vs.
Proof.
  unfold apart. induction vs as [|a vs IH]; cbn [app].
  - split; [intros _; split; constructor|]. intros _. repeat constructor.
  - split.
    + intros H. inversion H as [|? ? H1 H2]; subst. apply IH in H2. destruct H2 as (H2 & H3).
      rewrite Forall_app in H1. destruct H1 as (H1 & H4). inversion H4; subst.
      split; constructor; assumption.
    + intros (H1 & H2). inversion H1; subst. inversion H2; subst. constructor.
      * apply Forall_app. split; [assumption|]. constructor; [assumption|constructor].
      * apply IH. split; assumption.
Qed.

Lemma apart_prefix vs : forall more, apart (vs ++ more) -> apart vs.
Proof.
  unfold apart. induction vs as [|a vs IH]; intros more H; [constructor|].
  cbn [app] in H. inversion H as [|? ? H1 H2]; subst. apply Forall_app in H1.
  constructor; [apply H1|]. apply (IH more H2).
Qed.

Definition entry (e : vkind * name * decl) : name * (vkind * decl) :=
  match e with (k, x, d) => (x, (k, d)) end.

Lemma find_apart x k vs : apart vs ->
  (Forall (fun a => may_share a (x, k)) vs <->
   match find_var x vs with
   | None => True
   | Some (k', _) => fst k = VMethod /\ k' = VMethod
   end).
Proof.
  intros HA. destruct (find_var x vs) as [[k' d']|] eqn:E.
  - apply find_var_some in E. destruct E as (be & af & -> & HN). split.
    + intros H. rewrite Forall_forall in H.
      assert (HI : In (x, (k', d')) (be ++ (x, (k', d')) :: af)) by (apply in_or_app; right; left; reflexivity).
      destruct (H _ HI eq_refl) as (H1 & H2). cbn in *. auto.
    + intros (H1 & ->). apply Forall_app. split; [|constructor].
      * apply Forall_forall. intros (y & w) HY HE. cbn in HE. subst y. destruct (HN w HY).
      * intros _. cbn. auto.
      * assert (HF : apart ((x, (VMethod, d')) :: af)).
        { clear - HA. unfold apart in *. induction be as [|a be IH]; [exact HA|]. inversion HA; subst. auto. }
        inversion HF as [|? ? H2 _]; subst. rewrite Forall_forall in *. intros a HI HE. cbn in HE.
        destruct (H2 a HI) as (H3 & H4); [cbn; symmetry; exact HE|]. cbn. auto.
  - rewrite find_var_none in E. split; [intros _; exact I|]. intros _. apply Forall_forall.
    intros (y & w) HY HE. cbn in HE. subst y. destruct (E w HY).
Qed.

Record filled (st st' : state) (r : nat) (ds : list (vkind * name * decl)) : Prop := {
  f_next : s_next st' = s_next st;
  f_locals : s_locals st' = s_locals st;
  f_null : s_null st' = s_null st;
  f_pending : s_pending st' = s_pending st;
  f_sites : s_sites st' = s_sites st;
  f_other : forall i, i <> r -> s_regions st' i = s_regions st i;
  f_self : r_previous (s_regions st' r) = r_previous (s_regions st r) /\
           r_kinds (s_regions st' r) = r_kinds (s_regions st r) /\
           r_index (s_regions st' r) = r_index (s_regions st r) /\
           r_identity (s_regions st' r) = r_identity (s_regions st r) /\
           r_last (s_regions st' r) = r_last (s_regions st r);
  f_reports : exists E, s_reports st' = s_reports st ++ E /\
    (E = [] <-> apart (r_vars (s_regions st r) ++ map entry ds)) /\
    (E = [] -> r_vars (s_regions st' r) = r_vars (s_regions st r) ++ map entry ds)
}.

Lemma define_cases rs r k x d : r_kinds (rs r) k = true -> apart (r_vars (rs r)) ->
  (apart (r_vars (rs r) ++ [(x, (k, d))]) /\ define rs r k x d = Defined (upd rs r (add_var (rs r) x (k, d)))) \/
  (~ apart (r_vars (rs r) ++ [(x, (k, d))]) /\ define rs r k x d = Duplicated).
Proof.
  intros HK HA. rewrite apart_snoc, (find_apart x (k, d) _ HA). unfold define. rewrite HK.
  destruct (find_var x (r_vars (rs r))) as [[k' d']|].
  - cbn [fst]. destruct k, k'; cbn; intuition discriminate.
  - left. auto.
Qed.

Lemma define_all_filled r : forall ds st,
  Forall (fun e => r_kinds (s_regions st r) (fst (fst e)) = true) ds ->
  apart (r_vars (s_regions st r)) ->
  filled st (define_all st r ds) r ds.
Proof.
  induction ds as [|[[k x] d] ds IH]; intros st HK HA; cbn [define_all].
  - split; try reflexivity; [auto|]. exists []. cbn [map]. rewrite !app_nil_r. repeat split; auto.
  - inversion HK as [|? ? HK1 HK2]; subst. cbn [fst] in HK1.
    destruct (define_cases (s_regions st) r k x d HK1 HA) as [(A1 & ->)|(A1 & ->)].
    + destruct (IH (with_regions st (upd (s_regions st) r (add_var (s_regions st r) x (k, d)))))
        as [N L U P CS O SF (E & RE & FI & OK)].
      { cbn [with_regions s_regions]. rewrite upd_same. exact HK2. }
      { cbn [with_regions s_regions]. rewrite upd_same. exact A1. }
      cbn [with_regions s_next s_locals s_null s_pending s_sites s_regions s_reports] in *.
      rewrite upd_same in *. cbn [add_var r_previous r_kinds r_vars r_index r_identity r_last] in *.
      split; try assumption.
      { intros i HI. rewrite (O i HI). apply upd_other, HI. }
      exists E. split; [exact RE|]. cbn [map entry].
      rewrite <- app_assoc in FI, OK. split; assumption.
    + destruct (IH (report st x false)) as [N L U P CS O SF (E & RE & FI & OK)].
      { cbn. exact HK2. } { cbn. exact HA. }
      cbn [report s_next s_locals s_null s_pending s_sites s_regions s_reports] in *.
      rewrite orb_false_r in U.
      split; try assumption.
      exists (x :: E). split; [rewrite RE, <- app_assoc; reflexivity|]. split; [|discriminate].
      split; [discriminate|]. cbn [map entry]. intros H. exfalso. apply A1.
      change (r_vars (s_regions st r) ++ (x, (k, d)) :: map entry ds) with
        (r_vars (s_regions st r) ++ [(x, (k, d))] ++ map entry ds) in H.
      rewrite app_assoc in H. exact (apart_prefix _ _ H).
Qed.

Lemma entry_members level : forall ms pos, map entry (members_at level pos ms) = member_scope level pos ms.
Proof. induction ms as [|[k x] ms IH]; intros pos; cbn; [reflexivity|]. f_equal. apply IH. Qed.

Lemma entry_params : forall ps pos, map entry (params_at pos ps) = param_scope pos ps.
Proof. induction ps as [|x ps IH]; intros pos; cbn; [reflexivity|]. f_equal. apply IH. Qed.

Lemma member_scope_in level e : forall ms pos, In e (member_scope level pos ms) <->
  exists i, nth_error ms i = Some (fst (snd e), fst e) /\ snd (snd e) = DMember level (pos + i).
Proof.
  induction ms as [|[k x] ms IH]; intros pos; cbn [member_scope In].
  - split; [intros []|]. intros (i & H & _). destruct i; discriminate H.
  - rewrite IH. split.
    + intros [<-|(i & H1 & H2)].
      * exists 0. cbn. rewrite Nat.add_0_r. auto.
      * exists (S i). cbn. rewrite Nat.add_succ_r. auto.
    + intros ([|i] & H1 & H2); cbn in H1.
      * left. injection H1 as E1 E2. destruct e as [y [k' d']]. cbn in *. subst. rewrite Nat.add_0_r. reflexivity.
      * right. exists i. split; [exact H1|]. rewrite Nat.add_succ_r in H2. exact H2.
Qed.

Lemma members_apart_spec level : forall ms pos, apart (member_scope level pos ms) <-> members_apart ms.
Proof.
  induction ms as [|[k x] ms IH]; intros pos; cbn [member_scope].
  - split; [|intros _; constructor]. intros _ i j k x k' _ H. destruct i; discriminate H.
  - split.
    + intros H. inversion H as [|? ? H1 H2]; subst. apply IH in H2. rewrite Forall_forall in H1.
      assert (H0 : forall j k' x', nth_error ms j = Some (k', x') -> x = x' -> k = VMethod /\ k' = VMethod).
      { intros j k' x' HJ ->. apply (H1 (x', (k', DMember level (S pos + j)))); [|reflexivity].
        apply member_scope_in. exists j. cbn. auto. }
      intros [|i] [|j] a y b HN HI HJ; cbn in HI, HJ; try congruence.
      * injection HI as <- <-. apply (H0 j b x HJ eq_refl).
      * injection HJ as <- <-. destruct (H0 i a x HI eq_refl). auto.
      * apply (H2 i j a y b); congruence.
    + intros H. constructor.
      * apply Forall_forall. intros (y & (k' & d')) HI HE. cbn in HE. subst y.
        apply member_scope_in in HI. destruct HI as (i & HI & _). cbn in *.
        apply (H 0 (S i) k x k'); [discriminate|reflexivity|exact HI].
      * apply IH. intros i j a y b HN HI HJ. apply (H (S i) (S j) a y b); [congruence|exact HI|exact HJ].
Qed.

Lemma apart_no_methods vs : Forall (fun e => fst (snd e) <> VMethod) vs -> (apart vs <-> NoDup (map fst vs)).
Proof.
  unfold apart. induction vs as [|a vs IH]; intros HM; cbn [map].
  - split; constructor.
  - inversion HM as [|? ? M1 M2]; subst. specialize (IH M2). split.
    + intros H. inversion H as [|? ? H1 H2]; subst. constructor; [|apply IH, H2].
      intros HI. apply in_map_iff in HI. destruct HI as (e & HE & HI). rewrite Forall_forall in H1.
      destruct (H1 e HI (eq_sym HE)) as (H3 & _). contradiction.
    + intros H. inversion H as [|? ? H1 H2]; subst. constructor; [|apply IH, H2].
      apply Forall_forall. intros e HI HE. exfalso. apply H1. rewrite HE. apply in_map, HI.
Qed.

Lemma map_fst_params : forall ps pos, map fst (param_scope pos ps) = ps.
Proof. induction ps as [|x ps IH]; intros pos; cbn; [reflexivity|]. f_equal. apply IH. Qed.

Lemma map_fst_locals l : map fst (local_scope l) = map fst l.
Proof. unfold local_scope. rewrite map_map. apply map_ext. intros [x d]. reflexivity. Qed.

Lemma locals_no_methods l : Forall (fun e => fst (snd e) <> VMethod) (local_scope l).
Proof.
  apply Forall_forall. intros e H. unfold local_scope in H. apply in_map_iff in H.
  destruct H as (p & <- & _). cbn. discriminate.
Qed.

Lemma params_no_methods : forall ps pos, Forall (fun e => fst (snd e) <> VMethod) (param_scope pos ps).
Proof. induction ps as [|x ps IH]; intros pos; cbn; constructor; [cbn; discriminate|apply IH]. Qed.

Record typed (level : nat) (types : list (list (vkind * name))) (st : state) (chain : list nat) : Prop := {
  t_next : s_next st = length types;
  t_locals : s_locals st = [];
  t_null : s_null st = false;
  t_pending : s_pending st = [];
  t_sites : s_sites st = 0;
  t_chain : Forall (fun i => i < s_next st) chain;
  t_kinds : Forall (fun i => r_kinds (s_regions st i) VLocal = false) chain;
  t_reports : s_reports st = [] <-> Forall members_apart types;
  t_scopes : s_reports st = [] -> map (fun i => r_vars (s_regions st i)) chain = type_scopes level types
}.

Lemma push_types_typed : forall types level, are_members types ->
  typed level types (fst (push_types level types start)) (snd (push_types level types start)).
Proof.
  induction types as [|ms outer IH]; intros level HM.
  - cbn. split; try reflexivity; constructor; try reflexivity. intros _. constructor.
  - inversion HM as [|? ? M1 M2]; subst. specialize (IH (S level) M2). cbn [push_types].
    destruct (push_types (S level) outer start) as [st1 chain]. cbn [fst snd] in IH.
    destruct IH as [N L U P CS HC HK RE SC].
    set (st2 := mk_state (upd (s_regions st1) (s_next st1)
                  (mk_region chain type_kinds [] empty_index 0 NoChain))
                  (S (s_next st1)) (s_locals st1) (s_reports st1) (s_null st1) (s_pending st1) (s_sites st1)).
    cbn [fst snd].
    assert (Q : s_regions st2 (s_next st1) = mk_region chain type_kinds [] empty_index 0 NoChain).
    { cbn. apply upd_same. }
    destruct (define_all_filled (s_next st1) (members_at level 0 ms) st2)
      as [FN FL FU FP FS FO (FS1 & FS2 & _) (E & FR & FI & FV)].
    { rewrite Q. cbn [r_kinds]. apply Forall_forall. intros [[k x] d] HI.
      assert (G : forall pos, In (k, x, d) (members_at level pos ms) -> In (k, x) ms).
      { clear. induction ms as [|[k0 x0] ms IH]; intros pos H; [destruct H|].
        destruct H as [H|H]; [injection H as -> -> _; left; reflexivity|right; exact (IH _ H)]. }
      rewrite Forall_forall in M1. specialize (M1 _ (G _ HI)). cbn in *.
      destruct M1 as [->|[->| ->]]; reflexivity. }
    { rewrite Q. constructor. }
    rewrite Q in *. cbn [r_vars app r_kinds r_previous] in *. rewrite entry_members in *.
    change (s_next st2) with (S (s_next st1)) in *. change (s_locals st2) with (s_locals st1) in *.
    change (s_null st2) with (s_null st1) in *. change (s_pending st2) with (s_pending st1) in *.
    change (s_sites st2) with (s_sites st1) in *. change (s_reports st2) with (s_reports st1) in *.
    assert (SAME : forall i, In i chain ->
      s_regions (define_all st2 (s_next st1) (members_at level 0 ms)) i = s_regions st1 i).
    { intros i HI. rewrite Forall_forall in HC. specialize (HC i HI).
      rewrite FO by lia. cbn. apply upd_other. lia. }
    split.
    + rewrite FN. cbn [length]. lia.
    + congruence.
    + congruence.
    + congruence.
    + congruence.
    + rewrite FN. constructor; [lia|]. eapply Forall_impl; [|exact HC]. cbn. lia.
    + constructor; [rewrite FS2; reflexivity|]. rewrite Forall_forall in *. intros i HI.
      rewrite SAME by exact HI. apply HK, HI.
    + rewrite FR. split.
      * intros H. apply app_eq_nil in H. destruct H as (H1 & H2). constructor; [|apply RE, H1].
        apply (members_apart_spec level ms 0). apply FI, H2.
      * intros H. apply Forall_cons_iff in H. destruct H as (H1 & H2). apply RE in H2. rewrite H2. cbn.
        apply FI. apply members_apart_spec, H1.
    + rewrite FR. intros H. apply app_eq_nil in H. destruct H as (H1 & H2). cbn [map type_scopes].
      f_equal; [apply FV, H2|]. rewrite <- SC by exact H1. apply map_ext_in. intros i HI.
      rewrite SAME by exact HI. reflexivity.
Qed.

(** The whole method. *)
Lemma walk_method_spec types params b : are_members types ->
  let (st, r) := walk_method types params b in
  (s_reports st = [] <-> well_named types params b) /\
  (s_null st = true -> s_reports st <> []) /\
  (s_reports st = [] -> s_null st = false /\
     map (fun p => (fst p, scopes_of (s_regions st) (snd p))) (s_pending st) =
     uses (method_scope params b :: type_scopes 0 types) 0 b).
Proof.
  intros HM. unfold walk_method. assert (T := push_types_typed types 0 HM).
  destruct (push_types 0 types start) as [st0 chain]. cbn [fst snd] in T.
  destruct T as [N L U P CS HC HK RE SC].
  set (r := s_next st0).
  set (st1 := mk_state (upd (s_regions st0) r (mk_region chain method_kinds [] empty_index 0 Head))
               (S r) (s_locals st0) (s_reports st0) (s_null st0) (s_pending st0) (s_sites st0)).
  assert (Q : s_regions st1 r = mk_region chain method_kinds [] empty_index 0 Head).
  { cbn. apply upd_same. }
  assert (G : grown st1 (walk r b st1) r b).
  { apply walk_grown; [cbn; lia|]. rewrite Q. reflexivity. }
  destruct G as [GN GS GR (E & GRE & GNU & GFI & GOK)].
  destruct (GR r ltac:(cbn; lia)) as (GP & GK & _).
  rewrite Q in GP, GK, GFI, GOK. cbn [r_vars app r_previous r_kinds] in *.
  change (s_next st1) with (S r) in *. change (s_sites st1) with (s_sites st0) in *.
  change (s_reports st1) with (s_reports st0) in *. change (s_null st1) with (s_null st0) in *.
  change (s_pending st1) with (s_pending st0) in *.
  rewrite U, P, CS in *.
  assert (FINE : fine [] b <-> NoDup (map fst (own 0 b)) /\ unambiguous b).
  { unfold fine. cbn [find_var]. split; [intros (A1 & _ & A2); auto|intros (A1 & A2); auto]. }
  destruct E as [|e E].
  - destruct (GOK eq_refl) as (GV & PP & GPE & GU).
    assert (AP : apart (r_vars (s_regions (walk r b st1) r))).
    { rewrite GV. apply apart_no_methods; [apply locals_no_methods|]. rewrite map_fst_locals.
      apply (proj1 FINE). apply GFI. reflexivity. }
    destruct (define_all_filled r (params_at 0 params) (walk r b st1))
      as [FN FL FU FP FS FO (FS1 & FS2 & _) (E' & FR & FI & FV)]; [|exact AP|].
    { rewrite GK. apply Forall_forall. intros [[k x] d] HI.
      assert (X : forall pos, In (k, x, d) (params_at pos params) -> k = VParam).
      { clear. induction params as [|y ps IH]; intros pos H; [destruct H|].
        destruct H as [H|H]; [injection H as <- _ _; reflexivity|exact (IH _ H)]. }
      cbn. rewrite (X _ HI). reflexivity. }
    rewrite entry_params, GV in *. rewrite app_nil_r in GRE.
    assert (ND : apart (local_scope (own 0 b) ++ param_scope 0 params) <-> NoDup (map fst (own 0 b) ++ params)).
    { rewrite apart_no_methods.
      - rewrite map_app, map_fst_locals, map_fst_params. reflexivity.
      - apply Forall_app. split; [apply locals_no_methods|apply params_no_methods]. }
    assert (RR : s_reports (define_all (walk r b st1) r (params_at 0 params)) = [] <->
                 s_reports st0 = [] /\ E' = []).
    { rewrite FR, GRE. split; [apply app_eq_nil|intros [-> ->]; reflexivity]. }
    assert (UN : unambiguous b) by (apply (proj1 FINE); apply GFI; reflexivity).
    split; [|split].
    + rewrite RR, RE, FI, ND. unfold well_named. tauto.
    + rewrite FU. intros H. apply GNU in H. destruct H as [H|H]; [discriminate H|congruence].
    + rewrite RR. intros (Z1 & Z2). split.
      { rewrite FU. destruct (s_null (walk r b st1)) eqn:NU; [|reflexivity].
        destruct (proj1 GNU eq_refl) as [H|H]; [discriminate H|congruence]. }
      rewrite FP, GPE. cbn [app]. set (F := s_regions (define_all (walk r b st1) r (params_at 0 params))).
      rewrite (GU F).
      * f_equal. unfold scopes_of. cbn [map]. f_equal.
        -- unfold F. rewrite (FV Z2). reflexivity.
        -- unfold F. rewrite FS1, GP. rewrite <- SC by exact Z1. apply map_ext_in. intros i HI.
           rewrite Forall_forall in HC. specialize (HC i HI). rewrite FO by (unfold r; lia).
           destruct (GR i ltac:(cbn; lia)) as (_ & _ & ->); [|unfold r; lia].
           cbn. rewrite upd_other by (unfold r; lia). reflexivity.
      * intros i HI. unfold F. destruct (Nat.eq_dec i r) as [->|NE]; [exact FS1|]. rewrite FO by exact NE. reflexivity.
      * intros i HI. unfold F. rewrite FO; [reflexivity|]. cbn in HI. lia.
  - assert (NR : s_reports (define_all (walk r b st1) r (params_at 0 params)) <> []).
    { assert (X : forall ds st, exists E2, s_reports (define_all st r ds) = s_reports st ++ E2).
      { clear. induction ds as [|[[k x] d] ds IH]; intros st; cbn [define_all].
        - exists []. rewrite app_nil_r. reflexivity.
        - destruct (define (s_regions st) r k x d).
          + apply (IH (with_regions st rs)).
          + destruct (IH (report st x false)) as (E2 & ->). exists (x :: E2). cbn. rewrite <- app_assoc. reflexivity.
          + destruct (IH (report st x false)) as (E2 & ->). exists (x :: E2). cbn. rewrite <- app_assoc. reflexivity. }
      destruct (X (params_at 0 params) (walk r b st1)) as (E2 & ->). rewrite GRE.
      intros H. apply app_eq_nil in H. destruct H as (H & _). apply app_eq_nil in H. destruct H as (_ & H). discriminate H. }
    split; [|split].
    + split; [intros H; contradiction|]. intros (W1 & W2 & W3). exfalso.
      assert (FF : fine [] b).
      { apply FINE. split; [|exact W3]. apply nodup_app in W2. apply W2. }
      apply GFI in FF. discriminate FF.
    + intros _. exact NR.
    + intros H. contradiction.
Qed.

Lemma names_resolved tn types params b :
  are_members types -> well_named types params b ->
  exists us, analyse tn types params b = Analysed [] us /\
    Forall2 (fun use m => meaning tn (snd use) (fst use) m)
            (uses (method_scope params b :: type_scopes 0 types) 0 b) us.
Proof.
  intros HM HW. assert (T := walk_method_spec types params b HM). unfold analyse.
  destruct (walk_method types params b) as [st r]. destruct T as (T1 & _ & T3).
  apply T1 in HW. destruct (T3 HW) as (NU & UE). rewrite NU, HW, <- UE.
  eexists. split; [reflexivity|]. clear.
  induction (s_pending st) as [|p P IH]; cbn [map]; constructor; [|exact IH].
  cbn [fst snd]. apply walk_name_meaning.
Qed.

Lemma duplicates_reported tn types params b : are_members types ->
  match analyse tn types params b with
  | Crashed reports => reports <> [] /\ ~ well_named types params b
  | Analysed reports _ => reports = [] <-> well_named types params b
  end.
Proof.
  intros HM. assert (T := walk_method_spec types params b HM). unfold analyse.
  destruct (walk_method types params b) as [st r]. destruct T as (T1 & T2 & T3).
  destruct (s_null st) eqn:NU.
  - split; [apply T2; reflexivity|]. rewrite <- T1. apply T2. reflexivity.
  - exact T1.
Qed.
