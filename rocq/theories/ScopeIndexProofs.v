From Coq Require Import List ZArith Bool Arith Lia Permutation Wf_nat.
Import ListNotations.
From Verif Require Import ScopeModel ScopeSpec ScopeProofs.
Open Scope nat_scope.

(* ------------------------------------------------------------------ *)
(** * The counters of the regions *)

(** The index the next local of region [i] would get. *)
Definition eff (rs : regions) (i : nat) : Z := fst (current_index rs i (r_previous (rs i))).

(** The regions of a method from its own region [M] on form a tree. *)
Definition tree (M n : nat) (rs : regions) : Prop :=
  M < n /\
  (forall p more, r_previous (rs M) = p :: more -> p < M /\ r_kinds (rs p) VLocal = false) /\
  forall i, M <= i < n -> r_kinds (rs i) VLocal = true /\
    (i = M \/ exists p, r_previous (rs i) = p :: r_previous (rs p) /\ M <= p < i).

Lemma eff_unfold rs i p : r_previous (rs i) = p :: r_previous (rs p) -> r_kinds (rs p) VLocal = true ->
  eff rs i = if (r_index (rs i) =? empty_index)%Z then eff rs p else r_index (rs i).
Proof.
  intros HP HK. unfold eff. rewrite HP. cbn [current_index]. destruct (_ =? _)%Z; [|reflexivity].
  unfold local_supported. rewrite HK. destruct (current_index rs p (r_previous (rs p))) as [v rs'].
  reflexivity.
Qed.

Lemma eff_base M n rs : tree M n rs ->
  eff rs M = if (r_index (rs M) =? empty_index)%Z then 0%Z else r_index (rs M).
Proof.
  intros (_ & HB & _). unfold eff. destruct (r_previous (rs M)) as [|p more] eqn:E; cbn [current_index].
  - destruct (_ =? _)%Z; reflexivity.
  - destruct (HB p more eq_refl) as (_ & HK). unfold local_supported. rewrite HK.
    destruct (_ =? _)%Z; reflexivity.
Qed.

(** [rs'] has some counters filled in with what they stand for. *)
Definition refill (M n : nat) (rs rs' : regions) : Prop :=
  same_but_index rs rs' /\
  forall i, M <= i < n ->
    r_index (rs' i) = r_index (rs i) \/
    (r_index (rs i) = empty_index /\ r_index (rs' i) = eff rs i).

Lemma tree_same M n rs rs' : tree M n rs ->
  (forall i, i < n -> r_previous (rs' i) = r_previous (rs i) /\ r_kinds (rs' i) = r_kinds (rs i)) ->
  tree M n rs'.
Proof.
  intros (HM & HB & HT) HS. split; [exact HM|]. split.
  - intros p more E. rewrite (proj1 (HS M HM)) in E. destruct (HB p more E) as (H1 & H2).
    split; [exact H1|]. rewrite (proj2 (HS p ltac:(lia))). exact H2.
  - intros i HI. destruct (HT i HI) as (H1 & H2). rewrite (proj2 (HS i ltac:(lia))).
    split; [exact H1|]. destruct H2 as [H2|(p & H2 & H3)]; [left; exact H2|]. right. exists p.
    rewrite (proj1 (HS i ltac:(lia))), (proj1 (HS p ltac:(lia))). split; assumption.
Qed.

Lemma tree_refill M n rs rs' : tree M n rs -> refill M n rs rs' -> tree M n rs'.
Proof.
  intros HT (HS & _). apply (tree_same M n rs rs' HT). intros i _. destruct (HS i) as (A & B & _). auto.
Qed.

Lemma current_refill M n rs : tree M n rs -> forall r, M <= r < n ->
  refill M n rs (snd (current_index rs r (r_previous (rs r)))).
Proof.
  intros HT. intros r. induction r as [r IH] using lt_wf_ind. intros HR.
  split; [apply current_index_frame|].
  destruct HT as (HM & HB & HT). destruct (HT r HR) as (HK & [->|(p & HP & HPR)]).
  - intros i HI. assert (EB := eff_base M n rs (conj HM (conj HB HT))).
    destruct (r_previous (rs M)) as [|p more] eqn:E; cbn [current_index].
    + destruct (r_index (rs M) =? empty_index)%Z eqn:Q; cbn [snd]; [|left; reflexivity].
      destruct (Nat.eq_dec i M) as [->|NE]; [rewrite upd_same|rewrite upd_other by exact NE; left; reflexivity].
      right. apply Z.eqb_eq in Q. split; [exact Q|]. cbn. symmetry. exact EB.
    + destruct (HB p more eq_refl) as (_ & HK'). unfold local_supported. rewrite HK'.
      destruct (r_index (rs M) =? empty_index)%Z eqn:Q; cbn [snd]; [|left; reflexivity].
      destruct (Nat.eq_dec i M) as [->|NE]; [rewrite upd_same|rewrite upd_other by exact NE; left; reflexivity].
      right. apply Z.eqb_eq in Q. split; [exact Q|]. cbn. symmetry. exact EB.
  - destruct (IH p ltac:(lia) ltac:(lia)) as (_ & IHp). destruct (HT p ltac:(lia)) as (HKp & _).
    assert (EU := eff_unfold rs r p HP HKp).
    rewrite HP. cbn [current_index]. destruct (r_index (rs r) =? empty_index)%Z eqn:Q.
    2: { cbn [snd]. intros i _. left. reflexivity. }
    unfold local_supported. rewrite HKp.
    assert (EP : fst (current_index rs p (r_previous (rs p))) = eff rs p) by reflexivity.
    destruct (current_index rs p (r_previous (rs p))) as [v rs'] eqn:CE. cbn [snd fst] in *.
    intros i HI. destruct (Nat.eq_dec i r) as [->|NE]; [rewrite upd_same|rewrite upd_other by exact NE; apply IHp, HI].
    right. apply Z.eqb_eq in Q. split; [exact Q|]. cbn. congruence.
Qed.

Lemma eff_refill M n rs rs' : tree M n rs -> refill M n rs rs' -> forall i, M <= i < n -> eff rs' i = eff rs i.
Proof.
  intros HT HF i. induction i as [i IH] using lt_wf_ind. intros HI.
  assert (HT' := tree_refill _ _ _ _ HT HF). destruct HF as (HS & HF).
  destruct (proj2 (proj2 HT) i HI) as (_ & [->|(p & HP & HPR)]).
  - rewrite (eff_base _ _ _ HT'), (eff_base _ _ _ HT).
    destruct (HF M HI) as [->|(Q1 & Q2)]; [reflexivity|].
    assert (E0 := eff_base _ _ _ HT). rewrite Q1, Z.eqb_refl in E0. rewrite E0 in Q2. rewrite Q1, Q2.
    rewrite Z.eqb_refl. reflexivity.
  - destruct (proj2 (proj2 HT) p ltac:(lia)) as (HK & _).
    assert (EU := eff_unfold rs i p HP HK).
    assert (HP' : r_previous (rs' i) = p :: r_previous (rs' p)).
    { destruct (HS i) as (-> & _). destruct (HS p) as (-> & _). exact HP. }
    assert (HK' : r_kinds (rs' p) VLocal = true).
    { destruct (HS p) as (_ & -> & _). exact HK. }
    rewrite (eff_unfold rs' i p HP' HK'), (IH p ltac:(lia) ltac:(lia)).
    destruct (HF i HI) as [->|(Q1 & Q2)]; [symmetry; exact EU|].
    rewrite Q1, Z.eqb_refl in EU. rewrite Q2. destruct (_ =? _)%Z; congruence.
Qed.

(** The identities are counted in the region of the method. *)
Lemma identity_root_tree M n rs : tree M n rs -> forall r, M <= r < n ->
  identity_root rs r (r_previous (rs r)) = M.
Proof.
  intros (HM & HB & HT) r. induction r as [r IH] using lt_wf_ind. intros HR.
  destruct (HT r HR) as (_ & [->|(p & HP & HPR)]).
  - destruct (r_previous (rs M)) as [|p more] eqn:E; cbn [identity_root]; [reflexivity|].
    unfold local_supported. destruct (HB p more eq_refl) as (_ & ->). reflexivity.
  - rewrite HP. cbn [identity_root]. unfold local_supported.
    destruct (HT p ltac:(lia)) as (-> & _). apply IH; lia.
Qed.

(** Same counters, same values. *)
Lemma eff_same M n rs rs' : tree M n rs ->
  (forall i, i < n -> r_previous (rs' i) = r_previous (rs i) /\ r_kinds (rs' i) = r_kinds (rs i) /\
                      r_index (rs' i) = r_index (rs i)) ->
  forall i, M <= i < n -> eff rs' i = eff rs i.
Proof.
  intros HT HS i. assert (HT' : tree M n rs').
  { apply (tree_same M n rs rs' HT). intros j HJ. destruct (HS j HJ) as (A & B & _). auto. }
  induction i as [i IH] using lt_wf_ind. intros HI.
  destruct (proj2 (proj2 HT) i HI) as (_ & [->|(p & HP & HPR)]).
  - rewrite (eff_base _ _ _ HT'), (eff_base _ _ _ HT). destruct (HS M (proj1 HT)) as (_ & _ & ->). reflexivity.
  - destruct (proj2 (proj2 HT) p ltac:(lia)) as (HK & _).
    destruct (HS i ltac:(lia)) as (A1 & _ & A3). destruct (HS p ltac:(lia)) as (B1 & B2 & _).
    rewrite (eff_unfold rs' i p), (eff_unfold rs i p), A3, (IH p ltac:(lia) ltac:(lia));
      [reflexivity|exact HP|exact HK|congruence|congruence].
Qed.

(** One counter set to the next number. *)
Lemma eff_next M n rs rs' r : tree M n rs -> M <= r < n -> (0 <= eff rs r < 65534)%Z ->
  (forall i, i < n -> r_previous (rs' i) = r_previous (rs i) /\ r_kinds (rs' i) = r_kinds (rs i) /\
     (i <> r -> r_index (rs' i) = r_index (rs i))) ->
  r_index (rs' r) = msucc (eff rs r) ->
  eff rs' r = (eff rs r + 1)%Z /\
  (forall i, M <= i < r -> eff rs' i = eff rs i) /\
  (forall i, M <= i < n -> (eff rs i <= eff rs' i <= eff rs i + 1)%Z).
Proof.
  intros HT HR HE HS HI.
  assert (HT' : tree M n rs').
  { apply (tree_same M n rs rs' HT). intros j HJ. destruct (HS j HJ) as (A & B & _). auto. }
  assert (MS : msucc (eff rs r) = (eff rs r + 1)%Z).
  { unfold msucc. apply Z.mod_small. lia. }
  assert (NE : (r_index (rs' r) =? empty_index)%Z = false).
  { rewrite HI, MS. apply Z.eqb_neq. unfold empty_index. lia. }
  assert (ER : eff rs' r = (eff rs r + 1)%Z).
  { destruct (proj2 (proj2 HT') r HR) as (_ & [->|(p & HP & HPR)]).
    - rewrite (eff_base _ _ _ HT'), NE, HI. exact MS.
    - rewrite (eff_unfold rs' r p HP), NE, HI; [exact MS|]. apply HT'. lia. }
  split; [exact ER|]. split.
  - intros i. induction i as [i IH] using lt_wf_ind. intros Hi.
    destruct (HS i ltac:(lia)) as (A1 & _ & A3).
    destruct (proj2 (proj2 HT) i ltac:(lia)) as (_ & [->|(p & HP & HPR)]).
    + rewrite (eff_base _ _ _ HT'), (eff_base _ _ _ HT), A3 by lia. reflexivity.
    + destruct (HS p ltac:(lia)) as (B1 & B2 & _). destruct (proj2 (proj2 HT) p ltac:(lia)) as (HK & _).
      rewrite (eff_unfold rs' i p), (eff_unfold rs i p), A3, (IH p ltac:(lia) ltac:(lia));
        [reflexivity|lia|exact HP|exact HK|congruence|congruence].
  - intros i. induction i as [i IH] using lt_wf_ind. intros Hi.
    destruct (Nat.eq_dec i r) as [->|NR]; [lia|].
    destruct (HS i ltac:(lia)) as (A1 & _ & A3).
    destruct (proj2 (proj2 HT) i ltac:(lia)) as (_ & [->|(p & HP & HPR)]).
    + rewrite (eff_base _ _ _ HT'), (eff_base _ _ _ HT), A3 by exact NR. lia.
    + destruct (HS p ltac:(lia)) as (B1 & B2 & _). destruct (proj2 (proj2 HT) p ltac:(lia)) as (HK & _).
      specialize (IH p ltac:(lia) ltac:(lia)).
      rewrite (eff_unfold rs' i p), (eff_unfold rs i p), A3;
        [destruct (r_index (rs i) =? empty_index)%Z; lia|exact NR|exact HP|exact HK|congruence|congruence].
Qed.

(* ------------------------------------------------------------------ *)
(** * A state in the middle of a method *)

Record sound (M : nat) (st : state) : Prop := {
  so_tree : tree M (s_next st) (s_regions st);
  so_last : forall i, M <= i < s_next st ->
     r_last (s_regions st i) = Head \/
     exists d, r_last (s_regions st i) = Node d /\ In d (map l_decl (s_locals st));
  so_bound : forall i, M <= i < s_next st ->
     (0 <= eff (s_regions st) i <= r_identity (s_regions st M))%Z
}.

Lemma insert_head_perm v l : Permutation (insert_head v l) (v :: l).
Proof. destruct l; cbn; [reflexivity|]. apply perm_swap. Qed.

Lemma insert_after_perm d v l : In d (map l_decl l) -> Permutation (insert_after d v l) (v :: l).
Proof.
  induction l as [|h l IH]; cbn [map In insert_after]; [intros []|]. intros H.
  destruct (decl_eqb (l_decl h) d) eqn:E; [apply perm_swap|].
  destruct H as [H|H].
  - apply decl_eqb_eq in H. congruence.
  - rewrite (IH H). apply perm_swap.
Qed.

Lemma perm_decls l l' d : Permutation l l' -> In d (map l_decl l') -> In d (map l_decl l).
Proof. intros HP. apply (Permutation_in _ (Permutation_map l_decl (Permutation_sym HP))). Qed.

Lemma define_local_sound M st r x d st' :
  sound M st -> M <= r < s_next st -> (r_identity (s_regions st M) < 65534)%Z ->
  define_local st r x d = Some st' ->
  sound M st' /\
  r_identity (s_regions st' M) = (r_identity (s_regions st M) + 1)%Z /\
  Permutation (s_locals st') (mk_local d (r_identity (s_regions st M)) (eff (s_regions st) r) :: s_locals st) /\
  eff (s_regions st') r = (eff (s_regions st) r + 1)%Z /\
  (forall i, M <= i < r -> eff (s_regions st') i = eff (s_regions st) i) /\
  (forall i, M <= i < s_next st -> (eff (s_regions st) i <= eff (s_regions st') i)%Z).
Proof.
  intros [HT HL HB] HR HID HD. unfold define_local, define in HD.
  destruct (r_kinds (s_regions st r) VLocal) eqn:K; [|discriminate HD].
  destruct (find_var x (r_vars (s_regions st r))) as [[k' d']|] eqn:FV; [cbn in HD; discriminate HD|].
  set (R := s_regions st) in *. set (n := s_next st) in *.
  set (rs := upd R r (add_var (R r) x (VLocal, d))) in *.
  assert (S0 : forall i, r_previous (rs i) = r_previous (R i) /\ r_kinds (rs i) = r_kinds (R i) /\
                         r_index (rs i) = r_index (R i) /\ r_identity (rs i) = r_identity (R i) /\
                         r_last (rs i) = r_last (R i)).
  { intros i. unfold rs, upd. destruct (Nat.eqb_spec i r); [subst i|]; repeat split. }
  assert (T0 : tree M n rs).
  { apply (tree_same M n R rs HT). intros i _. destruct (S0 i) as (A & B & _). auto. }
  rewrite (identity_root_tree M n rs T0 r HR) in HD.
  set (id := r_identity (R M)) in *.
  assert (EI : r_identity (rs M) = id) by (destruct (S0 M) as (_ & _ & _ & E & _); exact E).
  cbv zeta in HD. rewrite EI in HD.
  set (rs1 := upd rs M (set_identity (rs M) (msucc id))) in *.
  assert (S1 : forall i, r_previous (rs1 i) = r_previous (R i) /\ r_kinds (rs1 i) = r_kinds (R i) /\
                         r_index (rs1 i) = r_index (R i) /\ r_last (rs1 i) = r_last (R i)).
  { intros i. destruct (S0 i) as (A & B & C & _ & D). unfold rs1, upd.
    destruct (Nat.eqb_spec i M); [subst i|]; cbn; auto. }
  assert (S1' : r_identity (rs1 M) = msucc id) by (unfold rs1; rewrite upd_same; reflexivity).
  assert (T1 : tree M n rs1).
  { apply (tree_same M n R rs1 HT). intros i _. destruct (S1 i) as (A & B & _). auto. }
  assert (E1 : forall i, M <= i < n -> eff rs1 i = eff R i).
  { apply (eff_same M n R rs1 HT). intros i _. destruct (S1 i) as (A & B & C & _). auto. }
  assert (F := current_refill M n rs1 T1 r HR).
  assert (EV : fst (current_index rs1 r (r_previous (rs1 r))) = eff R r) by (rewrite <- (E1 r HR); reflexivity).
  destruct (current_index rs1 r (r_previous (rs1 r))) as [index rs2]. cbn [fst snd] in F, EV. subst index.
  assert (T2 := tree_refill _ _ _ _ T1 F). assert (E2 := eff_refill _ _ _ _ T1 F).
  destruct F as (F & _).
  set (rs3 := upd rs2 r (set_index (rs2 r) (msucc (eff R r)))) in *.
  set (v := mk_local d id (eff R r)) in *.
  assert (S3 : forall i, r_previous (rs3 i) = r_previous (R i) /\ r_kinds (rs3 i) = r_kinds (R i) /\
                         r_last (rs3 i) = r_last (R i) /\ r_identity (rs3 i) = r_identity (rs1 i)).
  { intros i. destruct (S1 i) as (A & B & _ & C). destruct (F i) as (G1 & G2 & _ & G3 & G4). unfold rs3, upd.
    destruct (Nat.eqb_spec i r); [subst i|]; cbn; repeat split; congruence. }
  assert (FIN : exists rs4 l', st' = mk_state rs4 n l' (s_reports st) (s_null st) (s_pending st) (s_sites st) /\
     Permutation l' (v :: s_locals st) /\ rs4 = upd rs3 r (set_last (rs3 r) (Node d))).
  { destruct (S3 r) as (_ & _ & SL & _). rewrite SL in HD.
    destruct (HL r HR) as [HL1|(d0 & HL1 & HL2)]; rewrite HL1 in HD; injection HD as <-.
    - eexists _, _. split; [reflexivity|]. split; [apply insert_head_perm|reflexivity].
    - eexists _, _. split; [reflexivity|]. split; [apply insert_after_perm; exact HL2|reflexivity]. }
  destruct FIN as (rs4 & l' & -> & PE & E4).
  cbn [s_regions s_next s_locals s_reports s_null s_pending s_sites].
  assert (S4 : forall i, r_previous (rs4 i) = r_previous (R i) /\ r_kinds (rs4 i) = r_kinds (R i) /\
                         r_identity (rs4 i) = r_identity (rs1 i) /\ r_index (rs4 i) = r_index (rs3 i) /\
                         (i <> r -> r_last (rs4 i) = r_last (R i)) /\ r_last (rs4 r) = Node d).
  { intros i. destruct (S3 i) as (A & B & C & D). rewrite E4. split; [|split; [|split; [|split; [|split]]]];
      unfold upd; rewrite ?Nat.eqb_refl; destruct (Nat.eqb_spec i r); try (subst i); cbn; try assumption; try reflexivity; try congruence. }
  assert (BR : (0 <= eff R r <= id)%Z) by (apply HB; exact HR).
  destruct (eff_next M n rs2 rs4 r T2 HR) as (N1 & N2 & N3).
  { rewrite E2, E1 by exact HR. lia. }
  { intros i HI. destruct (S4 i) as (A & B & _ & C & _). destruct (F i) as (G1 & G2 & _). destruct (S1 i) as (A' & B' & _).
    split; [congruence|]. split; [congruence|]. intros NE. rewrite C. unfold rs3. rewrite upd_other by exact NE. reflexivity. }
  { destruct (S4 r) as (_ & _ & _ & -> & _). unfold rs3. rewrite upd_same. cbn.
    rewrite E2, E1 by exact HR. reflexivity. }
  rewrite E2, E1 in N1 by exact HR.
  assert (IDN : r_identity (rs4 M) = (id + 1)%Z).
  { destruct (S4 M) as (_ & _ & -> & _). rewrite S1'. unfold msucc. apply Z.mod_small. lia. }
  assert (N3' : forall i, M <= i < n -> (eff R i <= eff rs4 i <= eff R i + 1)%Z).
  { intros i HI. specialize (N3 i HI). rewrite E2, E1 in N3 by exact HI. exact N3. }
  split; [|split; [exact IDN|split; [exact PE|split; [exact N1|split]]]].
  - split; cbn [s_regions s_next s_locals].
    + apply (tree_same M n R rs4 HT). intros i _. destruct (S4 i) as (A & B & _). auto.
    + intros i HI. destruct (S4 i) as (_ & _ & _ & _ & A & B).
      destruct (Nat.eq_dec i r) as [->|NE].
      * right. exists d. split; [exact B|]. apply (perm_decls _ _ _ PE). left. reflexivity.
      * rewrite (A NE). destruct (HL i HI) as [H|(d0 & H1 & H2)]; [left; exact H|]. right. exists d0.
        split; [exact H1|]. apply (perm_decls _ _ _ PE). right. exact H2.
    + intros i HI. rewrite IDN. specialize (N3' i HI). specialize (HB i HI). fold R id in HB. lia.
  - intros i HI. rewrite (N2 i HI), E2, E1 by lia. reflexivity.
  - intros i HI. apply N3', HI.
Qed.

(** A new region below [r]. *)
Definition added (st : state) (r : nat) (kinds : vkind -> bool) : state :=
  mk_state (upd (s_regions st) (s_next st)
              (mk_region (r :: r_previous (s_regions st r)) kinds [] empty_index 0
                 (r_last (s_regions st r))))
    (S (s_next st)) (s_locals st) (s_reports st) (s_null st) (s_pending st) (s_sites st).

Lemma added_sound M st r kinds : sound M st -> M <= r < s_next st -> kinds VLocal = true ->
  sound M (added st r kinds) /\
  eff (s_regions (added st r kinds)) (s_next st) = eff (s_regions st) r /\
  (forall i, M <= i < s_next st -> eff (s_regions (added st r kinds)) i = eff (s_regions st) i) /\
  r_identity (s_regions (added st r kinds) M) = r_identity (s_regions st M).
Proof.
  intros [HT HL HB] HR HK. set (st1 := added st r kinds).
  set (n := s_next st) in *.
  assert (Q : s_regions st1 n = mk_region (r :: r_previous (s_regions st r)) kinds [] empty_index 0
                 (r_last (s_regions st r))) by (cbn; apply upd_same).
  assert (O : forall i, i < n -> s_regions st1 i = s_regions st i).
  { intros i HI. cbn. apply upd_other. unfold n in HI. lia. }
  assert (T : tree M n (s_regions st1)).
  { apply (tree_same M n (s_regions st) (s_regions st1) HT). intros i HI. rewrite O by exact HI. auto. }
  assert (E : forall i, M <= i < n -> eff (s_regions st1) i = eff (s_regions st) i).
  { apply (eff_same M n _ _ HT). intros i HI. rewrite O by exact HI. auto. }
  assert (EN : eff (s_regions st1) n = eff (s_regions st) r).
  { rewrite (eff_unfold (s_regions st1) n r).
    - rewrite Q. cbn [r_index]. rewrite Z.eqb_refl. apply E. lia.
    - rewrite Q. cbn [r_previous]. rewrite O by lia. reflexivity.
    - apply T. lia. }
  assert (ID : r_identity (s_regions st1 M) = r_identity (s_regions st M)).
  { rewrite O; [reflexivity|]. apply HT. }
  split; [|split; [exact EN|split; [exact E|exact ID]]]. split.
  - destruct T as (T1 & T2 & T3). split; [cbn; fold n; lia|]. split; [exact T2|]. intros i HI.
    change (s_next st1) with (S n) in HI. destruct (Nat.eq_dec i n) as [->|NE]; [|apply T3; lia].
    rewrite Q. cbn [r_kinds r_previous]. split; [exact HK|]. right. exists r.
    rewrite O by lia. split; [reflexivity|lia].
  - intros i HI. change (s_next st1) with (S n) in HI. change (s_locals st1) with (s_locals st).
    destruct (Nat.eq_dec i n) as [->|NE]; [|rewrite O by lia; apply HL; lia].
    rewrite Q. cbn [r_last]. apply HL. exact HR.
  - intros i HI. change (s_next st1) with (S n) in HI. rewrite ID.
    destruct (Nat.eq_dec i n) as [->|NE]; [rewrite EN; apply HB, HR|]. rewrite E by lia. apply HB. lia.
Qed.

(** How many locals are in scope at each declaration, [k] before the body. *)
Fixpoint before (k : nat) (b : body) : list nat :=
  match b with
  | End => []
  | Use _ rest | Temps _ rest => before k rest
  | Declare _ rest => k :: before (S k) rest
  | Block inner rest | For inner rest => before k inner ++ before k rest
  | Nested inner rest => before k inner ++ before (k + length (own 0 inner)) rest
  | Catch _ inner rest => k :: before (S k) inner ++ before k rest
  end.

(** Rows of the locals from number [site] on, with identities from [id] on. *)
Fixpoint rows_from (site : nat) (id : Z) (ks : list nat) : list local :=
  match ks with
  | [] => []
  | k :: more => mk_local (DLocal site) id (Z.of_nat k) :: rows_from (S site) (id + 1)%Z more
  end.

Lemma rows_from_app : forall a b site id,
  rows_from site id (a ++ b) = rows_from site id a ++ rows_from (site + length a) (id + Z.of_nat (length a)) b.
Proof.
  induction a as [|k a IH]; intros b site id; cbn [app rows_from length].
  - f_equal; lia.
  - f_equal. rewrite IH. f_equal. f_equal; lia.
Qed.

Lemma before_length b : forall k, length (before k b) = count b.
Proof.
  induction b; intros j; cbn [before count length]; rewrite ?app_length; auto;
    rewrite ?IHb, ?IHb1, ?IHb2; reflexivity.
Qed.

Record numbered (M : nat) (st st' : state) (r : nat) (b : body) : Prop := {
  n_sound : sound M st';
  n_eff : eff (s_regions st') r = (eff (s_regions st) r + Z.of_nat (length (own 0 b)))%Z;
  n_low : forall i, M <= i < r -> eff (s_regions st') i = eff (s_regions st) i;
  n_mono : forall i, M <= i < s_next st -> (eff (s_regions st) i <= eff (s_regions st') i)%Z;
  n_id : r_identity (s_regions st' M) = (r_identity (s_regions st M) + Z.of_nat (count b))%Z;
  n_rows : forall k, eff (s_regions st) r = Z.of_nat k ->
     Permutation (s_locals st')
       (s_locals st ++ rows_from (s_sites st) (r_identity (s_regions st M)) (before k b))
}.

Lemma fine_grown st st' r b : grown st st' r b -> fine (r_vars (s_regions st r)) b ->
  r_vars (s_regions st' r) = r_vars (s_regions st r) ++ local_scope (own (s_sites st) b).
Proof. intros [_ _ _ (E & _ & _ & FI & OK)] HF. apply OK, FI, HF. Qed.

Lemma own_length b : forall n m, length (own n b) = length (own m b).
Proof. intros n m. rewrite <- (map_length fst (own n b)), <- (map_length fst (own m b)), (own_names b n m). reflexivity. Qed.

Lemma own_count b : length (own 0 b) <= count b.
Proof.
  induction b; cbn [own count length]; try lia.
  - rewrite (own_length b 1 0). lia.
  - rewrite (own_length b2 _ 0). lia.
  - rewrite app_length, (own_length b2 _ 0). lia.
  - rewrite (own_length b2 _ 0). lia.
  - rewrite (own_length b2 _ 0). lia.
Qed.

Lemma numbered_declare M b x :
  (forall r st, sound M st -> M <= r < s_next st -> fine (r_vars (s_regions st r)) b ->
     (r_identity (s_regions st M) + Z.of_nat (count b) < 65535)%Z -> numbered M st (walk r b st) r b) ->
  forall r st, sound M st -> M <= r < s_next st -> fine (r_vars (s_regions st r)) (Declare x b) ->
     (r_identity (s_regions st M) + Z.of_nat (count (Declare x b)) < 65535)%Z ->
     numbered M st (walk r b (declare st r x)) r (Declare x b).
Proof.
  intros IH r st HS HR HF HC. cbn [count] in HC.
  apply (fine_declare _ x b (VLocal, DLocal (s_sites st)) eq_refl) in HF. destruct HF as (HF1 & HF2).
  assert (K : r_kinds (s_regions st r) VLocal = true) by (apply (so_tree _ _ HS); exact HR).
  destruct (declare_cases st r x K) as [(v & FV & _)|(_ & st1 & E1 & ->)]; [congruence|].
  destruct (define_local_some _ _ _ _ _ E1) as (_ & _ & A1 & _ & _ & _ & A5 & A6 & A7 & _).
  destruct (define_local_sound M st r x _ st1 HS HR ltac:(lia) E1) as (B1 & B2 & B3 & B4 & B5 & B6).
  destruct (IH r (met st1)) as [C1 C2 C3 C4 C5 C6].
  { destruct B1 as [T1 T2 T3]. split; assumption. }
  { cbn. lia. }
  { cbn [met s_regions]. rewrite A7. exact HF2. }
  { cbn [met s_regions]. rewrite B2. lia. }
  cbn [met s_regions s_next s_locals s_sites] in *.
  split.
  - exact C1.
  - rewrite C2, B4. cbn [own length]. rewrite (own_length b 1 0). lia.
  - intros i HI. rewrite C3, B5 by exact HI. reflexivity.
  - intros i HI. specialize (B6 i HI). specialize (C4 i ltac:(lia)). lia.
  - rewrite C5, B2. cbn [count]. lia.
  - intros k HK. rewrite (C6 (S k)) by lia. cbn [before rows_from]. rewrite B3, B2, A5, HK.
    cbn [app]. apply Permutation_middle.
Qed.

Lemma numbered_block M st st1 st2 r inner rest :
  sound M st -> M <= r < s_next st ->
  grown (push_region st r) st1 (s_next st) inner ->
  numbered M (push_region st r) st1 (s_next st) inner -> numbered M st1 st2 r rest ->
  numbered M st st2 r (Block inner rest).
Proof.
  intros HS HR HG [A1 A2 A3 A4 A5 A6] [B1 B2 B3 B4 B5 B6].
  change (push_region st r) with (added st r block_kinds) in *.
  destruct (added_sound M st r block_kinds HS HR eq_refl) as (P1 & P2 & P3 & P4).
  assert (GN := g_next _ _ _ _ HG). assert (GS := g_sites _ _ _ _ HG).
  cbn [added s_next s_sites s_locals] in *.
  assert (ER : forall i, M <= i < s_next st -> eff (s_regions st1) i = eff (s_regions st) i).
  { intros i HI. rewrite A3 by exact HI. apply P3. exact HI. }
  split.
  - exact B1.
  - rewrite B2, ER by exact HR. cbn [own]. rewrite (own_length rest (0 + count inner) 0). reflexivity.
  - intros i HI. rewrite B3, ER by lia. reflexivity.
  - intros i HI. rewrite <- ER by exact HI. apply B4. lia.
  - rewrite B5, A5, P4. cbn [count]. lia.
  - intros k HK. rewrite (B6 k) by (rewrite ER by exact HR; exact HK). rewrite (A6 k) by (rewrite P2; exact HK).
    cbn [before]. rewrite rows_from_app, A5, GS, P4, before_length, <- app_assoc. reflexivity.
Qed.

Lemma walk_numbered M b : forall r st, sound M st -> M <= r < s_next st ->
  fine (r_vars (s_regions st r)) b ->
  (r_identity (s_regions st M) + Z.of_nat (count b) < 65535)%Z ->
  numbered M st (walk r b st) r b.
Proof.
  assert (BLK : forall inner rest r st (walked : state),
    sound M st -> M <= r < s_next st -> fine (r_vars (s_regions st r)) rest ->
    (r_identity (s_regions st M) + Z.of_nat (count inner + count rest) < 65535)%Z ->
    grown (push_region st r) walked (s_next st) inner ->
    numbered M (push_region st r) walked (s_next st) inner ->
    (forall r st, sound M st -> M <= r < s_next st -> fine (r_vars (s_regions st r)) rest ->
      (r_identity (s_regions st M) + Z.of_nat (count rest) < 65535)%Z -> numbered M st (walk r rest st) r rest) ->
    numbered M st (walk r rest walked) r (Block inner rest)).
  { intros inner rest r st walked HS HR HF HC HG HN IH.
    apply (numbered_block M st walked (walk r rest walked) r inner rest HS HR HG HN).
    destruct (added_sound M st r block_kinds HS HR eq_refl) as (_ & _ & _ & P4).
    assert (NX := g_next _ _ _ _ HG). cbn [push_region s_next] in NX.
    apply IH.
    - exact (n_sound _ _ _ _ _ HN).
    - lia.
    - destruct (g_regions _ _ _ _ HG r ltac:(cbn; lia)) as (_ & _ & GV). rewrite GV by lia.
      cbn. rewrite upd_other by lia. exact HF.
    - rewrite (n_id _ _ _ _ _ HN). change (push_region st r) with (added st r block_kinds). rewrite P4. lia. }
  induction b; intros r st HS HR HF HC; cbn [walk].
  - split; cbn [own before count length rows_from]; [exact HS|lia|auto|intros; lia|lia|].
    intros k _. rewrite app_nil_r. reflexivity.
  - destruct (IHb r (delay st x r)) as [A1 A2 A3 A4 A5 A6]; try assumption.
    { destruct HS as [T1 T2 T3]. split; assumption. }
    split; assumption.
  - destruct (IHb r st) as [A1 A2 A3 A4 A5 A6]; try assumption. split; assumption.
  - apply numbered_declare; assumption.
  - apply fine_block in HF. destruct HF as (HF1 & HF2). cbn [count] in HC.
    destruct (added_sound M st r block_kinds HS HR eq_refl) as (P1 & P2 & P3 & P4).
    apply BLK; [exact HS|exact HR|exact HF2|exact HC| | |exact IHb2].
    + apply walk_grown; [cbn; lia|]. cbn. rewrite upd_same. reflexivity.
    + apply IHb1; [exact P1|cbn; lia| |].
      * cbn. rewrite upd_same. exact HF1.
      * change (push_region st r) with (added st r block_kinds). rewrite P4. lia.
  - apply (fine_nested _ _ _ (s_sites st)) in HF. destruct HF as (HF1 & HF2). cbn [count] in HC.
    assert (K : r_kinds (s_regions st r) VLocal = true) by (apply (so_tree _ _ HS); exact HR).
    assert (G := walk_grown b1 r st ltac:(lia) K).
    assert (NX := g_next _ _ _ _ G). assert (NS := g_sites _ _ _ _ G).
    destruct (IHb1 r st HS HR HF1 ltac:(lia)) as [A1 A2 A3 A4 A5 A6].
    destruct (IHb2 r (walk r b1 st)) as [B1 B2 B3 B4 B5 B6].
    { exact A1. } { lia. }
    { rewrite (fine_grown _ _ _ _ G HF1). exact HF2. }
    { rewrite A5. lia. }
    split.
    + exact B1.
    + rewrite B2, A2. cbn [own]. rewrite app_length, (own_length b2 (0 + count b1) 0). lia.
    + intros i HI. rewrite B3, A3 by exact HI. reflexivity.
    + intros i HI. specialize (A4 i HI). specialize (B4 i ltac:(lia)). lia.
    + rewrite B5, A5. cbn [count]. lia.
    + intros k HK. rewrite (B6 (k + length (own 0 b1))) by lia. rewrite (A6 k HK).
      cbn [before]. rewrite rows_from_app, before_length, NS, A5, <- app_assoc. reflexivity.
  - assert (HF' : fine (r_vars (s_regions st r)) (Block b1 b2)) by exact HF.
    apply fine_block in HF'. destruct HF' as (HF1 & HF2). cbn [count] in HC.
    destruct (added_sound M st r block_kinds HS HR eq_refl) as (P1 & P2 & P3 & P4).
    assert (N : numbered M st (walk r b2 (walk (s_next st) b1 (push_region st r))) r (Block b1 b2)).
    { apply BLK; [exact HS|exact HR|exact HF2|exact HC| | |exact IHb2].
      + apply walk_grown; [cbn; lia|]. cbn. rewrite upd_same. reflexivity.
      + apply IHb1; [exact P1|cbn; lia| |].
        * cbn. rewrite upd_same. exact HF1.
        * change (push_region st r) with (added st r block_kinds). rewrite P4. lia. }
    destruct N as [A1 A2 A3 A4 A5 A6]. split; assumption.
  - assert (HF' : fine (r_vars (s_regions st r)) (Block (Declare x b1) b2)).
    { revert HF. unfold fine. cbn [own unambiguous map fst count].
      rewrite (own_names b2 (0 + S (count b1)) 0), (own_names b2 (S (0 + count b1)) 0), (own_names b1 1 0).
      auto. }
    apply fine_block in HF'. destruct HF' as (HF1 & HF2). cbn [count] in HC.
    destruct (added_sound M st r block_kinds HS HR eq_refl) as (P1 & P2 & P3 & P4).
    assert (N : numbered M st (walk r b2 (walk (s_next st) b1 (declare (push_region st r) (s_next st) x))) r
                  (Block (Declare x b1) b2)).
    { apply BLK; [exact HS|exact HR|exact HF2|cbn [count]; lia| | |exact IHb2].
      + apply grown_declare; [|cbn; lia|cbn; rewrite upd_same; reflexivity].
        intros r0 st0. apply walk_grown.
      + apply numbered_declare; [exact IHb1|exact P1|cbn; lia| |].
        * cbn. rewrite upd_same. exact HF1.
        * change (push_region st r) with (added st r block_kinds). rewrite P4. cbn [count]. lia. }
    destruct N as [A1 A2 A3 A4 A5 A6]. split; assumption.
Qed.

(* ------------------------------------------------------------------ *)
(** * Temporaries *)

Lemma refill_sound M st rs : sound M st -> refill M (s_next st) (s_regions st) rs ->
  sound M (with_regions st rs) /\
  (forall i, M <= i < s_next st -> eff rs i = eff (s_regions st) i) /\
  (forall i, r_vars (rs i) = r_vars (s_regions st i)) /\
  r_identity (rs M) = r_identity (s_regions st M).
Proof.
  intros [HT HL HB] HF. assert (T := tree_refill _ _ _ _ HT HF). assert (E := eff_refill _ _ _ _ HT HF).
  destruct HF as (HS & _).
  assert (ID : r_identity (rs M) = r_identity (s_regions st M)) by apply HS.
  split; [|split; [exact E|split; [intros i; apply HS|exact ID]]].
  split; cbn [with_regions s_regions s_next s_locals].
  - exact T.
  - intros i HI. destruct (HS i) as (_ & _ & _ & _ & ->). apply HL, HI.
  - intros i HI. rewrite E, ID by exact HI. apply HB, HI.
Qed.

Fixpoint temp_rows (e pos : nat) (id idx : Z) (k : nat) : list local :=
  match k with
  | O => []
  | S k' => mk_local (DTemp e pos) id idx :: temp_rows e (S pos) (id + 1)%Z (idx + 1)%Z k'
  end.

Lemma define_temps_spec M e T : forall k pos st,
  sound M st -> M <= T < s_next st ->
  (forall x v, In (x, v) (r_vars (s_regions st T)) -> exists i, x = TempName i /\ (i < eff (s_regions st) T)%Z) ->
  (r_identity (s_regions st M) + Z.of_nat k < 65535)%Z ->
  sound M (define_temps k pos e T st) /\
  s_next (define_temps k pos e T st) = s_next st /\
  r_identity (s_regions (define_temps k pos e T st) M) = (r_identity (s_regions st M) + Z.of_nat k)%Z /\
  (forall i, M <= i < T -> eff (s_regions (define_temps k pos e T st)) i = eff (s_regions st) i) /\
  Permutation (s_locals (define_temps k pos e T st))
    (s_locals st ++ temp_rows e pos (r_identity (s_regions st M)) (eff (s_regions st) T) k).
Proof.
  induction k as [|k IH]; intros pos st HS HT HV HC; cbn [define_temps].
  - split; [exact HS|]. split; [reflexivity|]. split; [lia|]. split; [auto|].
    cbn [temp_rows]. rewrite app_nil_r. reflexivity.
  - assert (F := current_refill M _ _ (so_tree _ _ HS) T HT).
    assert (EV : fst (current_index (s_regions st) T (r_previous (s_regions st T))) = eff (s_regions st) T) by reflexivity.
    destruct (current_index (s_regions st) T (r_previous (s_regions st T))) as [index rs]. cbn [fst snd] in F, EV.
    destruct (refill_sound M st rs HS F) as (S1 & E1 & V1 & ID1).
    assert (K : r_kinds (s_regions (with_regions st rs) T) VLocal = true) by (apply (so_tree _ _ S1); exact HT).
    destruct (define_local (with_regions st rs) T (TempName index) (DTemp e pos)) as [st1|] eqn:D.
    2: { apply (define_local_none _ _ _ _ K) in D. exfalso. cbn [with_regions s_regions] in D. rewrite V1 in D.
         destruct (find_var (TempName index) (r_vars (s_regions st T))) as [w|] eqn:FV; [|congruence].
         apply find_var_some in FV. destruct FV as (be & af & FV & _).
         destruct (HV (TempName index) w) as (i & X1 & X2).
         - rewrite FV. apply in_or_app. right. left. reflexivity.
         - injection X1 as X1. lia. }
    destruct (define_local_some _ _ _ _ _ D) as (_ & _ & A1 & _ & _ & _ & _ & _ & A7 & _).
    assert (HC1 : (r_identity (s_regions (with_regions st rs) M) < 65534)%Z).
    { cbn [with_regions s_regions]. rewrite ID1. lia. }
    destruct (define_local_sound M _ T _ _ st1 S1 HT HC1 D) as (B1 & B2 & B3 & B4 & B5 & B6).
    cbn [with_regions s_regions s_next s_locals] in *. rewrite ID1, ?V1, ?(E1 T HT) in *.
    destruct (IH (S pos) st1) as (C1 & C2 & C3 & C4 & C5).
    { exact B1. } { lia. }
    { rewrite A7. intros x v HI. apply in_app_or in HI. destruct HI as [HI|[HI|[]]].
      - destruct (HV x v HI) as (i & -> & X). exists i. split; [reflexivity|lia].
      - injection HI as <- _. exists index. split; [reflexivity|lia]. }
    { lia. }
    split; [exact C1|]. split; [lia|]. split; [lia|]. split.
    + intros i HI. rewrite C4, B5 by exact HI. apply E1. lia.
    + cbn [temp_rows]. rewrite C5, B3, B2, B4. apply Permutation_middle.
Qed.

Fixpoint all_temps (EF : nat -> Z) (e : nat) (id : Z) (reqs : list (nat * nat)) : list local :=
  match reqs with
  | [] => []
  | (vr, k) :: more => temp_rows e 0 id (EF vr) k ++ all_temps EF (S e) (id + Z.of_nat k)%Z more
  end.

Definition total (reqs : list (nat * nat)) : nat := list_sum (map snd reqs).

Lemma all_temps_ext EF EF' : forall reqs e id,
  Forall (fun q => EF (fst q) = EF' (fst q)) reqs -> all_temps EF e id reqs = all_temps EF' e id reqs.
Proof.
  induction reqs as [|[vr k] reqs IH]; intros e id H; cbn [all_temps]; [reflexivity|].
  inversion H as [|? ? H1 H2]; subst. cbn [fst] in H1. rewrite H1, IH by exact H2. reflexivity.
Qed.

Lemma write_temps_spec M : forall reqs e st,
  sound M st -> Forall (fun q => M <= fst q < s_next st) reqs ->
  (r_identity (s_regions st M) + Z.of_nat (total reqs) < 65535)%Z ->
  Permutation (s_locals (write_temps e reqs st))
    (s_locals st ++ all_temps (eff (s_regions st)) e (r_identity (s_regions st M)) reqs).
Proof.
  induction reqs as [|[vr k] reqs IH]; intros e st HS HR HC; cbn [write_temps].
  - cbn [all_temps]. rewrite app_nil_r. reflexivity.
  - inversion HR as [|? ? R1 R2]; subst. cbn [fst] in R1.
    assert (TT : total ((vr, k) :: reqs) = k + total reqs) by reflexivity. rewrite TT in HC.
    destruct (added_sound M st vr all_kinds HS R1 eq_refl) as (P1 & P2 & P3 & P4).
    change (push_temps st vr) with (added st vr all_kinds).
    destruct (define_temps_spec M e (s_next st) k 0 (added st vr all_kinds)) as (A1 & A2 & A3 & A4 & A5).
    { exact P1. } { cbn. lia. }
    { cbn. rewrite upd_same. cbn. intros x v []. }
    { rewrite P4. lia. }
    rewrite IH.
    + rewrite A5, A3, P4, P2. cbn [all_temps]. rewrite <- app_assoc. cbn [added s_locals].
      apply Permutation_app_head, Permutation_app_head.
      rewrite (all_temps_ext _ (eff (s_regions st))); [reflexivity|].
      rewrite Forall_forall in *. intros q HQ. specialize (R2 q HQ). rewrite A4 by lia. apply P3. lia.
    + exact A1.
    + rewrite A2. cbn [added s_next]. eapply Forall_impl; [|exact R2]. cbn. lia.
    + rewrite A3, P4. lia.
Qed.

(* ------------------------------------------------------------------ *)
(** * The order of the rows *)

Inductive ascending : Z -> list local -> Prop :=
| asc_nil z : ascending z []
| asc_cons z v l : l_identity v = z -> ascending (z + 1)%Z l -> ascending z (v :: l).

Lemma ascending_app a : forall b z, ascending z a -> ascending (z + Z.of_nat (length a))%Z b -> ascending z (a ++ b).
Proof.
  induction a as [|v a IH]; intros b z HA HB; cbn [app].
  - cbn [length] in HB. rewrite Z.add_0_r in HB. exact HB.
  - inversion HA; subst. constructor; [reflexivity|]. apply IH; [assumption|].
    cbn [length] in HB. replace (l_identity v + 1 + Z.of_nat (length a))%Z
      with (l_identity v + Z.of_nat (S (length a)))%Z by lia. exact HB.
Qed.

Lemma ascending_low l : forall z v, ascending z l -> In v l -> (z <= l_identity v)%Z.
Proof.
  induction l as [|h l IH]; intros z v HA HI; [destruct HI|]. inversion HA as [|? ? ? E HA']; subst.
  destruct HI as [<-|HI]; [lia|]. specialize (IH _ _ HA' HI). lia.
Qed.

Lemma insert_sorted_perm v l : Permutation (insert_sorted v l) (v :: l).
Proof.
  induction l as [|h l IH]; cbn [insert_sorted]; [reflexivity|]. destruct (_ <? _)%Z; [reflexivity|].
  rewrite IH. apply perm_swap.
Qed.

Lemma sort_perm l : Permutation (sort_locals l) l.
Proof.
  unfold sort_locals. induction l as [|v l IH]; cbn [fold_right]; [reflexivity|].
  rewrite insert_sorted_perm, IH. reflexivity.
Qed.

Inductive rising : list local -> Prop :=
| rise_nil : rising []
| rise_cons v l : (forall w, In w l -> (l_identity v <= l_identity w)%Z) -> rising l -> rising (v :: l).

Lemma insert_rising v l : rising l -> rising (insert_sorted v l).
Proof.
  induction l as [|h l IH]; intros HR; cbn [insert_sorted].
  - constructor; [intros w []|constructor].
  - inversion HR as [|? ? H1 H2]; subst. destruct (l_identity v <? l_identity h)%Z eqn:E.
    + apply Z.ltb_lt in E. constructor; [|exact HR]. intros w [<-|HW]; [lia|]. specialize (H1 w HW). lia.
    + apply Z.ltb_ge in E. constructor; [|apply IH, H2]. intros w HW.
      apply (Permutation_in _ (insert_sorted_perm v l)) in HW. destruct HW as [<-|HW]; [exact E|]. apply H1, HW.
Qed.

Lemma sort_rising l : rising (sort_locals l).
Proof.
  unfold sort_locals. induction l as [|v l IH]; cbn [fold_right]; [constructor|]. apply insert_rising, IH.
Qed.

Lemma rising_unique : forall b z a, rising a -> ascending z b -> Permutation a b -> a = b.
Proof.
  induction b as [|w b IH]; intros z a HA HB HP.
  - apply Permutation_sym, Permutation_nil in HP. exact HP.
  - inversion HB as [|? ? ? E HB']; subst. destruct a as [|v a].
    + apply Permutation_nil in HP. discriminate HP.
    + inversion HA as [|? ? H1 H2]; subst.
      assert (VW : v = w).
      { assert (IV : In v (w :: b)) by (apply (Permutation_in _ HP); left; reflexivity).
        assert (IW : In w (v :: a)) by (apply (Permutation_in _ (Permutation_sym HP)); left; reflexivity).
        destruct IV as [->|IV]; [reflexivity|]. apply (ascending_low _ _ _ HB') in IV.
        destruct IW as [->|IW]; [reflexivity|]. apply H1 in IW. lia. }
      subst w. f_equal. apply (IH _ _ H2 HB'). apply (Permutation_cons_inv HP).
Qed.

Lemma sort_ascending l rows z : Permutation l rows -> ascending z rows -> sort_locals l = rows.
Proof.
  intros HP HA. apply (rising_unique rows z); [apply sort_rising|exact HA|].
  rewrite sort_perm. exact HP.
Qed.

Lemma rows_ascending : forall ks site id, ascending id (rows_from site id ks).
Proof. induction ks as [|k ks IH]; intros site id; cbn [rows_from]; constructor; [reflexivity|apply IH]. Qed.

Lemma rows_length : forall ks site id, length (rows_from site id ks) = length ks.
Proof. induction ks as [|k ks IH]; intros site id; cbn [rows_from length]; [reflexivity|]. rewrite IH. reflexivity. Qed.

Lemma temp_rows_ascending e : forall k pos id idx, ascending id (temp_rows e pos id idx k).
Proof. induction k as [|k IH]; intros pos id idx; cbn [temp_rows]; constructor; [reflexivity|apply IH]. Qed.

Lemma temp_rows_length e : forall k pos id idx, length (temp_rows e pos id idx k) = k.
Proof. induction k as [|k IH]; intros pos id idx; cbn [temp_rows length]; [reflexivity|]. rewrite IH. reflexivity. Qed.

Lemma all_temps_ascending EF : forall reqs e id, ascending id (all_temps EF e id reqs).
Proof.
  induction reqs as [|[vr k] reqs IH]; intros e id; cbn [all_temps]; [constructor|].
  apply ascending_app; [apply temp_rows_ascending|]. rewrite temp_rows_length. apply IH.
Qed.

(* ------------------------------------------------------------------ *)
(** * The regions the temporaries are made in *)

Lemma assigned_range b : forall acc next q, assigned acc next b = Some q ->
  acc = Some q \/ next <= q < next + regions_in b.
Proof.
  induction b; intros acc next q HA; cbn [assigned regions_in] in *; auto.
  - destruct (IHb2 _ _ _ HA) as [H|H]; [|lia]. destruct (IHb1 _ _ _ H) as [H1|H1]; [|lia].
    injection H1 as <-. lia.
  - destruct (IHb2 _ _ _ HA) as [H|H]; [auto|lia].
  - destruct (IHb2 _ _ _ HA) as [H|H]; [auto|lia].
  - destruct (IHb2 _ _ _ HA) as [H|H]; [auto|lia].
Qed.

Lemma nvl_range b next vr (P : nat -> Prop) : P vr -> (forall q, next <= q < next + regions_in b -> P q) ->
  P (nvl (assigned None next b) vr).
Proof.
  intros H1 H2. destruct (assigned None next b) as [q|] eqn:E; cbn [nvl]; [|exact H1].
  destruct (assigned_range _ _ _ _ E) as [H|H]; [discriminate H|]. apply H2, H.
Qed.

Lemma requests_range (P : nat -> Prop) b : forall vr next, P vr ->
  (forall q, next <= q < next + regions_in b -> P q) ->
  Forall (fun q => P (fst q)) (requests vr next b).
Proof.
  induction b; intros vr next HV HP; cbn [requests regions_in] in *.
  - constructor.
  - apply IHb; assumption.
  - constructor; [exact HV|]. apply IHb; assumption.
  - apply IHb; assumption.
  - apply Forall_app. split; [apply IHb1|apply IHb2]; try assumption; intros q HQ; apply HP; lia.
  - apply Forall_app. split; [apply IHb1|apply IHb2]; try assumption; try (intros q HQ; apply HP; lia).
    apply (nvl_range b1 next vr P HV). intros q HQ. apply HP. lia.
  - apply Forall_app. split; [apply IHb1|apply IHb2]; try assumption; try (intros q HQ; apply HP; lia).
    apply (nvl_range b1 (S next) vr P HV). intros q HQ. apply HP. lia.
  - apply Forall_app. split; [apply IHb1|apply IHb2]; try assumption; try (intros q HQ; apply HP; lia).
    apply (nvl_range b1 (S next) vr P HV). intros q HQ. apply HP. lia.
Qed.

Lemma requests_counts b : forall vr next sc n, map snd (requests vr next b) = map fst (live sc n b).
Proof.
  induction b; intros vr next sc n; cbn [requests live map]; rewrite ?map_app; cbn [map fst snd]; auto;
    try (f_equal; auto).
Qed.

Lemma requests_total b : forall vr next, total (requests vr next b) = temps_in b.
Proof.
  assert (A : forall a c, total (a ++ c) = total a + total c).
  { intros a c. unfold total. rewrite map_app, list_sum_app. reflexivity. }
  induction b; intros vr next; cbn [requests temps_in]; rewrite ?A, ?IHb1, ?IHb2; auto.
  change (total ((vr, k) :: requests vr next b)) with (k + total (requests vr next b)). rewrite IHb. reflexivity.
Qed.

(** The own locals of a body are below the counter after it. *)
Lemma own_before b : forall n k x s, In (x, DLocal s) (own n b) ->
  exists j v, s = n + j /\ nth_error (before k b) j = Some v /\ v < k + length (own 0 b).
Proof.
  assert (SH : forall (l1 l2 : list nat) j v, nth_error l2 j = Some v -> nth_error (l1 ++ l2) (length l1 + j) = Some v).
  { intros l1 l2 j v H. rewrite nth_error_app2 by lia. replace (length l1 + j - length l1) with j by lia. exact H. }
  induction b; intros n kk y s HI; cbn [own before length] in *.
  - destruct HI.
  - exact (IHb n kk y s HI).
  - exact (IHb n kk y s HI).
  - destruct HI as [HI|HI].
    + injection HI as _ <-. exists 0, kk. split; [lia|]. split; [reflexivity|]. lia.
    + destruct (IHb (S n) (S kk) y s HI) as (j & v & E1 & E2 & E3). exists (S j), v.
      split; [lia|]. split; [exact E2|]. rewrite (own_length b 1 0). lia.
  - destruct (IHb2 _ kk y s HI) as (j & v & E1 & E2 & E3). exists (count b1 + j), v.
    split; [lia|]. rewrite <- (before_length b1 kk). split; [apply SH, E2|]. rewrite (own_length b2 (0 + length _) 0). exact E3.
  - apply in_app_or in HI. rewrite app_length, (own_length b2 (0 + count b1) 0). destruct HI as [HI|HI].
    + destruct (IHb1 _ kk y s HI) as (j & v & E1 & E2 & E3). exists j, v. split; [exact E1|]. split; [|lia].
      rewrite nth_error_app1; [exact E2|]. apply nth_error_Some. congruence.
    + destruct (IHb2 _ (kk + length (own 0 b1)) y s HI) as (j & v & E1 & E2 & E3). exists (count b1 + j), v.
      split; [lia|]. rewrite <- (before_length b1 kk). split; [apply SH, E2|]. lia.
  - destruct (IHb2 _ kk y s HI) as (j & v & E1 & E2 & E3). exists (count b1 + j), v.
    split; [lia|]. rewrite <- (before_length b1 kk). split; [apply SH, E2|]. rewrite (own_length b2 (0 + length _) 0). exact E3.
  - destruct (IHb2 _ kk y s HI) as (j & v & E1 & E2 & E3). exists (S (count b1 + j)), v.
    split; [lia|]. rewrite <- (before_length b1 (S kk)). split; [cbn [nth_error]; apply SH, E2|].
    rewrite (own_length b2 (S (0 + length _)) 0). exact E3.
Qed.

Lemma own_locals b : forall n x d, In (x, d) (own n b) -> exists s, d = DLocal s.
Proof.
  induction b; intros n y d HI; cbn [own] in HI; eauto.
  - destruct HI.
  - destruct HI as [HI|HI]; [injection HI as _ <-; eauto|eauto].
  - apply in_app_or in HI. destruct HI; eauto.
Qed.

Lemma assigned_group b : forall acc next, tidy InGroup b -> assigned acc next b = acc.
Proof.
  induction b; intros acc next HT; cbn [tidy assigned] in *; auto.
  - apply IHb, HT.
  - destruct HT as (H & _). congruence.
  - apply IHb2, HT.
  - apply IHb2, HT.
  - apply IHb2, HT.
Qed.

Lemma header_region M b : forall p r st, sound M st -> M <= r < s_next st ->
  fine (r_vars (s_regions st r)) b ->
  (r_identity (s_regions st M) + Z.of_nat (count b) < 65535)%Z ->
  tidy p b -> p <> InGroup ->
  exists q, assigned None (s_next st) b = Some q /\ M <= q < s_next (walk r b st) /\
    (eff (s_regions st) r + Z.of_nat (length (own 0 b)) <= eff (s_regions (walk r b st)) q)%Z.
Proof.
  induction b; intros p r st HS HR HF HC HT HP; cbn [tidy] in HT.
  - contradiction.
  - cbn [walk assigned]. apply (IHb p r (delay st x r)); try assumption.
    destruct HS as [A B C]. split; assumption.
  - cbn [walk assigned]. apply (IHb p r st); assumption.
  - destruct HT as (_ & HT). cbn [walk assigned count] in *.
    apply (fine_declare _ x b (VLocal, DLocal (s_sites st)) eq_refl) in HF. destruct HF as (HF1 & HF2).
    assert (K : r_kinds (s_regions st r) VLocal = true) by (apply (so_tree _ _ HS); exact HR).
    destruct (declare_cases st r x K) as [(v & FV & _)|(_ & st1 & E1 & ->)]; [congruence|].
    destruct (define_local_some _ _ _ _ _ E1) as (_ & _ & A1 & _ & _ & _ & A5 & A6 & A7 & _).
    destruct (define_local_sound M st r x _ st1 HS HR ltac:(lia) E1) as (B1 & B2 & B3 & B4 & B5 & B6).
    destruct (IHb p r (met st1)) as (q & Q1 & Q2 & Q3).
    { destruct B1 as [X Y Z0]. split; assumption. }
    { cbn. lia. }
    { cbn [met s_regions]. rewrite A7. exact HF2. }
    { cbn [met s_regions]. rewrite B2. lia. }
    { exact HT. } { exact HP. }
    cbn [met s_regions s_next] in *. rewrite A1 in Q1.
    exists q. split; [exact Q1|]. split; [exact Q2|]. cbn [own length]. rewrite (own_length b 1 0). lia.
  - destruct HT as (_ & -> & HT). cbn [walk assigned]. rewrite (assigned_group b1) by exact HT.
    exists (s_next st). split; [reflexivity|].
    apply fine_block in HF. destruct HF as (HF1 & _). cbn [count] in HC.
    destruct (added_sound M st r block_kinds HS HR eq_refl) as (P1 & P2 & P3 & P4).
    assert (G : grown (push_region st r) (walk (s_next st) b1 (push_region st r)) (s_next st) b1).
    { apply walk_grown; [cbn; lia|]. cbn. rewrite upd_same. reflexivity. }
    assert (N : numbered M (push_region st r) (walk (s_next st) b1 (push_region st r)) (s_next st) b1).
    { apply walk_numbered; [exact P1|cbn; lia| |].
      - cbn. rewrite upd_same. exact HF1.
      - change (push_region st r) with (added st r block_kinds). rewrite P4. lia. }
    assert (NX := g_next _ _ _ _ G). cbn [push_region s_next] in NX. split; [lia|].
    rewrite (n_eff _ _ _ _ _ N). change (push_region st r) with (added st r block_kinds). rewrite P2.
    cbn [own length]. lia.
  - destruct HT as (HT & _). contradiction.
  - destruct HT as (HT & _). contradiction.
  - destruct HT as (HT & _). contradiction.
Qed.

Definition away (EF : nat -> Z) (ix : nat -> nat) (q : nat * nat) (l : nat * list nat) : Prop :=
  snd q = fst l /\ forall i, In i (snd l) -> (Z.of_nat (ix i) < EF (fst q))%Z.

Lemma walk_live M EF ix b : forall p r st vr sc k,
  sound M st -> M <= r < s_next st -> fine (r_vars (s_regions st r)) b ->
  (r_identity (s_regions st M) + Z.of_nat (count b) < 65535)%Z -> tidy p b ->
  eff (s_regions st) r = Z.of_nat k ->
  (forall j v, nth_error (before k b) j = Some v -> ix (s_sites st + j) = v) ->
  (forall i, In i sc -> (Z.of_nat (ix i) < eff (s_regions st) r)%Z) ->
  (forall i, M <= i < s_next (walk r b st) -> (eff (s_regions (walk r b st)) i <= EF i)%Z) ->
  (p <> InGroup -> assigned None (s_next st) b = Some vr) ->
  (eff (s_regions st) r + Z.of_nat (length (own 0 b)) <= EF vr)%Z ->
  Forall2 (away EF ix) (requests vr (s_next st) b) (live sc (s_sites st) b).
Proof.
  assert (NA : forall (l1 l2 : list nat) (site m : nat),
     m = length l1 ->
     (forall j v, nth_error (l1 ++ l2) j = Some v -> ix (site + j) = v) ->
     (forall j v, nth_error l1 j = Some v -> ix (site + j) = v) /\
     (forall j v, nth_error l2 j = Some v -> ix (site + m + j) = v)).
  { intros l1 l2 site m -> H. split.
    - intros j v HJ. apply H. rewrite nth_error_app1; [exact HJ|]. apply nth_error_Some. congruence.
    - intros j v HJ. rewrite <- Nat.add_assoc. apply H. rewrite nth_error_app2 by lia.
      replace (length l1 + j - length l1) with j by lia. exact HJ. }
  induction b; intros p r st vr sc kk HS HR HF HC HT HE HX HSC HEF HA HV; cbn [tidy] in HT.
  - constructor.
  - cbn [requests live]. apply (IHb p r (delay st x r) vr sc kk); try assumption.
    destruct HS as [A B C]. split; assumption.
  - cbn [requests live]. constructor.
    + split; [reflexivity|]. cbn [fst snd]. intros i HI. specialize (HSC i HI). lia.
    + apply (IHb p r st vr sc kk); assumption.
  - destruct HT as (_ & HT). cbn [requests live walk assigned count own length] in *.
    rewrite (own_length b 1 0) in HV.
    apply (fine_declare _ x b (VLocal, DLocal (s_sites st)) eq_refl) in HF. destruct HF as (HF1 & HF2).
    assert (K : r_kinds (s_regions st r) VLocal = true) by (apply (so_tree _ _ HS); exact HR).
    destruct (declare_cases st r x K) as [(v & FV & _)|(_ & st1 & E1 & E2)]; [congruence|].
    rewrite E2 in *.
    destruct (define_local_some _ _ _ _ _ E1) as (_ & _ & A1 & _ & _ & _ & A5 & A6 & A7 & _).
    destruct (define_local_sound M st r x _ st1 HS HR ltac:(lia) E1) as (B1 & B2 & B3 & B4 & B5 & B6).
    replace (s_next st) with (s_next (met st1)) by exact A1.
    replace (S (s_sites st)) with (s_sites (met st1)) by (cbn; congruence).
    apply (IHb p r (met st1) vr (s_sites st :: sc) (S kk)).
    + destruct B1 as [X Y Z0]. split; assumption.
    + cbn. lia.
    + cbn [met s_regions]. rewrite A7. exact HF2.
    + cbn [met s_regions]. rewrite B2. lia.
    + exact HT.
    + cbn [met s_regions]. lia.
    + intros j v HJ. cbn [met s_sites]. rewrite A5.
      replace (S (s_sites st) + j) with (s_sites st + S j) by lia. apply HX. exact HJ.
    + cbn [met s_regions]. intros i [<-|HI].
      * specialize (HX 0 kk eq_refl). rewrite Nat.add_0_r in HX. lia.
      * specialize (HSC i HI). lia.
    + exact HEF.
    + intros HP. cbn [met s_next]. rewrite A1. apply HA, HP.
    + cbn [met s_regions]. lia.
  - destruct HT as (HP & -> & HT). cbn [requests live]. rewrite !app_nil_r.
    specialize (HA HP). cbn [assigned] in HA. rewrite (assigned_group b1) in HA by exact HT.
    injection HA as <-.
    apply fine_block in HF. destruct HF as (HF1 & _). cbn [count] in HC.
    destruct (added_sound M st r block_kinds HS HR eq_refl) as (P1 & P2 & P3 & P4).
    assert (N : numbered M (push_region st r) (walk (s_next st) b1 (push_region st r)) (s_next st) b1).
    { apply walk_numbered; [exact P1|cbn; lia| |].
      - cbn. rewrite upd_same. exact HF1.
      - change (push_region st r) with (added st r block_kinds). rewrite P4. lia. }
    assert (G : grown (push_region st r) (walk (s_next st) b1 (push_region st r)) (s_next st) b1).
    { apply walk_grown; [cbn; lia|]. cbn. rewrite upd_same. reflexivity. }
    assert (NX := g_next _ _ _ _ G). cbn [push_region s_next] in NX.
    cbn [walk] in HEF. cbn [before] in HX. rewrite app_nil_r in HX.
    apply (IHb1 InGroup (s_next st) (push_region st r) (s_next st) sc kk).
    + exact P1.
    + cbn. lia.
    + cbn. rewrite upd_same. exact HF1.
    + change (push_region st r) with (added st r block_kinds). rewrite P4. lia.
    + exact HT.
    + change (push_region st r) with (added st r block_kinds). congruence.
    + exact HX.
    + change (push_region st r) with (added st r block_kinds). rewrite P2. exact HSC.
    + exact HEF.
    + intros X. contradiction.
    + rewrite <- (n_eff _ _ _ _ _ N). apply HEF. lia.
  - destruct HT as (-> & HT1 & HT2). cbn [requests live walk count before] in *.
    assert (OL : length (own 0 (Nested b1 b2)) = length (own 0 b1) + length (own 0 b2)).
    { cbn [own]. rewrite app_length, (own_length b2 (0 + count b1) 0). reflexivity. }
    rewrite OL in HV.
    apply (fine_nested _ _ _ (s_sites st)) in HF. destruct HF as (HF1 & HF2).
    assert (K : r_kinds (s_regions st r) VLocal = true) by (apply (so_tree _ _ HS); exact HR).
    assert (G := walk_grown b1 r st ltac:(lia) K).
    assert (NX := g_next _ _ _ _ G). assert (NS := g_sites _ _ _ _ G).
    assert (N := walk_numbered M b1 r st HS HR HF1 ltac:(lia)).
    destruct N as [A1 A2 A3 A4 A5 A6].
    assert (HF3 : fine (r_vars (s_regions (walk r b1 st) r)) b2).
    { rewrite (fine_grown _ _ _ _ G HF1). exact HF2. }
    assert (N2 : numbered M (walk r b1 st) (walk r b2 (walk r b1 st)) r b2).
    { apply walk_numbered; [exact A1|lia|exact HF3|]. rewrite A5. lia. }
    assert (G2 : grown (walk r b1 st) (walk r b2 (walk r b1 st)) r b2).
    { apply walk_grown; [lia|]. apply (so_tree _ _ A1). lia. }
    assert (NX2 := g_next _ _ _ _ G2).
    assert (M2 := n_mono _ _ _ _ _ N2).
    destruct (NA _ _ (s_sites st) (count b1) (eq_sym (before_length b1 kk)) HX) as (HX1 & HX2).
    apply Forall2_app.
    + assert (EFI : forall i, M <= i < s_next (walk r b1 st) -> (eff (s_regions (walk r b1 st)) i <= EF i)%Z).
      { intros i HI. specialize (M2 i HI). specialize (HEF i ltac:(lia)). lia. }
      destruct HT1 as [HT1|HT1].
      * rewrite (assigned_group b1) by exact HT1. cbn [nvl].
        apply (IHb1 InGroup r st vr sc kk); try assumption; [lia|intros X; contradiction|lia].
      * destruct (header_region M b1 InHeader r st HS HR HF1 ltac:(lia) HT1 ltac:(discriminate)) as (q & Q1 & Q2 & Q3).
        rewrite Q1. cbn [nvl].
        apply (IHb1 InHeader r st q sc kk); try assumption; [lia|intros _; exact Q1|].
        specialize (EFI q Q2). lia.
    + replace (s_next st + regions_in b1) with (s_next (walk r b1 st)) by exact NX.
      replace (s_sites st + count b1) with (s_sites (walk r b1 st)) by exact NS.
      apply (IHb2 InGroup r (walk r b1 st) vr _ (kk + length (own 0 b1))); try assumption.
      * lia.
      * rewrite A5. lia.
      * lia.
      * intros j v HJ. rewrite NS. apply HX2, HJ.
      * intros i HI. apply in_app_or in HI. destruct HI as [HI|HI].
        -- unfold own_sites in HI. apply in_map_iff in HI. destruct HI as ((y & d) & HD & HI). cbn [snd] in HD.
           destruct (own_locals _ _ _ _ HI) as (s & ->). subst s.
           destruct (own_before b1 _ kk _ _ HI) as (j & v & -> & J1 & J2).
           rewrite (HX1 j v J1). lia.
        -- specialize (HSC i HI). lia.
      * intros X. contradiction.
      * lia.
  - destruct HT as (-> & HT1 & HT2). cbn [requests live walk count before] in *.
    cbn [own] in HV. rewrite (own_length b2 (0 + count b1) 0) in HV.
    assert (HF' : fine (r_vars (s_regions st r)) (Block b1 b2)) by exact HF.
    apply fine_block in HF'. destruct HF' as (HF1 & HF2).
    destruct (added_sound M st r block_kinds HS HR eq_refl) as (P1 & P2 & P3 & P4).
    assert (HF1' : fine (r_vars (s_regions (push_region st r) (s_next st))) b1).
    { cbn. rewrite upd_same. exact HF1. }
    assert (HC1 : (r_identity (s_regions (push_region st r) M) + Z.of_nat (count b1) < 65535)%Z).
    { change (push_region st r) with (added st r block_kinds). rewrite P4. lia. }
    assert (G : grown (push_region st r) (walk (s_next st) b1 (push_region st r)) (s_next st) b1).
    { apply walk_grown; [cbn; lia|]. cbn. rewrite upd_same. reflexivity. }
    assert (NX := g_next _ _ _ _ G). assert (NS := g_sites _ _ _ _ G). cbn [push_region s_next s_sites] in NX, NS.
    assert (N := walk_numbered M b1 (s_next st) (push_region st r) P1 ltac:(cbn; lia) HF1' HC1).
    destruct N as [A1 A2 A3 A4 A5 A6].
    set (st1 := walk (s_next st) b1 (push_region st r)) in *.
    change (push_region st r) with (added st r block_kinds) in *. rewrite P4 in A5.
    assert (ER : forall i, M <= i < s_next st -> eff (s_regions st1) i = eff (s_regions st) i).
    { intros i HI. rewrite A3 by exact HI. apply P3. exact HI. }
    assert (HF3 : fine (r_vars (s_regions st1 r)) b2).
    { destruct (g_regions _ _ _ _ G r ltac:(cbn; lia)) as (_ & _ & GV). rewrite GV by lia.
      cbn. rewrite upd_other by lia. exact HF2. }
    assert (N2 : numbered M st1 (walk r b2 st1) r b2).
    { apply walk_numbered; [exact A1|lia|exact HF3|]. rewrite A5. lia. }
    assert (G2 : grown st1 (walk r b2 st1) r b2).
    { apply walk_grown; [lia|]. apply (so_tree _ _ A1). lia. }
    assert (NX2 := g_next _ _ _ _ G2).
    assert (M2 := n_mono _ _ _ _ _ N2).
    destruct (NA _ _ (s_sites st) (count b1) (eq_sym (before_length b1 kk)) HX) as (HX1 & HX2).
    apply Forall2_app.
    + assert (EFI : forall i, M <= i < s_next st1 -> (eff (s_regions st1) i <= EF i)%Z).
      { intros i HI. specialize (M2 i HI). specialize (HEF i ltac:(lia)). lia. }
      destruct (header_region M b1 InForHeader (s_next st) (added st r block_kinds) P1 ltac:(cbn; lia) HF1'
                  ltac:(rewrite P4; lia) HT1 ltac:(discriminate)) as (q & Q1 & Q2 & Q3).
      change (s_next (added st r block_kinds)) with (S (s_next st)) in Q1. rewrite Q1. cbn [nvl].
      apply (IHb1 InForHeader (s_next st) (added st r block_kinds) q sc kk); try assumption.
      * cbn. lia.
      * congruence.
      * rewrite P2. exact HSC.
      * intros _. exact Q1.
      * specialize (EFI q Q2). fold st1 in Q3. lia.
    + replace (S (s_next st + regions_in b1)) with (s_next st1) by lia.
      replace (s_sites st + count b1) with (s_sites st1) by exact NS.
      apply (IHb2 InGroup r st1 vr sc kk); try assumption.
      * lia.
      * rewrite A5. lia.
      * rewrite ER by lia. exact HE.
      * intros j v HJ. rewrite NS. apply HX2, HJ.
      * rewrite ER by lia. exact HSC.
      * intros X. contradiction.
      * rewrite ER by lia. exact HV.
  - destruct HT as (-> & HT1 & HT2). cbn [requests live walk count before] in *.
    cbn [own] in HV. rewrite (own_length b2 (S (0 + count b1)) 0) in HV.
    assert (HF' : fine (r_vars (s_regions st r)) (Block (Declare x b1) b2)).
    { revert HF. unfold fine. cbn [own unambiguous map fst count].
      rewrite (own_names b2 (0 + S (count b1)) 0), (own_names b2 (S (0 + count b1)) 0), (own_names b1 1 0).
      auto. }
    apply fine_block in HF'. destruct HF' as (HF1 & HF2).
    destruct (added_sound M st r block_kinds HS HR eq_refl) as (P1 & P2 & P3 & P4).
    assert (Q0 : r_vars (s_regions (push_region st r) (s_next st)) = []).
    { cbn. rewrite upd_same. reflexivity. }
    assert (K : r_kinds (s_regions (push_region st r) (s_next st)) VLocal = true).
    { cbn. rewrite upd_same. reflexivity. }
    assert (SN : s_next (push_region st r) = S (s_next st)) by reflexivity.
    assert (SS : s_sites (push_region st r) = s_sites st) by reflexivity.
    apply (fine_declare _ x b1 (VLocal, DLocal (s_sites st)) eq_refl) in HF1. destruct HF1 as (HF0 & HF1).
    destruct (declare_cases (push_region st r) (s_next st) x K) as [(v & FV & _)|(_ & std & E1 & E2)];
      [rewrite Q0 in FV; discriminate FV|].
    rewrite E2 in *. rewrite SS in E1.
    destruct (define_local_some _ _ _ _ _ E1) as (_ & _ & D1 & _ & _ & _ & D5 & D6 & D7 & D8).
    change (push_region st r) with (added st r block_kinds) in *.
    assert (BI : (r_identity (s_regions (added st r block_kinds) M) < 65534)%Z) by (rewrite P4; lia).
    destruct (define_local_sound M _ (s_next st) x _ std P1 ltac:(rewrite SN; lia) BI E1)
      as (B1 & B2 & B3 & B4 & B5 & B6).
    rewrite Q0 in D7. rewrite P4 in B2. rewrite P2 in B4. rewrite SN in D1. rewrite SS in D5.
    assert (SM : sound M (met std)) by (destruct B1 as [X Y Z0]; split; assumption).
    assert (HF1' : fine (r_vars (s_regions (met std) (s_next st))) b1).
    { cbn [met s_regions]. rewrite D7. exact HF1. }
    assert (HC1 : (r_identity (s_regions (met std) M) + Z.of_nat (count b1) < 65535)%Z).
    { cbn [met s_regions]. rewrite B2. lia. }
    assert (RN : M <= s_next st < s_next (met std)) by (cbn [met s_next]; lia).
    assert (KM : r_kinds (s_regions (met std) (s_next st)) VLocal = true) by (apply (so_tree _ _ SM); exact RN).
    assert (G := walk_grown b1 (s_next st) (met std) ltac:(lia) KM).
    assert (NX := g_next _ _ _ _ G). assert (NS := g_sites _ _ _ _ G). cbn [met s_next s_sites] in NX, NS.
    assert (N := walk_numbered M b1 (s_next st) (met std) SM RN HF1' HC1).
    destruct N as [A1 A2 A3 A4 A5 A6].
    set (st1 := walk (s_next st) b1 (met std)) in *.
    cbn [met s_regions] in A3, A5. rewrite B2 in A5.
    assert (ER : forall i, M <= i < s_next st -> eff (s_regions st1) i = eff (s_regions st) i).
    { intros i HI. rewrite A3, B5 by exact HI. apply P3. exact HI. }
    assert (HF3 : fine (r_vars (s_regions st1 r)) b2).
    { destruct (g_regions _ _ _ _ G r ltac:(cbn; lia)) as (_ & _ & GV). rewrite GV by lia.
      cbn [met s_regions]. rewrite D8 by lia. cbn. rewrite upd_other by lia. exact HF2. }
    assert (N2 : numbered M st1 (walk r b2 st1) r b2).
    { apply walk_numbered; [exact A1|lia|exact HF3|]. rewrite A5. lia. }
    assert (G2 : grown st1 (walk r b2 st1) r b2).
    { apply walk_grown; [lia|]. apply (so_tree _ _ A1). lia. }
    assert (NX2 := g_next _ _ _ _ G2).
    assert (M2 := n_mono _ _ _ _ _ N2).
    change (kk :: before (S kk) b1 ++ before kk b2) with ((kk :: before (S kk) b1) ++ before kk b2) in HX.
    assert (LB : S (count b1) = length (kk :: before (S kk) b1)) by (cbn [length]; rewrite before_length; reflexivity).
    destruct (NA (kk :: before (S kk) b1) (before kk b2) (s_sites st) (S (count b1)) LB HX) as (HX1 & HX2).
    apply Forall2_app.
    + assert (EFI : forall i, M <= i < s_next st1 -> (eff (s_regions st1) i <= EF i)%Z).
      { intros i HI. specialize (M2 i HI). specialize (HEF i ltac:(lia)). lia. }
      destruct (header_region M b1 InHeader (s_next st) (met std) SM RN HF1' HC1 HT1 ltac:(discriminate))
        as (q & Q1 & Q2 & Q3).
      assert (Q1' := Q1). cbn [met s_next] in Q1'. rewrite D1 in Q1'. rewrite Q1'. cbn [nvl].
      replace (S (s_next st)) with (s_next (met std)) by exact D1.
      replace (S (s_sites st)) with (s_sites (met std)) by (cbn; congruence).
      apply (IHb1 InHeader (s_next st) (met std) q (s_sites st :: sc) (S kk)); try assumption.
      * cbn [met s_regions]. lia.
      * intros j v HJ. cbn [met s_sites]. rewrite D5.
        replace (S (s_sites st) + j) with (s_sites st + S j) by lia. apply HX1. exact HJ.
      * cbn [met s_regions]. intros i [<-|HI].
        -- specialize (HX1 0 kk eq_refl). rewrite Nat.add_0_r in HX1. lia.
        -- specialize (HSC i HI). lia.
      * intros _. exact Q1.
      * specialize (EFI q Q2). fold st1 in Q3. lia.
    + replace (S (s_next st + regions_in b1)) with (s_next st1) by lia.
      replace (S (s_sites st + count b1)) with (s_sites st1) by lia.
      apply (IHb2 InGroup r st1 vr sc kk); try assumption.
      * lia.
      * rewrite A5. lia.
      * rewrite ER by lia. exact HE.
      * intros j v HJ. rewrite NS, D5. replace (S (s_sites st) + count b1 + j) with (s_sites st + S (count b1) + j) by lia.
        apply HX2, HJ.
      * rewrite ER by lia. exact HSC.
      * intros X. contradiction.
      * rewrite ER by lia. exact HV.
Qed.
