(** What happens to the 65536th local of a block. *)
From Coq Require Import List ZArith Bool Arith Lia Permutation.
Import ListNotations.
From Verif Require Import ScopeModel ScopeSpec ScopeProofs ScopeIndexProofs ScopeTableProofs.
Open Scope nat_scope.

Definition linked (st : state) (i : nat) : Prop :=
  r_last (s_regions st i) = Head \/
  exists d, r_last (s_regions st i) = Node d /\ In d (map l_decl (s_locals st)).

Lemma define_local_base M st x d st' :
  tree M (s_next st) (s_regions st) -> linked st M -> define_local st M x d = Some st' ->
  tree M (s_next st') (s_regions st') /\ linked st' M /\
  (exists id, Permutation (s_locals st') (mk_local d id (eff (s_regions st) M) :: s_locals st)) /\
  eff (s_regions st') M = (if (msucc (eff (s_regions st) M) =? empty_index)%Z then 0%Z
                           else msucc (eff (s_regions st) M)).
Proof.
  intros HT HL HD. assert (HR : M <= M < s_next st) by (destruct HT as (H & _); lia).
  unfold define_local, define in HD.
  destruct (r_kinds (s_regions st M) VLocal) eqn:K; [|discriminate HD].
  destruct (find_var x (r_vars (s_regions st M))) as [[k' d']|] eqn:FV; [cbn in HD; discriminate HD|].
  set (R := s_regions st) in *. set (n := s_next st) in *.
  set (rs := upd R M (add_var (R M) x (VLocal, d))) in *.
  assert (S0 : forall i, r_previous (rs i) = r_previous (R i) /\ r_kinds (rs i) = r_kinds (R i) /\
                         r_index (rs i) = r_index (R i) /\ r_last (rs i) = r_last (R i)).
  { intros i. unfold rs, upd. destruct (Nat.eqb_spec i M); [subst i|]; repeat split. }
  assert (T0 : tree M n rs).
  { apply (tree_same M n R rs HT). intros i _. destruct (S0 i) as (A & B & _). auto. }
  rewrite (identity_root_tree M n rs T0 M HR) in HD. cbv zeta in HD.
  set (id := r_identity (rs M)) in *.
  set (rs1 := upd rs M (set_identity (rs M) (msucc id))) in *.
  assert (S1 : forall i, r_previous (rs1 i) = r_previous (R i) /\ r_kinds (rs1 i) = r_kinds (R i) /\
                         r_index (rs1 i) = r_index (R i) /\ r_last (rs1 i) = r_last (R i)).
  { intros i. destruct (S0 i) as (A & B & C & D). unfold rs1, upd.
    destruct (Nat.eqb_spec i M); [subst i|]; cbn; auto. }
  assert (T1 : tree M n rs1).
  { apply (tree_same M n R rs1 HT). intros i _. destruct (S1 i) as (A & B & _). auto. }
  assert (E1 : eff rs1 M = eff R M).
  { apply (eff_same M n R rs1 HT); [|exact HR]. intros i _. destruct (S1 i) as (A & B & C & _). auto. }
  assert (F := current_refill M n rs1 T1 M HR).
  assert (EV : fst (current_index rs1 M (r_previous (rs1 M))) = eff R M) by (rewrite <- E1; reflexivity).
  destruct (current_index rs1 M (r_previous (rs1 M))) as [index rs2]. cbn [fst snd] in F, EV. subst index.
  destruct F as (F & _).
  set (rs3 := upd rs2 M (set_index (rs2 M) (msucc (eff R M)))) in *.
  set (v := mk_local d id (eff R M)) in *.
  assert (S3 : forall i, r_previous (rs3 i) = r_previous (R i) /\ r_kinds (rs3 i) = r_kinds (R i) /\
                         r_last (rs3 i) = r_last (R i)).
  { intros i. destruct (S1 i) as (A & B & _ & C). destruct (F i) as (G1 & G2 & _ & G3 & G4). unfold rs3, upd.
    destruct (Nat.eqb_spec i M); [subst i|]; cbn; repeat split; congruence. }
  assert (S3' : r_index (rs3 M) = msucc (eff R M)) by (unfold rs3; rewrite upd_same; reflexivity).
  assert (FIN : exists rs4 l', st' = mk_state rs4 n l' (s_reports st) (s_null st) (s_pending st) (s_sites st) /\
     Permutation l' (v :: s_locals st) /\ rs4 = upd rs3 M (set_last (rs3 M) (Node d))).
  { destruct (S3 M) as (_ & _ & SL). rewrite SL in HD.
    destruct HL as [HL1|(d0 & HL1 & HL2)]; fold R in HL1; rewrite HL1 in HD; injection HD as <-.
    - eexists _, _. split; [reflexivity|]. split; [apply insert_head_perm|reflexivity].
    - eexists _, _. split; [reflexivity|]. split; [apply insert_after_perm; exact HL2|reflexivity]. }
  destruct FIN as (rs4 & l' & -> & PE & E4).
  cbn [s_regions s_next s_locals].
  assert (T4 : tree M n rs4).
  { apply (tree_same M n R rs4 HT). intros i _. destruct (S3 i) as (A & B & _). rewrite E4. unfold upd.
    destruct (Nat.eqb_spec i M); [subst i|]; cbn; auto. }
  split; [exact T4|]. split.
  - right. exists d. cbn [s_regions s_locals]. split; [rewrite E4, upd_same; reflexivity|].
    apply (perm_decls _ _ _ PE). left. reflexivity.
  - split; [exists id; exact PE|]. rewrite (eff_base _ _ _ T4).
    assert (X : r_index (rs4 M) = msucc (eff R M)) by (rewrite E4, upd_same; exact S3').
    rewrite X. destruct (_ =? _)%Z; reflexivity.
Qed.

(** [k] declarations with names from [k - 1] down to 0. *)
Fixpoint decls (k : nat) : body :=
  match k with
  | O => End
  | S k' => Declare (Named k') (decls k')
  end.

Lemma decls_count k : count (decls k) = k.
Proof. induction k as [|k IH]; cbn [decls count]; [reflexivity|]. rewrite IH. reflexivity. Qed.

Lemma decls_own k : forall n, length (own n (decls k)) = k.
Proof. induction k as [|k IH]; intros n; cbn [decls own length]; [reflexivity|]. rewrite IH. reflexivity. Qed.

Lemma decls_names k : forall n x, In x (map fst (own n (decls k))) -> exists m, x = Named m /\ m < k.
Proof.
  induction k as [|k IH]; intros n x H; [destruct H|]. cbn [decls own map fst] in H.
  destruct H as [<-|H]; [exists k; split; [reflexivity|lia]|].
  destruct (IH _ _ H) as (m & -> & HM). exists m. split; [reflexivity|lia].
Qed.

Lemma decls_nodup k : forall n, NoDup (map fst (own n (decls k))).
Proof.
  induction k as [|k IH]; intros n; cbn [decls own map fst]; constructor; [|apply IH].
  intros H. destruct (decls_names _ _ _ H) as (m & E & HM). injection E as <-. lia.
Qed.

Lemma decls_unambiguous k : unambiguous (decls k).
Proof. induction k as [|k IH]; cbn; [exact I|exact IH]. Qed.

Lemma decls_no_temps k : forall vr next, requests vr next (decls k) = [].
Proof. induction k as [|k IH]; intros vr next; cbn; [reflexivity|apply IH]. Qed.

(** A body with [k + 2] locals. *)
Definition long (k : nat) : body :=
  Nested (decls k) (Declare (Named k) (Declare (Named (S k)) End)).

Lemma long_named k : well_named [] [] (long k).
Proof.
  split; [constructor|]. split; [|cbn; split; [apply decls_unambiguous|exact I]].
  rewrite app_nil_r. unfold long. cbn [own]. rewrite map_app. apply nodup_app. split; [apply decls_nodup|].
  split.
  - cbn. constructor; [|constructor; [intros []|constructor]]. intros [H|[]]. injection H as H. lia.
  - intros x H1 H2. destruct (decls_names _ _ _ H1) as (m & -> & HM).
    destruct H2 as [H2|[H2|[]]]; injection H2 as H2; lia.
Qed.

Lemma long_scope k : 0 < k ->
  exists sc, nth_error (in_scope [] 0 (long k)) (S k) = Some sc /\ In 0 sc.
Proof.
  intros HK. unfold long. cbn [in_scope]. rewrite app_nil_r.
  assert (LE : length (in_scope [] 0 (decls k)) = k).
  { rewrite <- (map_length (@length nat)), (in_scope_length (decls k) [] 0), before_length, decls_count. reflexivity. }
  rewrite nth_error_app2 by lia. rewrite LE. replace (S k - k) with 1 by lia. cbn [nth_error].
  eexists. split; [reflexivity|]. right. unfold own_sites.
  destruct k as [|k]; [lia|]. cbn [decls own map snd]. left. reflexivity.
Qed.

Lemma long_wraps k : Z.of_nat k = 65534%Z ->
  In (DLocal 0, 0%Z) (table [] [] (long k)) /\ In (DLocal (S k), 0%Z) (table [] [] (long k)).
Proof.
  intros HK. unfold table, walk_method. cbn [push_types fst snd start s_next s_regions s_locals s_reports s_null s_pending s_sites].
  set (st1 := mk_state (upd (fun _ : nat => blank) 0 (mk_region [] method_kinds [] empty_index 0 Head)) 1 [] [] false [] 0).
  assert (Q : s_regions st1 0 = mk_region [] method_kinds [] empty_index 0 Head) by reflexivity.
  assert (TR : tree 0 1 (s_regions st1)).
  { split; [lia|]. split; [intros p more HP; discriminate HP|].
    intros i HI. assert (i = 0) by lia. subst i. split; [reflexivity|]. left. reflexivity. }
  assert (E1 : eff (s_regions st1) 0 = 0%Z) by reflexivity.
  assert (S1 : sound 0 st1).
  { split; [exact TR| |].
    - intros i HI. assert (i = 0) by (cbn in HI; lia). subst i. left. reflexivity.
    - intros i HI. assert (i = 0) by (cbn in HI; lia). subst i. rewrite E1. cbn. lia. }
  assert (HF : fine (r_vars (s_regions st1 0)) (decls k)).
  { split; [apply decls_nodup|]. split; [reflexivity|apply decls_unambiguous]. }
  assert (HC : (r_identity (s_regions st1 0%nat) + Z.of_nat (count (decls k)) < 65535)%Z).
  { rewrite decls_count. cbn. lia. }
  assert (RN : 0 <= 0 < s_next st1) by (cbn; lia).
  assert (G : grown st1 (walk 0 (decls k) st1) 0 (decls k)) by (apply walk_grown; [cbn; lia|reflexivity]).
  destruct (walk_numbered 0 (decls k) 0 st1 S1 RN HF HC) as [A1 A2 A3 A4 A5 A6].
  specialize (A6 0 E1). rewrite E1, decls_own in A2.
  assert (GV := fine_grown _ _ _ _ G HF). assert (GS := g_sites _ _ _ _ G). rewrite decls_count in GS.
  change (s_sites st1) with 0 in GV, GS. change (r_vars (s_regions st1 0)) with (@nil (name * (vkind * decl))) in GV.
  cbn [app] in GV.
  unfold long. cbn [walk]. set (st2 := walk 0 (decls k) st1) in *.
  assert (R2 : 0 < s_next st2) by (destruct (so_tree _ _ A1) as (X & _); exact X).
  assert (L2 : linked st2 0) by (apply (so_last _ _ A1); lia).
  assert (K2 : r_kinds (s_regions st2 0) VLocal = true) by (apply (so_tree _ _ A1); lia).
  assert (FR : forall m, k <= m -> find_var (Named m) (local_scope (own 0 (decls k))) = None).
  { intros m HM. apply find_local_scope. intros H. destruct (decls_names _ _ _ H) as (m' & E & HM').
    injection E as <-. lia. }
  destruct (declare_cases st2 0 (Named k) K2) as [(v & FV & _)|(_ & st3 & D3 & ->)].
  { rewrite GV, FR in FV by lia. discriminate FV. }
  destruct (define_local_base 0 st2 _ _ st3 (so_tree _ _ A1) L2 D3) as (T3 & L3 & (id3 & P3) & E3).
  destruct (define_local_some _ _ _ _ _ D3) as (_ & _ & N3 & _ & _ & _ & CS3 & K3 & V3 & _).
  assert (E2 : eff (s_regions st2) 0 = 65534%Z) by lia. rewrite E2 in E3.
  change (eff (s_regions st3) 0 = 0%Z) in E3.
  assert (K3' : r_kinds (s_regions (met st3) 0) VLocal = true).
  { cbn [met s_regions]. destruct (K3 0) as (_ & ->). exact K2. }
  destruct (declare_cases (met st3) 0 (Named (S k)) K3') as [(v & FV & _)|(_ & st4 & D4 & ->)].
  { cbn [met s_regions] in FV. rewrite V3, GV, find_var_app, FR in FV by lia. cbn [find_var name_eqb] in FV.
    destruct k as [|k]; [lia|]. destruct (Nat.eqb_spec (S (S k)) (S k)) as [X|X]; [lia|discriminate FV]. }
  destruct (define_local_base 0 (met st3) _ _ st4 T3 L3 D4) as (T4 & L4 & (id4 & P4) & E4).
  cbn [met s_regions s_locals s_sites] in P4. rewrite E3, CS3, GS in P4. cbn [Nat.add] in P4.
  cbn [define_all params_at requests]. rewrite !decls_no_temps. cbn [app write_temps met s_locals].
  assert (IN : forall v, In v (s_locals st4) ->
     In (l_decl v, l_index v) (map (fun v => (l_decl v, l_index v)) (sort_locals (s_locals st4)))).
  { intros v HV. apply in_map_iff. exists v. split; [reflexivity|].
    apply (Permutation_in _ (Permutation_sym (sort_perm _)) HV). }
  split.
  - apply (IN (mk_local (DLocal 0) 0 0)). apply (Permutation_in _ (Permutation_sym P4)). right.
    apply (Permutation_in _ (Permutation_sym P3)). right. apply (Permutation_in _ (Permutation_sym A6)).
    destruct k as [|k]; [lia|]. left. reflexivity.
  - apply (IN (mk_local (DLocal (S k)) id4 0)). apply (Permutation_in _ (Permutation_sym P4)). left. reflexivity.
Qed.
