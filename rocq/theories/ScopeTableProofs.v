From Coq Require Import List ZArith Bool Arith Lia Permutation.
Import ListNotations.
From Verif Require Import ScopeModel LayoutModel ScopeSpec ScopeProofs ScopeIndexProofs.
Open Scope nat_scope.

(** From a type's regions to the table. *)
Definition row (v : local) : decl * Z := (l_decl v, l_index v).

Lemma method_table types params b :
  are_members types -> well_named types params b -> (Z.of_nat (count b + temps_in b) < 65535)%Z ->
  exists EF reqs,
    table types params b =
      map row (rows_from 0 0 (before 0 b) ++ all_temps EF 0 (Z.of_nat (count b)) reqs) /\
    map snd reqs = map fst (live [] 0 b) /\
    (tidy InGroup b -> forall ix, (forall j v, nth_error (before 0 b) j = Some v -> ix j = v) ->
       Forall2 (away EF ix) reqs (live [] 0 b)).
Proof.
  intros HM (W1 & W2 & W3) HC. unfold table, walk_method. assert (T := push_types_typed types 0 HM).
  destruct (push_types 0 types start) as [st0 chain]. cbn [fst snd] in T.
  destruct T as [N L U P CS HCH HK RE SC].
  set (r := s_next st0).
  set (st1 := mk_state (upd (s_regions st0) r (mk_region chain method_kinds [] empty_index 0 Head))
               (S r) (s_locals st0) (s_reports st0) (s_null st0) (s_pending st0) (s_sites st0)).
  assert (Q : s_regions st1 r = mk_region chain method_kinds [] empty_index 0 Head) by (cbn; apply upd_same).
  assert (SN : s_next st1 = S r) by reflexivity.
  assert (TR : tree r (S r) (s_regions st1)).
  { split; [lia|]. split.
    - intros p more HP. rewrite Q in HP. cbn [r_previous] in HP. rewrite HP in *.
      inversion HCH as [|? ? C1 _]; subst. inversion HK as [|? ? K1 _]; subst.
      split; [exact C1|]. cbn. rewrite upd_other by (unfold r; lia). exact K1.
    - intros i HI. assert (i = r) by lia. subst i. rewrite Q. split; [reflexivity|]. left. reflexivity. }
  assert (E1 : eff (s_regions st1) r = 0%Z).
  { rewrite (eff_base _ _ _ TR), Q. reflexivity. }
  assert (ID1 : r_identity (s_regions st1 r) = 0%Z) by (rewrite Q; reflexivity).
  assert (S1 : sound r st1).
  { split; [exact TR| |].
    - intros i HI. assert (i = r) by (rewrite SN in HI; lia). subst i. left. rewrite Q. reflexivity.
    - intros i HI. assert (i = r) by (rewrite SN in HI; lia). subst i. rewrite E1, ID1. lia. }
  apply nodup_app in W2. destruct W2 as (W2a & W2b & W2c).
  assert (HF : fine (r_vars (s_regions st1 r)) b).
  { rewrite Q. split; [exact W2a|]. split; [reflexivity|exact W3]. }
  assert (HC1 : (r_identity (s_regions st1 r) + Z.of_nat (count b) < 65535)%Z) by (rewrite ID1; lia).
  assert (RN : r <= r < s_next st1) by lia.
  assert (G : grown st1 (walk r b st1) r b).
  { apply walk_grown; [lia|]. rewrite Q. reflexivity. }
  assert (GN := g_next _ _ _ _ G). rewrite SN in GN.
  assert (GK : r_kinds (s_regions (walk r b st1) r) = method_kinds).
  { destruct (g_regions _ _ _ _ G r ltac:(lia)) as (_ & -> & _). rewrite Q. reflexivity. }
  assert (GV := fine_grown _ _ _ _ G HF). rewrite Q in GV. cbn [r_vars app] in GV.
  destruct (walk_numbered r b r st1 S1 RN HF HC1) as [A1 A2 A3 A4 A5 A6].
  specialize (A6 0 E1). rewrite ID1 in A5, A6. rewrite Z.add_0_l in A5.
  change (s_locals st1) with (s_locals st0) in A6. rewrite L in A6.
  change (s_sites st1) with (s_sites st0) in A6, GV. rewrite CS in A6, GV. cbn [app] in A6.
  destruct (define_all_filled r (params_at 0 params) (walk r b st1))
    as [FN FL FU FP FS FO (FS1 & FS2 & FS3 & FS4 & FS5) _].
  { rewrite GK. apply Forall_forall. intros [[k x] d] HI.
    assert (X : forall pos, In (k, x, d) (params_at pos params) -> k = VParam).
    { clear. induction params as [|y ps IH]; intros pos H; [destruct H|].
      destruct H as [H|H]; [injection H as <- _ _; reflexivity|exact (IH _ H)]. }
    cbn. rewrite (X _ HI). reflexivity. }
  { rewrite GV. apply apart_no_methods; [apply locals_no_methods|]. rewrite map_fst_locals. exact W2a. }
  set (st2 := define_all (walk r b st1) r (params_at 0 params)) in *.
  assert (SAME : forall i, r_previous (s_regions st2 i) = r_previous (s_regions (walk r b st1) i) /\
     r_kinds (s_regions st2 i) = r_kinds (s_regions (walk r b st1) i) /\
     r_index (s_regions st2 i) = r_index (s_regions (walk r b st1) i) /\
     r_identity (s_regions st2 i) = r_identity (s_regions (walk r b st1) i) /\
     r_last (s_regions st2 i) = r_last (s_regions (walk r b st1) i)).
  { intros i. destruct (Nat.eq_dec i r) as [->|NE]; [auto|]. rewrite (FO i NE). auto. }
  assert (ES : forall i, r <= i < s_next st2 -> eff (s_regions st2) i = eff (s_regions (walk r b st1)) i).
  { rewrite FN. apply (eff_same r (s_next (walk r b st1)) _ _ (so_tree _ _ A1)).
    intros i _. destruct (SAME i) as (X1 & X2 & X3 & _). auto. }
  assert (S2 : sound r st2).
  { destruct A1 as [X1 X2 X3]. split.
    - rewrite FN. apply (tree_same _ _ _ _ X1). intros i _. destruct (SAME i) as (Y1 & Y2 & _). auto.
    - intros i HI. rewrite FL. destruct (SAME i) as (_ & _ & _ & _ & ->). apply X2. rewrite <- FN. exact HI.
    - intros i HI. rewrite (ES i HI). destruct (SAME r) as (_ & _ & _ & -> & _). apply X3. rewrite <- FN. exact HI. }
  assert (ID2 : r_identity (s_regions st2 r) = Z.of_nat (count b)).
  { destruct (SAME r) as (_ & _ & _ & -> & _). exact A5. }
  set (vr := nvl (assigned None (S r) b) r).
  set (reqs := requests vr (S r) b).
  assert (RR : Forall (fun q => r <= fst q < s_next st2) reqs).
  { rewrite FN, GN. apply (requests_range (fun q => r <= q < S r + regions_in b)).
    - apply (nvl_range b (S r) r (fun q => r <= q < S r + regions_in b)); [lia|]. intros q HQ. lia.
    - intros q HQ. lia. }
  assert (PE : Permutation (s_locals (write_temps 0 reqs st2))
     (rows_from 0 0 (before 0 b) ++ all_temps (eff (s_regions st2)) 0 (Z.of_nat (count b)) reqs)).
  { rewrite (write_temps_spec r reqs 0 st2 S2 RR).
    - rewrite ID2, FL, A6. reflexivity.
    - rewrite ID2. unfold reqs. rewrite requests_total. lia. }
  exists (eff (s_regions st2)), reqs. split; [|split].
  - rewrite (sort_ascending _ _ 0%Z PE); [reflexivity|].
    apply ascending_app; [apply rows_ascending|]. rewrite rows_length, before_length. apply all_temps_ascending.
  - apply requests_counts.
  - intros TD ix HX. unfold reqs, vr. rewrite (assigned_group b) by exact TD. cbn [nvl].
    rewrite <- SN. replace 0 with (s_sites st1) by exact CS.
    apply (walk_live r (eff (s_regions st2)) ix b InGroup r st1 r [] 0); try assumption.
    + change (s_sites st1) with (s_sites st0). rewrite CS. exact HX.
    + intros i [].
    + intros i HI. rewrite <- FN in HI. rewrite (ES i HI). lia.
    + intros X. contradiction.
    + rewrite <- A2, ES; [lia|]. rewrite FN, GN. lia.
Qed.

Lemma in_scope_length b : forall sc n, map (@length nat) (in_scope sc n b) = before (length sc) b.
Proof.
  induction b; intros sc n; cbn [in_scope before map]; rewrite ?map_app; auto.
  - rewrite IHb. reflexivity.
  - rewrite IHb1, IHb2. reflexivity.
  - rewrite IHb1, IHb2, app_length. unfold own_sites. rewrite map_length, (own_length b1 n 0). f_equal. f_equal. lia.
  - rewrite IHb1, IHb2. reflexivity.
  - rewrite IHb1, IHb2. reflexivity.
Qed.

Lemma rows_row : forall ks site id, map row (rows_from site id ks) =
  combine (map DLocal (seq site (length ks))) (map Z.of_nat ks).
Proof.
  induction ks as [|k ks IH]; intros site id; cbn [rows_from map length seq combine]; [reflexivity|].
  rewrite IH. reflexivity.
Qed.

Lemma temp_rows_decls e : forall k pos id idx,
  map fst (map row (temp_rows e pos id idx k)) = map (DTemp e) (seq pos k).
Proof.
  induction k as [|k IH]; intros pos id idx; cbn [temp_rows map seq]; [reflexivity|].
  rewrite IH. reflexivity.
Qed.

Lemma all_temps_decls EF : forall reqs e id,
  map fst (map row (all_temps EF e id reqs)) = temp_decls e (map snd reqs).
Proof.
  induction reqs as [|[vr k] reqs IH]; intros e id; cbn [all_temps map temp_decls snd]; [reflexivity|].
  rewrite !map_app, temp_rows_decls, IH. reflexivity.
Qed.

(** What is written. *)
Lemma table_rows types params b :
  are_members types -> well_named types params b -> (Z.of_nat (count b + temps_in b) < 65535)%Z ->
  exists T,
    table types params b =
      combine (map DLocal (seq 0 (count b)))
              (map (fun sc => Z.of_nat (length sc)) (in_scope [] 0 b)) ++ T /\
    map fst T = temp_decls 0 (map fst (live [] 0 b)).
Proof.
  intros HM HW HC. destruct (method_table types params b HM HW HC) as (EF & reqs & E & ER & _).
  exists (map row (all_temps EF 0 (Z.of_nat (count b)) reqs)). split.
  - rewrite E, map_app. f_equal. rewrite rows_row, before_length.
    change (before 0 b) with (before (@length nat []) b).
    rewrite <- (in_scope_length b [] 0), map_map. reflexivity.
  - rewrite all_temps_decls, ER. reflexivity.
Qed.

(** Everything in scope at a declaration has a smaller index. *)
Lemma in_scope_smaller ix b : forall sc n k,
  (forall j v, nth_error (before k b) j = Some v -> ix (n + j) = v) ->
  (forall i, In i sc -> ix i < k) ->
  Forall2 (fun s v => forall i, In i s -> ix i < v) (in_scope sc n b) (before k b).
Proof.
  assert (NA : forall (l1 l2 : list nat) (site m : nat),
     m = length l1 ->
     (forall j v, nth_error (l1 ++ l2) j = Some v -> ix (site + j) = v) ->
     (forall j v, nth_error l1 j = Some v -> ix (site + j) = v) /\
     (forall j v, nth_error l2 j = Some v -> ix (site + m + j) = v)).
  { intros l1 l2 site m -> H. split.
    - intros j v HJ. apply H. rewrite nth_error_app1; [exact HJ|]. apply nth_error_Some. congruence.
    - intros j v HJ. rewrite <- Nat.add_assoc. apply H. rewrite nth_error_app2 by lia.
      replace (length l1 + j - length l1) with j by lia. exact HJ. }
  assert (ST : forall l k n, (forall j v, nth_error (k :: l) j = Some v -> ix (n + j) = v) ->
     ix n = k /\ forall j v, nth_error l j = Some v -> ix (S n + j) = v).
  { intros l k n H. split.
    - specialize (H 0 k eq_refl). rewrite Nat.add_0_r in H. exact H.
    - intros j v HJ. replace (S n + j) with (n + S j) by lia. apply H. exact HJ. }
  induction b; intros sc n kk HX HS; cbn [in_scope before] in *.
  - constructor.
  - apply IHb; assumption.
  - apply IHb; assumption.
  - destruct (ST _ _ _ HX) as (H0 & H1). constructor; [exact HS|]. apply IHb; [exact H1|].
    intros i [<-|HI]; [lia|]. specialize (HS i HI). lia.
  - destruct (NA _ _ n (count b1) (eq_sym (before_length b1 kk)) HX) as (HX1 & HX2).
    apply Forall2_app; [apply IHb1|apply IHb2]; assumption.
  - destruct (NA _ _ n (count b1) (eq_sym (before_length b1 kk)) HX) as (HX1 & HX2).
    apply Forall2_app; [apply IHb1; assumption|]. apply IHb2; [exact HX2|].
    intros i HI. apply in_app_or in HI. destruct HI as [HI|HI].
    + unfold own_sites in HI. apply in_map_iff in HI. destruct HI as ((y & d) & HD & HI). cbn [snd] in HD.
      destruct (own_locals _ _ _ _ HI) as (s & ->). subst s.
      destruct (own_before b1 _ kk _ _ HI) as (j & v & -> & J1 & J2). rewrite (HX1 j v J1). lia.
    + specialize (HS i HI). lia.
  - destruct (NA _ _ n (count b1) (eq_sym (before_length b1 kk)) HX) as (HX1 & HX2).
    apply Forall2_app; [apply IHb1|apply IHb2]; assumption.
  - change (kk :: before (S kk) b1 ++ before kk b2) with ((kk :: before (S kk) b1) ++ before kk b2) in HX.
    assert (LB : S (count b1) = length (kk :: before (S kk) b1)) by (cbn [length]; rewrite before_length; reflexivity).
    destruct (NA (kk :: before (S kk) b1) (before kk b2) n (S (count b1)) LB HX) as (HX1 & HX2).
    destruct (ST _ _ _ HX1) as (H0 & H1). constructor; [exact HS|]. apply Forall2_app.
    + apply IHb1; [exact H1|]. intros i [<-|HI]; [lia|]. specialize (HS i HI). lia.
    + apply IHb2; [|exact HS]. intros j v HJ.
      replace (S (n + count b1) + j) with (n + S (count b1) + j) by lia. apply HX2, HJ.
Qed.

Lemma combine_local ks i a : forall site,
  In (DLocal i, a) (combine (map DLocal (seq site (length ks))) (map Z.of_nat ks)) <->
  exists j v, i = site + j /\ nth_error ks j = Some v /\ a = Z.of_nat v.
Proof.
  induction ks as [|k ks IH]; intros site; cbn [length seq map combine In].
  - split; [intros []|]. intros (j & v & _ & H & _). destruct j; discriminate H.
  - rewrite IH. split.
    + intros [H|(j & v & H1 & H2 & H3)].
      * injection H as <- <-. exists 0, k. split; [lia|auto].
      * exists (S j), v. split; [lia|auto].
    + intros ([|j] & v & H1 & H2 & H3).
      * left. cbn in H2. injection H2 as ->. subst. f_equal. f_equal. lia.
      * right. exists j, v. split; [lia|auto].
Qed.

Lemma temp_decls_kind i : forall ks e, ~ In (DLocal i) (temp_decls e ks).
Proof.
  induction ks as [|k ks IH]; intros e H; [destruct H|]. cbn [temp_decls] in H. apply in_app_or in H.
  destruct H as [H|H]; [|exact (IH _ H)]. apply in_map_iff in H. destruct H as (p & H & _). discriminate H.
Qed.

Lemma all_temps_in EF v : forall reqs e id, In v (all_temps EF e id reqs) ->
  exists j pos vr k, nth_error reqs j = Some (vr, k) /\ pos < k /\
    l_decl v = DTemp (e + j) pos /\ l_index v = (EF vr + Z.of_nat pos)%Z.
Proof.
  assert (TI : forall e k p0 id idx, In v (temp_rows e p0 id idx k) ->
     exists q, q < k /\ l_decl v = DTemp e (p0 + q) /\ l_index v = (idx + Z.of_nat q)%Z).
  { induction k as [|k IH]; intros p0 id idx H; [destruct H|]. cbn [temp_rows] in H.
    destruct H as [<-|H].
    - exists 0. rewrite Nat.add_0_r. cbn. split; [lia|]. split; [reflexivity|lia].
    - destruct (IH _ _ _ H) as (q & Q1 & Q2 & Q3). exists (S q). split; [lia|].
      split; [rewrite Q2; f_equal; lia|lia]. }
  induction reqs as [|[vr k] reqs IH]; intros e id H; [destruct H|]. cbn [all_temps] in H.
  apply in_app_or in H. destruct H as [H|H].
  - destruct (TI _ _ _ _ _ H) as (q & Q1 & Q2 & Q3). exists 0, q, vr, k. rewrite Nat.add_0_r. auto.
  - destruct (IH _ _ H) as (j & pos & vr' & k' & H1 & H2 & H3 & H4). exists (S j), pos, vr', k'.
    split; [exact H1|]. split; [exact H2|]. split; [rewrite H3; f_equal; lia|exact H4].
Qed.

Lemma all_temps_has EF : forall reqs e id j vr k pos, nth_error reqs j = Some (vr, k) -> pos < k ->
  In (DTemp (e + j) pos, (EF vr + Z.of_nat pos)%Z) (map row (all_temps EF e id reqs)).
Proof.
  assert (TI : forall e k p0 id idx q, q < k ->
     In (DTemp e (p0 + q), (idx + Z.of_nat q)%Z) (map row (temp_rows e p0 id idx k))).
  { induction k as [|k IH]; intros p0 id idx q HQ; [lia|]. cbn [temp_rows map].
    destruct q as [|q].
    - left. cbn. rewrite Nat.add_0_r, Z.add_0_r. reflexivity.
    - right. replace (p0 + S q) with (S p0 + q) by lia.
      replace (idx + Z.of_nat (S q))%Z with (idx + 1 + Z.of_nat q)%Z by lia. apply IH. lia. }
  induction reqs as [|[vr0 k0] reqs IH]; intros e id j vr k pos HJ HP; [destruct j; discriminate HJ|].
  cbn [all_temps]. rewrite map_app. apply in_or_app. destruct j as [|j].
  - injection HJ as -> ->. left. rewrite Nat.add_0_r. apply (TI e k 0 id (EF vr) pos HP).
  - right. replace (e + S j) with (S e + j) by lia. eapply IH; eassumption.
Qed.

Lemma locals_in_table types params b T i a :
  table types params b =
    combine (map DLocal (seq 0 (count b))) (map (fun sc => Z.of_nat (length sc)) (in_scope [] 0 b)) ++ T ->
  map fst T = temp_decls 0 (map fst (live [] 0 b)) ->
  In (DLocal i, a) (table types params b) ->
  exists v, nth_error (before 0 b) i = Some v /\ a = Z.of_nat v.
Proof.
  intros E ET H. rewrite E in H. apply in_app_or in H. destruct H as [H|H].
  - rewrite <- map_map with (f := @length nat) (g := Z.of_nat), (in_scope_length b [] 0) in H. change (before (@length nat []) b) with (before 0 b) in H.
    rewrite <- (before_length b 0) in H. apply combine_local in H.
    destruct H as (j & v & -> & H1 & H2). exists v. auto.
  - exfalso. apply (temp_decls_kind i (map fst (live [] 0 b)) 0). rewrite <- ET.
    apply (in_map fst) in H. exact H.
Qed.

Lemma ix_of b : exists ix, forall j v, nth_error (before 0 b) j = Some v -> ix j = v.
Proof.
  exists (fun j => match nth_error (before 0 b) j with Some v => v | None => 0 end).
  intros j v ->. reflexivity.
Qed.

Lemma scope_indices_apart types params b :
  are_members types -> well_named types params b -> (Z.of_nat (count b + temps_in b) < 65535)%Z ->
  forall j sc i a c, nth_error (in_scope [] 0 b) j = Some sc -> In i sc ->
    In (DLocal i, a) (table types params b) -> In (DLocal j, c) (table types params b) -> a <> c.
Proof.
  intros HM HW HC j sc i a c HJ HI HA HB. destruct (table_rows types params b HM HW HC) as (T & E & ET).
  destruct (locals_in_table _ _ _ _ _ _ E ET HA) as (v & V1 & ->).
  destruct (locals_in_table _ _ _ _ _ _ E ET HB) as (w & V2 & ->).
  destruct (ix_of b) as (ix & HX).
  assert (F := in_scope_smaller ix b [] 0 0 HX ltac:(intros k [])).
  assert (X : forall k, In k sc -> ix k < w).
  { clear - F HJ V2. revert j HJ V2. induction F as [|s z l1 l2 H _ IH]; intros [|j] H1 H2; try discriminate.
    - injection H1 as ->. injection H2 as ->. exact H.
    - exact (IH j H1 H2). }
  specialize (X i HI). rewrite (HX i v V1) in X. lia.
Qed.

(** Temporaries. *)
Lemma temporaries_apart types params b :
  are_members types -> well_named types params b -> (Z.of_nat (count b + temps_in b) < 65535)%Z ->
  tidy InGroup b ->
  forall e k sc, nth_error (live [] 0 b) e = Some (k, sc) -> forall pos, pos < k ->
  exists idx, In (DTemp e pos, idx) (table types params b) /\
    (forall i a, In i sc -> In (DLocal i, a) (table types params b) -> a <> idx) /\
    (forall pos' a, In (DTemp e pos', a) (table types params b) -> (a = idx <-> pos' = pos)).
Proof.
  intros HM HW HC HT e k sc HE pos HP. destruct (table_rows types params b HM HW HC) as (T & E & ET).
  destruct (method_table types params b HM HW HC) as (EF & reqs & E' & ER & AW).
  destruct (ix_of b) as (ix & HX). specialize (AW HT ix HX).
  assert (Q : exists vr, nth_error reqs e = Some (vr, k) /\ forall i, In i sc -> (Z.of_nat (ix i) < EF vr)%Z).
  { clear - AW HE. revert e HE. induction AW as [|[vr k0] l l1 l2 (H1 & H2) _ IH]; intros [|e] HE; try discriminate.
    - cbn in HE. injection HE as ->. cbn in *. subst k0. exists vr. auto.
    - exact (IH e HE). }
  destruct Q as (vr & Q1 & Q2). exists (EF vr + Z.of_nat pos)%Z. split; [|split].
  - rewrite E', map_app. apply in_or_app. right. apply (all_temps_has EF reqs 0 _ e vr k pos Q1 HP).
  - intros i a HI HA. destruct (locals_in_table _ _ _ _ _ _ E ET HA) as (v & V1 & ->).
    specialize (Q2 i HI). rewrite (HX i v V1) in Q2. lia.
  - intros pos' a HA. rewrite E', map_app in HA. apply in_app_or in HA. destruct HA as [HA|HA].
    + exfalso. rewrite rows_row in HA. apply in_combine_l in HA. apply in_map_iff in HA.
      destruct HA as (? & HA & _). discriminate HA.
    + apply in_map_iff in HA. destruct HA as (v & HV & HA). unfold row in HV. injection HV as V1 V2.
      destruct (all_temps_in _ _ _ _ _ HA) as (j & p & vr' & k' & X1 & X2 & X3 & X4).
      rewrite V1 in X3. cbn [Nat.add] in X3. injection X3 as -> ->. rewrite Q1 in X1. injection X1 as <- <-.
      split; [intros ->; lia|intros ->; lia].
Qed.

(** The numbering the layout of a frame starts from. *)
Lemma number_frame sz b : forall n k after,
  map d_index (number k (frame sz n b after)) =
  before k b ++ map d_index (number (k + length (own 0 b)) after).
Proof.
  induction b; intros n kk after; cbn [frame before own length]; rewrite ?Nat.add_0_r; auto.
  - cbn [number map d_index app]. f_equal. rewrite IHb, (own_length b 1 0). f_equal. f_equal. f_equal. lia.
  - cbn [number]. rewrite map_app, IHb1, IHb2. cbn [number map]. rewrite app_nil_r, <- app_assoc.
    rewrite (own_length b2 (0 + count b1) 0). reflexivity.
  - rewrite IHb1, IHb2, <- app_assoc, app_length, (own_length b2 (0 + count b1) 0). f_equal. f_equal. f_equal. f_equal. lia.
  - cbn [number]. rewrite map_app, IHb1, IHb2. cbn [number map]. rewrite app_nil_r, <- app_assoc.
    rewrite (own_length b2 (0 + count b1) 0). reflexivity.
  - cbn [number map d_index]. rewrite map_app. cbn [map d_index app]. rewrite IHb1, IHb2. cbn [number map].
    rewrite app_nil_r, <- app_assoc. rewrite (own_length b2 (S (0 + count b1)) 0). reflexivity.
Qed.

Lemma scope_frame sz b :
  map d_index (number 0 (frame sz 0 b BNil)) = map (@length nat) (in_scope [] 0 b).
Proof. rewrite number_frame, (in_scope_length b [] 0). cbn [number map]. apply app_nil_r. Qed.
