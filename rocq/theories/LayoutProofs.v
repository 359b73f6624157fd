(** Proofs about layouts. *)

From Coq Require Import ZArith List Bool Arith Lia Permutation Sorting.Sorted.
Import ListNotations.
From Verif Require Import CppInt CommonModel CommonProofs ArrayModel ArrayProofs LayoutModel LayoutSpec.
Open Scope Z_scope.
Ltac Zify.zify_post_hook ::= Z.div_mod_to_equations.

(** *** Alignment *)

Lemma u16_id : forall z, 0 <= z < 65536 -> u16 z = z.
Proof. intros z H. unfold u16. apply wrap_id. unfold in_range, tmin, tmax. cbn. lia. Qed.

Lemma alignf_pow : forall s k, 0 <= k <= 3 -> 0 <= s < 65536 ->
  alignf s (2 ^ k) = 2 ^ k * ((s + 2 ^ k - 1) / 2 ^ k).
Proof.
  intros s k K H. apply align_up; try lia.
  assert (2 ^ k <= 2 ^ 3) by (apply Z.pow_le_mono_r; lia). change (2 ^ 3) with 8 in *.
  change (modulus U64) with 18446744073709551616. lia.
Qed.

Lemma unit_align_eq : forall o s, 0 <= o < 65536 ->
  unit_align o s = if s =? 1 then o else if s =? 2 then 2 * ((o + 1) / 2)
    else if (s =? 3) || (s =? 4) then 4 * ((o + 3) / 4) else 8 * ((o + 7) / 8).
Proof.
  intros o s H. unfold unit_align.
  pose proof (alignf_pow o 1 ltac:(lia) H) as A1. change (2 ^ 1) with 2 in A1.
  pose proof (alignf_pow o 2 ltac:(lia) H) as A2. change (2 ^ 2) with 4 in A2.
  pose proof (alignf_pow o 3 ltac:(lia) H) as A3. change (2 ^ 3) with 8 in A3.
  replace (o + 2 - 1) with (o + 1) in A1 by lia.
  replace (o + 4 - 1) with (o + 3) in A2 by lia.
  replace (o + 8 - 1) with (o + 7) in A3 by lia.
  rewrite A1, A2, A3. reflexivity.
Qed.

Lemma ualign_bounds : forall o s, 0 <= o -> o + 7 < 65536 -> o <= ualign o s <= o + 7.
Proof.
  intros o s H1 H2. unfold ualign.
  assert (B : o <= unit_align o s <= o + 7).
  { rewrite unit_align_eq by lia.
    destruct (s =? 1); [lia|]. destruct (s =? 2); [lia|].
    destruct ((s =? 3) || (s =? 4)); lia. }
  rewrite u16_id; lia.
Qed.

Lemma next_bounds : forall o s, 0 <= o -> 0 <= s -> o + (s + 7) < 65536 ->
  o + s <= u16 (ualign o s + s) <= o + (s + 7).
Proof.
  intros o s Ho Hs H. pose proof (ualign_bounds o s Ho ltac:(lia)). rewrite u16_id; lia.
Qed.

(** *** Assignments *)

Lemma lookup_app : forall a b p,
  lookup (a ++ b) p = match lookup a p with Some o => Some o | None => lookup b p end.
Proof.
  induction a as [|[q o] a IH]; intros b p; [reflexivity|].
  cbn [app lookup]. destruct (q =? p)%nat; auto.
Qed.

Definition weight (l : list (nat * Z)) : Z := fold_right (fun x t => snd x + 7 + t) 0 l.

Definition fits (w : writes) (l : list (nat * Z)) (lo hi : Z) : Prop :=
  (forall p s, In (p, s) l -> exists o, lookup w p = Some o /\ lo <= o /\ o + s <= hi) /\
  (forall p1 s1 p2 s2 o1 o2, In (p1, s1) l -> In (p2, s2) l -> p1 <> p2 ->
     lookup w p1 = Some o1 -> lookup w p2 = Some o2 -> apart o1 s1 o2 s2) /\
  (forall p, ~ In p (map fst l) -> lookup w p = None).

Lemma weight_app : forall a b, weight (a ++ b) = weight a + weight b.
Proof. induction a as [|x a IH]; intro b; [reflexivity|]. cbn [app weight fold_right]. fold (weight (a ++ b)). fold (weight a). rewrite IH. lia. Qed.

Lemma weight_perm : forall a b, Permutation a b -> weight a = weight b.
Proof. induction 1; unfold weight in *; cbn [fold_right] in *; lia. Qed.

Lemma weight_nonneg : forall l, Forall (fun x => 0 <= snd x) l -> 0 <= weight l.
Proof. induction 1; unfold weight in *; cbn [fold_right] in *; lia. Qed.

Lemma weight_rev : forall l, weight (rev l) = weight l.
Proof. intro l. apply weight_perm. symmetry. apply Permutation_rev. Qed.

Lemma apart_sym : forall a b c d, apart a b c d -> apart c d a b.
Proof. unfold apart. intros a b c d H x X. apply (H x). tauto. Qed.

Lemma apart_le : forall a b c d, a + b <= c -> apart a b c d.
Proof. unfold apart. intros. lia. Qed.

Lemma fits_nil : forall lo hi, fits [] [] lo hi.
Proof.
  intros. split; [|split].
  - intros ? ? [].
  - intros ? ? ? ? ? ? [].
  - reflexivity.
Qed.

Lemma fits_one : forall p s lo hi, lo + s <= hi -> fits [(p, lo)] [(p, s)] lo hi.
Proof.
  intros p s lo hi H. split; [|split].
  - intros q t [E|[]]. inversion E; subst. exists lo. cbn [lookup]. rewrite Nat.eqb_refl. split; [reflexivity|lia].
  - intros p1 s1 p2 s2 o1 o2 [E1|[]] [E2|[]] N _ _. congruence.
  - intros q N. cbn [lookup]. destruct (Nat.eqb_spec p q); [|reflexivity]. subst. cbn in N. tauto.
Qed.

Lemma fits_perm : forall w l l' lo hi, Permutation l l' -> fits w l lo hi -> fits w l' lo hi.
Proof.
  intros w l l' lo hi P (F1 & F2 & F3). split; [|split].
  - intros p s I. apply F1. eapply Permutation_in; [symmetry; exact P|exact I].
  - intros p1 s1 p2 s2 o1 o2 I1 I2. apply F2; (eapply Permutation_in; [symmetry; exact P|assumption]).
  - intros p N. apply F3. intro I. apply N. eapply Permutation_in; [|exact I]. apply Permutation_map. exact P.
Qed.

Lemma fits_wider : forall w l lo hi lo' hi', lo' <= lo -> hi <= hi' -> fits w l lo hi -> fits w l lo' hi'.
Proof.
  intros w l lo hi lo' hi' L H (F1 & F2 & F3). split; [|split]; auto.
  intros p s I. destruct (F1 p s I) as (o & E & B1 & B2). exists o. split; [exact E|]. lia.
Qed.

Lemma fits_join : forall w1 w2 l1 l2 lo m hi,
  (forall p, In p (map fst l1) -> In p (map fst l2) -> False) -> lo <= m <= hi ->
  fits w1 l1 lo m -> fits w2 l2 m hi -> fits (w2 ++ w1) (l1 ++ l2) lo hi.
Proof.
  intros w1 w2 l1 l2 lo m hi D B (A1 & A2 & A3) (B1 & B2 & B3).
  assert (L1 : forall p s, In (p, s) l1 -> lookup (w2 ++ w1) p = lookup w1 p).
  { intros p s I. rewrite lookup_app, B3; [reflexivity|]. intro I2. apply (D p); [|exact I2].
    apply (in_map fst) in I. exact I. }
  assert (L2 : forall p s, In (p, s) l2 -> lookup (w2 ++ w1) p = lookup w2 p).
  { intros p s I. rewrite lookup_app. destruct (B1 p s I) as (o & E & _). rewrite E. reflexivity. }
  split; [|split].
  - intros p s I. apply in_app_iff in I. destruct I as [I|I].
    + rewrite (L1 p s I). destruct (A1 p s I) as (o & E & X & Y). exists o. split; [exact E|lia].
    + rewrite (L2 p s I). destruct (B1 p s I) as (o & E & X & Y). exists o. split; [exact E|lia].
  - intros p1 s1 p2 s2 o1 o2 I1 I2 N E1 E2. apply in_app_iff in I1, I2.
    destruct I1 as [I1|I1]; [rewrite (L1 _ _ I1) in E1|rewrite (L2 _ _ I1) in E1];
    (destruct I2 as [I2|I2]; [rewrite (L1 _ _ I2) in E2|rewrite (L2 _ _ I2) in E2]).
    + eapply A2; [exact I1|exact I2|exact N|exact E1|exact E2].
    + destruct (A1 _ _ I1) as (x & X & X1 & X2). destruct (B1 _ _ I2) as (y & Y & Y1 & Y2).
      rewrite E1 in X. rewrite E2 in Y. inversion X; inversion Y; subst. apply apart_le. lia.
    + destruct (B1 _ _ I1) as (x & X & X1 & X2). destruct (A1 _ _ I2) as (y & Y & Y1 & Y2).
      rewrite E1 in X. rewrite E2 in Y. inversion X; inversion Y; subst. apply apart_sym, apart_le. lia.
    + eapply B2; [exact I1|exact I2|exact N|exact E1|exact E2].
  - intros p N. rewrite map_app in N. rewrite lookup_app, B3, A3; auto; intro; apply N; apply in_app_iff; auto.
Qed.

Lemma place_fits : forall l off o w, NoDup (map fst l) -> Forall (fun x => 0 <= snd x) l ->
  0 <= off -> off + weight l < 65536 -> place off l = (o, w) ->
  off <= o <= off + weight l /\ fits w l off o.
Proof.
  induction l as [|[p s] l IH]; intros off o w ND NN H0 HB E.
  - inversion E; subst. unfold weight. cbn [fold_right]. split; [lia|apply fits_nil].
  - cbn [place] in E. cbn [map fst] in ND. inversion ND; subst. inversion NN; subst.
    pose proof (weight_nonneg l ltac:(assumption)) as WN.
    unfold weight in HB |- *; cbn [fold_right] in HB |- *; fold (weight l) in HB |- *. cbn [snd] in *.
    pose proof (next_bounds off s H0 ltac:(assumption) ltac:(lia)) as NB.
    destruct (place (u16 (ualign off s + s)) l) as [o' w'] eqn:P. inversion E; subst.
    destruct (IH (u16 (ualign off s + s)) o w' ltac:(assumption) ltac:(assumption) ltac:(lia) ltac:(lia) P) as [B F].
    split; [lia|].
    change ((p, s) :: l) with ([(p, s)] ++ l).
    eapply fits_join; [|split; [|exact (proj1 B)]| |exact F]; [|lia|apply fits_one; lia].
    cbn. intros q [Q|[]] I. subst. contradiction.
Qed.

Lemma fill_fits : forall rl s0 target off o w rest, NoDup (map fst rl) -> Forall (fun x => 0 <= snd x) rl ->
  0 <= off -> off + weight rl < 65536 -> fill s0 target off rl = (o, w, rest) ->
  exists taken, rl = taken ++ rest /\ off <= o <= off + weight taken /\ fits w taken off o.
Proof.
  induction rl as [|[p s] rl IH]; intros s0 target off o w rest ND NN H0 HB E.
  - inversion E; subst. exists []. split; [reflexivity|]. split; [cbn; lia|apply fits_nil].
  - cbn [fill] in E.
    assert (Stop : (off, @nil (nat * Z), (p, s) :: rl) = (o, w, rest) ->
      exists taken, (p, s) :: rl = taken ++ rest /\ off <= o <= off + weight taken /\ fits w taken off o).
    { intro X. inversion X; subst. exists []. split; [reflexivity|]. split; [cbn; lia|apply fits_nil]. }
    destruct rl as [|y rl']; [exact (Stop E)|]. set (rl := y :: rl') in *.
    destruct (ualign off s0 =? off); [exact (Stop E)|].
    cbv zeta in E. cbn [map fst] in ND. inversion ND; subst. inversion NN; subst.
    pose proof (weight_nonneg rl ltac:(assumption)) as WN.
    unfold weight in HB; cbn [fold_right] in HB; fold (weight rl) in HB. cbn [snd] in *.
    pose proof (next_bounds off s H0 ltac:(assumption) ltac:(lia)) as NB.
    set (o0 := u16 (ualign off s + s)) in *. clearbody o0.
    destruct (o0 <=? target); [|exact (Stop E)].
    destruct (target <=? o0).
    + inversion E; subst. exists [(p, s)]. split; [reflexivity|]. split; [unfold weight; cbn [fold_right snd]; lia|].
      apply fits_one. lia.
    + destruct (fill s0 target o0 rl) as [[o' w'] l'] eqn:P. inversion E; subst.
      destruct (IH s0 target o0 o w' rest ltac:(assumption) ltac:(assumption) ltac:(lia) ltac:(lia) P) as (taken & T & B & F).
      exists ((p, s) :: taken). split; [cbn [app]; rewrite <- T; reflexivity|].
      split; [unfold weight; cbn [fold_right snd]; fold (weight taken); lia|].
      change ((p, s) :: taken) with ([(p, s)] ++ taken).
      eapply fits_join; [|split; [|exact (proj1 B)]| |exact F]; [|lia|apply fits_one; lia].
      cbn. intros q [Q|[]] I. subst q.
      assert (IN : In p (map fst rl)) by (rewrite T, map_app; apply in_app_iff; auto).
      match goal with H : ~ In p _ |- _ => exact (H IN) end.
Qed.

Lemma fits_set_offsets : forall sort, sorts_down sort -> forall l off o w,
  NoDup (map fst l) -> Forall (fun x => 0 <= snd x) l ->
  0 <= off -> off + weight l < 65536 -> set_offsets sort off l = (o, w) ->
  off <= o <= off + weight l /\ fits w l off o.
Proof.
  intros sort SD l off o w ND NN H0 HB E. destruct (SD l) as [P _].
  unfold set_offsets in E.
  assert (NDs : NoDup (map fst (sort l))) by (eapply Permutation_NoDup; [apply Permutation_map; exact P|exact ND]).
  assert (NNs : Forall (fun x => 0 <= snd x) (sort l)).
  { apply Forall_forall. intros x I. rewrite Forall_forall in NN. apply NN. eapply Permutation_in; [symmetry; exact P|exact I]. }
  rewrite (weight_perm _ _ P) in *.
  assert (G : off <= o <= off + weight (sort l) /\ fits w (sort l) off o).
  2:{ split; [apply G|]. eapply fits_perm; [symmetry; exact P|apply G]. }
  clear P ND NN SD. set (sl := sort l) in *. clearbody sl. clear l sort.
  destruct sl as [|[p0 s0] t]; [inversion E; subst; unfold weight; cbn [fold_right]; split; [lia|apply fits_nil]|].
  set (sl := (p0, s0) :: t) in *. cbv zeta in E.
  destruct (fill s0 (ualign off s0) off (rev sl)) as [[o1 w1] rest] eqn:F.
  destruct (place o1 (rev rest)) as [o2 w2] eqn:PL. inversion E; subst.
  destruct (fill_fits (rev sl) s0 (ualign off s0) off o1 w1 rest) as (taken & T & B & Fi); try assumption.
  { rewrite map_rev. apply Permutation_NoDup with (map fst sl); [apply Permutation_rev|exact NDs]. }
  { apply Forall_rev. exact NNs. }
  { rewrite weight_rev. lia. }
  assert (W : weight taken + weight rest = weight sl) by (rewrite <- weight_app, <- T; apply weight_rev).
  assert (PR : Permutation (taken ++ rev rest) sl).
  { eapply Permutation_trans; [apply Permutation_app_head; symmetry; apply Permutation_rev|].
    rewrite <- T. symmetry. apply Permutation_rev. }
  assert (ND' : NoDup (map fst taken ++ map fst (rev rest))).
  { rewrite <- map_app. eapply Permutation_NoDup; [apply Permutation_map; symmetry; exact PR|exact NDs]. }
  assert (NN' : Forall (fun x => 0 <= snd x) (taken ++ rev rest)).
  { apply Forall_forall. intros x I. rewrite Forall_forall in NNs. apply NNs. eapply Permutation_in; [exact PR|exact I]. }
  apply Forall_app in NN'. destruct NN' as [NT NR].
  pose proof (weight_nonneg taken NT) as WT. pose proof (weight_nonneg _ NR) as WR. rewrite weight_rev in WR.
  destruct (place_fits (rev rest) o1 o w2) as [B2 F2]; try assumption; try lia.
  { clear - ND'. induction (map fst taken); [exact ND'|]. inversion ND'; auto. }
  { rewrite weight_rev. lia. }
  rewrite weight_rev in B2. split; [lia|].
  eapply fits_perm; [exact PR|].
  eapply fits_join; [|split; [exact (proj1 B)|exact (proj1 B2)]|exact Fi|exact F2].
  intros q I1 I2. clear - ND' I1 I2. induction (map fst taken) as [|a m IH]; [exact I1|].
  inversion ND'; subst. destruct I1 as [->|I1]; [|auto]. match goal with H : ~ In _ _ |- _ => apply H end. apply in_app_iff. auto.
Qed.

(** *** Ranges of a group *)

Lemma nth_error_skipn' : forall {A} b (l : list A) k, nth_error (skipn b l) k = nth_error l (b + k).
Proof. induction b as [|b IH]; intros l k; [reflexivity|]. destruct l; [destruct k; reflexivity|]. cbn [skipn plus nth_error]. apply IH. Qed.

Lemma nth_error_firstn' : forall {A} n (l : list A) k, (k < n)%nat -> nth_error (firstn n l) k = nth_error l k.
Proof. induction n as [|n IH]; intros l k H; [lia|]. destruct l; [reflexivity|]. destruct k; [reflexivity|]. cbn [firstn nth_error]. apply IH. lia. Qed.

Lemma nth_error_pairs : forall (sizes : list Z) n p, nth_error (combine (seq n (length sizes)) sizes) p =
  match nth_error sizes p with Some s => Some ((n + p)%nat, s) | None => None end.
Proof.
  induction sizes as [|s r IH]; intros n p; [destruct p; reflexivity|].
  cbn [length seq combine]. destruct p; cbn [nth_error]; [rewrite Nat.add_0_r; reflexivity|].
  rewrite IH. destruct (nth_error r p); [|reflexivity]. rewrite <- Nat.add_succ_comm. reflexivity.
Qed.

Lemma in_range_iff : forall sizes b e p s, (e <= length sizes)%nat ->
  In (p, s) (range sizes b e) <-> (b <= p < e)%nat /\ nth_error sizes p = Some s.
Proof.
  intros sizes b e p s He. unfold range. split.
  - intro I. apply In_nth_error in I. destruct I as [k Hk].
    assert (L : (k < e - b)%nat).
    { assert (X : nth_error (firstn (e - b) (skipn b (combine (seq 0 (length sizes)) sizes))) k <> None) by congruence.
      apply nth_error_Some in X. rewrite firstn_length in X. lia. }
    rewrite nth_error_firstn' in Hk by exact L. rewrite nth_error_skipn', nth_error_pairs in Hk.
    destruct (nth_error sizes (b + k)) eqn:E; [|discriminate]. inversion Hk; subst. cbn [plus] in *. split; [lia|exact E].
  - intros [H E]. apply nth_error_In with (p - b)%nat. rewrite nth_error_firstn' by lia.
    rewrite nth_error_skipn', nth_error_pairs. replace (b + (p - b))%nat with p by lia. rewrite E. reflexivity.
Qed.

Lemma map_fst_combine : forall (a : list nat) (b : list Z), length a = length b -> map fst (combine a b) = a.
Proof. induction a as [|x a IH]; intros [|y b] H; try discriminate; [reflexivity|]. cbn. f_equal. apply IH. cbn in H. lia. Qed.

Lemma nodup_firstn : forall {A} n (l : list A), NoDup l -> NoDup (firstn n l).
Proof.
  intros A n l H. rewrite <- (firstn_skipn n l) in H. induction (firstn n l) as [|a r IH]; [constructor|].
  inversion H; subst. constructor; [|auto]. intro I. apply H2. apply in_app_iff. auto.
Qed.

Lemma nodup_skipn : forall {A} n (l : list A), NoDup l -> NoDup (skipn n l).
Proof.
  intros A n l H. rewrite <- (firstn_skipn n l) in H. induction (firstn n l) as [|a r IH]; [exact H|].
  inversion H; subst. auto.
Qed.

Lemma range_nodup : forall sizes b e, NoDup (map fst (range sizes b e)).
Proof.
  intros. unfold range. rewrite <- firstn_map, <- skipn_map.
  apply nodup_firstn, nodup_skipn. rewrite map_fst_combine; [apply seq_NoDup|apply seq_length].
Qed.

Lemma range_nonneg : forall sizes b e, Forall (fun s => 0 <= s) sizes -> (e <= length sizes)%nat ->
  Forall (fun x => 0 <= snd x) (range sizes b e).
Proof.
  intros sizes b e F H. apply Forall_forall. intros [p s] I. apply in_range_iff in I; [|exact H].
  destruct I as [_ I]. apply nth_error_In in I. rewrite Forall_forall in F. exact (F s I).
Qed.

(** Room of the items from position [b] on. *)
Definition wt (sizes : list Z) (b : nat) : Z := weight (skipn b (combine (seq 0 (length sizes)) sizes)).

Lemma skipn_skipn' : forall {A} a b (l : list A), skipn a (skipn b l) = skipn (b + a) l.
Proof. induction b as [|b IH]; intro l; [reflexivity|]. destruct l; [destruct a; reflexivity|]. cbn [skipn plus]. apply IH. Qed.

Lemma wt_split : forall sizes b e, (b <= e)%nat -> wt sizes b = weight (range sizes b e) + wt sizes e.
Proof.
  intros sizes b e H. unfold wt, range. rewrite <- weight_app.
  set (l := combine _ _). replace (skipn e l) with (skipn (e - b) (skipn b l)).
  - rewrite firstn_skipn. reflexivity.
  - rewrite skipn_skipn'. f_equal. lia.
Qed.

Lemma wt_nonneg : forall sizes b, Forall (fun s => 0 <= s) sizes -> 0 <= wt sizes b.
Proof.
  intros sizes b F. unfold wt. apply weight_nonneg. apply Forall_forall. intros [p s] I.
  rewrite Forall_forall in F. apply F.
  assert (I2 : In (p, s) (combine (seq 0 (length sizes)) sizes)).
  { rewrite <- (firstn_skipn b). apply in_app_iff. auto. }
  eapply in_combine_r. exact I2.
Qed.

Lemma wt_antitone : forall sizes a b, Forall (fun s => 0 <= s) sizes -> (a <= b <= length sizes)%nat -> wt sizes b <= wt sizes a.
Proof.
  intros sizes a b F H. rewrite (wt_split sizes a b) by lia.
  pose proof (weight_nonneg _ (range_nonneg sizes a b F ltac:(lia))). lia.
Qed.

(** *** Arranging one group *)

Section Arrange.
Variable sort : list (nat * Z) -> list (nat * Z).
Hypothesis Sort : sorts_down sort.
Variable sizes : list Z.
Hypothesis Nonneg : Forall (fun s => 0 <= s) sizes.
Variable ni : nat -> nat.
Local Notation n := (length sizes).

(** The item at [p] is still there when the one at [q] is. *)
Definition glive (p q : nat) : Prop := forall r, (p < r <= q)%nat -> (ni p < ni r)%nat.

Definition good (w : writes) (b : nat) (lo hi : Z) : Prop :=
  (forall p s, (b <= p)%nat -> nth_error sizes p = Some s ->
     exists o, lookup w p = Some o /\ lo <= o /\ o + s <= hi) /\
  (forall p q sp sq op oq, (b <= p < q)%nat -> glive p q ->
     nth_error sizes p = Some sp -> nth_error sizes q = Some sq ->
     lookup w p = Some op -> lookup w q = Some oq -> apart op sp oq sq) /\
  (forall p, (p < b)%nat -> lookup w p = None).

Lemma good_merge : forall w1 w2 e b lo h1 h2, (e <= b)%nat ->
  (forall p q, (e <= p < b)%nat -> (b <= q < n)%nat -> ~ glive p q) ->
  good w1 e lo h1 -> good w2 b lo h2 -> good (w2 ++ w1) e lo (Z.max h1 h2).
Proof.
  intros w1 w2 e b lo h1 h2 Hb NC (A1 & A2 & A3) (B1 & B2 & B3).
  assert (Hi : forall p s, (b <= p)%nat -> nth_error sizes p = Some s -> lookup (w2 ++ w1) p = lookup w2 p).
  { intros p s H E. rewrite lookup_app. destruct (B1 p s H E) as (o & X & _). rewrite X. reflexivity. }
  assert (Lo : forall p, (p < b)%nat -> lookup (w2 ++ w1) p = lookup w1 p).
  { intros p H. rewrite lookup_app, B3 by exact H. reflexivity. }
  split; [|split].
  - intros p s H E. destruct (le_lt_dec b p) as [L|L].
    + rewrite (Hi p s L E). destruct (B1 p s L E) as (o & X & Y & Z). exists o. split; [exact X|lia].
    + rewrite (Lo p L). destruct (A1 p s H E) as (o & X & Y & Z). exists o. split; [exact X|lia].
  - intros p q sp sq op oq H G Ep Eq Lp Lq.
    assert (Q : (q < n)%nat) by (apply nth_error_Some; congruence).
    destruct (le_lt_dec b p) as [L|L].
    + rewrite (Hi p sp L Ep) in Lp. rewrite (Hi q sq ltac:(lia) Eq) in Lq.
      eapply (B2 p q); eauto. lia.
    + destruct (le_lt_dec b q) as [L2|L2].
      * exfalso. apply (NC p q); [lia|lia|exact G].
      * rewrite Lo in Lp, Lq by lia. eapply (A2 p q); eauto.
  - intros p H. rewrite Lo by lia. apply A3. exact H.
Qed.

Lemma good_extend : forall w0 w1 b e lo m hi, (b <= e <= n)%nat -> lo <= m ->
  fits w0 (range sizes b e) lo m -> good w1 e m hi -> m <= hi -> good (w1 ++ w0) b lo hi.
Proof.
  intros w0 w1 b e lo m hi Hbe Hm (A1 & A2 & A3) (B1 & B2 & B3) Hh.
  assert (Hi : forall p s, (e <= p)%nat -> nth_error sizes p = Some s -> lookup (w1 ++ w0) p = lookup w1 p).
  { intros p s H E. rewrite lookup_app. destruct (B1 p s H E) as (o & X & _). rewrite X. reflexivity. }
  assert (Lo : forall p, (p < e)%nat -> lookup (w1 ++ w0) p = lookup w0 p).
  { intros p H. rewrite lookup_app, B3 by exact H. reflexivity. }
  assert (IR : forall p s, (b <= p < e)%nat -> nth_error sizes p = Some s -> In (p, s) (range sizes b e)).
  { intros p s H E. apply in_range_iff; [lia|]. auto. }
  split; [|split].
  - intros p s H E. destruct (le_lt_dec e p) as [L|L].
    + rewrite (Hi p s L E). destruct (B1 p s L E) as (o & X & Y & Z). exists o. split; [exact X|lia].
    + rewrite (Lo p L). destruct (A1 p s (IR p s ltac:(lia) E)) as (o & X & Y & Z). exists o. split; [exact X|lia].
  - intros p q sp sq op oq H G Ep Eq Lp Lq. destruct (le_lt_dec e p) as [L|L].
    + rewrite (Hi p sp L Ep) in Lp. rewrite (Hi q sq ltac:(lia) Eq) in Lq. eapply (B2 p q); eauto. lia.
    + destruct (le_lt_dec e q) as [L2|L2].
      * rewrite (Lo p L) in Lp. rewrite (Hi q sq L2 Eq) in Lq.
        destruct (A1 p sp (IR p sp ltac:(lia) Ep)) as (o1 & X1 & Y1 & Z1).
        destruct (B1 q sq L2 Eq) as (o2 & X2 & Y2 & Z2).
        rewrite Lp in X1. rewrite Lq in X2. inversion X1; inversion X2; subst. apply apart_le. lia.
      * rewrite Lo in Lp, Lq by lia. eapply A2; [exact (IR p sp ltac:(lia) Ep)|exact (IR q sq ltac:(lia) Eq)|lia|exact Lp|exact Lq].
  - intros p H. rewrite Lo by lia. apply A3. intro I. apply in_map_iff in I. destruct I as ([q s] & Q & I).
    cbn in Q. subst q. apply in_range_iff in I; lia.
Qed.

Lemma good_beside : forall w0 w1 b e lo m hi, (b <= e <= n)%nat ->
  (forall p q, (b <= p < e)%nat -> (e <= q < n)%nat -> ~ glive p q) ->
  fits w0 (range sizes b e) lo m -> good w1 e lo hi -> good (w1 ++ w0) b lo (Z.max m hi).
Proof.
  intros w0 w1 b e lo m hi Hbe NC (A1 & A2 & A3) (B1 & B2 & B3).
  assert (Hi : forall p s, (e <= p)%nat -> nth_error sizes p = Some s -> lookup (w1 ++ w0) p = lookup w1 p).
  { intros p s H E. rewrite lookup_app. destruct (B1 p s H E) as (o & X & _). rewrite X. reflexivity. }
  assert (Lo : forall p, (p < e)%nat -> lookup (w1 ++ w0) p = lookup w0 p).
  { intros p H. rewrite lookup_app, B3 by exact H. reflexivity. }
  assert (IR : forall p s, (b <= p < e)%nat -> nth_error sizes p = Some s -> In (p, s) (range sizes b e)).
  { intros p s H E. apply in_range_iff; [lia|]. auto. }
  split; [|split].
  - intros p s H E. destruct (le_lt_dec e p) as [L|L].
    + rewrite (Hi p s L E). destruct (B1 p s L E) as (o & X & Y & Z). exists o. split; [exact X|lia].
    + rewrite (Lo p L). destruct (A1 p s (IR p s ltac:(lia) E)) as (o & X & Y & Z). exists o. split; [exact X|lia].
  - intros p q sp sq op oq H G Ep Eq Lp Lq. 
    assert (Q : (q < n)%nat) by (apply nth_error_Some; congruence).
    destruct (le_lt_dec e p) as [L|L].
    + rewrite (Hi p sp L Ep) in Lp. rewrite (Hi q sq ltac:(lia) Eq) in Lq. eapply (B2 p q); eauto. lia.
    + destruct (le_lt_dec e q) as [L2|L2].
      * exfalso. apply (NC p q); [lia|lia|exact G].
      * rewrite Lo in Lp, Lq by lia. eapply A2; [exact (IR p sp ltac:(lia) Ep)|exact (IR q sq ltac:(lia) Eq)|lia|exact Lp|exact Lq].
  - intros p H. rewrite Lo by lia. apply A3. intro I. apply in_map_iff in I. destruct I as ([q s] & Q & I).
    cbn in Q. subst q. apply in_range_iff in I; lia.
Qed.

Lemma good_end : forall lo hi, good [] n lo hi.
Proof.
  intros. split; [|split].
  - intros p s H E. assert (nth_error sizes p <> None) by congruence. apply nth_error_Some in H0. lia.
  - intros p q sp sq op oq H G E. assert (nth_error sizes p <> None) by congruence. apply nth_error_Some in H0. lia.
  - reflexivity.
Qed.

Lemma good_wider : forall w b lo hi hi', hi <= hi' -> good w b lo hi -> good w b lo hi'.
Proof.
  intros w b lo hi hi' H (A1 & A2 & A3). split; [|split]; auto.
  intros p s L E. destruct (A1 p s L E) as (o & X & Y & Z). exists o. split; [exact X|lia].
Qed.

(** Partials: where they begin and what their items' new indexes are. *)
Definition nextb (t : list partial) : nat := match t with [] => n | (_, b) :: _ => b end.

Fixpoint segs (ps : list partial) : Prop :=
  match ps with
  | [] => True
  | (i, b) :: t =>
    (b < nextb t)%nat /\ (nextb t <= n)%nat /\
    (forall p, (b <= p < nextb t)%nat -> ni p = (i + (p - b))%nat) /\ segs t
  end.

Lemma set_range_done : forall off b e o w, set_range sort sizes off b e = Done (o, w) ->
  (b <= e <= n)%nat /\ (b < n)%nat /\ set_offsets sort off (range sizes b e) = (o, w).
Proof.
  intros off b e o w H. unfold set_range in H.
  destruct ((e <? b)%nat) eqn:E1; [discriminate|]. destruct ((n <? e)%nat) eqn:E2; [discriminate|].
  destruct ((n <=? b)%nat) eqn:E3; [discriminate|]. cbn [orb] in H.
  apply Nat.ltb_ge in E1, E2. apply Nat.leb_gt in E3. inversion H. split; [lia|]. split; [lia|]. congruence.
Qed.

Lemma min_index_acc : forall t i m, exists c, fst (min_index i (Some m) t) = Some c /\ (c <= m)%nat.
Proof.
  induction t as [|[j b] t IH]; intros i m; cbn [min_index fst]; [eauto|].
  destruct (j <=? i)%nat; [cbn [fst]; eauto|].
  destruct (IH i (Nat.min j m)) as (c & E & L). exists c. split; [exact E|lia].
Qed.

Lemma min_index_gt : forall t i acc c, (forall m, acc = Some m -> (i < m)%nat) ->
  fst (min_index i acc t) = Some c -> (i < c)%nat.
Proof.
  induction t as [|[j b] t IH]; intros i acc c A H; cbn [min_index fst] in H; [auto|].
  destruct (j <=? i)%nat eqn:E; [cbn [fst] in H; auto|]. apply Nat.leb_gt in E.
  eapply IH; [|exact H]. intros m X. inversion X. destruct acc as [m0|]; [specialize (A m0 eq_refl)|]; lia.
Qed.

(** The indexes of the partials up to the first that does not exceed [i]. *)
Fixpoint above (i c : nat) (t : list partial) : Prop :=
  match t with
  | [] => True
  | (j, _) :: r => if (j <=? i)%nat then True else (c <= j)%nat /\ above i c r
  end.

Lemma above_weaken : forall t i c c', (c' <= c)%nat -> above i c t -> above i c' t.
Proof. induction t as [|[j b] t IH]; intros i c c' L H; cbn [above] in *; [exact I|]. destruct (j <=? i)%nat; [exact I|]. split; [lia|]. eapply IH; [exact L|apply H]. Qed.

Lemma min_index_above : forall t i acc c, fst (min_index i acc t) = Some c -> above i c t.
Proof.
  induction t as [|[j b] t IH]; intros i acc c H; cbn [min_index above] in *; [exact I|].
  destruct (j <=? i)%nat eqn:E; [exact I|]. split.
  - destruct (min_index_acc t i (match acc with None => j | Some m => Nat.min j m end)) as (c' & X & L).
    rewrite X in H. inversion H; subst. destruct acc; lia.
  - eapply IH. exact H.
Qed.

Lemma min_index_none : forall i j b t, fst (min_index i None ((j, b) :: t)) = None ->
  (j <= i)%nat /\ snd (min_index i None ((j, b) :: t)) = Some b.
Proof.
  intros i j b t H. cbn [min_index] in *. destruct (j <=? i)%nat eqn:E.
  - apply Nat.leb_le in E. auto.
  - destruct (min_index_acc t i j) as (c & X & _). rewrite X in H. discriminate.
Qed.

Lemma overshoot : forall f off i b i1 b1 t r, (b1 < b)%nat -> arrange sort sizes f off i b ((i1, b1) :: t) <> Done r.
Proof.
  induction f as [|f IH]; intros off i b i1 b1 t r H E; [discriminate|]. cbn [arrange] in E. cbv zeta in E.
  set (T := (i1, b1) :: t) in *.
  destruct (set_range sort sizes off b _) as [[o w]| |] eqn:S; try discriminate.
  destruct (fst (min_index i None T)) as [c|] eqn:M.
  - destruct (arrange sort sizes f o c _ T) as [r1| |] eqn:A; try discriminate.
    eapply IH; [|exact A]. unfold first_end. destruct (min_index i None T) as [x y]. cbn [fst] in M. subst x. lia.
  - apply min_index_none in M. destruct M as [L M].
    apply set_range_done in S. unfold first_end in S. fold T in M. destruct (min_index i None T) as [x y] eqn:MM.
    assert (X : x = None). { pose proof (min_index_none i i1 b1 t) as Q. fold T in Q. rewrite MM in Q. destruct x; [|reflexivity].
      exfalso. cbn [min_index] in MM. unfold T in MM. cbn [min_index] in MM. destruct (i1 <=? i)%nat eqn:Y; [inversion MM|]. apply Nat.leb_gt in Y. lia. }
    subst x. cbn [snd] in M. subst y. lia.
Qed.

Definition arranged (f : nat) : Prop := forall off i b t R w,
  arrange sort sizes f off i b t = Done (R, w) -> segs t ->
  (forall p, (b <= p < nextb t)%nat -> ni p = (i + (p - b))%nat) ->
  0 <= off -> off + wt sizes b < 65536 -> off <= R <= off + wt sizes b /\ good w b off R.

Lemma each_child_good : forall f off i c e, arranged f -> 0 <= off -> off + wt sizes e < 65536 ->
  forall t acc R w w1,
  each_child (arrange sort sizes f off) i c t acc = Done (R, w) -> segs t -> above i c t ->
  (e <= nextb t)%nat -> (forall p, (e <= p < nextb t)%nat -> (c <= ni p)%nat) ->
  acc <= off + wt sizes e -> good w1 e off acc ->
  acc <= R <= off + wt sizes e /\ good (w ++ w1) e off R.
Proof.
  intros f off i c e Arr H0 HB. induction t as [|[j b] t IH]; intros acc R w w1 E S A He Hn Hacc G.
  - inversion E; subst. split; [lia|exact G].
  - cbn [each_child] in E. cbn [above] in A. destruct (j <=? i)%nat eqn:Ji; [inversion E; subst; split; [lia|exact G]|].
    cbn [segs] in S. destruct S as (S1 & S2 & S3 & S4). destruct A as [A1 A2].
    cbn [nextb] in He, Hn.
    assert (Hn' : forall p, (e <= p < nextb t)%nat -> (c <= ni p)%nat).
    { intros p P. destruct (le_lt_dec b p) as [L|L]; [rewrite S3 by lia; lia|apply Hn; lia]. }
    destruct (Nat.eqb_spec j c) as [->|Nc].
    + destruct (arrange sort sizes f off c b t) as [[o w']| |] eqn:Ar; try discriminate.
      destruct (each_child (arrange sort sizes f off) i c t (Z.max acc o)) as [[o2 w2]| |] eqn:Ec; try discriminate.
      inversion E; subst.
      pose proof (wt_antitone sizes e b Nonneg ltac:(lia)) as WA.
      destruct (Arr off c b t o w' Ar S4 S3 H0 ltac:(lia)) as [B Gd].
      destruct (IH (Z.max acc o) R w2 (w' ++ w1) Ec S4 A2 ltac:(lia) Hn' ltac:(lia)) as [B2 G2].
      { apply (good_merge w1 w' e b off acc o); [lia| |exact G|exact Gd].
        intros p q P Q GL. specialize (GL b ltac:(lia)). specialize (Hn p ltac:(lia)). rewrite (S3 b) in GL by lia. lia. }
      split; [lia|]. rewrite <- app_assoc. exact G2.
    + eapply IH; try eassumption; lia.
Qed.

Lemma arrange_good : forall f, arranged f.
Proof.
  induction f as [|f IH]; intros off i b t R w E S Hd H0 HB; [discriminate|].
  cbn [arrange] in E. cbv zeta in E.
  destruct (set_range sort sizes off b _) as [[no w0]| |] eqn:SR; try discriminate.
  apply set_range_done in SR. destruct SR as (Hbe & Hbn & SO).
  set (e := first_end n i b (min_index i None t)) in *.
  pose proof (wt_split sizes b e ltac:(lia)) as WS. pose proof (wt_nonneg sizes e Nonneg) as WN.
  destruct (fits_set_offsets sort Sort (range sizes b e) off no w0 (range_nodup _ _ _)
              (range_nonneg sizes b e Nonneg (proj2 Hbe)) H0 ltac:(lia) SO) as [B0 F0].
  destruct (fst (min_index i None t)) as [c|] eqn:M.
  - destruct (arrange sort sizes f no c e t) as [[o1 w1]| |] eqn:A1; try discriminate.
    destruct (each_child _ i c t (Z.max 0 o1)) as [[o2 w2]| |] eqn:EC; try discriminate.
    inversion E; subst R w. clear E.
    pose proof (min_index_gt t i None c ltac:(discriminate) M) as Hic.
    assert (Ee : e = (b + (c - i))%nat).
    { unfold e, first_end. destruct (min_index i None t) as [x y]. cbn [fst] in M. subst x. reflexivity. }
    assert (Hen : (e <= nextb t)%nat).
    { destruct t as [|[i1 b1] t']; [cbn in M; discriminate|]. cbn [nextb].
      destruct (le_lt_dec e b1) as [L|L]; [exact L|]. exfalso. eapply overshoot; [exact L|exact A1]. }
    assert (Hd' : forall p, (e <= p < nextb t)%nat -> ni p = (c + (p - e))%nat).
    { intros p P. rewrite Hd by lia. lia. }
    destruct (IH no c e t o1 w1 A1 S Hd' ltac:(lia) ltac:(lia)) as [B1 G1].
    rewrite Z.max_r in EC by lia.
    destruct (each_child_good f no i c e IH ltac:(lia) ltac:(lia) t o1 o2 w2 w1 EC S
                (min_index_above t i None c M) Hen) as [B2 G2]; try assumption; try lia.
    { intros p P. rewrite Hd' by exact P. lia. }
    split; [lia|]. rewrite Z.max_r by lia. rewrite app_assoc.
    eapply good_extend; [exact Hbe| |exact F0|exact G2|]; lia.
  - destruct t as [|[i1 b1] t'].
    + inversion E; subst. assert (En : e = n) by reflexivity. clearbody e. subst e. split; [lia|].
      change w with ([] ++ w). eapply good_extend; [exact Hbe| |exact F0|apply good_end|]; lia.
    + destruct (arrange sort sizes f off i1 b1 t') as [[o w1]| |] eqn:A1; try discriminate.
      inversion E; subst R w. clear E.
      destruct (min_index_none i i1 b1 t' M) as [Li M2].
      assert (Ee : e = b1).
      { revert M M2. unfold e, first_end. destruct (min_index i None _) as [x y]. cbn [fst snd]. intros -> ->. reflexivity. }
      clearbody e. subst e. cbn [segs] in S. destruct S as (S1 & S2 & S3 & S4). cbn [nextb] in Hd.
      destruct (IH off i1 b1 t' o w1 A1 S4 S3 H0) as [B1 G1].
      { pose proof (weight_nonneg _ (range_nonneg sizes b b1 Nonneg ltac:(lia))). lia. }
      split. { pose proof (weight_nonneg _ (range_nonneg sizes b b1 Nonneg ltac:(lia))). lia. }
      apply (good_beside w0 w1 b b1 off no o); [lia| |exact F0|exact G1].
      intros p q P Q GL. specialize (GL b1 ltac:(lia)). rewrite (S3 b1) in GL by lia. rewrite Hd in GL by lia. lia.
Qed.

(** The recursion bound is never reached. *)

Definition cnt (i : nat) (t : list partial) : nat := length (filter (fun x => (i <? fst x)%nat) t).

Lemma cnt_le : forall i t, (cnt i t <= length t)%nat.
Proof. intros i t. unfold cnt. induction t as [|x t IH]; [reflexivity|]. cbn [filter length]. destruct (i <? fst x)%nat; cbn [length]; lia. Qed.

Lemma cnt_mono : forall i c t, (i <= c)%nat -> (cnt c t <= cnt i t)%nat.
Proof.
  intros i c t H. unfold cnt. induction t as [|x t IH]; [reflexivity|]. cbn [filter].
  destruct (c <? fst x)%nat eqn:E1; destruct (i <? fst x)%nat eqn:E2; cbn [length]; try lia.
  apply Nat.ltb_lt in E1. apply Nat.ltb_ge in E2. lia.
Qed.

Lemma cnt_strict : forall i c t b, (i < c)%nat -> In (c, b) t -> (cnt c t < cnt i t)%nat.
Proof.
  intros i c t b H. induction t as [|x t IH]; intros I; [contradiction I|]. destruct I as [->|I]; unfold cnt in *; cbn [filter fst].
  - pose proof (cnt_mono i c t ltac:(lia)) as M. unfold cnt in M.
    rewrite (proj2 (Nat.ltb_lt i c) H), Nat.ltb_irrefl. cbn [length]. lia.
  - specialize (IH I). destruct (c <? fst x)%nat eqn:E1; destruct (i <? fst x)%nat eqn:E2; cbn [length]; try lia.
    apply Nat.ltb_lt in E1. apply Nat.ltb_ge in E2. lia.
Qed.

Lemma min_index_in : forall t i acc c, fst (min_index i acc t) = Some c -> acc = Some c \/ exists b, In (c, b) t.
Proof.
  induction t as [|[j b] t IH]; intros i acc c H; cbn [min_index fst] in H; [auto|].
  destruct (j <=? i)%nat; [cbn [fst] in H; auto|].
  destruct (IH _ _ _ H) as [E|(b' & I)].
  - inversion E as [E']. destruct acc as [m|].
    + destruct (Nat.min_spec j m) as [[_ X]|[_ X]]; rewrite X.
      * right. exists b. left. reflexivity.
      * left. reflexivity.
    + right. exists b. left. reflexivity.
  - right. exists b'. right. exact I.
Qed.

Lemma each_child_fuel : forall call i c t acc,
  (forall j b r, (length r < length t)%nat -> call j b r <> OutOfFuel) ->
  each_child call i c t acc <> OutOfFuel.
Proof.
  intros call i c. induction t as [|[j b] t IH]; intros acc H; cbn [each_child]; [discriminate|].
  destruct (j <=? i)%nat; [discriminate|].
  assert (H' : forall j b r, (length r < length t)%nat -> call j b r <> OutOfFuel) by (intros; apply H; cbn [length]; lia).
  destruct (j =? c)%nat; [|apply IH; exact H'].
  destruct (call j b t) as [[o w]| |] eqn:C; try discriminate.
  - specialize (IH (Z.max acc o) H'). destruct (each_child call i c t (Z.max acc o)) as [[o' w']| |]; congruence.
  - exfalso. apply (H j b t); [cbn [length]; lia|exact C].
Qed.

Lemma arrange_fuel : forall f off i b t, (length t * S (length t) + cnt i t < f)%nat ->
  arrange sort sizes f off i b t <> OutOfFuel.
Proof.
  induction f as [|f IH]; intros off i b t H; [lia|]. cbn [arrange]. cbv zeta.
  assert (SRF : forall e, set_range sort sizes off b e <> OutOfFuel) by (intro e; unfold set_range; destruct (_ || _)%bool; discriminate).
  specialize (SRF (first_end n i b (min_index i None t))).
  destruct (set_range sort sizes off b _) as [[no w0]| |]; try discriminate; [|congruence].
  destruct (fst (min_index i None t)) as [c|] eqn:M.
  - pose proof (min_index_gt t i None c ltac:(discriminate) M) as Hic.
    destruct (min_index_in t i None c M) as [X|(b' & I)]; [discriminate|].
    pose proof (cnt_strict i c t b' Hic I) as CS.
    assert (F1 := IH no c (first_end n i b (min_index i None t)) t ltac:(lia)).
    destruct (arrange sort sizes f no c _ t) as [[o1 w1]| |]; try discriminate; [|congruence].
    assert (F2 := each_child_fuel (arrange sort sizes f no) i c t (Z.max 0 o1)).
    destruct (each_child (arrange sort sizes f no) i c t (Z.max 0 o1)) as [[o2 w2]| |]; try discriminate.
    exfalso. apply F2; [|reflexivity]. intros j b0 r Hr. apply IH. pose proof (cnt_le j r).
    assert (length r * S (length r) + length r < length t * S (length t))%nat by nia. lia.
  - destruct t as [|[i1 b1] t']; [discriminate|].
    assert (F1 := IH off i1 b1 t').
    destruct (arrange sort sizes f off i1 b1 t') as [[o w]| |]; try discriminate.
    exfalso. apply F1; [|reflexivity]. pose proof (cnt_le i1 t'). cbn [length] in H. nia.
Qed.

(** When every partial starts below the index its predecessor has reached, all ranges are proper. *)

Fixpoint drops (i b : nat) (t : list partial) : Prop :=
  match t with
  | [] => True
  | (i1, b1) :: r => (b < b1)%nat /\ (i1 < i + (b1 - b))%nat /\ drops i1 b1 r
  end.

Fixpoint bounded (t : list partial) : Prop :=
  match t with [] => True | (_, b) :: r => (b < n)%nat /\ bounded r end.

Lemma each_child_defined : forall call i c t acc,
  (forall j b r, drops j b r -> bounded ((j, b) :: r) -> call j b r <> Undef) ->
  (match t with [] => True | (j, b) :: r => drops j b r end) -> bounded t ->
  each_child call i c t acc <> Undef.
Proof.
  intros call i c. induction t as [|[j b] t IH]; intros acc H D B; cbn [each_child]; [discriminate|].
  destruct (j <=? i)%nat; [discriminate|].
  assert (D' : match t with [] => True | (j, b) :: r => drops j b r end).
  { destruct t as [|[j' b'] t']; [exact I|]. cbn [drops] in D. apply D. }
  assert (B' : bounded t) by apply B.
  destruct (j =? c)%nat; [|apply IH; assumption].
  destruct (call j b t) as [[o w]| |] eqn:C; try discriminate.
  - specialize (IH (Z.max acc o) H D' B'). destruct (each_child call i c t (Z.max acc o)) as [[o' w']| |]; congruence.
  - exfalso. exact (H j b t D B C).
Qed.

Lemma arrange_defined : forall f off i b t, drops i b t -> bounded ((i, b) :: t) ->
  arrange sort sizes f off i b t <> Undef.
Proof.
  induction f as [|f IH]; intros off i b t D B; [discriminate|]. cbn [arrange]. cbv zeta.
  set (e := first_end n i b (min_index i None t)).
  assert (HB : (b < n)%nat) by apply B. assert (BT : bounded t) by apply B.
  assert (He : (b <= e <= n)%nat /\ forall c, fst (min_index i None t) = Some c ->
    (i < c)%nat /\ e = (b + (c - i))%nat /\ exists i1 b1 t', t = (i1, b1) :: t' /\ (e < b1)%nat).
  { unfold e, first_end. destruct t as [|[i1 b1] t'].
    - cbn [min_index fst]. split; [lia|]. discriminate.
    - cbn [drops] in D. cbn [bounded] in BT.
      destruct (fst (min_index i None ((i1, b1) :: t'))) as [c|] eqn:M.
      + pose proof (min_index_gt _ i None c ltac:(discriminate) M) as Hic.
        pose proof (min_index_above _ i None c M) as A. cbn [above] in A.
        assert (Hc : (c <= i1)%nat).
        { destruct (i1 <=? i)%nat eqn:L; [|apply A]. cbn [min_index] in M. rewrite L in M. discriminate. }
        revert M. destruct (min_index i None _) as [x y]. cbn [fst]. intros ->.
        split; [lia|]. intros c' X. inversion X; subst c'. split; [exact Hic|]. split; [reflexivity|].
        exists i1, b1, t'. split; [reflexivity|lia].
      + destruct (min_index_none i i1 b1 t' M) as [_ M2]. revert M M2.
        destruct (min_index i None _) as [x y]. cbn [fst snd]. intros -> ->. split; [lia|]. discriminate. }
  destruct He as [He Hc].
  assert (SR : exists no w0, set_range sort sizes off b e = Done (no, w0)).
  { unfold set_range. rewrite (proj2 (Nat.ltb_ge e b)), (proj2 (Nat.ltb_ge n e)), (proj2 (Nat.leb_gt n b)) by lia.
    cbn [orb]. destruct (set_offsets sort off (range sizes b e)) as [no w0]. eauto. }
  destruct SR as (no & w0 & SR). rewrite SR.
  destruct (fst (min_index i None t)) as [c|] eqn:M.
  - destruct (Hc c eq_refl) as (Hic & Ee & i1 & b1 & t' & -> & Hlt). cbn [drops bounded] in D, BT.
    assert (D1 : drops c e ((i1, b1) :: t')). { cbn [drops]. split; [lia|]. split; [lia|apply D]. }
    assert (F1 := IH no c e ((i1, b1) :: t') D1 ltac:(cbn [bounded]; split; [lia|exact BT])).
    destruct (arrange sort sizes f no c e _) as [[o1 w1]| |]; try discriminate; [|congruence].
    assert (F2 := each_child_defined (arrange sort sizes f no) i c ((i1, b1) :: t') (Z.max 0 o1) (IH no)
                    ltac:(apply D) ltac:(cbn [bounded]; exact BT)).
    destruct (each_child (arrange sort sizes f no) i c _ (Z.max 0 o1)) as [[o2 w2]| |]; congruence.
  - destruct t as [|[i1 b1] t']; [discriminate|]. cbn [drops bounded] in D, BT.
    assert (F1 := IH off i1 b1 t' ltac:(apply D) ltac:(cbn [bounded]; exact BT)).
    destruct (arrange sort sizes f off i1 b1 t') as [[o w]| |]; congruence.
Qed.

End Arrange.

(** *** Appending *)

Lemma kind_eqb_eq : forall a b, kind_eqb a b = true <-> a = b.
Proof. intros [] []; cbn; split; congruence. Qed.

Lemma kind_eqb_refl : forall a, kind_eqb a a = true.
Proof. intros []; reflexivity. Qed.

(** Items of one kind, in order of declaration. *)
Definition of_kind (k : kind) (fl : list item) : list item := filter (fun it => kind_eqb (it_kind it) k) fl.

Lemma of_kind_app : forall k a b, of_kind k (a ++ b) = of_kind k a ++ of_kind k b.
Proof. intros. unfold of_kind. apply filter_app. Qed.

Definition nis (l : list item) : nat -> nat := fun p => nth p (map new_index l) 0%nat.

Definition last_partial_at (ps : list partial) (len gi : nat) : Prop :=
  exists ps0 i b, ps = ps0 ++ [(i, b)] /\ gi = (i + (len - b))%nat /\ (b < len)%nat.

(** What holds of the state when the items in [fl] (in order) have been appended. *)
Record linv (st : lstate) : Prop := {
  i_sizes : forall k, g_sizes (groups st k) = map it_size (of_kind k (rev (items st)));
  i_pos : forall a L b, rev (items st) = a ++ L :: b -> pos L = length (of_kind (it_kind L) a);
  i_segs : forall k, segs (map it_size (of_kind k (rev (items st)))) (nis (of_kind k (rev (items st)))) (partials (groups st k));
  i_first : forall k, match partials (groups st k) with
                      | [] => of_kind k (rev (items st)) = [] /\ is_reset (groups st k) = true
                      | (_, b) :: _ => b = 0%nat
                      end;
  i_last : forall k, is_reset (groups st k) = false ->
             last_partial_at (partials (groups st k)) (length (of_kind k (rev (items st)))) (g_index (groups st k));
  i_pairs : forall a L b c, rev (items st) = a ++ L :: b ++ c ->
              Forall (fun M => (it_index L < it_index M)%nat) b ->
              forall M, In M b -> it_kind M = it_kind L -> (new_index L < new_index M)%nat;
  i_live : forall a L b, rev (items st) = a ++ L :: b ->
              Forall (fun M => (it_index L < it_index M)%nat) b ->
              (new_index L < g_index (groups st (it_kind L)))%nat
}.

(** Appending to a group. *)

Lemma segs_ext : forall s1 s2 ni1 ni2 ps, length s1 = length s2 ->
  (forall p, (p < length s1)%nat -> ni1 p = ni2 p) -> segs s1 ni1 ps -> segs s2 ni2 ps.
Proof.
  intros s1 s2 ni1 ni2 ps L N. induction ps as [|[i b] t IH]; [trivial|].
  assert (NB : nextb s1 t = nextb s2 t) by (destruct t as [|[? ?] ?]; cbn [nextb]; auto).
  cbn [segs]. rewrite NB. intros (A & B & C & D). split; [exact A|]. split; [rewrite <- L; exact B|].
  split; [|auto]. intros p P. rewrite <- N by (rewrite L; lia). auto.
Qed.

Lemma segs_new : forall s ni ps s' ni' x, length s' = S (length s) ->
  (forall p, (p < length s)%nat -> ni' p = ni p) -> ni' (length s) = x ->
  (forall i b ps', ps = ps' ++ [(i, b)] -> True) ->
  segs s ni ps -> segs s' ni' (ps ++ [(x, length s)]).
Proof.
  intros s ni ps s' ni' x L N X _. induction ps as [|[i b] t IH].
  - intros _. cbn [app segs nextb]. split; [lia|]. split; [lia|]. split; [|exact I].
    intros p P. replace p with (length s) by lia. lia.
  - cbn [app segs]. intros (A & B & C & D).
    assert (NB : nextb s' (t ++ [(x, length s)]) = nextb s t) by (destruct t as [|[? ?] ?]; reflexivity).
    rewrite NB. split; [exact A|]. split; [lia|]. split; [|auto].
    intros p P. rewrite N by lia. auto.
Qed.

Lemma segs_more : forall s ni ps s' ni' x ps0 i b, length s' = S (length s) ->
  (forall p, (p < length s)%nat -> ni' p = ni p) -> ni' (length s) = x ->
  ps = ps0 ++ [(i, b)] -> x = (i + (length s - b))%nat ->
  segs s ni ps -> segs s' ni' ps.
Proof.
  intros s ni ps s' ni' x ps0 i b L N X. revert ps. induction ps0 as [|[i0 b0] t IH]; intros ps -> E.
  - cbn [app segs nextb]. intros (A & B & C & D). split; [lia|]. split; [lia|]. split; [|exact I].
    intros p P. destruct (Nat.eq_dec p (length s)) as [->|Q]; [lia|]. rewrite N by lia. apply C. lia.
  - cbn [app segs]. intros (A & B & C & D).
    assert (NB : nextb s' (t ++ [(i, b)]) = nextb s (t ++ [(i, b)])) by (destruct t as [|[? ?] ?]; reflexivity).
    rewrite NB. split; [exact A|]. split; [lia|]. split; [|apply (IH _ eq_refl E); exact D].
    intros p P. rewrite N by lia. auto.
Qed.

Lemma nis_old : forall l it p, (p < length l)%nat -> nis (l ++ [it]) p = nis l p.
Proof. intros l it p H. unfold nis. rewrite map_app. apply app_nth1. rewrite map_length. exact H. Qed.

Lemma nis_new : forall l it, nis (l ++ [it]) (length l) = new_index it.
Proof. intros l it. unfold nis. rewrite map_app, app_nth2; rewrite map_length; [|lia]. rewrite Nat.sub_diag. reflexivity. Qed.

(** Splitting a list that ends in a known element. *)
Lemma snoc_split : forall {A} (l a b : list A) x y, l ++ [x] = a ++ y :: b ->
  (b = [] /\ a = l /\ x = y) \/ exists b', b = b' ++ [x] /\ l = a ++ y :: b'.
Proof.
  intros A l a b x y E. destruct b as [|z b0] using rev_ind.
  - left. apply app_inj_tail in E. destruct E. auto.
  - right. exists b0. replace (a ++ y :: b0 ++ [z]) with ((a ++ y :: b0) ++ [z]) in E by (rewrite <- app_assoc; reflexivity).
    apply app_inj_tail in E. destruct E; subst. auto.
Qed.

Lemma find_reset_above : forall its d k L l1 l2, its = l1 ++ L :: l2 -> it_kind L = k -> (it_index L < d)%nat ->
  (forall M, In M l1 -> it_kind M = k -> (it_index M <= d)%nat -> (new_index L < new_index M)%nat) ->
  (new_index L < find_reset_index its d k)%nat.
Proof.
  intros its d k L l1 l2 -> K D H. induction l1 as [|M l1 IH]; cbn [app find_reset_index].
  - rewrite (proj2 (Nat.ltb_ge d (it_index L))) by lia. rewrite K, kind_eqb_refl. cbn [negb orb].
    rewrite (proj2 (Nat.eqb_neq (it_index L) d)) by lia. lia.
  - assert (H' : forall M, In M l1 -> it_kind M = k -> (it_index M <= d)%nat -> (new_index L < new_index M)%nat)
      by (intros; apply H; [right; assumption|assumption|assumption]).
    destruct (d <? it_index M)%nat eqn:E1; [exact (IH H')|]. cbn [orb]. apply Nat.ltb_ge in E1.
    destruct (kind_eqb (it_kind M) k) eqn:E2; [|exact (IH H')]. cbn [negb]. apply kind_eqb_eq in E2.
    specialize (H M (or_introl eq_refl) E2 E1). destruct (it_index M =? d)%nat; lia.
Qed.

Lemma linv_init : linv linit.
Proof.
  split; intros; cbn in *; try (destruct a; discriminate); try discriminate; auto.
Qed.

(** Resetting the groups keeps everything except the statements about the index. *)
Definition groups1 (st : lstate) (d : def) : kind -> group :=
  match items st with
  | last :: _ =>
    if (d_index d <=? it_index last)%nat
    then fun k => reset (groups st k) (find_reset_index (items st) (d_index d) k)
    else groups st
  | [] => groups st
  end.

Lemma append_eq : forall st d, append st d =
  LState (Item (d_index d) (d_size d) (d_kind d) (g_index (groups1 st d (d_kind d)))
            (length (g_sizes (groups1 st d (d_kind d)))) :: items st)
    (fun k => if kind_eqb k (d_kind d) then group_append (groups1 st d (d_kind d)) (d_size d) else groups1 st d k).
Proof. reflexivity. Qed.

Lemma groups1_sizes : forall st d k, g_sizes (groups1 st d k) = g_sizes (groups st k).
Proof. intros. unfold groups1. destruct (items st); [reflexivity|]. destruct (_ <=? _)%nat; reflexivity. Qed.

Lemma groups1_partials : forall st d k, partials (groups1 st d k) = partials (groups st k).
Proof. intros. unfold groups1. destruct (items st); [reflexivity|]. destruct (_ <=? _)%nat; reflexivity. Qed.

Lemma groups1_index : forall st d k,
  (is_reset (groups1 st d k) = is_reset (groups st k) /\ g_index (groups1 st d k) = g_index (groups st k)) \/
  is_reset (groups1 st d k) = true.
Proof.
  intros. unfold groups1. destruct (items st); [left; split; reflexivity|]. destruct (_ <=? _)%nat; [right|left; split]; reflexivity.
Qed.

(** A local that stays in scope when [d] is declared keeps its index reserved. *)
Lemma groups1_live : forall st d a L b, linv st -> rev (items st) = a ++ L :: b ->
  Forall (fun M => (it_index L < it_index M)%nat) b -> (it_index L < d_index d)%nat ->
  (new_index L < g_index (groups1 st d (it_kind L)))%nat.
Proof.
  intros st d a L b I E F Hd. pose proof (i_live st I a L b E F) as Live.
  unfold groups1. destruct (items st) as [|last r] eqn:IT; [destruct a; discriminate E|].
  destruct (d_index d <=? it_index last)%nat; [|exact Live].
  unfold reset. cbn [g_index].
  assert (E2 : last :: r = rev b ++ L :: rev a).
  { rewrite <- (rev_involutive (last :: r)), E. rewrite rev_app_distr. cbn [rev]. rewrite <- app_assoc. reflexivity. }
  eapply find_reset_above; [exact E2|reflexivity|exact Hd|].
  intros M IM KM _. apply in_rev in IM.
  apply (i_pairs st I a L b []) with (M := M); try assumption. rewrite app_nil_r, IT. exact E.
Qed.

Lemma linv_append : forall st d, linv st -> linv (append st d).
Proof.
  intros st d I. rewrite append_eq. set (k0 := d_kind d). set (G := groups1 st d).
  set (it := Item (d_index d) (d_size d) k0 (g_index (G k0)) (length (g_sizes (G k0)))).
  assert (GS : forall k, g_sizes (G k) = map it_size (of_kind k (rev (items st)))).
  { intro k. unfold G. rewrite groups1_sizes. apply (i_sizes st I). }
  assert (OK : forall k, of_kind k (rev (items st) ++ [it]) =
      of_kind k (rev (items st)) ++ (if kind_eqb k0 k then [it] else [])).
  { intro k. rewrite of_kind_app. reflexivity. }
  assert (Other : forall k, k0 <> k -> of_kind k (rev (items st) ++ [it]) = of_kind k (rev (items st))).
  { intros k N. rewrite OK. destruct (kind_eqb k0 k) eqn:E; [apply kind_eqb_eq in E; congruence|]. apply app_nil_r. }
  assert (Same : of_kind k0 (rev (items st) ++ [it]) = of_kind k0 (rev (items st)) ++ [it]).
  { rewrite OK, kind_eqb_refl. reflexivity. }
  assert (Lp : forall k, is_reset (G k) = false -> last_partial_at (partials (G k)) (length (of_kind k (rev (items st)))) (g_index (G k))).
  { intros k R. unfold G in *. rewrite groups1_partials.
    destruct (groups1_index st d k) as [[R1 R2]|R1]; [|congruence]. rewrite R2. apply (i_last st I). congruence. }
  assert (Fst : forall k, match partials (G k) with
                      | [] => of_kind k (rev (items st)) = [] /\ is_reset (G k) = true
                      | (_, b) :: _ => b = 0%nat
                      end).
  { intro k. unfold G. rewrite groups1_partials. pose proof (i_first st I k) as F.
    destruct (partials (groups st k)) as [|[? ?] ?]; [|exact F]. destruct F as [F1 F2]. split; [exact F1|].
    destruct (groups1_index st d k) as [[R1 R2]|R1]; congruence. }
  assert (LenS : length (g_sizes (G k0)) = length (of_kind k0 (rev (items st)))) by (rewrite GS, map_length; reflexivity).
  split; cbn [items groups rev]; fold it; fold G; fold k0.
  - intro k. destruct (kind_eqb k k0) eqn:E.
    + apply kind_eqb_eq in E. subst k. rewrite Same, map_app. unfold group_append. cbn [g_sizes]. rewrite GS. reflexivity.
    + rewrite Other; [apply GS|]. intro X. subst k. rewrite kind_eqb_refl in E. discriminate.
  - intros a L b E. apply snoc_split in E. destruct E as [(-> & -> & <-)|(b' & -> & E)].
    + cbn [pos it it_kind]. exact LenS.
    + eapply (i_pos st I). exact E.
  - intro k. destruct (kind_eqb k k0) eqn:E.
    + apply kind_eqb_eq in E. subst k. rewrite Same. unfold group_append. cbn [partials].
      pose proof (i_segs st I k0) as SG. fold k0 in SG.
      assert (P0 : partials (G k0) = partials (groups st k0)) by apply groups1_partials. rewrite P0.
      set (old := of_kind k0 (rev (items st))) in *.
      assert (L : length (map it_size (old ++ [it])) = S (length (map it_size old))) by (rewrite !map_length, app_length; cbn [length]; lia).
      assert (N : forall p, (p < length (map it_size old))%nat -> nis (old ++ [it]) p = nis old p) by (intros p P; rewrite map_length in P; apply nis_old; exact P).
      assert (X : nis (old ++ [it]) (length (map it_size old)) = g_index (G k0)) by (rewrite map_length, nis_new; reflexivity).
      destruct (is_reset (G k0)) eqn:R.
      * replace (length (g_sizes (G k0))) with (length (map it_size old)) by (rewrite map_length; symmetry; exact LenS).
        eapply segs_new; [exact L|exact N|exact X|trivial|exact SG].
      * destruct (Lp k0 R) as (ps0 & i & b & E1 & E2 & E3). rewrite P0 in E1.
        fold old in E2, E3. eapply segs_more; [exact L|exact N|exact X|exact E1| |exact SG]. rewrite map_length. exact E2.
    + assert (k0 <> k) by (intro X; subst k; rewrite kind_eqb_refl in E; discriminate).
      rewrite Other by assumption. unfold G. rewrite groups1_partials. apply (i_segs st I).
  - intro k. destruct (kind_eqb k k0) eqn:E.
    + apply kind_eqb_eq in E. subst k. unfold group_append. cbn [partials]. specialize (Fst k0).
      destruct (is_reset (G k0)) eqn:R.
      * destruct (partials (G k0)) as [|[i b] t]; cbn [app]; [|exact Fst]. destruct Fst as [F _]. rewrite LenS, F. reflexivity.
      * destruct (partials (G k0)) as [|[i b] t]; [destruct Fst; congruence|exact Fst].
    + assert (k0 <> k) by (intro X; subst k; rewrite kind_eqb_refl in E; discriminate).
      rewrite Other by assumption. apply Fst.
  - intros k R. destruct (kind_eqb k k0) eqn:E.
    + apply kind_eqb_eq in E. subst k. rewrite Same, app_length. unfold group_append. cbn [partials g_index length].
      destruct (is_reset (G k0)) eqn:R0.
      * exists (partials (G k0)), (g_index (G k0)), (length (g_sizes (G k0))). split; [reflexivity|]. rewrite LenS. lia.
      * destruct (Lp k0 R0) as (ps0 & i & b & E1 & E2 & E3). exists ps0, i, b. split; [exact E1|]. lia.
    + assert (k0 <> k) by (intro X; subst k; rewrite kind_eqb_refl in E; discriminate).
      rewrite Other by assumption. apply Lp. exact R.
  - intros a L b c E F M IM KM. destruct c as [|z c0] using rev_ind.
    + rewrite app_nil_r in E. apply snoc_split in E. destruct E as [(-> & _)|(b' & -> & E)]; [contradiction IM|].
      apply Forall_app in F. destruct F as [F Fi]. apply in_app_iff in IM. destruct IM as [IM|[<-|[]]].
      * apply (i_pairs st I a L b' []) with (M := M); try assumption. rewrite app_nil_r. exact E.
      * cbn [new_index it]. cbn [it_kind it] in KM. inversion Fi; subst. cbn [it_index it] in *.
        unfold G. rewrite KM. eapply groups1_live; eassumption.
    + clear IHc0. rewrite app_assoc in E.
      replace (a ++ L :: (b ++ c0) ++ [z]) with (a ++ L :: b ++ c0 ++ [z]) in E by (rewrite <- app_assoc; reflexivity).
      replace (a ++ L :: b ++ c0 ++ [z]) with ((a ++ L :: b ++ c0) ++ [z]) in E by (rewrite <- !app_assoc; cbn [app]; rewrite <- !app_assoc; reflexivity).
      apply app_inj_tail in E. destruct E as [E _]. eapply (i_pairs st I); eassumption.
  - intros a L b E F. apply snoc_split in E. destruct E as [(-> & -> & <-)|(b' & -> & E)].
    + cbn [it_kind it new_index]. rewrite kind_eqb_refl. unfold group_append. cbn [g_index]. lia.
    + apply Forall_app in F. destruct F as [F Fi]. inversion Fi; subst. cbn [it_index it] in *.
      pose proof (groups1_live st d a L b' I E F ltac:(assumption)) as Lv. fold G in Lv.
      destruct (kind_eqb (it_kind L) k0) eqn:K; [|exact Lv]. apply kind_eqb_eq in K. rewrite K in Lv.
      unfold group_append. cbn [g_index]. lia.
Qed.

Lemma linv_all : forall ds st, linv st -> linv (fold_left append ds st).
Proof. induction ds as [|d ds IH]; intros st I; [exact I|]. cbn [fold_left]. apply IH, linv_append, I. Qed.

(** The items are the definitions. *)
Definition def_of (it : item) : def := Def (it_index it) (it_size it) (it_kind it).

Lemma append_defs : forall ds st, map def_of (rev (items (fold_left append ds st))) = map def_of (rev (items st)) ++ ds.
Proof.
  induction ds as [|d ds IH]; intro st; [symmetry; apply app_nil_r|]. cbn [fold_left]. rewrite IH.
  rewrite append_eq. cbn [items rev]. rewrite map_app, <- app_assoc. cbn [map app]. unfold def_of at 2. cbn [it_index it_size it_kind].
  destruct d; reflexivity.
Qed.

Lemma all_defs : forall ds, map def_of (rev (items (append_all ds))) = ds.
Proof. intro ds. unfold append_all. rewrite append_defs. reflexivity. Qed.

(** *** One group *)

Definition kroom (k : kind) (fl : list item) : Z := fold_right (fun it t => it_size it + 7 + t) 0 (of_kind k fl).

Lemma weight_combine : forall (l : list item) m,
  weight (combine (seq m (length (map it_size l))) (map it_size l)) = fold_right (fun it t => it_size it + 7 + t) 0 l.
Proof.
  induction l as [|x l IH]; intro m; [reflexivity|]. cbn [map length seq combine]. unfold weight. cbn [fold_right snd].
  fold (weight (combine (seq (S m) (length (map it_size l))) (map it_size l))). rewrite IH. reflexivity.
Qed.

Lemma of_kind_split : forall k a L b, it_kind L = k -> of_kind k (a ++ L :: b) = of_kind k a ++ L :: of_kind k b.
Proof. intros k a L b E. rewrite of_kind_app. cbn [of_kind filter]. rewrite E, kind_eqb_refl. reflexivity. Qed.

Lemma glive_items : forall st a L b Q c, linv st -> rev (items st) = a ++ L :: b ++ Q :: c ->
  it_kind Q = it_kind L -> Forall (fun M => (it_index L < it_index M)%nat) (b ++ [Q]) ->
  glive (nis (of_kind (it_kind L) (rev (items st)))) (pos L) (pos Q).
Proof.
  intros st a L b Q c I E KQ F r Hr. set (k := it_kind L) in *.
  pose proof (i_pos st I a L (b ++ Q :: c) E) as PL. fold k in PL.
  assert (E2 : rev (items st) = (a ++ L :: b) ++ Q :: c) by (rewrite E, <- app_assoc; reflexivity).
  pose proof (i_pos st I (a ++ L :: b) Q c E2) as PQ. rewrite KQ in PQ. fold k in PQ.
  rewrite (of_kind_split k a L b eq_refl), app_length in PQ. cbn [length] in PQ.
  assert (E3 : of_kind k (rev (items st)) = of_kind k a ++ L :: of_kind k (b ++ [Q]) ++ of_kind k c).
  { rewrite E, (of_kind_split k a L (b ++ Q :: c) eq_refl). do 2 f_equal. rewrite <- of_kind_app, <- app_assoc. reflexivity. }
  assert (NL : nis (of_kind k (rev (items st))) (pos L) = new_index L).
  { rewrite E3, PL. unfold nis. rewrite map_app, app_nth2; rewrite map_length; [|lia]. rewrite Nat.sub_diag. reflexivity. }
  rewrite NL.
  assert (LB : length (of_kind k (b ++ [Q])) = S (length (of_kind k b))).
  { rewrite of_kind_app, app_length. cbn [of_kind filter]. rewrite KQ. fold k. rewrite kind_eqb_refl. cbn [length]. lia. }
  set (j := (r - S (pos L))%nat).
  assert (Hj : (j < length (of_kind k (b ++ [Q])))%nat) by (unfold j; lia).
  assert (NR : nis (of_kind k (rev (items st))) r = new_index (nth j (of_kind k (b ++ [Q])) L)).
  { rewrite E3. unfold nis. rewrite map_app, app_nth2; rewrite map_length; [|lia].
    replace (r - length (of_kind k a))%nat with (S j) by (unfold j; lia). cbn [map nth].
    rewrite map_app, app_nth1 by (rewrite map_length; exact Hj).
    rewrite (nth_indep _ 0%nat (new_index L)) by (rewrite map_length; exact Hj). apply map_nth. }
  rewrite NR. pose proof (nth_In (of_kind k (b ++ [Q])) L Hj) as IN. unfold of_kind in IN. apply filter_In in IN.
  destruct IN as [IN KN]. apply kind_eqb_eq in KN.
  eapply (i_pairs st I a L (b ++ [Q]) c); [|exact F|exact IN|exact KN]. rewrite E, <- app_assoc. reflexivity.
Qed.

Lemma group_placed : forall sort st k off R w, sorts_down sort -> linv st ->
  Forall (fun it => 0 <= it_size it) (rev (items st)) -> k <> KMix -> 0 <= off ->
  off + kroom k (rev (items st)) < 65536 -> commit_group sort k (groups st k) off = Done (R, w) ->
  off <= R <= off + kroom k (rev (items st)) /\
  (forall L, In L (rev (items st)) -> it_kind L = k -> exists o, lookup w (pos L) = Some o /\ off <= o /\ o + it_size L <= R) /\
  (forall a L b Q c oL oQ, rev (items st) = a ++ L :: b ++ Q :: c -> it_kind L = k -> it_kind Q = k ->
     Forall (fun M => (it_index L < it_index M)%nat) (b ++ [Q]) ->
     lookup w (pos L) = Some oL -> lookup w (pos Q) = Some oQ -> apart oL (it_size L) oQ (it_size Q)).
Proof.
  intros sort st k off R w SD I NN K H0 HB E. unfold commit_group in E.
  set (fl := rev (items st)) in *.
  assert (Nk : Forall (fun it => 0 <= it_size it) (of_kind k fl)).
  { apply Forall_forall. intros x X. apply filter_In in X. rewrite Forall_forall in NN. apply NN, X. }
  assert (Wn : 0 <= kroom k fl).
  { unfold kroom. clear - Nk. induction Nk; cbn [fold_right]; lia. }
  pose proof (i_first st I k) as Fst. pose proof (i_segs st I k) as SG. fold fl in Fst, SG.
  assert (SZ : forall a L b, fl = a ++ L :: b -> it_kind L = k ->
             nth_error (map it_size (of_kind k fl)) (pos L) = Some (it_size L)).
  { intros a L b EL KL. pose proof (i_pos st I a L b EL) as P. rewrite KL in P. rewrite P, EL, (of_kind_split k a L b KL), map_app.
    rewrite nth_error_app2; rewrite map_length; [|lia]. rewrite Nat.sub_diag. reflexivity. }
  destruct (partials (groups st k)) as [|[i b] t] eqn:PS.
  - destruct Fst as [Fe _]. inversion E; subst R w. split; [lia|].
    assert (No : forall L, In L fl -> it_kind L = k -> False).
    { intros L IL KL. assert (X : In L (of_kind k fl)) by (apply filter_In; split; [exact IL|apply kind_eqb_eq; exact KL]).
      rewrite Fe in X. exact X. }
    split; [intros L IL KL; destruct (No L IL KL)|].
    intros a L b Q c oL oQ EL KL. exfalso. apply (No L); [rewrite EL; apply in_app_iff; right; left; reflexivity|exact KL].
  - subst b.
    assert (A : arrange sort (g_sizes (groups st k)) (depth ((i, 0%nat) :: t)) off i 0 t = Done (R, w)) by (destruct k; [exact E|exact E|congruence]).
    rewrite (i_sizes st I k) in A. fold fl in A. cbn [segs] in SG. destruct SG as (S1 & S2 & S3 & S4).
    assert (W0 : wt (map it_size (of_kind k fl)) 0 = kroom k fl) by (unfold wt; cbn [skipn]; apply weight_combine).
    destruct (arrange_good sort SD (map it_size (of_kind k fl)) ltac:(apply Forall_map; exact Nk) (nis (of_kind k fl))
                (depth ((i, 0%nat) :: t)) off i 0%nat t R w A S4 S3 H0 ltac:(lia)) as [B (G1 & G2 & G3)].
    rewrite W0 in B. split; [exact B|]. split.
    + intros L IL KL. apply in_split in IL. destruct IL as (a & b & EL).
      apply (G1 (pos L) (it_size L)); [lia|]. exact (SZ a L b EL KL).
    + intros a L b Q c oL oQ EL KL KQ F LL LQ.
      assert (EQ : fl = (a ++ L :: b) ++ Q :: c) by (rewrite EL, <- app_assoc; reflexivity).
      pose proof (i_pos st I a L (b ++ Q :: c) EL) as PL. pose proof (i_pos st I (a ++ L :: b) Q c EQ) as PQ.
      rewrite KL in PL. rewrite KQ, (of_kind_split k a L b KL), app_length in PQ. cbn [length] in PQ.
      eapply (G2 (pos L) (pos Q)); [lia| |exact (SZ a L _ EL KL)|exact (SZ _ Q c EQ KQ)|exact LL|exact LQ].
      pose proof (glive_items st a L b Q c I EL ltac:(congruence) F) as GL. rewrite KL in GL. exact GL.
Qed.

Lemma group_fuel : forall sort st k off, k <> KMix -> linv st -> commit_group sort k (groups st k) off <> OutOfFuel.
Proof.
  intros sort st k off K I. unfold commit_group. destruct (partials (groups st k)) as [|[i b] t]; [discriminate|].
  assert (F : arrange sort (g_sizes (groups st k)) (depth ((i, b) :: t)) off i b t <> OutOfFuel).
  { apply (arrange_fuel _ _ S). pose proof (cnt_le S i t). unfold depth. cbn [length]. nia. }
  destruct k; [exact F|exact F|congruence].
Qed.

(** *** The whole frame *)

Lemma kroom_total : forall fl, kroom KRef fl + kroom KValue fl + kroom KMix fl =
  room (map (fun it => (it_size it, it_kind it)) fl).
Proof.
  unfold kroom, of_kind. induction fl as [|x fl IH]; [reflexivity|]. cbn [filter map room fold_right fst].
  fold (room (map (fun it => (it_size it, it_kind it)) fl)). rewrite <- IH.
  destruct (it_kind x); cbn [kind_eqb fold_right]; lia.
Qed.

Lemma kroom_nonneg : forall k fl, Forall (fun it => 0 <= it_size it) fl -> 0 <= kroom k fl.
Proof.
  intros k fl F. unfold kroom, of_kind. induction F as [|x fl Hx F IH]; [cbn; lia|]. cbn [filter].
  destruct (kind_eqb (it_kind x) k); cbn [fold_right]; lia.
Qed.

Lemma number_declared : forall b n, map (fun d => (d_size d, d_kind d)) (number n b) = declared b.
Proof.
  induction b as [|s k r IH|i IHi r IHr]; intro n; [reflexivity| |].
  - cbn [number map declared d_size d_kind]. rewrite IH. reflexivity.
  - cbn [number declared]. rewrite map_app, IHi, IHr. reflexivity.
Qed.

Lemma number_length : forall b n, length (number n b) = length (declared b).
Proof. intros b n. rewrite <- (number_declared b n), map_length. reflexivity. Qed.

Lemma scope_length : forall b sc nx, length (in_scope sc nx b) = length (declared b).
Proof.
  induction b as [|s k r IH|i IHi r IHr]; intros sc nx; [reflexivity| |].
  - cbn [in_scope declared length]. rewrite IH. reflexivity.
  - cbn [in_scope declared]. rewrite !app_length, IHi, IHr. reflexivity.
Qed.

Lemma number_ge : forall b n d, In d (number n b) -> (n <= d_index d)%nat.
Proof.
  induction b as [|s k r IH|i IHi r IHr]; intros n d H; [contradiction H| |].
  - destruct H as [<-|H]; [cbn; lia|]. apply IH in H. lia.
  - cbn [number] in H. apply in_app_iff in H. destruct H; eauto.
Qed.

Lemma scope_indexes : forall b n sc nx j l i, nth_error (in_scope sc nx b) j = Some l -> In i l ->
  In i sc \/ (nx <= i < nx + j)%nat /\
    forall m di dm, (i - nx < m <= j)%nat -> nth_error (number n b) (i - nx) = Some di ->
      nth_error (number n b) m = Some dm -> (d_index di < d_index dm)%nat.
Proof.
  induction b as [|s k r IH|bi IHi br IHr]; intros n sc nx j l i E H.
  - destruct j; discriminate.
  - cbn [in_scope] in E. destruct j as [|j]; [cbn in E; inversion E; subst; left; exact H|]. cbn [nth_error] in E.
    destruct (IH (S n) (nx :: sc) (S nx) j l i E H) as [[<-|I]|[R1 R2]].
    + right. split; [lia|]. intros m di dm Hm Ei Em. rewrite Nat.sub_diag in *. cbn [number nth_error] in Ei. inversion Ei; subst di.
      destruct m as [|m]; [lia|]. cbn [number nth_error] in Em. apply nth_error_In in Em. apply number_ge in Em. cbn [d_index]. lia.
    + left. exact I.
    + right. split; [lia|]. intros m di dm Hm Ei Em. cbn [number] in Ei, Em.
      replace (i - nx)%nat with (S (i - S nx)) in Ei by lia. destruct m as [|m]; [lia|]. cbn [nth_error] in Ei, Em.
      apply (R2 m di dm); [lia|exact Ei|exact Em].
  - cbn [in_scope] in E. destruct (le_lt_dec (length (declared bi)) j) as [L|L].
    + rewrite nth_error_app2 in E by (rewrite scope_length; exact L). rewrite scope_length in E.
      destruct (IHr n sc (nx + length (declared bi))%nat (j - length (declared bi))%nat l i E H) as [I|[R1 R2]]; [left; exact I|].
      right. split; [lia|]. intros m di dm Hm Ei Em. cbn [number] in Ei, Em.
      rewrite nth_error_app2 in Ei, Em by (rewrite number_length; lia). rewrite number_length in Ei, Em.
      apply (R2 (m - length (declared bi))%nat di dm); [lia| |exact Em]. rewrite <- Ei. f_equal. lia.
    + rewrite nth_error_app1 in E by (rewrite scope_length; exact L).
      destruct (IHi n sc nx j l i E H) as [I|[R1 R2]]; [left; exact I|].
      right. split; [lia|]. intros m di dm Hm Ei Em. cbn [number] in Ei, Em.
      rewrite nth_error_app1 in Ei, Em by (rewrite number_length; lia). apply (R2 m di dm); assumption.
Qed.

(** Cutting a list at two positions. *)
Lemma split_two : forall {A} (l : list A) i j x y, (i < j)%nat -> nth_error l i = Some x -> nth_error l j = Some y ->
  exists a b c, l = a ++ x :: b ++ y :: c /\ length a = i /\ (i + S (length b))%nat = j.
Proof.
  intros A l i j x y H Ei Ej. apply nth_error_split in Ej. destruct Ej as (u & c & -> & Lu).
  assert (Ei' : nth_error u i = Some x) by (rewrite nth_error_app1 in Ei by lia; exact Ei).
  apply nth_error_split in Ei'. destruct Ei' as (a & b & -> & La). exists a, b, c.
  rewrite app_length in Lu. cbn [length] in Lu. split; [rewrite <- app_assoc; reflexivity|]. lia.
Qed.

Lemma commit_ok : forall sort b la, sorts_down sort ->
  Forall (fun x => 0 <= fst x /\ snd x <> KMix) (declared b) -> room (declared b) <= 65528 ->
  layout_of sort (number 0 b) = Done la -> frame_ok b la.
Proof.
  intros sort b la SD FD RM E. unfold layout_of, commit in E.
  pose proof (linv_all (number 0 b) linit linv_init) as I. fold (append_all (number 0 b)) in I.
  pose proof (all_defs (number 0 b)) as AD. set (st := append_all (number 0 b)) in *.
  set (fl := rev (items st)) in *.
  assert (Decl : map (fun it => (it_size it, it_kind it)) fl = declared b).
  { rewrite <- (number_declared b 0), <- AD, map_map. reflexivity. }
  assert (NN : Forall (fun it => 0 <= it_size it) fl).
  { rewrite <- Decl in FD. apply Forall_map in FD. eapply Forall_impl; [|exact FD]. cbn. tauto. }
  assert (NM : Forall (fun it => it_kind it <> KMix) fl).
  { rewrite <- Decl in FD. apply Forall_map in FD. eapply Forall_impl; [|exact FD]. cbn. tauto. }
  pose proof (kroom_total fl) as KT. rewrite Decl in KT.
  pose proof (kroom_nonneg KRef fl NN) as KR. pose proof (kroom_nonneg KValue fl NN) as KV. pose proof (kroom_nonneg KMix fl NN) as KM.
  destruct (commit_group sort KRef (groups st KRef) 0) as [[o1 w1]| |] eqn:C1; try discriminate.
  destruct (group_placed sort st KRef 0 o1 w1 SD I NN ltac:(discriminate) ltac:(lia) ltac:(fold fl; lia) C1) as (B1 & P1 & D1). fold fl in B1, P1, D1.
  destruct (commit_group sort KValue (groups st KValue) o1) as [[o2 w2]| |] eqn:C2; try discriminate.
  destruct (group_placed sort st KValue o1 o2 w2 SD I NN ltac:(discriminate) ltac:(lia) ltac:(fold fl; lia) C2) as (B2 & P2 & D2). fold fl in B2, P2, D2.
  assert (C3 : commit_group sort KMix (groups st KMix) o2 = Done (o2, [])).
  { unfold commit_group. pose proof (i_first st I KMix) as F. destruct (partials (groups st KMix)) as [|[i bb] t] eqn:P; [reflexivity|].
    exfalso. pose proof (i_segs st I KMix) as SG. rewrite P in SG. cbn [segs] in SG. destruct SG as (S1 & S2 & _).
    fold fl in S1, S2. assert (Em : of_kind KMix fl = []).
    { unfold of_kind. clear - NM. induction NM as [|x l Hx F IH]; [reflexivity|]. cbn [filter].
      destruct (kind_eqb (it_kind x) KMix) eqn:K; [apply kind_eqb_eq in K; congruence|exact IH]. }
    rewrite Em in S1, S2. cbn [map length] in S1, S2. lia. }
  rewrite C3 in E. inversion E; subst la. clear E.
  assert (U : o2 <= 8 * u16 (ualign o2 8 / 8)).
  { pose proof (ualign_bounds o2 8 ltac:(lia) ltac:(lia)) as UB.
    assert (UE : ualign o2 8 = 8 * ((o2 + 7) / 8)) by (unfold ualign; rewrite unit_align_eq by lia; change (8 =? 1) with false; change (8 =? 2) with false; change ((8 =? 3) || (8 =? 4)) with false; cbv iota; apply u16_id; lia).
    rewrite UE in *. rewrite (Z.mul_comm 8 ((o2 + 7) / 8)), Z.div_mul by lia. rewrite u16_id; lia. }
  set (wk := fun k => match k with KRef => w1 | KValue => w2 | KMix => @nil (nat * Z) end).
  assert (Off : forall i L, nth_error fl i = Some L ->
     nth_error (map (fun it => lookup (match it_kind it with KRef => w1 | KValue => w2 | KMix => [] end) (pos it)) fl) i = Some (lookup (wk (it_kind L)) (pos L))).
  { intros i L EL. rewrite nth_error_map, EL. reflexivity. }
  assert (Nth : forall i s k, nth_error (declared b) i = Some (s, k) -> exists L, nth_error fl i = Some L /\ it_size L = s /\ it_kind L = k).
  { intros i s k EL. rewrite <- Decl, nth_error_map in EL. destruct (nth_error fl i) as [L|]; [|discriminate].
    inversion EL. exists L. auto. }
  assert (KN : forall i L, nth_error fl i = Some L -> it_kind L <> KMix).
  { intros i L EL. apply nth_error_In in EL. rewrite Forall_forall in NM. auto. }
  assert (Where : forall i L, nth_error fl i = Some L -> exists o, lookup (wk (it_kind L)) (pos L) = Some o /\
     (it_kind L = KRef -> 0 <= o /\ o + it_size L <= o1) /\ (it_kind L = KValue -> o1 <= o /\ o + it_size L <= o2)).
  { intros i L EL. pose proof (nth_error_In _ _ EL) as IL. specialize (KN i L EL). destruct (it_kind L) eqn:K; [| |congruence].
    - destruct (P1 L IL K) as (o & X & Y & Z). exists o. split; [exact X|]. split; [intros _; lia|discriminate].
    - destruct (P2 L IL K) as (o & X & Y & Z). exists o. split; [exact X|]. split; [discriminate|intros _; lia]. }
  (* locals in one another's scope *)
  assert (Core : forall i j l Li Lj oi oj, nth_error (in_scope [] 0 b) j = Some l -> In i l ->
     nth_error fl i = Some Li -> nth_error fl j = Some Lj ->
     lookup (wk (it_kind Li)) (pos Li) = Some oi -> lookup (wk (it_kind Lj)) (pos Lj) = Some oj ->
     apart oi (it_size Li) oj (it_size Lj)).
  { intros i j l Li Lj oi oj Es Hi Ei Ej Xi Xj.
    destruct (scope_indexes b 0 [] 0 j l i Es Hi) as [[]|[R1 R2]]. rewrite Nat.sub_0_r in R2.
    destruct (Where i Li Ei) as (oi' & Wi & Ri & Vi). destruct (Where j Lj Ej) as (oj' & Wj & Rj & Vj).
    rewrite Xi in Wi. rewrite Xj in Wj. inversion Wi; inversion Wj; subst oi' oj'. clear Wi Wj.
    destruct (split_two fl i j Li Lj ltac:(lia) Ei Ej) as (a & m & c & EL & La & Lm).
    assert (F : Forall (fun M => (it_index Li < it_index M)%nat) (m ++ [Lj])).
    { apply Forall_forall. intros M IM. apply In_nth_error in IM. destruct IM as [x Ex].
      assert (Lx : (x < length (m ++ [Lj]))%nat) by (apply nth_error_Some; congruence). rewrite app_length in Lx. cbn [length] in Lx.
      assert (EM : nth_error fl (i + S x) = Some M).
      { rewrite EL, nth_error_app2 by lia. replace (i + S x - length a)%nat with (S x) by lia. cbn [nth_error].
        replace (m ++ Lj :: c) with ((m ++ [Lj]) ++ c) by (rewrite <- app_assoc; reflexivity).
        rewrite nth_error_app1 by (rewrite app_length; cbn [length]; lia). exact Ex. }
      apply (R2 (i + S x)%nat (def_of Li) (def_of M)); [lia| |].
      - rewrite <- AD, nth_error_map, Ei. reflexivity.
      - rewrite <- AD, nth_error_map, EM. reflexivity. }
    pose proof (KN i Li Ei) as Ki. pose proof (KN j Lj Ej) as Kj.
    destruct (it_kind Li) eqn:K1; [| |congruence]; (destruct (it_kind Lj) eqn:K2; [| |congruence]); cbn [wk] in Xi, Xj.
    - eapply (D1 a Li m Lj c); eassumption.
    - apply apart_le. destruct (Ri eq_refl), (Vj eq_refl). lia.
    - apply apart_sym, apart_le. destruct (Vi eq_refl), (Rj eq_refl). lia.
    - eapply (D2 a Li m Lj c); eassumption. }
  split; cbn [units offset_of].
  - intros i s k EL. destruct (Nth i s k EL) as (L & EL' & <- & <-).
    destruct (Where i L EL') as (o & X & Y & Z). exists o. rewrite (Off i L EL'), X. split; [reflexivity|].
    specialize (KN i L EL'). destruct (it_kind L) eqn:K; [destruct (Y eq_refl); lia|destruct (Z eq_refl); lia|congruence].
  - intros i j si ki sj kj oi oj Hij LT Ei Ej Oi Oj.
    destruct (Nth i si ki Ei) as (Li & Ei' & <- & <-). destruct (Nth j sj kj Ej) as (Lj & Ej' & <- & <-).
    rewrite (Off i Li Ei') in Oi. rewrite (Off j Lj Ej') in Oj. inversion Oi as [Xi]. inversion Oj as [Xj].
    destruct LT as [(l & Es & Hi)|(l & Es & Hi)].
    + eapply (Core i j); eassumption.
    + apply apart_sym. eapply (Core j i); eassumption.
Qed.

(** *** Locals of one storage kind: the layout is always defined *)

Fixpoint down (its : list item) : Prop :=
  match its with
  | [] => True
  | x :: r => match r with [] => it_index x = 0%nat | y :: _ => (it_index x <= S (it_index y))%nat end /\ down r
  end.

Definition dropsl (ps : list partial) : Prop := match ps with [] => True | (i, b) :: t => drops i b t end.

Record sinv (k : kind) (st : lstate) : Prop := {
  s_kind : Forall (fun it => it_kind it = k) (items st);
  s_new : Forall (fun it => new_index it = it_index it) (items st);
  s_down : down (items st);
  s_index : g_index (groups st k) = match items st with [] => 0%nat | M :: _ => S (it_index M) end;
  s_reset : items st <> [] -> is_reset (groups st k) = false;
  s_drops : dropsl (partials (groups st k))
}.

Lemma segs_bounded : forall s ni ps, segs s ni ps -> bounded s ps.
Proof.
  intros s ni. induction ps as [|[i b] t IH]; [trivial|]. cbn [segs bounded]. intros (A & B & C & D). split; [lia|auto].
Qed.

Lemma segs_last : forall s ni ps0 i b, segs s ni (ps0 ++ [(i, b)]) ->
  (b < length s)%nat /\ ni (length s - 1)%nat = (i + (length s - 1 - b))%nat.
Proof.
  intros s ni. induction ps0 as [|[i0 b0] t IH]; intros i b H.
  - cbn [app segs nextb] in H. destruct H as (A & B & C & D). split; [exact A|]. apply C. lia.
  - cbn [app segs] in H. apply IH. apply H.
Qed.

Lemma drops_snoc : forall t i b x len, drops i b t ->
  (forall t0 i' b', (i, b) :: t = t0 ++ [(i', b')] -> (b' < len)%nat /\ (x < i' + (len - b'))%nat) ->
  drops i b (t ++ [(x, len)]).
Proof.
  induction t as [|[i1 b1] t IH]; intros i b x len D H.
  - destruct (H [] i b eq_refl) as [A B]. cbn [app drops]. auto.
  - cbn [app drops] in *. destruct D as (A & B & C). split; [exact A|]. split; [exact B|].
    apply IH; [exact C|]. intros t0 i' b' E. apply (H ((i, b) :: t0) i' b'). cbn [app]. rewrite <- E. reflexivity.
Qed.

Lemma find_reset_same : forall its d k, Forall (fun it => it_kind it = k) its ->
  Forall (fun it => new_index it = it_index it) its -> down its ->
  match its with [] => False | M :: _ => (d <= it_index M)%nat end -> find_reset_index its d k = d.
Proof.
  induction its as [|M its IH]; intros d k FK FN D H; [contradiction|].
  inversion FK; subst. inversion FN; subst. cbn [find_reset_index]. rewrite kind_eqb_refl. cbn [negb]. rewrite orb_false_r.
  destruct (d <? it_index M)%nat eqn:E.
  - apply Nat.ltb_lt in E. apply IH; try assumption; [apply D|].
    cbn [down] in D. destruct its as [|y r]; [lia|]. destruct D. lia.
  - apply Nat.ltb_ge in E. replace (it_index M =? d)%nat with true by (symmetry; apply Nat.eqb_eq; lia). lia.
Qed.

Lemma of_kind_all : forall k l, Forall (fun it => it_kind it = k) l -> of_kind k l = l.
Proof.
  intros k l F. unfold of_kind. induction F as [|x l Hx F IH]; [reflexivity|]. cbn [filter]. rewrite Hx, kind_eqb_refl, IH. reflexivity.
Qed.

Lemma sinv_append : forall k st d, linv st -> sinv k st -> d_kind d = k ->
  (d_index d <= match items st with [] => 0 | M :: _ => S (it_index M) end)%nat -> sinv k (append st d).
Proof.
  intros k st d I S Kd Hd. destruct S as [SK SN SDn SI SR SDr]. rewrite append_eq. rewrite Kd.
  assert (GI : g_index (groups1 st d k) = d_index d /\
     (is_reset (groups1 st d k) = true -> items st = [] \/ match items st with [] => False | M :: _ => (d_index d <= it_index M)%nat end)).
  { unfold groups1. destruct (items st) as [|M r] eqn:IT.
    - split; [rewrite SI; lia|auto].
    - destruct (d_index d <=? it_index M)%nat eqn:E.
      + apply Nat.leb_le in E. split; [|auto]. unfold reset. cbn [g_index]. apply find_reset_same; assumption.
      + apply Nat.leb_gt in E. split; [rewrite SI; lia|]. rewrite SR by discriminate. discriminate. }
  destruct GI as [GI GR].
  split; cbn [items groups]; rewrite ?kind_eqb_refl.
  - constructor; [reflexivity|exact SK].
  - constructor; [exact GI|exact SN].
  - cbn [down]. split; [|exact SDn]. destruct (items st); cbn [it_index]; lia.
  - unfold group_append. cbn [g_index it_index]. rewrite GI. reflexivity.
  - reflexivity.
  - unfold group_append. cbn [partials]. rewrite groups1_partials, groups1_sizes.
    destruct (is_reset (groups1 st d k)) eqn:R; [|exact SDr].
    specialize (GR eq_refl). destruct (partials (groups st k)) as [|[i b] t] eqn:PS; [exact Logic.I|].
    cbn [app dropsl] in *. apply drops_snoc; [exact SDr|]. intros t0 i' b' E.
    pose proof (i_segs st I k) as SG. rewrite PS in SG. pose proof (eq_ind _ (segs _ _) SG _ E) as SG2. clear SG. rename SG2 into SG. apply segs_last in SG.
    rewrite of_kind_all in SG by (apply Forall_rev; exact SK).
    rewrite (i_sizes st I k), of_kind_all by (apply Forall_rev; exact SK).
    rewrite map_length in *. destruct SG as [A B]. split; [exact A|].
    rewrite GI. destruct (items st) as [|M r] eqn:IT; [cbn in A; lia|].
    destruct GR as [|GR]; [discriminate|]. cbn [rev] in A, B |- *. rewrite app_length in A, B |- *. cbn [length] in *.
    replace (length (rev r) + 1 - 1)%nat with (length (rev r)) in B by lia. rewrite nis_new in B.
    inversion SN; subst. lia.
Qed.

Fixpoint steps (m : nat) (ds : list def) : Prop :=
  match ds with [] => True | d :: r => (d_index d <= m)%nat /\ steps (S (d_index d)) r end.

Lemma number_steps : forall b n m tail, (n <= m)%nat -> (forall m', (n <= m')%nat -> steps m' tail) -> steps m (number n b ++ tail).
Proof.
  induction b as [|s k r IH|bi IHi br IHr]; intros n m tail H T; cbn [number app]; [auto| |].
  - cbn [steps d_index]. split; [exact H|]. apply IH; [lia|]. intros m' H'. apply T. lia.
  - rewrite <- app_assoc. apply IHi; [exact H|]. intros m' H'. apply IHr; assumption.
Qed.

Lemma sinv_all : forall k ds st, linv st -> sinv k st -> Forall (fun d => d_kind d = k) ds ->
  steps (match items st with [] => 0 | M :: _ => S (it_index M) end)%nat ds -> sinv k (fold_left append ds st).
Proof.
  intros k. induction ds as [|d ds IH]; intros st I S F H; [exact S|]. cbn [fold_left]. inversion F; subst.
  cbn [steps] in H. destruct H as [H1 H2].
  apply IH; [apply linv_append; exact I|apply sinv_append; auto|assumption|].
  rewrite append_eq. cbn [items it_index]. exact H2.
Qed.

Lemma one_kind_defined : forall sort b k, k <> KMix -> Forall (fun x => snd x = k) (declared b) ->
  exists la, layout_of sort (number 0 b) = Done la.
Proof.
  intros sort b k NK F.
  assert (FD : Forall (fun d => d_kind d = k) (number 0 b)).
  { rewrite <- (number_declared b 0) in F. apply Forall_map in F. exact F. }
  pose proof (linv_all (number 0 b) linit linv_init) as I.
  assert (S0 : sinv k linit). { split; cbn; auto. congruence. }
  pose proof (sinv_all k (number 0 b) linit linv_init S0 FD) as S. cbn [items linit] in S.
  specialize (S ltac:(rewrite <- (app_nil_r (number 0 b)); apply number_steps; [lia|intros; exact Logic.I])).
  fold (append_all (number 0 b)) in S, I. unfold layout_of, commit. set (st := append_all (number 0 b)) in *.
  assert (Emp : forall k' off, k' <> k -> commit_group sort k' (groups st k') off = Done (off, [])).
  { intros k' off N. unfold commit_group. pose proof (i_segs st I k') as SG.
    assert (Em : of_kind k' (rev (items st)) = []).
    { pose proof (Forall_rev (s_kind k st S)) as FK. clear SG. unfold of_kind. induction FK as [|x l Hx FK IH]; [reflexivity|]. cbn [filter].
      destruct (kind_eqb (it_kind x) k') eqn:K; [apply kind_eqb_eq in K; congruence|exact IH]. }
    rewrite Em in SG. destruct (partials (groups st k')) as [|[i b0] t]; [reflexivity|]. cbn [segs map length] in SG.
    destruct SG as (A & B & _). lia. }
  assert (Own : forall off, exists R w, commit_group sort k (groups st k) off = Done (R, w)).
  { intro off. pose proof (group_fuel sort st k off NK I) as GF.
    assert (U : commit_group sort k (groups st k) off <> Undef).
    { unfold commit_group. pose proof (s_drops k st S) as D. pose proof (i_segs st I k) as SG.
      rewrite <- (i_sizes st I k) in SG. apply segs_bounded in SG.
      destruct (partials (groups st k)) as [|[i b0] t]; [discriminate|]. cbn [dropsl] in D.
      pose proof (arrange_defined sort (g_sizes (groups st k)) Datatypes.S (depth ((i, b0) :: t)) off i b0 t D SG) as AD.
      destruct k; [exact AD|exact AD|congruence]. }
    destruct (commit_group sort k (groups st k) off) as [[R w]| |]; [eauto|congruence|congruence]. }
  destruct k; [| |congruence].
  - destruct (Own 0) as (R & w & E). rewrite E. rewrite (Emp KValue R), (Emp KMix R) by discriminate. eauto.
  - rewrite (Emp KRef 0) by discriminate. destruct (Own 0) as (R & w & E). rewrite E. rewrite (Emp KMix R) by discriminate. eauto.
Qed.

(** *** The recursion bound, also for mixtures *)

Lemma place_fuel : forall sort off r, r <> OutOfFuel -> place_collected sort off r <> OutOfFuel.
Proof.
  intros sort off [[its w]| |] H; cbn [place_collected]; try congruence.
  destruct its; [discriminate|]. destruct (set_offsets sort off (p :: its)). discriminate.
Qed.

Lemma collect_fuel : forall sort sizes f i b t, (length t * S (length t) + cnt i t < f)%nat ->
  collect sort sizes f i b t <> OutOfFuel.
Proof.
  intros sort sizes. induction f as [|f IH]; intros i b t H; [lia|]. cbn [collect]. cbv zeta.
  unfold copy_range. destruct (_ || _)%bool; [discriminate|].
  destruct (fst (min_index i None t)) as [c|] eqn:M.
  - pose proof (min_index_gt S t i None c ltac:(discriminate) M) as Hic.
    destruct (min_index_in t i None c M) as [X|(b' & I)]; [discriminate|].
    pose proof (cnt_strict S i c t b' Hic I) as CS.
    assert (F1 := place_fuel sort 0 _ (IH c (first_end (length sizes) i b (min_index i None t)) t ltac:(lia))).
    destruct (place_collected sort 0 _) as [[o1 w1]| |]; try discriminate; [|congruence].
    assert (F2 := each_child_fuel S (fun i b t => place_collected sort 0 (collect sort sizes f i b t)) i c t 0).
    destruct (each_child _ i c t 0) as [[o2 w2]| |]; try discriminate.
    exfalso. apply F2; [|reflexivity]. intros j b0 r Hr. apply place_fuel, IH. pose proof (cnt_le S j r).
    assert (length r * S (length r) + length r < length t * S (length t))%nat by nia. lia.
  - destruct t as [|[i1 b1] t']; [discriminate|].
    assert (F1 := IH i1 b1 t').
    destruct (collect sort sizes f i1 b1 t') as [[o w]| |]; try discriminate.
    exfalso. apply F1; [|reflexivity]. pose proof (cnt_le S i1 t'). cbn [length] in H. nia.
Qed.

Lemma layout_fuel : forall sort ds, layout_of sort ds <> OutOfFuel.
Proof.
  intros sort ds. unfold layout_of, commit.
  assert (G : forall k off, commit_group sort k (groups (append_all ds) k) off <> OutOfFuel).
  { intros k off. destruct k; try (apply group_fuel; [discriminate|apply linv_all, linv_init]).
    unfold commit_group. destruct (partials _) as [|[i b] t]; [discriminate|].
    apply place_fuel, collect_fuel. pose proof (cnt_le S i t). unfold depth. cbn [length]. nia. }
  pose proof (G KRef 0) as G1. destruct (commit_group sort KRef _ 0) as [[o1 w1]| |]; try congruence.
  pose proof (G KValue o1) as G2. destruct (commit_group sort KValue _ o1) as [[o2 w2]| |]; try congruence.
  pose proof (G KMix o2) as G3. destruct (commit_group sort KMix _ o2) as [[o3 w3]| |]; congruence.
Qed.

(** *** Parameters *)


Lemma unit_size_eq : forall s, 0 <= s < 65528 -> unit_size_of s = units_of_bytes s.
Proof.
  intros s H. unfold unit_size_of, units_of_bytes. pose proof (alignf_pow s 3 ltac:(lia) ltac:(lia)) as A.
  change (2 ^ 3) with 8 in A. rewrite A. rewrite (Z.mul_comm 8), Z.div_mul by lia.
  replace (s + 8 - 1) with (s + 7) by lia. apply u16_id. lia.
Qed.

Lemma param_units_eq : forall p, param_valid p -> param_units p = pushed p.
Proof. intros [|s|s] H; cbn [param_units pushed]; [reflexivity| |]; apply unit_size_eq; exact H. Qed.

Lemma pushed_nonneg : forall p, param_valid p -> 0 <= pushed p.
Proof. intros [|s|s] H; cbn [pushed param_valid] in *; unfold units_of_bytes; lia. Qed.

Lemma pushed_all_nonneg : forall ps, Forall param_valid ps -> 0 <= pushed_all ps.
Proof. induction 1; unfold pushed_all in *; cbn [fold_right]; [lia|]. pose proof (pushed_nonneg x H). lia. Qed.

Lemma pushed_all_app : forall a b, pushed_all (a ++ b) = pushed_all a + pushed_all b.
Proof. induction a as [|x a IH]; intro b; [reflexivity|]. unfold pushed_all in *. cbn [app fold_right]. rewrite IH. lia. Qed.

Lemma pappend_all : forall ps done st, Forall param_valid ps -> Forall param_valid done -> pushed_all (done ++ ps) < 65536 ->
  p_current st = pushed_all done ->
  p_items st = map (fun i => pushed_all (firstn i done)) (seq 0 (length done)) -> p_extends st = 65535 ->
  let st' := fold_left pappend ps st in
  p_current st' = pushed_all (done ++ ps) /\
  p_items st' = map (fun i => pushed_all (firstn i (done ++ ps))) (seq 0 (length (done ++ ps))) /\
  p_extends st' = 65535.
Proof.
  induction ps as [|p ps IH]; intros done st V VD B C I X; cbn [fold_left].
  - rewrite app_nil_r. auto.
  - inversion V; subst. assert (B' : pushed_all ((done ++ [p]) ++ ps) < 65536) by (rewrite <- app_assoc; exact B).
    replace (done ++ p :: ps) with ((done ++ [p]) ++ ps) by (rewrite <- app_assoc; reflexivity).
    apply IH; [assumption|apply Forall_app; auto|exact B'| | |].
    + unfold pappend. cbn [p_current]. rewrite C, param_units_eq by assumption. rewrite pushed_all_app.
      unfold pushed_all at 3. cbn [fold_right]. rewrite Z.add_0_r.
      rewrite !pushed_all_app in B'. pose proof (pushed_all_nonneg ps ltac:(assumption)). pose proof (pushed_all_nonneg done VD).
      unfold pushed_all at 2 in B'. cbn [fold_right] in B'. pose proof (pushed_nonneg p ltac:(assumption)). apply u16_id. lia.
    + unfold pappend. cbn [p_items]. rewrite app_length. cbn [length]. rewrite Nat.add_1_r, seq_S, map_app. cbn [map plus].
      rewrite firstn_app, Nat.sub_diag, firstn_all. cbn [firstn]. rewrite app_nil_r, <- C. f_equal.
      rewrite I. apply map_ext_in. intros i Hi. apply in_seq in Hi.
      rewrite firstn_app. replace (i - length done)%nat with 0%nat by lia. cbn [firstn]. rewrite app_nil_r. reflexivity.
    + unfold pappend. cbn [p_extends]. rewrite X. destruct p; reflexivity.
Qed.

Lemma params_state : forall ps, Forall param_valid ps -> pushed_all ps < 65536 ->
  p_current (params_layout ps) = pushed_all ps /\
  p_items (params_layout ps) = map (fun i => pushed_all (firstn i ps)) (seq 0 (length ps)) /\
  p_extends (params_layout ps) = 65535.
Proof. intros ps V B. apply (pappend_all ps [] pinit V); auto. Qed.

Lemma firstn_pushed : forall ps i, Forall param_valid ps -> 0 <= pushed_all (firstn i ps) <= pushed_all ps.
Proof.
  intros ps i V. rewrite <- (firstn_skipn i ps) in V. apply Forall_app in V. destruct V as [V1 V2].
  pose proof (pushed_all_nonneg _ V1). pose proof (pushed_all_nonneg _ V2).
  rewrite <- (firstn_skipn i ps) at 3. rewrite pushed_all_app. lia.
Qed.

Lemma param_slot : forall ps lp i p, Forall param_valid ps -> pushed_all ps < 65536 -> nth_error ps i = Some p ->
  param_address (params_layout ps) lp i = Some (lp - 3 - pushed_all ps + pushed_all (firstn i ps)).
Proof.
  intros ps lp i p V B E. destruct (params_state ps V B) as (C & I & _).
  unfold param_address, param_offset. rewrite C, I.
  assert (L : (i < length ps)%nat) by (apply nth_error_Some; congruence).
  rewrite nth_error_map. rewrite (nth_error_nth' _ 0%nat) by (rewrite seq_length; exact L). rewrite seq_nth by exact L. cbn [option_map plus].
  pose proof (firstn_pushed ps i V). rewrite u16_id by lia. f_equal. lia.
Qed.

Lemma firstn_S_pushed : forall ps i p, nth_error ps i = Some p -> pushed_all (firstn (S i) ps) = pushed_all (firstn i ps) + pushed p.
Proof.
  induction ps as [|x ps IH]; intros i p E; [destruct i; discriminate|]. destruct i as [|i].
  - cbn in E. inversion E. unfold pushed_all. cbn [firstn fold_right]. lia.
  - cbn [nth_error] in E. specialize (IH i p E). change (firstn (S (S i)) (x :: ps)) with (x :: firstn (S i) ps).
    change (firstn (S i) (x :: ps)) with (x :: firstn i ps). unfold pushed_all in *. cbn [fold_right]. lia.
Qed.

Lemma firstn_mono_pushed : forall ps i j, Forall param_valid ps -> (i <= j)%nat -> pushed_all (firstn i ps) <= pushed_all (firstn j ps).
Proof.
  intros ps i j V H. assert (V' : Forall param_valid (firstn j ps)).
  { apply Forall_forall. intros x X. rewrite Forall_forall in V. apply V. rewrite <- (firstn_skipn j ps). apply in_app_iff. auto. }
  pose proof (firstn_pushed (firstn j ps) i V') as F. rewrite firstn_firstn, Nat.min_l in F by exact H. lia.
Qed.

(** Which parameter a unit of the argument area belongs to. *)
Lemma find_slot : forall ps a, Forall param_valid ps -> 0 <= a < pushed_all ps ->
  exists i p, nth_error ps i = Some p /\ pushed_all (firstn i ps) <= a < pushed_all (firstn i ps) + pushed p.
Proof.
  induction ps as [|x ps IH]; intros a V H; [cbn in H; lia|]. inversion V; subst.
  unfold pushed_all in H. cbn [fold_right] in H. fold (pushed_all ps) in H.
  destruct (Z.lt_ge_cases a (pushed x)) as [L|L].
  - exists 0%nat, x. split; [reflexivity|]. cbn. lia.
  - destruct (IH (a - pushed x) ltac:(assumption) ltac:(lia)) as (i & p & E & B). exists (S i), p. split; [exact E|].
    change (firstn (S i) (x :: ps)) with (x :: firstn i ps). unfold pushed_all. cbn [fold_right]. fold (pushed_all (firstn i ps)). lia.
Qed.

Lemma slots_partition : forall ps lp, Forall param_valid ps -> pushed_all ps < 65536 ->
  forall a, lp - 3 - pushed_all ps <= a < lp - 3 ->
  exists i p o, nth_error ps i = Some p /\ param_address (params_layout ps) lp i = Some o /\ o <= a < o + pushed p /\
    forall j q o', nth_error ps j = Some q -> param_address (params_layout ps) lp j = Some o' -> o' <= a < o' + pushed q -> j = i.
Proof.
  intros ps lp V B a H. destruct (find_slot ps (a - (lp - 3 - pushed_all ps)) V ltac:(lia)) as (i & p & E & Bi).
  exists i, p, (lp - 3 - pushed_all ps + pushed_all (firstn i ps)). split; [exact E|]. split; [eapply param_slot; eassumption|].
  split; [lia|]. intros j q o' Ej Pj Bj. rewrite (param_slot ps lp j q V B Ej) in Pj. inversion Pj; subst o'.
  pose proof (firstn_S_pushed ps i p E). pose proof (firstn_S_pushed ps j q Ej).
  destruct (lt_eq_lt_dec i j) as [[L|L]|L]; [|auto|].
  - pose proof (firstn_mono_pushed ps (S i) j V L). lia.
  - pose proof (firstn_mono_pushed ps (S j) i V L). lia.
Qed.

Lemma extends_iff : forall ps lp k s, Forall param_valid ps -> pushed_all ps < 65535 -> nth_error ps k = Some (PExtends s) ->
  (param_address (params_layout ps) lp k = Some (extends_address (params_layout ps) lp) <-> pushed_all (firstn k ps) = 1).
Proof.
  intros ps lp k s V B E. rewrite (param_slot ps lp k _ V ltac:(lia) E).
  destruct (params_state ps V ltac:(lia)) as (C & _ & X). unfold extends_address, extends_offset. rewrite C, X.
  change (65535 <? 0) with false. cbv iota.
  pose proof (pushed_all_nonneg ps V).
  replace (u16 (pushed_all ps - 65535)) with (pushed_all ps + 1).
  - split; intro H0; [inversion H0; lia|f_equal; lia].
  - unfold u16, wrap. cbn [is_signed]. change (modulus U16) with 65536.
    replace (pushed_all ps - 65535) with (pushed_all ps + 1 + (-1) * 65536) by lia. rewrite Z_mod_plus_full. rewrite Z.mod_small by lia.
    reflexivity.
Qed.

(** *** Fields *)

Definition fweight (l : list (nat * field)) : Z := fold_right (fun x t => f_size (snd x) + 7 + t) 0 l.

Lemma fweight_perm : forall a b, Permutation a b -> fweight a = fweight b.
Proof. induction 1; unfold fweight in *; cbn [fold_right] in *; lia. Qed.

Lemma fweight_nonneg : forall l, Forall (fun x => 0 <= f_size (snd x)) l -> 0 <= fweight l.
Proof. induction 1; unfold fweight in *; cbn [fold_right] in *; lia. Qed.

Lemma ualign_multiple : forall o s, 0 <= o -> o + 7 < 65536 -> 0 <= s -> ualign o s mod alignment s = 0 /\ (4 < s -> ualign o s mod 8 = 0).
Proof.
  intros o s H B Hs. unfold ualign. rewrite unit_align_eq by lia.
  unfold alignment. destruct (Z.eqb_spec s 1) as [->|N1].
  { change (1 <=? 1) with true. cbv iota. rewrite u16_id by lia. lia. }
  destruct (Z.eqb_spec s 2) as [->|N2].
  { change (2 <=? 1) with false. change (2 <=? 2) with true. cbv iota. rewrite u16_id by lia. lia. }
  destruct (Z.leb_spec s 1) as [L1|L1].
  { replace s with 0 by lia. change ((0 =? 3) || (0 =? 4)) with false. cbv iota. rewrite u16_id by lia. lia. }
  destruct (Z.leb_spec s 2) as [L2|L2]; [lia|].
  destruct (Z.eqb_spec s 3) as [->|N3]; [change (3 <=? 4) with true; cbn [orb]; rewrite u16_id by lia; lia|].
  destruct (Z.eqb_spec s 4) as [->|N4]; [change (4 <=? 4) with true; cbn [orb]; rewrite u16_id by lia; lia|].
  destruct (Z.leb_spec s 4) as [L4|L4]; [lia|]. cbn [orb]. rewrite u16_id by lia. lia.
Qed.

Lemma place_fields_ok : forall l off e w, NoDup (map fst l) -> Forall (fun x => 0 <= f_size (snd x)) l ->
  0 <= off -> off + fweight l < 65536 -> place_fields off l = (e, w) ->
  off <= e <= off + fweight l /\
  (forall p f, In (p, f) l -> exists o, lookup w p = Some o /\ off <= o /\ o + f_size f <= e /\
     o mod alignment (f_size f) = 0 /\ (4 < f_size f -> o mod 8 = 0)) /\
  (forall a x b y c ox oy, l = a ++ x :: b ++ y :: c -> lookup w (fst x) = Some ox -> lookup w (fst y) = Some oy ->
     ox + f_size (snd x) <= oy) /\
  (forall p, ~ In p (map fst l) -> lookup w p = None).
Proof.
  induction l as [|[p f] l IH]; intros off e w ND NN H0 HB E.
  - inversion E; subst. cbn. split; [lia|]. split; [intros ? ? []|]. split; [|reflexivity]. intros a x b y c ox oy X. destruct a; discriminate.
  - cbn [place_fields] in E. cbv zeta in E. cbn [map fst] in ND. inversion ND as [|? ? NI ND']; subst. inversion NN as [|? ? Hs NN']; subst. cbn [snd] in Hs.
    pose proof (fweight_nonneg l NN') as WN.
    unfold fweight in HB |- *; cbn [fold_right snd] in HB |- *; fold (fweight l) in HB |- *.
    pose proof (ualign_bounds off (f_size f) H0 ltac:(lia)) as UB.
    pose proof (ualign_multiple off (f_size f) H0 ltac:(lia) Hs) as UM.
    set (o := ualign off (f_size f)) in *. clearbody o.
    rewrite (u16_id (o + f_size f)) in E by lia.
    destruct (place_fields (o + f_size f) l) as [e' w'] eqn:P. inversion E; subst e' w.
    destruct (IH (o + f_size f) e w' ND' NN' ltac:(lia) ltac:(lia) P) as (B & In' & Or & No).
    assert (Lk : forall q, q <> p -> lookup ((p, o) :: w') q = lookup w' q).
    { intros q N. cbn [lookup]. destruct (Nat.eqb_spec p q); [congruence|reflexivity]. }
    assert (Lp : lookup ((p, o) :: w') p = Some o) by (cbn [lookup]; rewrite Nat.eqb_refl; reflexivity).
    split; [lia|]. split; [|split].
    + intros q g [X|X].
      * inversion X; subst q g. exists o. split; [exact Lp|]. split; [lia|]. split; [lia|]. exact UM.
      * assert (q <> p) by (intro; subst; apply NI; apply (in_map fst) in X; exact X).
        destruct (In' q g X) as (o' & L & B1 & B2 & B3). exists o'. rewrite Lk by assumption. split; [exact L|]. split; [lia|]. auto.
    + intros a x b y c ox oy X Lx Ly. destruct a as [|a0 a]; cbn [app] in X.
      * inversion X; subst x l. cbn [fst] in Lx. rewrite Lp in Lx. inversion Lx; subst ox. cbn [snd].
        destruct y as [q g]. cbn [fst] in Ly.
        assert (Iy : In (q, g) (b ++ (q, g) :: c)) by (apply in_app_iff; right; left; reflexivity).
        assert (q <> p) by (intro; subst; apply NI; apply (in_map fst) in Iy; exact Iy).
        rewrite Lk in Ly by assumption. destruct (In' q g Iy) as (o' & L & B1 & _). rewrite Ly in L. inversion L; subst. lia.
      * inversion X; subst a0 l. 
        assert (Ix : In x (a ++ x :: b ++ y :: c)) by (apply in_app_iff; right; left; reflexivity).
        assert (Iy : In y (a ++ x :: b ++ y :: c)) by (apply in_app_iff; right; right; apply in_app_iff; right; left; reflexivity).
        rewrite Lk in Lx by (intro N; apply NI; rewrite <- N; apply in_map; exact Ix).
        rewrite Lk in Ly by (intro N; apply NI; rewrite <- N; apply in_map; exact Iy).
        eapply Or; [reflexivity|exact Lx|exact Ly].
    + intros q N. cbn [map fst In] in N. rewrite Lk by (intro; subst; apply N; left; reflexivity). apply No. tauto.
Qed.

Lemma in_numbered : forall {A} (l : list A) m i x, In (i, x) (combine (seq m (length l)) l) <-> (m <= i)%nat /\ nth_error l (i - m) = Some x.
Proof.
  induction l as [|y l IH]; intros m i x; cbn [length seq combine In].
  - split; [tauto|]. intros [_ E]. destruct (i - m)%nat; discriminate.
  - rewrite IH. split.
    + intros [E|[L E]]; [inversion E; subst; rewrite Nat.sub_diag; auto|]. split; [lia|].
      replace (i - m)%nat with (S (i - S m)) by lia. exact E.
    + intros [L E]. destruct (Nat.eq_dec i m) as [->|N]; [rewrite Nat.sub_diag in E; inversion E; auto|].
      right. split; [lia|]. replace (i - m)%nat with (S (i - S m)) in E by lia. exact E.
Qed.

Lemma fields_room_weight : forall fs m, fweight (combine (seq m (length fs)) fs) = fields_room fs.
Proof. induction fs as [|f fs IH]; intro m; [reflexivity|]. cbn [length seq combine]. unfold fweight, fields_room in *. cbn [fold_right snd]. rewrite IH. reflexivity. Qed.

(** Two different elements of a list without duplicate keys come one after the other. *)
Lemma in_two : forall {A} (l : list A) x y, In x l -> In y l -> x <> y ->
  (exists a b c, l = a ++ x :: b ++ y :: c) \/ (exists a b c, l = a ++ y :: b ++ x :: c).
Proof.
  intros A l x y Ix Iy N. apply in_split in Ix. destruct Ix as (a & c & ->). apply in_app_iff in Iy. destruct Iy as [Iy|[Iy|Iy]].
  - right. apply in_split in Iy. destruct Iy as (a1 & b & ->). exists a1, b, c. rewrite <- app_assoc. reflexivity.
  - congruence.
  - left. apply in_split in Iy. destruct Iy as (b & c1 & ->). exists a, b, c1. reflexivity.
Qed.

Lemma fields_facts : forall sort base fs size w, sorts_fields sort -> Forall (fun f => 0 <= f_size f) fs ->
  0 <= base -> base + fields_room fs < 65536 -> type_layout sort base fs = (size, w) ->
  base <= size <= base + fields_room fs /\
  (forall i f, nth_error fs i = Some f -> exists o, lookup w i = Some o /\ base <= o /\ o + f_size f <= size /\
     o mod alignment (f_size f) = 0 /\ (4 < f_size f -> o mod 8 = 0)) /\
  (forall i j fi fj oi oj, i <> j -> nth_error fs i = Some fi -> nth_error fs j = Some fj ->
     lookup w i = Some oi -> lookup w j = Some oj ->
     (field_le (i, fi) (j, fj) /\ oi + f_size fi <= oj) \/ (field_le (j, fj) (i, fi) /\ oj + f_size fj <= oi)).
Proof.
  intros sort base fs size w SF NN H0 HB E. unfold type_layout in E. destruct (SF (combine (seq 0 (length fs)) fs)) as [P SS].
  set (l := combine (seq 0 (length fs)) fs) in *.
  assert (ND : NoDup (map fst l)).
  { unfold l. clear. generalize 0%nat. induction fs as [|f fs IH]; intro m; [constructor|]. cbn [length seq combine map fst]. constructor; [|apply IH].
    intro X. apply in_map_iff in X. destruct X as ([i x] & <- & X). apply in_numbered in X. cbn [fst] in X. lia. }
  assert (NDs : NoDup (map fst (sort l))) by (eapply Permutation_NoDup; [apply Permutation_map; exact P|exact ND]).
  assert (Iff : forall i f, In (i, f) (sort l) <-> nth_error fs i = Some f).
  { intros i f. split.
    - intro X. apply (Permutation_in (l' := l)) in X; [|symmetry; exact P]. apply in_numbered in X. rewrite Nat.sub_0_r in X. apply X.
    - intro X. eapply Permutation_in; [exact P|]. apply in_numbered. rewrite Nat.sub_0_r. split; [lia|exact X]. }
  assert (Fs : Forall (fun x => 0 <= f_size (snd x)) (sort l)).
  { apply Forall_forall. intros [i f] X. apply Iff in X. apply nth_error_In in X. rewrite Forall_forall in NN. exact (NN f X). }
  assert (W : fweight (sort l) = fields_room fs) by (rewrite <- (fweight_perm _ _ P); apply fields_room_weight).
  destruct (place_fields_ok (sort l) base size w NDs Fs H0 ltac:(lia) E) as (B & In' & Or & No). rewrite W in B.
  split; [exact B|]. split; [intros i f X; apply In'; apply Iff; exact X|].
  intros i j fi fj oi oj N Ei Ej Li Lj. apply Iff in Ei, Ej.
  assert (SSl : forall a x b y c, sort l = a ++ x :: b ++ y :: c -> field_le x y).
  { intros a x b y c X. rewrite X in SS. clear - SS. induction a as [|a0 a IH]; cbn [app] in SS; inversion SS; subst; [|auto].
    rewrite Forall_forall in H2. apply H2. apply in_app_iff. right. left. reflexivity. }
  destruct (in_two (sort l) (i, fi) (j, fj) Ei Ej ltac:(congruence)) as [(a & b & c & X)|(a & b & c & X)].
  - left. split; [eapply SSl; exact X|]. eapply (Or a (i, fi) b (j, fj) c); [exact X|exact Li|exact Lj].
  - right. split; [eapply SSl; exact X|]. eapply (Or a (j, fj) b (i, fi) c); [exact X|exact Lj|exact Li].
Qed.

(** *** Stores *)

(** Bytes written for a value of [s] bytes. *)
Definition ext (s : Z) : Z := if s mod 8 =? 3 then s + 1 else if 5 <=? s mod 8 then s + 8 - s mod 8 else s.

Lemma ext_bounds : forall s, 0 <= s -> s <= ext s <= s + 3.
Proof. intros s H. unfold ext. destruct (Z.eqb_spec (s mod 8) 3); [lia|]. destruct (Z.leb_spec 5 (s mod 8)); lia. Qed.

Lemma set_value_ok : forall k s m dst from src, 0 <= s -> s / 8 <= Z.of_nat k ->
  exists m', set_value k m dst from src s = Some m' /\
    forall a, m' a = if (dst <=? a) && (a <? dst + ext s) then from (src + (a - dst)) else m a.
Proof.
  assert (Small : forall s n m dst from src, ext s = n ->
    forall a, copy n m dst from src a = if (dst <=? a) && (a <? dst + ext s) then from (src + (a - dst)) else m a).
  { intros. subst n. reflexivity. }
  induction k as [|k IH]; intros s m dst from src Hs Hk; cbn [set_value].
  all: destruct (Z.eqb_spec s 0) as [->|N0];
    [exists m; split; [reflexivity|]; intro a; change (ext 0) with 0;
     destruct (Z.leb_spec dst a); destruct (Z.ltb_spec a (dst + 0)); cbn [andb]; try reflexivity; lia|].
  all: destruct (Z.eqb_spec s 1) as [->|N1]; [eexists; split; [reflexivity|]; apply Small; reflexivity|].
  all: destruct (Z.eqb_spec s 2) as [->|N2]; [eexists; split; [reflexivity|]; apply Small; reflexivity|].
  all: destruct (Z.eqb_spec s 3) as [->|N3]; [cbn [orb]; eexists; split; [reflexivity|]; apply Small; reflexivity|].
  all: destruct (Z.eqb_spec s 4) as [->|N4]; [cbn [orb]; eexists; split; [reflexivity|]; apply Small; reflexivity|].
  all: cbn [orb]; destruct (Z.leb_spec s 8) as [L8|L8];
    [eexists; split; [reflexivity|]; apply Small; unfold ext; destruct (Z.eqb_spec (s mod 8) 3); [lia|]; destruct (Z.leb_spec 5 (s mod 8)); lia|].
  - lia.
  - destruct (IH (s - 8) (copy 8 m dst from src) (dst + 8) from (src + 8) ltac:(lia) ltac:(lia)) as (m' & E & M).
    exists m'. split; [exact E|]. intro a. rewrite M.
    assert (X : ext s = 8 + ext (s - 8)).
    { unfold ext. replace ((s - 8) mod 8) with (s mod 8) by lia. destruct (s mod 8 =? 3); [lia|]. destruct (5 <=? s mod 8); lia. }
    pose proof (ext_bounds (s - 8) ltac:(lia)). unfold copy.
    destruct (Z.leb_spec (dst + 8) a); destruct (Z.ltb_spec a (dst + 8 + ext (s - 8)));
    destruct (Z.leb_spec dst a); destruct (Z.ltb_spec a (dst + ext s)); destruct (Z.ltb_spec a (dst + 8)); cbn [andb]; try lia; try reflexivity.
    f_equal. lia.
Qed.


Lemma tuple_set_ok : forall fl m obj from arg,
  Forall (fun x => 0 <= snd x < 65528) fl ->
  (forall i j oi si oj sj, i <> j -> nth_error fl i = Some (oi, si) -> nth_error fl j = Some (oj, sj) ->
     oi + si <= oj \/ oj + ext sj <= oi) ->
  exists m', tuple_set m obj fl from arg = Some m' /\
    (forall i o s x, nth_error fl i = Some (o, s) -> 0 <= x < s ->
       m' (obj + o + x) = from (arg + 8 * unit_sum (map snd (firstn i fl)) + x)) /\
    (forall a, (forall o s, In (o, s) fl -> ~ (obj + o <= a < obj + o + ext s)) -> m' a = m a).
Proof.
  induction fl as [|[o0 s0] fl IH]; intros m obj from arg V D; cbn [tuple_set].
  - exists m. split; [reflexivity|]. split; [intros i o s x E; destruct i; discriminate|reflexivity].
  - inversion V as [|? ? V0 V']; subst. cbn [snd] in V0.
    destruct (set_value_ok (Z.to_nat (s0 / 8)) s0 m (obj + o0) from arg ltac:(lia) ltac:(lia)) as (m1 & E1 & M1).
    unfold set_variable_value. rewrite E1.
    destruct (IH m1 obj from (arg + 8 * unit_size_of s0) V') as (m' & E & R1 & R2).
    { intros i j oi si oj sj N Ei Ej. apply (D (S i) (S j) oi si oj sj); [lia|exact Ei|exact Ej]. }
    exists m'. split; [exact E|]. split.
    + intros i o s x Ei Hx. destruct i as [|i].
      * cbn in Ei. inversion Ei; subst o0 s0. rewrite R2.
        -- rewrite M1. pose proof (ext_bounds s ltac:(lia)).
           rewrite (proj2 (Z.leb_le _ _)), (proj2 (Z.ltb_lt _ _)) by lia. cbn [andb]. f_equal. cbn. lia.
        -- intros o' s' I H. apply In_nth_error in I. destruct I as [j Ej].
           destruct (D 0%nat (S j) o s o' s' ltac:(lia) eq_refl Ej) as [X|X]; lia.
      * cbn [nth_error] in Ei. rewrite (R1 i o s x Ei Hx). cbn [firstn map snd]. f_equal.
        unfold unit_sum. cbn [fold_right]. rewrite unit_size_eq by exact V0. lia.
    + intros a H. rewrite R2.
      * rewrite M1. specialize (H o0 s0 (or_introl eq_refl)).
        destruct (Z.leb_spec (obj + o0) a); destruct (Z.ltb_spec a (obj + o0 + ext s0)); cbn [andb]; try reflexivity. lia.
      * intros o s I. apply H. right. exact I.
Qed.

(** A store never reaches the next field of a layout. *)
Lemma ext_gap : forall i fi j fj oi oj, field_valid fi -> field_valid fj -> field_le (i, fi) (j, fj) ->
  oi mod alignment (f_size fi) = 0 -> (4 < f_size fi -> oi mod 8 = 0) ->
  oj mod alignment (f_size fj) = 0 -> (4 < f_size fj -> oj mod 8 = 0) ->
  oi + f_size fi <= oj -> oi + ext (f_size fi) <= oj.
Proof.
  intros i fi j fj oi oj [Vi Ki] [Vj Kj] LE Ai Bi Aj Bj H. unfold field_le in LE. cbn [snd] in LE.
  set (si := f_size fi) in *. set (sj := f_size fj) in *. clearbody si sj.
  assert (C : si mod 8 = 0 \/ si <= sj \/ 8 < sj).
  { destruct (f_kind fi) eqn:K1, (f_kind fj) eqn:K2; cbn [kind_rank] in LE; try (left; exact Ki); destruct LE as [LE|[LE1 LE2]]; try lia; try discriminate. }
  unfold ext. destruct (Z.eqb_spec (si mod 8) 3) as [E3|E3].
  - destruct (Z.le_gt_cases si 4) as [L|L].
    + assert (si = 3) by lia. subst si. unfold alignment in Ai. cbn in Ai.
      assert (oj mod 4 = 0). { unfold alignment in Aj. destruct (Z.leb_spec sj 1); [lia|]. destruct (Z.leb_spec sj 2); [lia|]. destruct (Z.leb_spec sj 4); [exact Aj|lia]. }
      lia.
    + specialize (Bi L). specialize (Bj ltac:(lia)). lia.
  - destruct (Z.leb_spec 5 (si mod 8)); [|lia]. specialize (Bi ltac:(lia)). specialize (Bj ltac:(lia)). lia.
Qed.


Lemma nth_numbered : forall {A} (l : list A) i m, nth_error (combine (seq m (length l)) l) i =
  match nth_error l i with Some x => Some ((m + i)%nat, x) | None => None end.
Proof.
  induction l as [|y l IH]; intros i m; [destruct i; reflexivity|]. cbn [length seq combine]. destruct i; cbn [nth_error]; [rewrite Nat.add_0_r; reflexivity|].
  rewrite IH. destruct (nth_error l i); [|reflexivity]. rewrite <- Nat.add_succ_comm. reflexivity.
Qed.

Lemma tuple_filled : forall sort fs size w m obj from arg, sorts_fields sort -> Forall field_valid fs ->
  fields_room fs < 65528 -> type_layout sort 0 fs = (size, w) ->
  exists m', tuple_set m obj (tuple_fields w fs) from arg = Some m' /\
    (forall i f o x, nth_error fs i = Some f -> lookup w i = Some o -> 0 <= x < f_size f ->
       m' (obj + o + x) = from (arg + 8 * unit_sum (map f_size (firstn i fs)) + x)) /\
    (forall a, a < obj \/ obj + 8 * units_of_bytes size <= a -> m' a = m a).
Proof.
  intros sort fs size w m obj from arg SF V R E.
  assert (NN : Forall (fun f => 0 <= f_size f) fs) by (eapply Forall_impl; [|exact V]; intros f F; apply F).
  destruct (fields_facts sort 0 fs size w SF NN ltac:(lia) ltac:(lia) E) as (B & In' & Or).
  assert (Nth : forall i, nth_error (tuple_fields w fs) i =
     match nth_error fs i with Some f => Some (match lookup w i with Some o => o | None => 0 end, f_size f) | None => None end).
  { intro i. unfold tuple_fields. rewrite nth_error_map, nth_numbered. destruct (nth_error fs i); reflexivity. }
  assert (Room : forall f, In f fs -> f_size f + 7 <= fields_room fs).
  { clear - NN. unfold fields_room. induction NN as [|x l Hx NN IH]; intros f []; cbn [fold_right].
    - subst. assert (0 <= fold_right (fun f t => f_size f + 7 + t) 0 l) by (clear - NN; induction NN; cbn [fold_right]; lia). lia.
    - specialize (IH f H). lia. }
  destruct (tuple_set_ok (tuple_fields w fs) m obj from arg) as (m' & E' & R1 & R2).
  - apply Forall_forall. intros [o s] I. apply In_nth_error in I. destruct I as [i Ei]. rewrite Nth in Ei.
    destruct (nth_error fs i) as [f|] eqn:Ef; [|discriminate]. inversion Ei; subst. cbn [snd].
    apply nth_error_In in Ef. rewrite Forall_forall in NN. pose proof (NN f Ef). pose proof (Room f Ef). lia.
  - intros i j oi si oj sj N Ei Ej. rewrite Nth in Ei, Ej.
    destruct (nth_error fs i) as [fi|] eqn:Fi; [|discriminate]. destruct (nth_error fs j) as [fj|] eqn:Fj; [|discriminate].
    destruct (In' i fi Fi) as (o1 & L1 & A1 & A2 & A3 & A4). destruct (In' j fj Fj) as (o2 & L2 & B1 & B2 & B3 & B4).
    rewrite L1 in Ei. rewrite L2 in Ej. inversion Ei; inversion Ej; subst.
    destruct (Or i j fi fj oi oj N Fi Fj L1 L2) as [[LE X]|[LE X]]; [left; exact X|]. right.
    rewrite Forall_forall in V. eapply (ext_gap j fj i fi); try eassumption; apply V; eapply nth_error_In; eassumption.
  - exists m'. split; [exact E'|]. split.
    + intros i f o x Ef L Hx. rewrite (R1 i o (f_size f) x); [|rewrite Nth, Ef, L; reflexivity|exact Hx].
      do 4 f_equal. unfold tuple_fields. rewrite firstn_map, map_map. cbn [snd].
      f_equal. clear. generalize 0%nat. revert i. induction fs as [|y fs IH]; intros i n; [destruct i; reflexivity|].
      destruct i; [reflexivity|]. cbn [length seq combine firstn map snd]. rewrite IH. reflexivity.
    + intros a H. apply R2. intros o s I Ha. apply In_nth_error in I. destruct I as [i Ei]. rewrite Nth in Ei.
      destruct (nth_error fs i) as [f|] eqn:Ef; [|discriminate]. inversion Ei; subst.
      destruct (In' i f Ef) as (o1 & L1 & A1 & A2 & A3 & A4). rewrite L1 in *.
      assert (NNf : 0 <= f_size f) by (apply nth_error_In in Ef; rewrite Forall_forall in NN; auto).
      pose proof (ext_bounds (f_size f) NNf) as XB. destruct H as [H|H]; [lia|].
      assert (o1 + ext (f_size f) <= 8 * units_of_bytes size); [|lia]. unfold units_of_bytes. unfold ext in *.
      destruct (Z.eqb_spec (f_size f mod 8) 3) as [E3|E3].
      * destruct (Z.le_gt_cases (f_size f) 4) as [L|L].
        -- assert (X : f_size f = 3) by lia. rewrite X in A3. unfold alignment in A3. cbn in A3. lia.
        -- specialize (A4 L). lia.
      * destruct (Z.leb_spec 5 (f_size f mod 8)); [|lia]. specialize (A4 ltac:(lia)). lia.
Qed.

Lemma fields_ok : forall sort base fs size w,
  sorts_fields sort -> Forall (fun f => 0 <= f_size f) fs -> 0 <= base -> base + fields_room fs < 65536 ->
  type_layout sort base fs = (size, w) ->
  (forall i f, nth_error fs i = Some f -> exists o,
     lookup w i = Some o /\ base <= o /\ o + f_size f <= size /\ o mod alignment (f_size f) = 0) /\
  (forall i j fi fj oi oj, i <> j -> nth_error fs i = Some fi -> nth_error fs j = Some fj ->
     lookup w i = Some oi -> lookup w j = Some oj -> apart oi (f_size fi) oj (f_size fj)).
Proof.
  intros sort base fs size w SF NN H0 HB E. destruct (fields_facts sort base fs size w SF NN H0 HB E) as (_ & A & B). split.
  - intros i f X. destruct (A i f X) as (o & L & B1 & B2 & B3 & _). exists o. auto.
  - intros i j fi fj oi oj N Fi Fj Li Lj a X. destruct (B i j fi fj oi oj N Fi Fj Li Lj) as [[_ Y]|[_ Y]]; lia.
Qed.
