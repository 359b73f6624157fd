(** Proofs about strings of the runtime and their pool. *)
From Coq Require Import List Bool Arith ZArith Lia Sorted.
From Verif Require Import CppInt SidModel SidSpec.
Import ListNotations.
Open Scope Z_scope.

(** *** The order of texts. *)
Lemma before_irrefl s : ~ before s s.
Proof. induction s as [|c s IH]; intros H; inversion H; subst; [lia | contradiction]. Qed.

Lemma before_trans s t : before s t -> forall u, before t u -> before s u.
Proof.
  induction 1 as [c t|c d s t L|c s t H IH]; intros u K; inversion K; subst.
  - constructor.
  - constructor.
  - apply before_char. lia.
  - now apply before_char.
  - now apply before_char.
  - apply before_rest. now apply IH.
Qed.

Lemma int_sub_in x y : - 2 ^ 31 <= x - y < 2 ^ 31 -> int_sub x y = Some (x - y).
Proof.
  intros R. unfold int_sub. change (tmin I32) with (- 2 ^ 31). change (tmax I32) with (2 ^ 31 - 1).
  destruct (Z.leb_spec (- 2 ^ 31) (x - y)); [|lia]. destruct (Z.leb_spec (x - y) (2 ^ 31 - 1)); [reflexivity | lia].
Qed.

Definition orders (c : Z) (s t : list Z) : Prop :=
  (c < 0 /\ before s t) \/ (c = 0 /\ s = t) \/ (0 < c /\ before t s).

Lemma loop_orders m s : forall t a b l k,
  map m (seq a (S (length s))) = s ++ [0] -> map m (seq b (S (length t))) = t ++ [0] ->
  (forall c, In c s -> 0 < c < 2 ^ 31) -> (forall c, In c t -> 0 < c < 2 ^ 31) ->
  - 2 ^ 31 <= l - k < 2 ^ 31 -> l - k = Z.of_nat (length s) - Z.of_nat (length t) ->
  exists c, compare_loop m a b (Nat.min (length s) (length t)) l k = Some c /\ orders c s t.
Proof.
  induction s as [|x s IH]; intros t a b l k A B VS VT R E.
  - exists (l - k). split; [now apply int_sub_in|]. destruct t as [|y t]; cbn [length] in E.
    + right. left. split; [lia | reflexivity].
    + left. split; [lia | constructor].
  - destruct t as [|y t].
    + exists (l - k). split; [now apply int_sub_in|]. cbn [length] in E. right. right. split; [lia | constructor].
    + cbn [length seq map app] in A, B. injection A as A0 A. injection B as B0 B.
      cbn [length Nat.min compare_loop]. rewrite A0, B0.
      pose proof (VS x (or_introl eq_refl)) as X. pose proof (VT y (or_introl eq_refl)) as Y.
      destruct (Z.eqb_spec x y) as [->|D].
      * destruct (IH t (S a) (S b) l k) as (c & C & O).
        -- exact A.
        -- exact B.
        -- intros c H. apply VS. now right.
        -- intros c H. apply VT. now right.
        -- exact R.
        -- cbn [length] in E. lia.
        -- exists c. split; [exact C|]. destruct O as [[L O]|[[L O]|[L O]]].
           ++ left. split; [exact L | now apply before_rest].
           ++ right. left. split; [exact L | now rewrite O].
           ++ right. right. split; [exact L | now apply before_rest].
      * exists (x - y). split; [apply int_sub_in; lia|].
        destruct (Z.lt_ge_cases x y).
        -- left. split; [lia | now apply before_char].
        -- right. right. split; [lia | apply before_char; lia].
Qed.

Lemma raw_orders m x y s t : has_text m x s -> has_text m y t ->
  exists c, raw_compare m x y = Some c /\ orders c s t.
Proof.
  intros ([VS LS] & NS & TS) ([VT LT] & NT & TT). unfold raw_compare.
  replace (Z.to_nat (Z.min (len x) (len y))) with (Nat.min (length s) (length t)) by lia.
  apply loop_orders; try assumption; lia.
Qed.

Lemma terminated_same m a : forall s t, ~ In 0 s -> ~ In 0 t ->
  map m (seq a (S (length s))) = s ++ [0] -> map m (seq a (S (length t))) = t ++ [0] -> s = t.
Proof.
  intros s. revert a. induction s as [|x s IH]; intros a [|y t] NS NT A B.
  - reflexivity.
  - cbn [length seq map app] in A, B. injection A as A. injection B as B _. exfalso. apply NT. left. lia.
  - cbn [length seq map app] in A, B. injection A as A _. injection B as B. exfalso. apply NS. left. lia.
  - cbn [length seq map app] in A, B. injection A as A0 A. injection B as B0 B. f_equal; [lia|].
    apply (IH (S a)); [intros H; apply NS; now right | intros H; apply NT; now right | exact A | exact B].
Qed.

Lemma valid_no_nul s : valid_text s -> ~ In 0 s.
Proof. intros [V _] H. specialize (V 0 H). lia. Qed.

Lemma same_place m x y s t : has_text m x s -> has_text m y t -> at_ x = at_ y -> s = t.
Proof.
  intros (VS & _ & TS) (VT & _ & TT) E. rewrite E in TS.
  exact (terminated_same m (at_ y) s t (valid_no_nul s VS) (valid_no_nul t VT) TS TT).
Qed.

Lemma before_not s t : before s t -> s <> t /\ ~ before t s.
Proof.
  intros H. split; [intros ->; exact (before_irrefl t H)|]. intros K.
  exact (before_irrefl s (before_trans s t H s K)).
Qed.

Lemma less_spec m x y s t : has_text m x s -> has_text m y t ->
  exists b, less m x y = Some b /\ (b = true <-> before s t).
Proof.
  intros X Y. unfold less, compare. destruct (Nat.eqb_spec (at_ x) (at_ y)) as [E|_].
  - rewrite (same_place m x y s t X Y E). exists false. split; [reflexivity|].
    split; [discriminate | intros H; now apply before_irrefl in H].
  - destruct (raw_orders m x y s t X Y) as (c & -> & O). exists (c <? 0). split; [reflexivity|].
    rewrite Z.ltb_lt. destruct O as [[L O]|[[L O]|[L O]]]; split; intros H; try lia; try assumption.
    + subst t. now apply before_irrefl in H.
    + now apply before_not in O as [_ O].
Qed.

Lemma equals_spec m x y s t : has_text m x s -> has_text m y t ->
  exists b, equals m x y = Some b /\ (b = true <-> s = t).
Proof.
  intros X Y. unfold equals. destruct (Z.eqb_spec (len x) (len y)) as [L|L]; cbn [negb].
  - destruct (Nat.eqb_spec (at_ x) (at_ y)) as [E|_].
    + exists true. split; [reflexivity|]. split; [intros _; exact (same_place m x y s t X Y E) | reflexivity].
    + destruct (raw_orders m x y s t X Y) as (c & -> & O). exists (c =? 0). split; [reflexivity|].
      rewrite Z.eqb_eq. destruct O as [[K O]|[[K O]|[K O]]]; split; intros H; try lia; try assumption.
      * now apply before_not in O as [O _].
      * apply before_not in O as [O _]. now symmetry in H.
  - exists false. split; [reflexivity|]. split; [discriminate|]. intros ->. exfalso. apply L.
    destruct X as (_ & -> & _). destruct Y as (_ & -> & _). reflexivity.
Qed.

Lemma compare_spec m x y s t : has_text m x s -> has_text m y t -> at_ x <> at_ y ->
  exists c, compare m x y = Some c /\ (c < 0 <-> before s t) /\ (c = 0 <-> s = t) /\ (0 < c <-> before t s).
Proof.
  intros X Y N. unfold compare. destruct (Nat.eqb_spec (at_ x) (at_ y)) as [E|_]; [contradiction|].
  destruct (raw_orders m x y s t X Y) as (c & -> & O). exists c. split; [reflexivity|].
  destruct O as [[L O]|[[L O]|[L O]]].
  - apply before_not in O as K. destruct K as [K1 K2].
    split; [|split]; split; intros H; try lia; try assumption; contradiction.
  - subst t. split; [|split]; split; intros H; try lia; try reflexivity; now apply before_irrefl in H.
  - apply before_not in O as K. destruct K as [K1 K2].
    split; [|split]; split; intros H; try lia; try assumption; try contradiction. now symmetry in H.
Qed.

(** *** The pool. *)
Lemma before_total s : forall t, s = t \/ before s t \/ before t s.
Proof.
  induction s as [|x s IH]; intros [|y t]; [now left | right; left; constructor | right; right; constructor |].
  destruct (Z.lt_trichotomy x y) as [L|[->|L]].
  - right. left. now apply before_char.
  - destruct (IH t) as [->|[H|H]]; [now left | right; left; now apply before_rest | right; right; now apply before_rest].
  - right. right. now apply before_char.
Qed.

Definition rep (m : memory) (t : nat) (e : nat * rt_string) (x : nat * list Z) : Prop :=
  fst e = fst x /\ has_text m (snd e) (snd x) /\ (at_ (snd e) + length (snd x) < t)%nat.

Definition sorted (l : list (nat * list Z)) : Prop := StronglySorted (fun x y => before (snd x) (snd y)) l.

Lemma bound_spec m t k s L l : has_text m k s -> Forall2 (rep m t) L l -> sorted l ->
  exists L1 L2 l1 l2, lower_bound m k L = Some (L1, L2) /\ L = L1 ++ L2 /\ l = l1 ++ l2 /\
    Forall2 (rep m t) L1 l1 /\ Forall2 (rep m t) L2 l2 /\
    Forall (fun x => before (snd x) s) l1 /\ Forall (fun x => ~ before (snd x) s) l2.
Proof.
  intros K. induction 1 as [|e x L l E R IH]; intros O.
  - exists [], [], [], []. repeat split; constructor.
  - inversion O as [|? ? O1 O2]; subst. cbn [lower_bound].
    destruct E as (E1 & E2 & E3).
    destruct (less_spec m (snd e) k (snd x) s E2 K) as ([|] & -> & B).
    + destruct (IH O1) as (L1 & L2 & l1 & l2 & -> & -> & -> & R1 & R2 & F1 & F2).
      exists (e :: L1), L2, (x :: l1), l2. cbn [option_map fst snd].
      split; [reflexivity|]. split; [reflexivity|]. split; [reflexivity|].
      split; [constructor; [split; [exact E1 | now split] | exact R1]|]. split; [exact R2|].
      split; [constructor; [now apply B | exact F1] | exact F2].
    + exists [], (e :: L), [], (x :: l).
      split; [reflexivity|]. split; [reflexivity|]. split; [reflexivity|]. split; [constructor|].
      split; [constructor; [split; [exact E1 | now split] | exact R]|]. split; [constructor|].
      constructor.
      * intros H. apply B in H. discriminate H.
      * apply Forall_forall. intros y Y H. rewrite Forall_forall in O2. specialize (O2 y Y).
        assert (B' : before (snd x) s) by exact (before_trans _ _ O2 _ H). apply B in B'. discriminate B'.
Qed.

Lemma find_spec m t k s L l : has_text m k s -> Forall2 (rep m t) L l -> sorted l ->
  (exists i, find m k L = Some (Some i) /\ In (i, s) l) \/
  (find m k L = Some None /\ exists L1 L2 l1 l2, lower_bound m k L = Some (L1, L2) /\ l = l1 ++ l2 /\
    Forall2 (rep m t) L1 l1 /\ Forall2 (rep m t) L2 l2 /\
    Forall (fun x => before (snd x) s) l1 /\ Forall (fun x => before s (snd x)) l2).
Proof.
  intros K R O. destruct (bound_spec m t k s L l K R O) as (L1 & L2 & l1 & l2 & B & -> & -> & R1 & R2 & F1 & F2).
  unfold find. rewrite B. inversion R2 as [|e x L2' l2' E R2']; subst.
  - right. split; [reflexivity|]. exists L1, [], l1, []. repeat split; try assumption; constructor.
  - destruct E as (E1 & E2 & E3). destruct (less_spec m k (snd e) s (snd x) K E2) as (b & -> & Bb).
    cbn [option_map]. destruct b.
    + right. split; [reflexivity|]. exists L1, (e :: L2'), l1, (x :: l2').
      assert (Y : before s (snd x)) by now apply Bb.
      repeat split; try assumption. constructor; [exact Y|].
      apply Forall_forall. intros y Hy.
      assert (O2 : sorted (x :: l2')).
      { clear - O. unfold sorted in *. induction l1 as [|z l1 IH]; [exact O|]. inversion O; subst. now apply IH. }
      inversion O2 as [|? ? _ O3]; subst. rewrite Forall_forall in O3. exact (before_trans _ _ Y _ (O3 y Hy)).
    + left. exists (fst e). split; [reflexivity|]. apply in_or_app. right. left.
      destruct x as [i u]. cbn [fst snd] in *. rewrite E1. f_equal.
      destruct (before_total u s) as [->|[H|H]]; [reflexivity | |].
      * inversion F2; subst. contradiction.
      * apply Bb in H. discriminate H.
Qed.

Record inv (p : pool) (l : list (nat * list Z)) : Prop := mk_inv {
  inv_rep : Forall2 (rep (mem p) (top p)) (strings p) l;
  inv_sorted : sorted l;
  inv_ids : NoDup (map fst l);
  inv_nodes : Forall (fun x => (fst x < nodes p)%nat) l
}.

Lemma sorted_middle l1 x l2 : sorted (l1 ++ l2) -> Forall (fun y => before (snd y) (snd x)) l1 ->
  Forall (fun y => before (snd x) (snd y)) l2 -> sorted (l1 ++ x :: l2).
Proof.
  unfold sorted. induction l1 as [|y l1 IH]; cbn [app]; intros O F1 F2.
  - constructor; assumption.
  - inversion O as [|? ? O1 O2]; subst. inversion F1 as [|? ? Y F1']; subst. constructor; [now apply IH|].
    apply Forall_forall. intros z Hz. rewrite Forall_forall in O2. apply in_app_or in Hz.
    destruct Hz as [Hz|[<-|Hz]]; [apply O2, in_or_app; now left | exact Y | apply O2, in_or_app; now right].
Qed.

Lemma insert_spec p l k s : inv p l -> has_text (mem p) k s -> (at_ k + length s < top p)%nat ->
  exists i p' l', insert p k = Some (i, p') /\ inv p' l' /\ In (i, s) l' /\ incl l l' /\
    mem p' = mem p /\ top p' = top p.
Proof.
  intros [R O D N] K T. unfold insert.
  destruct (find_spec (mem p) (top p) k s (strings p) l K R O) as [(i & F & I)|(F & L1 & L2 & l1 & l2 & B & -> & R1 & R2 & F1 & F2)].
  - destruct (bound_spec (mem p) (top p) k s (strings p) l K R O) as (A1 & A2 & ? & ? & -> & _).
    rewrite F. exists i, p, l. repeat split; try assumption. exact (incl_refl l).
  - rewrite F, B. eexists _, _, (l1 ++ (nodes p, s) :: l2). split; [reflexivity|].
    split; [|split; [apply in_or_app; right; now left|split; [|split; reflexivity]]].
    + constructor; cbn [mem top strings nodes].
      * apply Forall2_app; [exact R1|]. constructor; [|exact R2]. split; [reflexivity | now split].
      * now apply sorted_middle.
      * rewrite map_app in *. cbn [map fst]. apply (proj2 (NoDup_Add (Add_app (nodes p) (map fst l1) (map fst l2)))).
        split; [exact D|]. rewrite <- map_app. intros H. apply in_map_iff in H. destruct H as (x & E & H).
           rewrite Forall_forall in N. specialize (N x H). lia.
      * apply Forall_app in N. destruct N as [N1 N2]. apply Forall_app. split; [|constructor].
        -- eapply Forall_impl; [|exact N1]. cbn. intros; lia.
        -- cbn. lia.
        -- eapply Forall_impl; [|exact N2]. cbn. intros; lia.
    + intros x H. apply in_app_or in H. apply in_or_app. destruct H; [now left | right; now right].
Qed.

Lemma write_other s : forall m a b, (b < a)%nat -> write m a s b = m b.
Proof.
  induction s as [|c s IH]; intros m a b L; cbn [write]; [reflexivity|].
  rewrite IH by lia. destruct (Nat.eqb_spec b a); [lia | reflexivity].
Qed.

Lemma write_at s : forall m a, map (write m a s) (seq a (length s)) = s.
Proof.
  induction s as [|c s IH]; intros m a; cbn [write length seq map]; [reflexivity|].
  rewrite write_other by lia. rewrite Nat.eqb_refl. f_equal. apply IH.
Qed.

Lemma text_frame m m' r s t : (forall b, (b < t)%nat -> m' b = m b) -> (at_ r + length s < t)%nat ->
  has_text m r s -> has_text m' r s.
Proof.
  intros F L (V & N & T). split; [exact V|]. split; [exact N|]. rewrite <- T.
  apply map_ext_in. intros b H. apply in_seq in H. apply F. lia.
Qed.

Lemma inv_frame p l m' t' : inv p l -> (forall b, (b < top p)%nat -> m' b = mem p b) -> (top p <= t')%nat ->
  inv (mk_pool m' (strings p) (nodes p) t') l.
Proof.
  intros [R O D N] F L. constructor; cbn [mem top strings nodes]; try assumption.
  induction R as [|e x L0 l0 (E1 & E2 & E3) R IH]; [constructor|].
  constructor.
  - split; [exact E1|]. split; [exact (text_frame (mem p) m' (snd e) (snd x) (top p) F E3 E2) | lia].
  - inversion O; inversion D; inversion N; subst. now apply IH.
Qed.

Lemma new_text m a s : valid_text s -> has_text (write m a (s ++ [0])) (mk_rt a (wrap I32 (Z.of_nat (length s)))) s.
Proof.
  intros V. split; [exact V|]. cbn [at_ len]. split.
  - apply wrap_id. destruct V as [_ V]. split; [change (tmin I32) with (- 2 ^ 31); lia|].
    change (tmax I32) with (2 ^ 31 - 1). lia.
  - pose proof (write_at (s ++ [0]) m a) as W. rewrite app_length in W. cbn [length] in W.
    now rewrite Nat.add_1_r in W.
Qed.

Lemma until_nul_id s : ~ In 0 s -> until_nul s = s.
Proof.
  induction s as [|c s IH]; [reflexivity|]. intros N. cbn [until_nul].
  destruct (Z.eqb_spec c 0) as [->|]; [exfalso; apply N; now left|].
  rewrite IH; [reflexivity|]. intros H. apply N. now right.
Qed.

Lemma write_beyond s : forall m a b, (a + length s <= b)%nat -> write m a s b = m b.
Proof.
  induction s as [|c s IH]; intros m a b L; cbn [write]; [reflexivity|]. cbn [length] in L.
  rewrite IH by lia. destruct (Nat.eqb_spec b a); [lia | reflexivity].
Qed.

Lemma sid_text p l s : inv p l -> valid_text s ->
  exists i p' l', to_sid_text p s = Some (i, p') /\ inv p' l' /\ In (i, s) l' /\ incl l l' /\
    (forall b, (b < top p)%nat -> mem p' b = mem p b) /\ (top p <= top p')%nat.
Proof.
  intros Hi V. unfold to_sid_text.
  set (m := write (mem p) (top p) (s ++ [0])). set (dst := (top p + S (length s))%nat).
  set (zeros := repeat 0 (S (length s))).
  assert (A : forall b, (b < top p)%nat -> m b = mem p b) by (intros b L; now apply write_other).
  assert (V1 : inv (mk_pool m (strings p) (nodes p) dst) l) by (apply inv_frame; [exact Hi | exact A | unfold dst; lia]).
  pose proof (new_text (mem p) (top p) s V) as K. fold m in K.
  destruct (find_spec m dst _ s (strings p) l K (inv_rep _ _ V1) (inv_sorted _ _ V1)) as [(i & -> & I)|(-> & _)].
  - assert (A1 : forall b, (b < top p)%nat -> write m (top p) zeros b = mem p b).
    { intros b L. rewrite write_other by exact L. now apply A. }
    exists i, (mk_pool (write m (top p) zeros) (strings p) (nodes p) dst), l.
    split; [reflexivity|]. split; [apply inv_frame; [exact Hi | exact A1 | unfold dst; lia]|].
    split; [exact I|]. split; [exact (incl_refl l)|]. split; [exact A1 | unfold dst; cbn [top]; lia].
  - rewrite (until_nul_id s (valid_no_nul s V)).
    set (m2 := write (write m dst (s ++ [0])) (top p) zeros).
    assert (A2 : forall b, (b < top p)%nat -> m2 b = mem p b).
    { intros b L. unfold m2. rewrite write_other by exact L. rewrite write_other by (unfold dst; lia). now apply A. }
    assert (V2 : inv (mk_pool m2 (strings p) (nodes p) (dst + S (length s))) l).
    { apply inv_frame; [exact Hi | exact A2 | unfold dst; lia]. }
    destruct (insert_spec _ l (mk_rt dst (wrap I32 (Z.of_nat (length s)))) s V2) as (i & p' & l' & E & I1 & I2 & I3 & M & T).
    + destruct (new_text m dst s V) as (W1 & W2 & W3). split; [exact W1|]. split; [exact W2|].
      rewrite <- W3. apply map_ext_in. intros b H. apply in_seq in H. cbn [at_ mem] in *. unfold m2.
      apply write_beyond. unfold zeros. rewrite repeat_length. unfold dst in H. lia.
    + cbn [at_ top]. lia.
    + exists i, p', l'. rewrite M, T. cbn [mem top].
      split; [exact E|]. split; [exact I1|]. split; [exact I2|]. split; [exact I3|]. split; [exact A2 | unfold dst; lia].
Qed.

Lemma run_spec m t cs ss : Forall2 (asks m t) cs ss -> forall p l, inv p l ->
  (forall b, (b < t)%nat -> mem p b = m b) -> (t <= top p)%nat ->
  exists ids p' l', run p cs = Some (ids, p') /\ inv p' l' /\ incl l l' /\
    Forall2 (fun i s => In (i, s) l') ids ss.
Proof.
  induction 1 as [|c s cs ss C R IH]; intros p l Hi A T.
  - exists [], p, l. split; [reflexivity|]. split; [exact Hi|]. split; [exact (incl_refl l) | constructor].
  - assert (X : exists i p' l', to_sid p c = Some (i, p') /\ inv p' l' /\ In (i, s) l' /\ incl l l' /\
      (forall b, (b < top p)%nat -> mem p' b = mem p b) /\ (top p <= top p')%nat).
    { destruct C as [s V|r s V B]; cbn [to_sid].
      - now apply sid_text.
      - destruct (insert_spec p l r s Hi) as (i & p' & l' & E & I1 & I2 & I3 & M & Tp).
        + exact (text_frame m (mem p) r s t A B V).
        + lia.
        + exists i, p', l'. rewrite M, Tp. repeat split; try apply I1; try assumption. lia. }
    destruct X as (i & p' & l' & E & I1 & I2 & I3 & M & Tp).
    destruct (IH p' l' I1) as (ids & p2 & l2 & E2 & J1 & J2 & J3).
    + intros b L. rewrite M by lia. now apply A.
    + lia.
    + exists (i :: ids), p2, l2. cbn [run]. rewrite E, E2. split; [reflexivity|]. split; [exact J1|].
      split; [intros x H; apply J2, I3, H|]. constructor; [now apply J2 | exact J3].
Qed.

Lemma ids_texts p l i j s t : inv p l -> In (i, s) l -> In (j, t) l -> (i = j <-> s = t).
Proof.
  intros [_ O D _] A B. split; intros <-.
  - clear O. induction l as [|x l IH]; [destruct A|]. cbn [map] in D. inversion D as [|? ? N D']; subst.
    destruct A as [->|A], B as [B|B].
    + now injection B.
    + exfalso. apply N. apply (in_map fst) in B. exact B.
    + subst x. exfalso. apply N. apply (in_map fst) in A. exact A.
    + now apply IH.
  - clear D. induction l as [|x l IH]; [destruct A|]. inversion O as [|? ? O1 O2]; subst. rewrite Forall_forall in O2.
    destruct A as [->|A], B as [B|B].
    + now injection B.
    + specialize (O2 _ B). now apply before_irrefl in O2.
    + subst x. specialize (O2 _ A). now apply before_irrefl in O2.
    + now apply IH.
Qed.

Lemma named_in p l i s : inv p l -> In (i, s) l -> named p i s.
Proof.
  intros [R _ _ _] H. unfold named. induction R as [|[j r] [i' s'] L l (E1 & E2 & E3) R IH]; [destruct H|].
  destruct H as [H|H].
  - injection H as -> ->. exists r. split; [left; cbn [fst] in E1; now rewrite E1 | exact E2].
  - destruct (IH H) as (r' & I & T). exists r'. split; [now right | exact T].
Qed.

Lemma start_inv m t : inv (start m t) [].
Proof. constructor; constructor. Qed.

Lemma same_identity m t cs ss : Forall2 (asks m t) cs ss ->
  exists ids p, run (start m t) cs = Some (ids, p) /\ Forall2 (named p) ids ss /\
    forall a b i j s u, nth_error ids a = Some i -> nth_error ids b = Some j ->
      nth_error ss a = Some s -> nth_error ss b = Some u -> (i = j <-> s = u).
Proof.
  intros H. destruct (run_spec m t cs ss H (start m t) [] (start_inv m t)) as (ids & p & l & E & Hi & _ & F).
  - reflexivity.
  - cbn. lia.
  - exists ids, p. split; [exact E|]. split.
    + clear E H. induction F as [|i s ids ss A F IH2]; [constructor|].
      constructor; [exact (named_in p l i s Hi A) | exact IH2].
    + assert (X : forall a i s, nth_error ids a = Some i -> nth_error ss a = Some s -> In (i, s) l).
      { clear - F. induction F as [|i s ids ss A F IH]; intros [|a] j u J U; cbn in J, U; try discriminate.
        - injection J as <-. injection U as <-. exact A.
        - exact (IH a j u J U). }
      intros a b i j s u A B C D. exact (ids_texts p l i j s u Hi (X a i s A C) (X b j u B D)).
Qed.

Lemma operators_spec m x y s t : has_text m x s -> has_text m y t -> at_ x <> at_ y ->
  (exists b, greater m x y = Some b /\ (b = true <-> before t s)) /\
  (exists b, less_equal m x y = Some b /\ (b = true <-> before s t \/ s = t)) /\
  (exists b, greater_equal m x y = Some b /\ (b = true <-> before t s \/ s = t)).
Proof.
  intros X Y N. destruct (compare_spec m x y s t X Y N) as (c & C & L & E & G).
  unfold greater, less_equal, greater_equal. rewrite C. cbn [option_map].
  split; [|split]; (eexists; split; [reflexivity|]).
  - rewrite Z.ltb_lt. exact G.
  - rewrite Z.leb_le, <- L, <- E. lia.
  - rewrite Z.leb_le, <- G, <- E. lia.
Qed.

Lemma itself m x : compare m x x = Some 1 /\ equals m x x = Some true /\
  greater m x x = Some true /\ less_equal m x x = Some false.
Proof. unfold greater, less_equal, equals, compare. rewrite Nat.eqb_refl, Z.eqb_refl. repeat split. Qed.
