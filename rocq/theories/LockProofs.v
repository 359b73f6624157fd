(** Proofs on the object locks. *)

From Coq Require Import ZArith List Bool Arith Lia.
Import ListNotations.
From Verif Require Import CppInt PoolModel LockModel LockSpec.
Local Open Scope Z_scope.

(** ** Tables *)

Lemma lookup_in : forall o t w, lookup o t = Some w -> In (o, w) t.
Proof.
  intros o t. induction t as [| [k v] r IH]; intros w H; cbn [lookup] in H; [discriminate |].
  destruct (Z.eqb_spec k o) as [-> | N]; [injection H as ->; left; reflexivity | right; exact (IH w H)].
Qed.

Lemma lookup_none : forall o t, lookup o t = None -> ~ In o (map fst t).
Proof.
  intros o t. induction t as [| [k v] r IH]; intros H I; cbn [lookup] in H; [exact I |].
  destruct (Z.eqb_spec k o) as [-> | N]; [discriminate |]. destruct I as [I | I]; [cbn in I; congruence | exact (IH H I)].
Qed.

Lemma in_lookup : forall o t w, NoDup (map fst t) -> In (o, w) t -> lookup o t = Some w.
Proof.
  intros o t w. induction t as [| [k v] r IH]; intros N I; [destruct I |]. cbn [map fst] in N. apply NoDup_cons_iff in N. destruct N as (N1 & N2).
  cbn [lookup]. destruct I as [I | I].
  - injection I as -> ->. rewrite Z.eqb_refl. reflexivity.
  - destruct (Z.eqb_spec k o) as [-> | Ne]; [| exact (IH N2 I)]. exfalso. apply N1. apply in_map_iff. exists (o, w). split; [reflexivity | exact I].
Qed.

Lemma in_insert : forall o w t x, In x (insert o w t) <-> x = (o, w) \/ In x t.
Proof.
  intros o w t x. induction t as [| [k v] r IH]; cbn [insert].
  - cbn [In]. intuition congruence.
  - destruct (o <? k); cbn [In]; [intuition congruence |]. rewrite IH. intuition congruence.
Qed.

Lemma insert_length : forall o w t, length (insert o w t) = S (length t).
Proof.
  intros o w t. induction t as [| [k v] r IH]; cbn [insert]; [reflexivity |]. destruct (o <? k); cbn [length]; [reflexivity | rewrite IH; reflexivity].
Qed.

Lemma insert_fst : forall o w t, ~ In o (map fst t) -> NoDup (map fst t) -> NoDup (map fst (insert o w t)).
Proof.
  intros o w t. induction t as [| [k v] r IH]; intros N D; cbn [insert].
  - constructor; [exact N | exact D].
  - destruct (o <? k); [constructor; assumption |]. cbn [map fst] in *. apply NoDup_cons_iff in D. destruct D as (D1 & D2).
    constructor.
    + intros X. apply in_map_iff in X. destruct X as ([a b] & E & X). cbn [fst] in E. subst a. apply in_insert in X. destruct X as [X | X].
      * injection X as -> ->. apply N. left. reflexivity.
      * apply D1. apply in_map_iff. exists (k, b). split; [reflexivity | exact X].
    + apply IH; [intros X; apply N; right; exact X | exact D2].
Qed.

Lemma insert_snd : forall o w t, ~ In w (map snd t) -> NoDup (map snd t) -> NoDup (map snd (insert o w t)).
Proof.
  intros o w t. induction t as [| [k v] r IH]; intros N D; cbn [insert].
  - constructor; [exact N | exact D].
  - destruct (o <? k); [constructor; assumption |]. cbn [map snd] in *. apply NoDup_cons_iff in D. destruct D as (D1 & D2).
    constructor.
    + intros X. apply in_map_iff in X. destruct X as ([a b] & E & X). cbn [snd] in E. subst b. apply in_insert in X. destruct X as [X | X].
      * injection X as -> ->. apply N. left. reflexivity.
      * apply D1. apply in_map_iff. exists (a, v). split; [reflexivity | exact X].
    + apply IH; [intros X; apply N; right; exact X | exact D2].
Qed.

Lemma snd_unique : forall (t : list (Z * nat)) o1 o2 w, NoDup (map snd t) -> In (o1, w) t -> In (o2, w) t -> o1 = o2.
Proof.
  induction t as [| [k v] r IH]; intros o1 o2 w N I1 I2; [destruct I1 |]. cbn [map snd] in N. apply NoDup_cons_iff in N. destruct N as (N1 & N2).
  assert (X : forall o, In (o, w) r -> In w (map snd r)) by (intros o I; apply in_map_iff; exists (o, w); split; [reflexivity | exact I]).
  destruct I1 as [I1 | I1], I2 as [I2 | I2].
  - congruence.
  - injection I1 as -> ->. destruct (N1 (X _ I2)).
  - injection I2 as -> ->. destruct (N1 (X _ I1)).
  - exact (IH o1 o2 w N2 I1 I2).
Qed.

Lemma fst_unique : forall (t : list (Z * nat)) o w1 w2, NoDup (map fst t) -> In (o, w1) t -> In (o, w2) t -> w1 = w2.
Proof.
  intros t o w1 w2 N I1 I2. apply (in_lookup _ _ _ N) in I1. apply (in_lookup _ _ _ N) in I2. congruence.
Qed.

(** ** The pool *)

(** What is known of a pool: no mutex is in it twice. *)
Definition sound (p : PoolModel.pool) : Prop := NoDup (released p) /\ forall w, In w (acquired p) -> ~ In w (released p).

Lemma mem_true : forall w l, existsb (Nat.eqb w) l = true <-> In w l.
Proof.
  intros w l. rewrite existsb_exists. split.
  - intros (x & I & E). apply Nat.eqb_eq in E. subst. exact I.
  - intros I. exists w. split; [exact I | apply Nat.eqb_refl].
Qed.

Lemma mem_false : forall w l, existsb (Nat.eqb w) l = false <-> ~ In w l.
Proof.
  intros w l. rewrite <- mem_true. destruct (existsb (Nat.eqb w) l); intuition congruence.
Qed.

Lemma trim_suffix : forall c q, exists pre, q = pre ++ fst (trim c q).
Proof.
  intros c q. induction q as [| a r IH]; [exists []; reflexivity |]. cbn [trim]. destruct (c <? Z.of_nat (length (a :: r))).
  - destruct (trim c r) as [q' ev]. cbn [fst] in *. destruct IH as (pre & ->). exists (a :: pre). reflexivity.
  - exists []. reflexivity.
Qed.

Lemma trim_short : forall q, Z.of_nat (length (fst (trim 8 q))) <= 8.
Proof.
  induction q as [| a r IH]; [cbn; lia |]. cbn [trim]. destruct (8 <? Z.of_nat (length (a :: r))) eqn:E.
  - destruct (trim 8 r) as [q' ev]. exact IH.
  - cbn [fst]. lia.
Qed.

Lemma nodup_suffix : forall (A : Type) (a b : list A), NoDup (a ++ b) -> NoDup b.
Proof. induction a as [| x a IH]; intros b H; [exact H |]. cbn [app] in H. apply NoDup_cons_iff in H. apply IH. apply H. Qed.

Lemma nodup_snoc : forall (A : Type) (a : list A) x, NoDup a -> ~ In x a -> NoDup (a ++ [x]).
Proof.
  induction a as [| y a IH]; intros x N I; cbn [app]; [constructor; [exact I | constructor] |].
  apply NoDup_cons_iff in N. constructor.
  - intros X. apply in_app_or in X. destruct X as [X | [X | []]]; [apply N; exact X | apply I; left; congruence].
  - apply IH; [apply N | intros X; apply I; right; exact X].
Qed.

Lemma give_back_ok : forall p w, sound p -> In w (acquired p) -> Z.of_nat (length (released p)) <= 12 ->
  exists p1, give_back p w = Some p1 /\ sound p1
    /\ (forall v, In v (acquired p1) <-> In v (acquired p) /\ v <> w)
    /\ (forall v, In v (released p1) -> In v (released p) \/ v = w)
    /\ Z.of_nat (length (released p1)) <= 12.
Proof.
  intros p w (S1 & S2) I L. unfold give_back, release. rewrite (proj2 (mem_true w _) I).
  assert (Ac : forall v, In v (filter (fun b => negb (b =? w)%nat) (acquired p)) <-> In v (acquired p) /\ v <> w).
  { intros v. rewrite filter_In, negb_true_iff, Nat.eqb_neq. reflexivity. }
  assert (Nd : NoDup (released p ++ [w])) by (apply nodup_snoc; [exact S1 | apply S2; exact I]).
  assert (Fin : forall q pre, released p ++ [w] = pre ++ q -> Z.of_nat (length q) <= 12 ->
    let p1 := Pool (filter (fun b => negb (b =? w)%nat) (acquired p)) q in
    sound p1 /\ (forall v, In v (acquired p1) <-> In v (acquired p) /\ v <> w) /\ (forall v, In v (released p1) -> In v (released p) \/ v = w)
    /\ Z.of_nat (length (released p1)) <= 12).
  { intros q pre E Lq. cbn [acquired released sound].
    assert (Iq : forall v, In v q -> In v (released p) \/ v = w).
    { intros v X. assert (Y : In v (released p ++ [w])) by (rewrite E; apply in_or_app; right; exact X).
      apply in_app_or in Y. destruct Y as [Y | [Y | []]]; [left; exact Y | right; congruence]. }
    split; [| split; [exact Ac | split; [exact Iq | exact Lq]]]. split.
    - cbn [released]. rewrite E in Nd. exact (nodup_suffix _ _ _ Nd).
    - cbn [released acquired]. intros v X Y. apply Ac in X. destruct X as (X1 & X2). apply Iq in Y. destruct Y as [Y | Y]; [| congruence].
      exact (S2 v X1 Y). }
  destruct (CppInt.wrap U64 (8 * 3) / 2 <? Z.of_nat (length (released p ++ [w]))) eqn:E.
  - destruct (trim_suffix 8 (released p ++ [w])) as (pre & Ep). pose proof (trim_short (released p ++ [w])) as Sh.
    destruct (trim 8 (released p ++ [w])) as [q ev]. cbn [fst] in *. eexists. split; [reflexivity |]. apply (Fin q pre Ep). lia.
  - eexists. split; [reflexivity |]. cbn [fst]. apply (Fin _ [] eq_refl). change (CppInt.wrap U64 (8 * 3) / 2) with 12 in E. lia.
Qed.

(** ** Cleaning up *)

Definition used (m : nat -> wrap) (x : Z * nat) : bool := negb (refs (m (snd x)) =? 0).

Lemma clean_up_ok : forall m t p, sound p -> NoDup (map snd t) -> (forall w, In w (map snd t) -> In w (acquired p)) ->
  Z.of_nat (length (released p)) <= 12 ->
  exists p1, clean_up m t p = Some (filter (used m) t, p1) /\ sound p1
    /\ (forall w, In w (acquired p1) <-> In w (acquired p) /\ ~ (In w (map snd t) /\ refs (m w) = 0))
    /\ (forall w, In w (released p1) -> In w (released p) \/ (In w (map snd t) /\ refs (m w) = 0))
    /\ Z.of_nat (length (released p1)) <= 12.
Proof.
  intros m t. induction t as [| [o w] r IH]; intros p Sp N A L.
  - exists p. cbn [clean_up map In filter]. split; [reflexivity |]. split; [exact Sp |]. split; [intros w; tauto | split; [intros w; tauto | exact L]].
  - cbn [map snd] in N. apply NoDup_cons_iff in N. destruct N as (N1 & N2). cbn [clean_up filter]. unfold used at 1. cbn [snd].
    destruct (refs (m w) =? 0) eqn:E; cbn [negb].
    + destruct (give_back_ok p w Sp (A w (or_introl eq_refl)) L) as (p1 & G & Sp1 & A1 & R1 & L1). rewrite G.
      destruct (IH p1 Sp1 N2) as (p2 & C & Sp2 & A2 & R2 & L2); [| exact L1 |].
      { intros v I. apply A1. split; [apply A; right; exact I | intros ->; exact (N1 I)]. }
      exists p2. split; [exact C |]. split; [exact Sp2 |]. apply Z.eqb_eq in E. split; [| split; [| exact L2]].
      * intros v. rewrite A2, A1. cbn [map snd In]. destruct (Nat.eq_dec v w) as [-> | Ne]; [| intuition congruence]. intuition congruence.
      * intros v I. apply R2 in I. cbn [map snd In]. destruct I as [I | I]; [| tauto]. apply R1 in I. destruct I as [I | ->]; [tauto |]. right. split; [left; reflexivity | exact E].
    + destruct (IH p Sp N2) as (p2 & C & Sp2 & A2 & R2 & L2); [intros v I; apply A; right; exact I | exact L |].
      rewrite C. exists p2. split; [reflexivity |]. split; [exact Sp2 |]. apply Z.eqb_neq in E. split; [| split; [| exact L2]].
      * intros v. rewrite A2. cbn [map snd In]. destruct (Nat.eq_dec v w) as [-> | Ne]; [| intuition congruence]. intuition congruence.
      * intros v I. apply R2 in I. cbn [map snd In]. tauto.
Qed.

(** ** Counting *)

Definition flag (b : bool) : Z := if b then 1 else 0.

Fixpoint total (f : nat -> Z) (n : nat) : Z := match n with O => 0 | S k => total f k + f k end.

Lemma total_same : forall f g n, (forall t, (t < n)%nat -> f t = g t) -> total f n = total g n.
Proof. intros f g n. induction n as [| n IH]; intros H; cbn [total]; [reflexivity |]. rewrite IH, (H n) by (intros; try apply H; lia). reflexivity. Qed.

Lemma total_change : forall f g n t, (t < n)%nat -> (forall u, (u < n)%nat -> u <> t -> f u = g u) -> total g n = total f n + g t - f t.
Proof.
  intros f g n t. induction n as [| n IH]; intros L H; [lia |]. cbn [total]. destruct (Nat.eq_dec t n) as [-> | Ne].
  - rewrite (total_same f g n) by (intros u Lu; apply H; lia). lia.
  - rewrite IH by (try lia; intros; apply H; lia). rewrite (H n) by lia. lia.
Qed.

Lemma total_bounds : forall f n, (forall t, (t < n)%nat -> 0 <= f t <= 1) -> 0 <= total f n <= Z.of_nat n.
Proof. intros f n. induction n as [| n IH]; intros H; cbn [total]; [lia |]. specialize (IH ltac:(intros; apply H; lia)). specialize (H n ltac:(lia)). lia. Qed.

Lemma total_zero : forall f n, (forall t, (t < n)%nat -> 0 <= f t) -> total f n = 0 -> forall t, (t < n)%nat -> f t = 0.
Proof.
  intros f n. induction n as [| n IH]; intros P H t L; [lia |]. cbn [total] in H.
  assert (Q : 0 <= total f n).
  { clear - P. induction n as [| n IH]; cbn [total]; [lia |]. specialize (IH ltac:(intros; apply P; lia)). specialize (P n ltac:(lia)). lia. }
  pose proof (P n ltac:(lia)). destruct (Nat.eq_dec t n) as [-> | Ne]; [lia |]. apply IH; [intros; apply P; lia | lia | lia].
Qed.

Definition wants (h : list event) (t : nat) (o : Z) : bool := match asks h t with Some o' => o' =? o | None => false end.
Definition weight (h : list event) (o : Z) (t : nat) : Z := flag (holds h t o) + flag (wants h t o).
Definition users (n : nat) (h : list event) (o : Z) : Z := total (weight h o) n.

Definition idle (m : nat -> wrap) (t : list (Z * nat)) : Z := Z.of_nat (length (filter (fun x => negb (used m x)) t)).

(** ** What stays true *)

Record good (n : nat) (h : list event) (s : state) : Prop := Good {
  keys_once : NoDup (map fst (table s));
  values_once : NoDup (map snd (table s));
  pool_sound : sound (mutexes s);
  pool_short : Z.of_nat (length (released (mutexes s))) <= 12;
  pool_table : forall w, In w (acquired (mutexes s)) <-> In w (map snd (table s));
  pool_old : forall w, In w (acquired (mutexes s)) \/ In w (released (mutexes s)) -> (w < fresh s)%nat;
  free_clean : forall w, In w (released (mutexes s)) \/ (fresh s <= w)%nat -> cells s w = Wrap None 0;
  pending_asks : forall t o w, pending s t = Some (o, w) -> In (o, w) (table s) /\ asks h t = Some o;
  asks_pending : forall t o, asks h t = Some o -> exists w, pending s t = Some (o, w);
  asks_number : forall t o, asks h t = Some o -> (t < n)%nat /\ holds h t o = false;
  holds_table : forall t o, holds h t o = true -> (t < n)%nat /\ In o (map fst (table s));
  refs_right : forall o w, In (o, w) (table s) -> refs (cells s w) = users n h o;
  holder_right : forall o w t, In (o, w) (table s) -> (holder (cells s w) = Some t <-> holds h t o = true);
}.

Record bounded (s : state) : Prop := Bounded {
  exited_bounds : 0 <= exited s <= 10;
  idle_bounds : idle (cells s) (table s) <= exited s
}.

Lemma weight_bounds : forall n h s o t, good n h s -> 0 <= weight h o t <= 1.
Proof.
  intros n h s o t G. unfold weight, flag, wants. destruct (asks h t) as [o' |] eqn:A.
  - destruct (Z.eqb_spec o' o) as [-> | Ne].
    + rewrite (proj2 (asks_number _ _ _ G t o A)). lia.
    + destruct (holds h t o); lia.
  - destruct (holds h t o); lia.
Qed.

Lemma users_bounds : forall n h s o, good n h s -> 0 <= users n h o <= Z.of_nat n.
Proof. intros n h s o G. apply total_bounds. intros t _. exact (weight_bounds n h s o t G). Qed.

Lemma users_zero : forall n h s o, good n h s -> users n h o = 0 -> (forall t, holds h t o = false) /\ (forall t, asks h t <> Some o).
Proof.
  intros n h s o G H.
  assert (Z0 : forall t, (t < n)%nat -> weight h o t = 0) by (apply total_zero; [intros t _; pose proof (weight_bounds n h s o t G); lia | exact H]).
  split.
  - intros t. destruct (holds h t o) eqn:E; [| reflexivity]. pose proof (proj1 (holds_table _ _ _ G t o E)) as L. specialize (Z0 t L).
    unfold weight in Z0. rewrite E in Z0. unfold flag in Z0. destruct (wants h t o); discriminate.
  - intros t E. pose proof (proj1 (asks_number _ _ _ G t o E)) as L. specialize (Z0 t L). unfold weight, wants in Z0. rewrite E, Z.eqb_refl in Z0.
    unfold flag in Z0. destruct (holds h t o); discriminate.
Qed.

Lemma start_good : forall n, good n [] start /\ bounded start.
Proof.
  intros n. split; constructor; cbn; try (constructor; fail); try tauto; try discriminate; try lia.
  split; [constructor | intros w []].
Qed.

(** Cleaning up keeps it. *)
Lemma filter_used_in : forall m t x, In x (filter (used m) t) <-> In x t /\ refs (m (snd x)) <> 0.
Proof. intros m t x. rewrite filter_In. unfold used. rewrite negb_true_iff, Z.eqb_neq. reflexivity. Qed.

Lemma nodup_map_filter : forall (A B : Type) (f : A -> B) (g : A -> bool) l, NoDup (map f l) -> NoDup (map f (filter g l)).
Proof.
  intros A B f g l. induction l as [| x l IH]; intros H; [constructor |]. cbn [map] in H. apply NoDup_cons_iff in H. destruct H as (H1 & H2).
  cbn [filter]. destruct (g x); [| apply IH; exact H2]. cbn [map]. constructor; [| apply IH; exact H2].
  intros I. apply H1. apply in_map_iff in I. destruct I as (y & E & I). apply filter_In in I. apply in_map_iff. exists y. split; [exact E | apply I].
Qed.

Lemma idle_filter : forall m t, idle m (filter (used m) t) = 0.
Proof.
  intros m t. unfold idle. induction t as [| x t IH]; [reflexivity |]. cbn [filter]. destruct (used m x) eqn:E; [| exact IH].
  cbn [filter]. rewrite E. cbn [negb]. exact IH.
Qed.

Lemma tidy_good : forall n h s, good n h s -> bounded s ->
  exists s1, tidy s = Some s1 /\ good n h s1 /\ bounded s1 /\ exited s1 < 10 /\ pending s1 = pending s.
Proof.
  intros n h s G B. unfold tidy. destruct (10 <=? exited s) eqn:E.
  - destruct (clean_up_ok (cells s) (table s) (mutexes s) (pool_sound _ _ _ G) (values_once _ _ _ G)) as (p1 & C & S1 & A1 & R1 & L1).
    { intros w I. apply (pool_table _ _ _ G). exact I. } { exact (pool_short _ _ _ G). }
    rewrite C. eexists. split; [reflexivity |]. split; [| split; [| split; [cbn [exited]; lia | reflexivity]]].
    + constructor; cbn [table exited mutexes cells fresh pending].
      * apply nodup_map_filter. exact (keys_once _ _ _ G).
      * apply nodup_map_filter. exact (values_once _ _ _ G).
      * exact S1.
      * exact L1.
      * intros w. rewrite A1, (pool_table _ _ _ G). split.
        -- intros (I & N). apply in_map_iff in I. destruct I as ([o v] & Ev & I). cbn [snd] in Ev. subst v. apply in_map_iff. exists (o, w).
           split; [reflexivity |]. apply filter_used_in. split; [exact I |]. cbn [snd]. intros X. apply N. split; [| exact X].
           apply in_map_iff. exists (o, w). split; [reflexivity | exact I].
        -- intros I. apply in_map_iff in I. destruct I as ([o v] & Ev & I). cbn [snd] in Ev. subst v. apply filter_used_in in I. destruct I as (I & N). cbn [snd] in N.
           split; [| intros (_ & X); exact (N X)]. apply in_map_iff. exists (o, w). split; [reflexivity | exact I].
      * intros w [I | I]; apply (pool_old _ _ _ G).
        -- left. apply A1 in I. apply I.
        -- apply R1 in I. destruct I as [I | (I & _)]; [right; exact I | left; apply (pool_table _ _ _ G); exact I].
      * intros w [I | I]; [| apply (free_clean _ _ _ G); right; exact I].
        apply R1 in I. destruct I as [I | (I & Z0)]; [apply (free_clean _ _ _ G); left; exact I |].
        apply in_map_iff in I. destruct I as ([o v] & Ev & I). cbn [snd] in Ev. subst v.
        pose proof (refs_right _ _ _ G o w I) as U. rewrite Z0 in U. destruct (users_zero n h s o G (eq_sym U)) as (H1 & _).
        destruct (cells s w) as [hd rf] eqn:Ec. cbn [refs] in Z0. subst rf. f_equal. destruct hd as [t |]; [| reflexivity].
        assert (X : holder (cells s w) = Some t) by (rewrite Ec; reflexivity). apply (holder_right _ _ _ G o w t I) in X. rewrite H1 in X. discriminate.
      * intros t o w P. destruct (pending_asks _ _ _ G t o w P) as (I & A). split; [| exact A]. apply filter_used_in. split; [exact I |]. cbn [snd].
        intros Z0. rewrite (refs_right _ _ _ G o w I) in Z0. exact (proj2 (users_zero n h s o G Z0) t A).
      * exact (asks_pending _ _ _ G).
      * exact (asks_number _ _ _ G).
      * intros t o H. destruct (holds_table _ _ _ G t o H) as (L & I). split; [exact L |]. apply in_map_iff in I. destruct I as ([o' w] & Eo & I). cbn [fst] in Eo. subst o'.
        apply in_map_iff. exists (o, w). split; [reflexivity |]. apply filter_used_in. split; [exact I |]. cbn [snd]. intros Z0.
        rewrite (refs_right _ _ _ G o w I) in Z0. pose proof (proj1 (users_zero n h s o G Z0) t). congruence.
      * intros o w I. apply filter_used_in in I. apply (refs_right _ _ _ G). apply I.
      * intros o w t I. apply filter_used_in in I. apply (holder_right _ _ _ G). apply I.
    + constructor; cbn [table exited cells]; [lia |]. rewrite idle_filter. lia.
  - exists s. split; [reflexivity |]. split; [exact G | split; [exact B | split; [lia | reflexivity]]].
Qed.

(** ** Getting a mutex *)

Lemma filter_fewer : forall (A : Type) (f g : A -> bool) l, (forall x, f x = true -> g x = true) -> (length (filter f l) <= length (filter g l))%nat.
Proof.
  intros A f g l H. induction l as [| x l IH]; [cbn; lia |]. cbn [filter]. destruct (f x) eqn:E; [rewrite (H x E); cbn [length]; lia |].
  destruct (g x); cbn [length]; lia.
Qed.

Lemma found_in : forall o (t : list (Z * nat)), In o (map fst t) -> exists w, lookup o t = Some w.
Proof.
  intros o t I. destruct (lookup o t) as [w |] eqn:E; [eauto | destruct (lookup_none o t E I)].
Qed.

Lemma take_ok : forall n h s, good n h s -> exists p1 w, take (mutexes s) (fresh s) = Some (p1, w)
  /\ ~ In w (acquired (mutexes s)) /\ cells s w = Wrap None 0 /\ sound p1 /\ Z.of_nat (length (released p1)) <= 12
  /\ (forall v, In v (acquired p1) <-> v = w \/ In v (acquired (mutexes s)))
  /\ (forall v, In v (released p1) -> In v (released (mutexes s)) /\ v <> w)
  /\ (w <= fresh s)%nat.
Proof.
  intros n h s G. destruct (pool_sound _ _ _ G) as (S1 & S2). pose proof (pool_short _ _ _ G) as Sh. unfold take, acquire.
  destruct (released (mutexes s)) as [| b r] eqn:R.
  - assert (N : ~ In (fresh s) (acquired (mutexes s))) by (intros I; pose proof (pool_old _ _ _ G (fresh s) (or_introl I)); lia).
    rewrite (proj2 (mem_false _ _) N). eexists. exists (fresh s). split; [reflexivity |]. cbn [fst acquired released].
    split; [exact N |]. split; [apply (free_clean _ _ _ G); right; lia |].
    split; [split; [constructor | intros w _ []] |]. split; [cbn; lia |].
    split; [intros v; cbn [In]; intuition congruence |]. split; [intros v [] | lia].
  - apply NoDup_cons_iff in S1. destruct S1 as (S1 & S3).
    assert (N : ~ In b (acquired (mutexes s))) by (intros I; apply (S2 b I); left; reflexivity).
    rewrite (proj2 (mem_false _ _) N). eexists. exists b. split; [reflexivity |]. cbn [fst acquired released].
    split; [exact N |]. split; [apply (free_clean _ _ _ G); left; rewrite R; left; reflexivity |].
    split.
    { split; [exact S3 |]. cbn [acquired released]. intros w [<- | I] X; [exact (S1 X) | exact (S2 w I (or_intror X))]. }
    split; [cbn [length] in Sh; lia |]. split; [intros v; cbn [In]; intuition congruence |].
    split; [intros v I; split; [right; exact I | intros ->; exact (S1 I)] |].
    pose proof (pool_old _ _ _ G b) as O. rewrite R in O. specialize (O (or_intror (or_introl eq_refl))). lia.
Qed.

Lemma get_wrap_create : forall n h s o, good n h s -> bounded s ->
  exists s1 w, get_wrap s o true = Some (s1, w) /\ good n h s1 /\ In (o, w) (table s1) /\ exited s1 < 10 /\ 0 <= exited s1
    /\ pending s1 = pending s
    /\ (forall c, refs c <> 0 -> idle (update (cells s1) w c) (table s1) <= exited s1).
Proof.
  intros n h s o G B. unfold get_wrap. destruct (tidy_good n h s G B) as (s1 & T & G1 & B1 & E1 & P1). rewrite T.
  assert (Le : forall m (t : list (Z * nat)) w c, refs c <> 0 -> idle (update m w c) t <= idle m t).
  { intros m t w c N. unfold idle. apply Nat2Z.inj_le. apply filter_fewer. intros [k v]. unfold used, update. cbn [snd].
    destruct (Nat.eqb_spec v w) as [-> | Ne]; [replace (refs c =? 0) with false by lia; discriminate | tauto]. }
  destruct (lookup o (table s1)) as [w |] eqn:F.
  - exists s1, w. split; [reflexivity |]. split; [exact G1 |]. split; [apply lookup_in; exact F |]. split; [exact E1 |].
    split; [apply B1 |]. split; [exact P1 |]. intros c N. apply Z.le_trans with (2 := idle_bounds _ B1). apply Le. exact N.
  - destruct (take_ok n h s1 G1) as (p1 & w & Tk & N & Cw & Sp & Sh & Ac & Re & Lw). rewrite Tk.
    pose proof (lookup_none _ _ F) as Nk. eexists. exists w. split; [reflexivity |].
    assert (Nt : ~ In w (map snd (table s1))) by (intros I; apply N; apply (pool_table _ _ _ G1); exact I).
    assert (Fr : (fresh s1 <= (if (w =? fresh s1)%nat then S (fresh s1) else fresh s1))%nat /\ (w < (if (w =? fresh s1)%nat then S (fresh s1) else fresh s1))%nat).
    { destruct (Nat.eqb_spec w (fresh s1)); lia. }
    split.
    + constructor; cbn [table exited mutexes cells fresh pending].
      * apply insert_fst; [exact Nk | exact (keys_once _ _ _ G1)].
      * apply insert_snd; [exact Nt | exact (values_once _ _ _ G1)].
      * exact Sp.
      * exact Sh.
      * intros v. rewrite Ac, (pool_table _ _ _ G1). split.
        -- intros [-> | I]; apply in_map_iff.
           ++ exists (o, w). split; [reflexivity | apply in_insert; left; reflexivity].
           ++ apply in_map_iff in I. destruct I as (x & E & I). exists x. split; [exact E | apply in_insert; right; exact I].
        -- intros I. apply in_map_iff in I. destruct I as (x & E & I). apply in_insert in I. destruct I as [-> | I]; [left; cbn in E; congruence |].
           right. apply in_map_iff. exists x. split; assumption.
      * intros v [I | I].
        -- apply Ac in I. destruct I as [-> | I]; [lia |]. pose proof (pool_old _ _ _ G1 v (or_introl I)). lia.
        -- apply Re in I. pose proof (pool_old _ _ _ G1 v (or_intror (proj1 I))). lia.
      * intros v [I | I]; apply (free_clean _ _ _ G1); [left; apply Re; exact I | right; lia].
      * intros t o' v P. destruct (pending_asks _ _ _ G1 t o' v P) as (I & A). split; [apply in_insert; right; exact I | exact A].
      * exact (asks_pending _ _ _ G1).
      * exact (asks_number _ _ _ G1).
      * intros t o' H. destruct (holds_table _ _ _ G1 t o' H) as (L & I). split; [exact L |]. apply in_map_iff in I. destruct I as (x & E & I).
        apply in_map_iff. exists x. split; [exact E | apply in_insert; right; exact I].
      * intros o' v I. apply in_insert in I. destruct I as [I | I]; [| exact (refs_right _ _ _ G1 o' v I)].
        injection I as -> ->. rewrite Cw. cbn [refs]. symmetry. unfold users.
        rewrite (total_same _ (fun _ => 0)); [clear; induction n as [| n IH]; cbn [total]; lia |].
        intros t L. unfold weight, wants. destruct (holds h t o) eqn:H; [destruct (Nk (proj2 (holds_table _ _ _ G1 t o H))) |].
        destruct (asks h t) as [o' |] eqn:A; [| reflexivity]. destruct (Z.eqb_spec o' o) as [-> | Ne]; [| reflexivity]. exfalso.
        destruct (asks_pending _ _ _ G1 t o A) as (v & P). apply Nk. apply in_map_iff. exists (o, v). split; [reflexivity |]. apply (pending_asks _ _ _ G1 t). exact P.
      * intros o' v t I. apply in_insert in I. destruct I as [I | I]; [| exact (holder_right _ _ _ G1 o' v t I)].
        injection I as -> ->. rewrite Cw. cbn [holder]. split; [discriminate |]. intros H. destruct (Nk (proj2 (holds_table _ _ _ G1 t o H))).
    + split; [apply in_insert; left; reflexivity |]. cbn [exited pending table cells]. split; [exact E1 |]. split; [apply B1 |]. split; [exact P1 |].
      intros c Nc. apply Z.le_trans with (2 := idle_bounds _ B1). apply Z.le_trans with (2 := Le _ _ w c Nc).
      unfold idle. apply Nat2Z.inj_le. generalize (table s1). intros tb. induction tb as [| [k v] tb IH]; cbn [insert].
      * cbn [filter]. unfold used. cbn [snd]. unfold update. rewrite Nat.eqb_refl. replace (refs c =? 0) with false by lia. cbn. lia.
      * destruct (o <? k).
        -- cbn [filter]. unfold used at 1. cbn [snd]. unfold update at 1. rewrite Nat.eqb_refl. replace (refs c =? 0) with false by lia. cbn [negb]. lia.
        -- cbn [filter]. destruct (negb (used (update (cells s1) w c) (k, v))); cbn [length]; lia.
Qed.

Lemma get_wrap_find : forall n h s o, good n h s -> bounded s -> (exists t, holds h t o = true) ->
  exists s1 w, get_wrap s o false = Some (s1, w) /\ good n h s1 /\ bounded s1 /\ In (o, w) (table s1) /\ exited s1 < 10
    /\ pending s1 = pending s.
Proof.
  intros n h s o G B (t & H). unfold get_wrap. destruct (tidy_good n h s G B) as (s1 & T & G1 & B1 & E1 & P1). rewrite T.
  destruct (found_in o (table s1) (proj2 (holds_table _ _ _ G1 t o H))) as (w & F). rewrite F.
  exists s1, w. split; [reflexivity |]. split; [exact G1 |]. split; [exact B1 |]. split; [apply lookup_in; exact F |]. split; assumption.
Qed.

(** ** The steps *)

Lemma update_same : forall (A : Type) (f : nat -> A) k v, update f k v k = v.
Proof. intros A f k v. unfold update. rewrite Nat.eqb_refl. reflexivity. Qed.

Lemma update_other : forall (A : Type) (f : nat -> A) k v x, x <> k -> update f k v x = f x.
Proof. intros A f k v x N. unfold update. destruct (Nat.eqb_spec x k); [congruence | reflexivity]. Qed.

Lemma users_same : forall n h h' o, (forall t, (t < n)%nat -> weight h' o t = weight h o t) -> users n h' o = users n h o.
Proof. intros n h h' o H. apply total_same. exact H. Qed.

Lemma users_changed : forall n h h' o t, (t < n)%nat -> (forall u, u <> t -> weight h' o u = weight h o u) ->
  users n h' o = users n h o + weight h' o t - weight h o t.
Proof. intros n h h' o t L H. apply (total_change _ _ n t L). intros u _ N. symmetry. apply H. exact N. Qed.

Lemma enter_good : forall n h s t o, Z.of_nat n <= tmax I32 -> good n h s -> bounded s -> proper n h (Enter t o) ->
  exists s', step s (Enter t o) = Done s' /\ good n (Enter t o :: h) s' /\ bounded s'.
Proof.
  intros n h s t o Ln G B (Lt & At & Ht). cbn [step].
  assert (P : pending s t = None).
  { destruct (pending s t) as [[o' w] |] eqn:E; [| reflexivity]. apply (pending_asks _ _ _ G) in E. destruct E as (_ & E). congruence. }
  rewrite P. destruct (get_wrap_create n h s o G B) as (s1 & w & Gw & G1 & Iw & E1 & E0 & Ps & Id). rewrite Gw.
  assert (W : weight h o t = 0) by (unfold weight, wants; rewrite Ht, At; reflexivity).
  assert (Wt : weight (Enter t o :: h) o t = 1).
  { unfold weight, wants. cbn [asks holds]. rewrite Nat.eqb_refl, Z.eqb_refl, Ht. reflexivity. }
  assert (Wo : forall o' u, u <> t -> weight (Enter t o :: h) o' u = weight h o' u).
  { intros o' u N. unfold weight, wants. cbn [asks holds]. destruct (Nat.eqb_spec t u); [congruence | reflexivity]. }
  assert (We : forall o', o' <> o -> weight (Enter t o :: h) o' t = weight h o' t).
  { intros o' N. unfold weight, wants. cbn [asks holds]. rewrite Nat.eqb_refl, At. replace (o =? o') with false by lia. reflexivity. }
  assert (Uo : users n (Enter t o :: h) o = users n h o + 1) by (rewrite (users_changed n h _ o t Lt (Wo o)), Wt, W; lia).
  assert (Ue : forall o', o' <> o -> users n (Enter t o :: h) o' = users n h o') by (intros o' N; rewrite (users_changed n h _ o' t Lt (Wo o')), (We o' N); lia).
  pose proof (users_bounds n h s o G) as Ub. pose proof (refs_right _ _ _ G1 o w Iw) as Rw.
  assert (Lr : users n h o < tmax I32).
  {
    assert (X : total (weight h o) n <= Z.of_nat n - 1).
    { assert (Y : users n (Enter t o :: h) o <= Z.of_nat n).
      { apply total_bounds. intros u Lu. destruct (Nat.eq_dec u t) as [-> | Nu]; [lia |]. rewrite (Wo o u Nu). exact (weight_bounds n h s o u G). }
      unfold users in *. lia. }
    unfold users in *. lia. }
  unfold plus_one. replace (refs (cells s1 w) <? tmax I32) with true by lia.
  eexists. split; [reflexivity |].
  assert (Cs : forall v, update (cells s1) w (Wrap (holder (cells s1 w)) (refs (cells s1 w) + 1)) v
               = if Nat.eqb v w then Wrap (holder (cells s1 w)) (refs (cells s1 w) + 1) else cells s1 v) by reflexivity.
  split.
  - unfold set_pending, set_cell. constructor; cbn [table exited mutexes cells fresh pending].
    + exact (keys_once _ _ _ G1).
    + exact (values_once _ _ _ G1).
    + exact (pool_sound _ _ _ G1).
    + exact (pool_short _ _ _ G1).
    + exact (pool_table _ _ _ G1).
    + exact (pool_old _ _ _ G1).
    + assert (Aw : In w (acquired (mutexes s1))) by (apply (pool_table _ _ _ G1); apply in_map_iff; exists (o, w); split; [reflexivity | exact Iw]).
      intros v I. rewrite update_other; [exact (free_clean _ _ _ G1 v I) |]. intros ->. destruct I as [I | I].
      * exact (proj2 (pool_sound _ _ _ G1) w Aw I).
      * pose proof (pool_old _ _ _ G1 w (or_introl Aw)). lia.
    + intros u o' v E. destruct (Nat.eq_dec u t) as [-> | Nu].
      * rewrite update_same in E. injection E as <- <-. split; [exact Iw |]. cbn [asks]. rewrite Nat.eqb_refl. reflexivity.
      * rewrite update_other in E by exact Nu. destruct (pending_asks _ _ _ G1 u o' v E) as (I & A). split; [exact I |]. cbn [asks].
        destruct (Nat.eqb_spec t u); [congruence | exact A].
    + intros u o' A. cbn [asks] in A. destruct (Nat.eqb_spec t u) as [<- | Nu].
      * injection A as <-. exists w. apply update_same.
      * destruct (asks_pending _ _ _ G1 u o' A) as (v & E). exists v. rewrite update_other by congruence. exact E.
    + intros u o' A. cbn [asks] in A. cbn [holds]. destruct (Nat.eqb_spec t u) as [<- | Nu].
      * injection A as <-. split; [exact Lt | exact Ht].
      * exact (asks_number _ _ _ G1 u o' A).
    + intros u o' H. cbn [holds] in H. exact (holds_table _ _ _ G1 u o' H).
    + intros o' v I. destruct (Nat.eq_dec v w) as [-> | Nv].
      * rewrite update_same. cbn [refs]. rewrite (snd_unique _ o' o w (values_once _ _ _ G1) I Iw). rewrite Uo. lia.
      * rewrite update_other by exact Nv. rewrite (refs_right _ _ _ G1 o' v I). symmetry. apply Ue. intros ->.
        apply Nv. exact (fst_unique _ _ _ _ (keys_once _ _ _ G1) I Iw).
    + intros o' v u I. cbn [holds]. destruct (Nat.eq_dec v w) as [-> | Nv].
      * rewrite update_same. cbn [holder]. exact (holder_right _ _ _ G1 o' w u I).
      * rewrite update_other by exact Nv. exact (holder_right _ _ _ G1 o' v u I).
  - unfold set_pending, set_cell. constructor; cbn [table exited cells]; [lia |]. apply Id. cbn [refs]. lia.
Qed.

Lemma lock_good : forall n h s t o, good n h s -> bounded s -> proper n h (Lock t o) ->
  (exists s', step s (Lock t o) = Done s' /\ good n (Lock t o :: h) s' /\ bounded s' /\ forall u, holds h u o = false)
  \/ (exists t', t' <> t /\ holds h t' o = true /\ step s (Lock t o) = Blocked).
Proof.
  intros n h s t o G B At. cbn [proper] in At. cbn [step]. destruct (asks_pending _ _ _ G t o At) as (w & P). rewrite P, Z.eqb_refl.
  destruct (pending_asks _ _ _ G t o w P) as (Iw & _).
  assert (Aw : In w (acquired (mutexes s))) by (apply (pool_table _ _ _ G); apply in_map_iff; exists (o, w); split; [reflexivity | exact Iw]).
  unfold exists_now. rewrite (proj2 (mem_true _ _) Aw). cbn [orb]. destruct (asks_number _ _ _ G t o At) as (Lt & Ht).
  destruct (holder (cells s w)) as [t' |] eqn:Hw.
  - right. apply (holder_right _ _ _ G o w t' Iw) in Hw. exists t'. assert (N : t' <> t) by congruence. split; [exact N |]. split; [exact Hw |].
    destruct (Nat.eqb_spec t t'); [congruence | reflexivity].
  - left. eexists. split; [reflexivity |].
    assert (Free : forall u, holds h u o = false).
    { intros u. destruct (holds h u o) eqn:E; [| reflexivity]. apply (holder_right _ _ _ G o w u Iw) in E. congruence. }
    assert (Same : forall o' u, weight (Lock t o :: h) o' u = weight h o' u).
    { intros o' u. unfold weight, wants. cbn [asks holds]. destruct (Nat.eqb_spec t u) as [<- | Nu]; cbn [andb]; [| reflexivity].
      rewrite At. destruct (Z.eqb_spec o o') as [Eo | No]; [subst o'; rewrite Ht; reflexivity | reflexivity]. }
    split; [| split; [| exact Free]].
    + unfold set_pending, set_cell. constructor; cbn [table exited mutexes cells fresh pending].
      * exact (keys_once _ _ _ G).
      * exact (values_once _ _ _ G).
      * exact (pool_sound _ _ _ G).
      * exact (pool_short _ _ _ G).
      * exact (pool_table _ _ _ G).
      * exact (pool_old _ _ _ G).
      * intros v I. rewrite update_other; [exact (free_clean _ _ _ G v I) |]. intros ->. destruct I as [I | I].
        -- exact (proj2 (pool_sound _ _ _ G) w Aw I).
        -- pose proof (pool_old _ _ _ G w (or_introl Aw)). lia.
      * intros u o' v E. destruct (Nat.eq_dec u t) as [-> | Nu]; [rewrite update_same in E; discriminate |].
        rewrite update_other in E by exact Nu. destruct (pending_asks _ _ _ G u o' v E) as (I & A). split; [exact I |]. cbn [asks].
        destruct (Nat.eqb_spec t u); [congruence | exact A].
      * intros u o' A. cbn [asks] in A. destruct (Nat.eqb_spec t u) as [<- | Nu]; [discriminate |].
        destruct (asks_pending _ _ _ G u o' A) as (v & E). exists v. rewrite update_other by congruence. exact E.
      * intros u o' A. cbn [asks] in A. cbn [holds]. destruct (Nat.eqb_spec t u) as [<- | Nu]; [discriminate |]. cbn [andb].
        exact (asks_number _ _ _ G u o' A).
      * intros u o' H. cbn [holds] in H. destruct (Nat.eqb_spec t u) as [<- | Nu]; cbn [andb] in H; [| exact (holds_table _ _ _ G u o' H)].
        destruct (Z.eqb_spec o o') as [Eo | No]; [| exact (holds_table _ _ _ G t o' H)]. subst o'. split; [exact Lt |]. apply in_map_iff. exists (o, w).
        split; [reflexivity | exact Iw].
      * intros o' v I. rewrite (users_same n h) by (intros u _; apply Same). destruct (Nat.eq_dec v w) as [-> | Nv].
        -- rewrite update_same. cbn [refs]. exact (refs_right _ _ _ G o' w I).
        -- rewrite update_other by exact Nv. exact (refs_right _ _ _ G o' v I).
      * intros o' v u I. cbn [holds]. destruct (Nat.eq_dec v w) as [-> | Nv].
        -- rewrite update_same. cbn [holder]. rewrite (snd_unique _ o' o w (values_once _ _ _ G) I Iw). rewrite Z.eqb_refl, andb_true_r.
           destruct (Nat.eqb_spec t u) as [<- | Nu]; [tauto |]. rewrite Free. split; [congruence | discriminate].
        -- rewrite update_other by exact Nv. rewrite (holder_right _ _ _ G o' v u I).
           destruct (Z.eqb_spec o o') as [Eo | No]; [subst o' | rewrite andb_false_r; reflexivity]. exfalso. apply Nv.
           exact (fst_unique _ _ _ _ (keys_once _ _ _ G) I Iw).
    + unfold set_pending, set_cell. constructor; cbn [table exited cells]; [apply B |].
      replace (idle (update (cells s) w _) (table s)) with (idle (cells s) (table s)); [apply B |].
      unfold idle. f_equal. f_equal. apply filter_ext. intros [k v]. unfold used, update. cbn [snd]. destruct (Nat.eqb_spec v w) as [-> | Nv]; reflexivity.
Qed.

Lemma idle_one_more : forall m t w c, NoDup (map snd t) -> idle (update m w c) t <= idle m t + 1.
Proof.
  intros m t w c. unfold idle. induction t as [| [k v] t IH]; intros N; [cbn; lia |]. cbn [map snd] in N. apply NoDup_cons_iff in N. destruct N as (N1 & N2).
  cbn [filter]. destruct (Nat.eq_dec v w) as [-> | Nv].
  - replace (filter (fun x => negb (used (update m w c) x)) t) with (filter (fun x => negb (used m x)) t).
    + destruct (negb (used (update m w c) (k, w))), (negb (used m (k, w))); cbn [length]; lia.
    + apply filter_ext_in. intros [a b] I. unfold used. cbn [snd]. rewrite update_other; [reflexivity |]. intros ->. apply N1. apply in_map_iff.
      exists (a, w). split; [reflexivity | exact I].
  - specialize (IH N2). replace (used (update m w c) (k, v)) with (used m (k, v)) by (unfold used; cbn [snd]; rewrite update_other by exact Nv; reflexivity).
    destruct (negb (used m (k, v))); cbn [length]; lia.
Qed.

Lemma exit_good : forall n h s t o, good n h s -> bounded s -> proper n h (Exit t o) ->
  exists s', step s (Exit t o) = Done s' /\ good n (Exit t o :: h) s' /\ bounded s'.
Proof.
  intros n h s t o G B (At & Ht). cbn [step].
  assert (P : pending s t = None).
  { destruct (pending s t) as [[o' w] |] eqn:E; [| reflexivity]. apply (pending_asks _ _ _ G) in E. destruct E as (_ & E). congruence. }
  rewrite P. destruct (get_wrap_find n h s o G B (ex_intro _ t Ht)) as (s1 & w & Gw & G1 & B1 & Iw & E1 & Ps). rewrite Gw. cbv zeta.
  pose proof (proj1 (holds_table _ _ _ G t o Ht)) as Lt.
  assert (W : weight h o t = 1) by (unfold weight, wants; rewrite Ht, At; reflexivity).
  assert (Wt : weight (Exit t o :: h) o t = 0).
  { unfold weight, wants. cbn [asks holds]. rewrite Nat.eqb_refl, Z.eqb_refl, At. reflexivity. }
  assert (Wo : forall o' u, u <> t -> weight (Exit t o :: h) o' u = weight h o' u).
  { intros o' u N. unfold weight, wants. cbn [asks holds]. destruct (Nat.eqb_spec t u); [congruence | reflexivity]. }
  assert (We : forall o', o' <> o -> weight (Exit t o :: h) o' t = weight h o' t).
  { intros o' N. unfold weight, wants. cbn [asks holds]. rewrite Nat.eqb_refl. replace (o =? o') with false by lia. reflexivity. }
  assert (Uo : users n (Exit t o :: h) o = users n h o - 1) by (rewrite (users_changed n h _ o t Lt (Wo o)), Wt, W; lia).
  assert (Ue : forall o', o' <> o -> users n (Exit t o :: h) o' = users n h o') by (intros o' N; rewrite (users_changed n h _ o' t Lt (Wo o')), (We o' N); lia).
  assert (Up : 0 <= users n (Exit t o :: h) o).
  { apply total_bounds. intros u Lu. destruct (Nat.eq_dec u t) as [-> | Nu]; [lia |]. rewrite (Wo o u Nu). exact (weight_bounds n h s o u G). }
  pose proof (refs_right _ _ _ G1 o w Iw) as Rw. replace (refs (cells s1 w) <=? 0) with false by lia.
  rewrite (proj2 (holder_right _ _ _ G1 o w t Iw) Ht), Nat.eqb_refl.
  assert (Ex : exists e1, (if refs (cells s1 w) - 1 =? 0 then plus_one (exited s1) else Some (exited s1)) = Some e1
               /\ exited s1 <= e1 <= 10 /\ (refs (cells s1 w) - 1 = 0 -> e1 = exited s1 + 1)).
  { destruct (refs (cells s1 w) - 1 =? 0) eqn:E.
    - exists (exited s1 + 1). unfold plus_one. change (tmax I32) with 2147483647. replace (exited s1 <? 2147483647) with true by lia. split; [reflexivity | lia].
    - exists (exited s1). split; [reflexivity |]. pose proof (exited_bounds _ B1). lia. }
  destruct Ex as (e1 & Ee & Le & Lz). rewrite Ee. eexists. split; [reflexivity |].
  split.
  - unfold set_exited, set_cell. constructor; cbn [table exited mutexes cells fresh pending].
    + exact (keys_once _ _ _ G1).
    + exact (values_once _ _ _ G1).
    + exact (pool_sound _ _ _ G1).
    + exact (pool_short _ _ _ G1).
    + exact (pool_table _ _ _ G1).
    + exact (pool_old _ _ _ G1).
    + assert (Aw : In w (acquired (mutexes s1))) by (apply (pool_table _ _ _ G1); apply in_map_iff; exists (o, w); split; [reflexivity | exact Iw]).
      intros v I. rewrite update_other; [exact (free_clean _ _ _ G1 v I) |]. intros ->. destruct I as [I | I].
      * exact (proj2 (pool_sound _ _ _ G1) w Aw I).
      * pose proof (pool_old _ _ _ G1 w (or_introl Aw)). lia.
    + intros u o' v E. cbn [asks]. exact (pending_asks _ _ _ G1 u o' v E).
    + intros u o' A. cbn [asks] in A. exact (asks_pending _ _ _ G1 u o' A).
    + intros u o' A. cbn [asks] in A. cbn [holds]. destruct (asks_number _ _ _ G1 u o' A) as (L & H). split; [exact L |].
      destruct (Nat.eqb t u && (o =? o')); [reflexivity | exact H].
    + intros u o' H. cbn [holds] in H. destruct (Nat.eqb t u && (o =? o')); [discriminate |]. exact (holds_table _ _ _ G1 u o' H).
    + intros o' v I. destruct (Nat.eq_dec v w) as [-> | Nv].
      * rewrite update_same. cbn [refs]. rewrite (snd_unique _ o' o w (values_once _ _ _ G1) I Iw). rewrite Uo. lia.
      * rewrite update_other by exact Nv. rewrite (refs_right _ _ _ G1 o' v I). symmetry. apply Ue. intros ->.
        apply Nv. exact (fst_unique _ _ _ _ (keys_once _ _ _ G1) I Iw).
    + intros o' v u I. cbn [holds]. destruct (Nat.eq_dec v w) as [-> | Nv].
      * rewrite update_same. cbn [holder]. rewrite (snd_unique _ o' o w (values_once _ _ _ G1) I Iw), Z.eqb_refl, andb_true_r.
        destruct (Nat.eqb_spec t u) as [<- | Nu]; [split; discriminate |]. split; [discriminate |]. intros H. exfalso. apply Nu.
        apply (holder_right _ _ _ G1 o w u Iw) in H. apply (holder_right _ _ _ G1 o w t Iw) in Ht. congruence.
      * rewrite update_other by exact Nv. rewrite (holder_right _ _ _ G1 o' v u I).
        destruct (Z.eqb_spec o o') as [Eo | No]; [subst o' | rewrite andb_false_r; reflexivity]. exfalso. apply Nv.
        exact (fst_unique _ _ _ _ (keys_once _ _ _ G1) I Iw).
  - unfold set_exited, set_cell. pose proof (exited_bounds _ B1) as Eb. pose proof (idle_bounds _ B1) as Ib.
    constructor; cbn [table exited cells]; [lia |].
    destruct (Z.eq_dec (refs (cells s1 w) - 1) 0) as [Z0 | Nz].
    + pose proof (idle_one_more (cells s1) (table s1) w (Wrap None (refs (cells s1 w) - 1)) (values_once _ _ _ G1)). specialize (Lz Z0). lia.
    + assert (X : idle (update (cells s1) w (Wrap None (refs (cells s1 w) - 1))) (table s1) <= idle (cells s1) (table s1)).
      { unfold idle. apply Nat2Z.inj_le. apply filter_fewer. intros [k v]. unfold used, update. cbn [snd].
        destruct (Nat.eqb_spec v w) as [-> | Nv]; [cbn [refs]; replace (refs (cells s1 w) - 1 =? 0) with false by lia; discriminate | tauto]. }
      lia.
Qed.

(** ** The theorems *)

Lemma runs_good : forall n h s, Z.of_nat n <= tmax I32 -> runs n h s -> good n h s /\ bounded s.
Proof.
  intros n h s Ln R. induction R as [| h s e s' R IH Pr St]; [apply start_good |]. destruct IH as (G & B).
  destruct e as [t o | t o | t o].
  - destruct (enter_good n h s t o Ln G B Pr) as (s2 & E & X). rewrite E in St. injection St as <-. exact X.
  - destruct (lock_good n h s t o G B Pr) as [(s2 & E & X1 & X2 & _) | (t' & _ & _ & E)]; rewrite E in St; [| discriminate]. injection St as <-. split; assumption.
  - destruct (exit_good n h s t o G B Pr) as (s2 & E & X). rewrite E in St. injection St as <-. exact X.
Qed.

Lemma exclusion : forall n h s t1 t2 o, Z.of_nat n <= tmax I32 -> runs n h s -> holds h t1 o = true -> holds h t2 o = true -> t1 = t2.
Proof.
  intros n h s t1 t2 o Ln R H1 H2. destruct (runs_good n h s Ln R) as (G & _).
  destruct (holds_table _ _ _ G t1 o H1) as (_ & I). apply in_map_iff in I. destruct I as ([o' w] & E & I). cbn [fst] in E. subst o'.
  apply (holder_right _ _ _ G o w t1 I) in H1. apply (holder_right _ _ _ G o w t2 I) in H2. congruence.
Qed.

Lemma calls_succeed : forall n h s e, Z.of_nat n <= tmax I32 -> runs n h s -> proper n h e ->
  (exists s', step s e = Done s') \/ (exists t t' o, e = Lock t o /\ t' <> t /\ holds h t' o = true /\ step s e = Blocked).
Proof.
  intros n h s e Ln R Pr. destruct (runs_good n h s Ln R) as (G & B). destruct e as [t o | t o | t o].
  - left. destruct (enter_good n h s t o Ln G B Pr) as (s2 & E & _). eauto.
  - destruct (lock_good n h s t o G B Pr) as [(s2 & E & _) | (t' & N & H & E)]; [left; eauto |]. right. exists t, t', o. repeat split; assumption.
  - left. destruct (exit_good n h s t o G B Pr) as (s2 & E & _). eauto.
Qed.

Lemma classic_use : forall n h o, users n h o <> 0 -> exists t, holds h t o = true \/ asks h t = Some o.
Proof.
  intros n h o. unfold users. induction n as [| n IH]; intros N; cbn [total] in N; [congruence |].
  destruct (holds h n o) eqn:E; [exists n; left; exact E |]. destruct (wants h n o) eqn:W.
  - exists n. right. unfold wants in W. destruct (asks h n) as [o' |]; [| discriminate]. apply Z.eqb_eq in W. congruence.
  - apply IH. unfold weight in N at 2. rewrite E, W in N. cbn [flag] in N. lia.
Qed.

Lemma table_bounded : forall n h s objs, Z.of_nat n <= tmax I32 -> runs n h s -> (forall o, in_use h o -> In o objs) ->
  (length (table s) <= length objs + 10)%nat /\ (length (released (mutexes s)) <= 12)%nat.
Proof.
  intros n h s objs Ln R H. destruct (runs_good n h s Ln R) as (G & B). split; [| pose proof (pool_short _ _ _ G); lia].
  pose proof (idle_bounds _ B) as Ib. pose proof (exited_bounds _ B) as Eb. unfold idle in Ib.
  assert (Sp : length (table s) = (length (filter (used (cells s)) (table s)) + length (filter (fun x => negb (used (cells s) x)) (table s)))%nat).
  { generalize (table s). intros l. induction l as [| x l IH]; [reflexivity |]. cbn [filter]. destruct (used (cells s) x); cbn [negb length]; lia. }
  assert (Us : (length (filter (used (cells s)) (table s)) <= length objs)%nat).
  { rewrite <- (map_length fst). apply NoDup_incl_length; [apply nodup_map_filter; exact (keys_once _ _ _ G) |].
    intros o I. apply in_map_iff in I. destruct I as ([o' w] & E & I). cbn [fst] in E. subst o'. apply filter_used_in in I. destruct I as (I & Nz). cbn [snd] in Nz.
    rewrite (refs_right _ _ _ G o w I) in Nz. apply H.
    destruct (classic_use n h o Nz) as (t & X). exists t. exact X. }
  lia.
Qed.
