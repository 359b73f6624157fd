(** Proofs about the array heap and the small-object allocator. *)

From Coq Require Import ZArith List Bool Arith Lia.
Import ListNotations.
From Verif Require Import CppInt CommonModel CommonProofs HeapModel HeapSpec.
Open Scope Z_scope.

Ltac Zify.zify_post_hook ::= Z.div_mod_to_equations.

Lemma separate_cons : forall a l, all_separate l -> (forall x, In x l -> separate a x) -> all_separate (a :: l).
Proof.
  intros a l S H i j x y N Ei Ej. destruct i as [|i]; destruct j as [|j]; cbn [nth_error] in *; [lia| | |].
  - inversion Ei; subst. apply H. eapply nth_error_In. exact Ej.
  - inversion Ej; subst. intros z (E & A & B). refine (H x (nth_error_In _ _ Ei) z _). split; [congruence|]. tauto.
  - apply (S i j); [lia|assumption|assumption].
Qed.

Lemma inside_more : forall n bufs b, inside bufs b -> inside (n :: bufs) b.
Proof.
  intros n bufs b (len & E & R). exists len. split; [|exact R]. cbn [rev]. rewrite nth_error_app1; [exact E|].
  apply nth_error_Some. congruence.
Qed.

Lemma nth_new : forall n (bufs : list Z), nth_error (rev (n :: bufs)) (Z.to_nat (Z.of_nat (length bufs))) = Some n.
Proof. intros n bufs. cbn [rev]. rewrite nth_error_app2; rewrite rev_length, Nat2Z.id; [rewrite Nat.sub_diag; reflexivity|lia]. Qed.

Lemma nth_more : forall n (bufs : list Z) k x, nth_error (rev bufs) k = Some x -> nth_error (rev (n :: bufs)) k = Some x.
Proof. intros n bufs k x E. cbn [rev]. rewrite nth_error_app1; [exact E|]. apply nth_error_Some. congruence. Qed.

Lemma inside_range : forall bufs b, inside bufs b -> 0 <= b_buf b < Z.of_nat (length bufs).
Proof.
  intros bufs b (len & E & R & _). assert (Z.to_nat (b_buf b) < length (rev bufs))%nat by (apply nth_error_Some; congruence).
  rewrite rev_length in H. lia.
Qed.

(** ** The array heap *)

Definition ainv (h : aheap) (got : list blk) : Prop :=
  Forall (inside (a_bufs h)) got /\ all_separate got /\
  match a_cur h with
  | None => True
  | Some (b, c, s) => 0 <= b < Z.of_nat (length (a_bufs h)) /\ nth_error (rev (a_bufs h)) (Z.to_nat b) = Some s /\ 0 <= c <= s /\
      forall x, In x got -> b_buf x = b -> b_off x + b_size x <= c
  end.

Lemma ainv_acquire : forall rs n h got, 0 < rs -> 0 <= n -> ainv h got ->
  let '(h1, b) := acquire rs n h in ainv h1 (b :: got) /\ b_size b = n.
Proof.
  intros rs n h got Hrs Hn (I & S & C). unfold acquire. destruct h as [bufs cur]. cbn [a_bufs a_cur] in *.
  set (need := match cur with None => true | Some (_, c, s) => s - c <? n end).
  destruct (need && (rs <=? n)) eqn:B.
  - apply andb_true_iff in B. destruct B as [B1 B2]. apply Z.leb_le in B2. split; [|reflexivity].
    split; [|split]; cbn [a_bufs a_cur].
    + constructor.
      * exists n. cbn [b_buf b_off b_size]. rewrite nth_new. repeat split; lia.
      * eapply Forall_impl; [|exact I]. apply inside_more.
    + apply separate_cons; [exact S|]. intros x Hx y (E & _). cbn [b_buf] in E. rewrite Forall_forall in I.
      pose proof (inside_range _ _ (I x Hx)). lia.
    + destruct cur as [[[b c] s]|]; [|exact Logic.I]. destruct C as (C1 & C2 & C3 & C4). split; [cbn [length]; lia|].
      split; [apply nth_more; exact C2|]. split; [exact C3|]. intros x [<-|Hx] E; [cbn [b_buf] in E; lia|]. apply C4; assumption.
  - destruct need eqn:Nd.
    + cbn [andb] in B. apply Z.leb_gt in B. split; [|reflexivity]. split; [|split]; cbn [a_bufs a_cur].
      * constructor; [exists rs; cbn [b_buf b_off b_size]; rewrite nth_new; repeat split; lia|].
        eapply Forall_impl; [|exact I]. apply inside_more.
      * apply separate_cons; [exact S|]. intros x Hx y (E & _). cbn [b_buf] in E. rewrite Forall_forall in I.
        pose proof (inside_range _ _ (I x Hx)). lia.
      * split; [cbn [length]; lia|]. split; [apply nth_new|]. split; [lia|].
        intros x [<-|Hx] E; [cbn; lia|]. rewrite Forall_forall in I. pose proof (inside_range _ _ (I x Hx)). lia.
    + destruct cur as [[[b c] s]|]; [|discriminate]. unfold need in Nd. apply Z.ltb_ge in Nd. destruct C as (C1 & C2 & C3 & C4).
      split; [|reflexivity]. split; [|split]; cbn [a_bufs a_cur].
      * constructor; [|exact I]. exists s. cbn [b_buf b_off b_size]. repeat split; try lia. exact C2.
      * apply separate_cons; [exact S|]. intros x Hx y (E & X & Y). cbn [b_buf b_off b_size] in *. pose proof (C4 x Hx (eq_sym E)). lia.
      * split; [lia|]. split; [exact C2|]. split; [lia|]. intros x [<-|Hx] E; [cbn; lia|]. pose proof (C4 x Hx E). lia.
Qed.

Lemma acquire_all_ok : forall rs ns h got, 0 < rs -> Forall (fun n => 0 <= n) ns -> ainv h got ->
  let '(h1, bs) := acquire_all rs ns h got in ainv h1 bs /\ map b_size bs = rev ns ++ map b_size got.
Proof.
  induction ns as [|n ns IH]; intros h got Hrs F I; cbn [acquire_all]; [split; [exact I|reflexivity]|].
  inversion F; subst. pose proof (ainv_acquire rs n h got Hrs ltac:(assumption) I) as A. destruct (acquire rs n h) as [h1 b].
  destruct A as [A E]. specialize (IH h1 (b :: got) Hrs ltac:(assumption) A). destruct (acquire_all rs ns h1 (b :: got)) as [h2 bs].
  destruct IH as [I2 E2]. split; [exact I2|]. rewrite E2. cbn [map rev]. rewrite E, <- app_assoc. reflexivity.
Qed.

Lemma acquire_spec : forall rs ns h bs, 0 < rs -> Forall (fun n => 0 <= n) ns -> acquire_all rs ns aempty [] = (h, bs) ->
  map b_size bs = rev ns /\ Forall (inside (a_bufs h)) bs /\ all_separate bs.
Proof.
  intros rs ns h bs Hrs F E. pose proof (acquire_all_ok rs ns aempty [] Hrs F) as A. rewrite E in A.
  destruct A as [(I & S & _) M].
  - split; [constructor|]. split; [|exact Logic.I]. intros i j a b _ X. destruct i; discriminate.
  - rewrite app_nil_r in M. auto.
Qed.

(** ** xheap_t *)

Definition unit (k : nat) : Z := 4 * Z.of_nat (S k).

Record inv (own : Z -> option nat) (h : xheap) (got : list (blk * bool)) : Prop := {
  i_small : forall k b oc, In (b, oc) (c_rows (x_colls h k)) ->
     own b = Some k /\ nth_error (rev (x_bufs h)) (Z.to_nat b) = Some 1024 /\ 0 <= b < Z.of_nat (length (x_bufs h)) /\ 0 <= oc <= capacity k /\ (k < 32)%nat;
  i_nodup : forall k, NoDup (map fst (c_rows (x_colls h k)));
  i_large : forall b, In b (large_objs h ++ large_bytes h) -> own b = None /\ 0 <= b < Z.of_nat (length (x_bufs h));
  i_large_nodup : NoDup (large_objs h ++ large_bytes h);
  i_all : forall b, 0 <= b < Z.of_nat (length (x_bufs h)) ->
     match own b with None => In b (large_objs h ++ large_bytes h) | Some k => In b (map fst (c_rows (x_colls h k))) end;
  i_blk : forall x o, In (x, o) got -> inside (x_bufs h) x /\
     match own (b_buf x) with
     | None => b_off x = 0 /\ In (b_buf x) (if o then large_objs h else large_bytes h)
     | Some k => exists s, b_off x = s * unit k /\ 0 <= s < capacity k /\ b_size x <= unit k
     end;
  i_objs : forall k b oc s, In (b, oc) (c_rows (x_colls h k)) -> 0 <= s ->
     ((exists x, In (x, true) got /\ b_buf x = b /\ b_off x = s * unit k) <-> s < oc);
  i_large_objs : forall b, In b (large_objs h) -> exists x, In (x, true) got /\ b_buf x = b /\ b_off x = 0;
  i_head : forall k b oc rest, c_rows (x_colls h k) = (b, oc) :: rest ->
     0 <= c_bytes (x_colls h k) /\ oc + c_bytes (x_colls h k) <= capacity k /\
     forall x, In (x, false) got -> b_buf x = b -> exists s, b_off x = s * unit k /\ capacity k - c_bytes (x_colls h k) <= s;
  i_sep : all_separate (map fst got)
}.

Lemma capacity_fits : forall k, (k < 32)%nat -> 1 <= capacity k /\ capacity k * unit k <= 1024 /\ 0 < unit k.
Proof.
  intros k H. unfold capacity, unit.
  do 32 (destruct k as [|k]; [vm_compute; repeat split; discriminate|]). lia.
Qed.

Definition put (k : nat) (rc : coll) (f : nat -> coll) : nat -> coll := fun j => if (j =? k)%nat then rc else f j.

(** A fresh row. *)
Lemma inv_row : forall own h got k, inv own h got -> (k < 32)%nat ->
  inv (fun b => if b =? Z.of_nat (length (x_bufs h)) then Some k else own b)
      (XHeap (1024 :: x_bufs h) (put k (Coll ((Z.of_nat (length (x_bufs h)), 0) :: c_rows (x_colls h k)) 0) (x_colls h))
        (large_objs h) (large_bytes h)) got.
Proof.
  intros own h got k I K. destruct (capacity_fits k K) as (Cp & Cu & Up).
  set (id := Z.of_nat (length (x_bufs h))) in *.
  assert (Old : forall j b oc, In (b, oc) (c_rows (x_colls h j)) -> b <> id).
  { intros j b oc H. destruct (i_small _ _ _ I j b oc H) as (_ & _ & R & _). unfold id. lia. }
  assert (OldB : forall x o, In (x, o) got -> b_buf x <> id).
  { intros x o H. destruct (i_blk _ _ _ I x o H) as (R & _). apply inside_range in R. unfold id. lia. }
  assert (OldL : forall b, In b (large_objs h ++ large_bytes h) -> b <> id).
  { intros b H. destruct (i_large _ _ _ I b H) as (_ & R). unfold id. lia. }
  assert (Rows : forall j b oc, In (b, oc) (c_rows (put k (Coll ((id, 0) :: c_rows (x_colls h k)) 0) (x_colls h) j)) ->
     (j = k /\ b = id /\ oc = 0) \/ In (b, oc) (c_rows (x_colls h j))).
  { intros j b oc H. unfold put in H. destruct (Nat.eqb_spec j k) as [->|N]; [|auto]. cbn [c_rows In] in H. destruct H as [H|H]; [|auto].
    inversion H; subst; auto. }
  constructor; cbn [x_bufs x_colls large_objs large_bytes].
  - intros j b oc H. apply Rows in H. destruct H as [(-> & -> & ->)|H].
    + rewrite Z.eqb_refl. split; [reflexivity|]. split; [apply nth_new|]. split; [unfold id; cbn [length]; lia|]. split; [lia|exact K].
    + pose proof (Old _ _ _ H). destruct (Z.eqb_spec b id); [contradiction|]. destruct (i_small _ _ _ I j b oc H) as (A & B & C & D & E).
      split; [exact A|]. split; [apply nth_more; exact B|]. split; [cbn [length]; lia|]. split; assumption.
  - intro j. unfold put. destruct (Nat.eqb_spec j k) as [->|N]; [|apply (i_nodup _ _ _ I)]. cbn [c_rows map fst]. constructor; [|apply (i_nodup _ _ _ I)].
    intro H. apply in_map_iff in H. destruct H as ([b oc] & E & H). apply (Old _ _ _ H). exact E.
  - intros b H. pose proof (OldL b H). destruct (Z.eqb_spec b id); [contradiction|]. destruct (i_large _ _ _ I b H). split; [assumption|]. cbn [length]. lia.
  - apply (i_large_nodup _ _ _ I).
  - intros b H. destruct (Z.eqb_spec b id) as [->|N].
    + unfold put. rewrite Nat.eqb_refl. left. reflexivity.
    + assert (R : 0 <= b < Z.of_nat (length (x_bufs h))) by (unfold id in N; cbn [length] in H; lia).
      pose proof (i_all _ _ _ I b R) as A. destruct (own b) as [j|]; [|exact A]. unfold put. destruct (Nat.eqb_spec j k) as [->|Nj]; [right; exact A|exact A].
  - intros x o H. pose proof (OldB x o H). destruct (Z.eqb_spec (b_buf x) id); [contradiction|]. destruct (i_blk _ _ _ I x o H) as (A & B).
    split; [apply inside_more; exact A|exact B].
  - intros j b oc s H Hs. apply Rows in H. destruct H as [(-> & -> & ->)|H]; [|apply (i_objs _ _ _ I j b oc s H Hs)].
    split; [|lia]. intros (x & X & E & _). exfalso. apply (OldB _ _ X). exact E.
  - apply (i_large_objs _ _ _ I).
  - intros j b oc rest H. unfold put in *. destruct (Nat.eqb_spec j k) as [->|N]; [|apply (i_head _ _ _ I j b oc rest H)].
    cbn [c_rows c_bytes] in *. inversion H; subst. split; [lia|]. split; [lia|]. intros x X E. exfalso. apply (OldB _ _ X). symmetry in E. symmetry. exact E.
  - apply (i_sep _ _ _ I).
Qed.

Lemma slot_separate : forall u a b sa sb, 0 < u -> b_off a = sa * u -> b_off b = sb * u -> b_size a <= u -> b_size b <= u -> sa <> sb -> separate a b.
Proof. intros u a b sa sb U Ea Eb La Lb N x (_ & X & Y). rewrite Ea in X. rewrite Eb in Y. nia. Qed.

(** An object or bytes in the current row. *)
Lemma inv_place : forall own h got k b oc older n (o : bool), inv own h got -> c_rows (x_colls h k) = (b, oc) :: older ->
  oc + c_bytes (x_colls h k) < capacity k -> 0 <= n <= unit k ->
  let s := if o then oc else capacity k - c_bytes (x_colls h k) - 1 in
  inv own (XHeap (x_bufs h)
      (put k (if o then Coll ((b, oc + 1) :: older) (c_bytes (x_colls h k)) else Coll ((b, oc) :: older) (c_bytes (x_colls h k) + 1)) (x_colls h))
      (large_objs h) (large_bytes h)) ((Blk b (s * unit k) n, o) :: got).
Proof.
  intros own h got k b oc older n o I R Room Hn s.
  assert (Hd : In (b, oc) (c_rows (x_colls h k))) by (rewrite R; left; reflexivity).
  destruct (i_small _ _ _ I k b oc Hd) as (Ow & Bf & Rg & Oc & K).
  destruct (capacity_fits k K) as (Cp & Cu & Up). destruct (i_head _ _ _ I k b oc older R) as (By & Sm & Bytes).
  set (by_ := c_bytes (x_colls h k)) in *. set (cap := capacity k) in *.
  assert (Hs : 0 <= s < cap) by (unfold s; destruct o; lia).
  assert (ND := i_nodup _ _ _ I k). rewrite R in ND. cbn [map fst] in ND. inversion ND as [|? ? NI ND']; subst.
  assert (Rows : forall j b' oc', In (b', oc') (c_rows (put k (if o then Coll ((b, oc + 1) :: older) by_ else Coll ((b, oc) :: older) (by_ + 1)) (x_colls h) j)) ->
     (j = k /\ b' = b /\ oc' = if o then oc + 1 else oc) \/ (In (b', oc') (c_rows (x_colls h j)) /\ b' <> b)).
  { intros j b' oc' H. unfold put in H. destruct (Nat.eqb_spec j k) as [->|N].
    - assert (H' : (b', oc') = (b, if o then oc + 1 else oc) \/ In (b', oc') older) by (destruct o; cbn [c_rows In] in H; destruct H as [H|H]; auto).
      destruct H' as [E|H']; [left; inversion E; auto|]. right. rewrite R. split; [right; exact H'|].
      intro; subst. apply NI. apply (in_map fst) in H'. exact H'.
    - right. split; [exact H|]. intro; subst. destruct (i_small _ _ _ I j b oc' H) as (Ow' & _). congruence. }
  assert (NewNot : forall x o', In (x, o') got -> b_buf x = b -> exists s', b_off x = s' * unit k /\ s' <> s /\ b_size x <= unit k).
  { intros x o' H E. destruct (i_blk _ _ _ I x o' H) as (_ & B). rewrite E, Ow in B. destruct B as (s' & E1 & E2 & E3). exists s'. split; [exact E1|]. split; [|exact E3].
    destruct o'.
    - assert (L : s' < oc). { apply (i_objs _ _ _ I k b oc s' Hd ltac:(lia)). exists x. auto. } unfold s. destruct o; lia.
    - destruct (Bytes x H E) as (s2 & E4 & L). assert (s2 = s') by nia. subst s2. unfold s. destruct o; lia. }
  constructor; cbn [x_bufs x_colls large_objs large_bytes].
  - intros j b' oc' H. apply Rows in H. destruct H as [(-> & -> & ->)|(H & _)]; [|apply (i_small _ _ _ I j b' oc' H)].
    split; [exact Ow|]. split; [exact Bf|]. split; [exact Rg|]. split; [destruct o; unfold cap in *; lia|exact K].
  - intro j. unfold put. destruct (Nat.eqb_spec j k) as [->|N]; [|apply (i_nodup _ _ _ I)]. destruct o; cbn [c_rows map fst]; constructor; assumption.
  - apply (i_large _ _ _ I).
  - apply (i_large_nodup _ _ _ I).
  - intros b' H. pose proof (i_all _ _ _ I b' H) as A. destruct (own b') as [j|]; [|exact A]. unfold put. destruct (Nat.eqb_spec j k) as [->|N]; [|exact A].
    rewrite R in A. destruct o; exact A.
  - intros x o' [E|H]; [|apply (i_blk _ _ _ I x o' H)]. inversion E; subst x o'. cbn [b_buf b_off b_size]. split.
    + exists 1024. cbn [b_buf b_off b_size]. split; [exact Bf|]. split; [lia|]. split; [nia|]. nia.
    + rewrite Ow. exists s. split; [reflexivity|]. split; [exact Hs|]. lia.
  - intros j b' oc' t H Ht. apply Rows in H. destruct H as [(-> & -> & ->)|(H & Nb)].
    + pose proof (i_objs _ _ _ I k b oc t Hd Ht) as Q. destruct o.
      * split.
        -- intros (x & [E|X] & E1 & E2).
           ++ inversion E; subst x. cbn [b_off] in E2. assert (t = s) by nia. unfold s in *. lia.
           ++ assert (t < oc) by (apply Q; exists x; auto). lia.
        -- intro L. destruct (Z.eq_dec t oc) as [->|Nt].
           ++ exists (Blk b (s * unit k) n). split; [left; reflexivity|]. split; reflexivity.
           ++ destruct (proj2 Q ltac:(lia)) as (x & X & E1 & E2). exists x. split; [right; exact X|]. auto.
      * rewrite <- Q. split; intros (x & X & E1 & E2); [|exists x; split; [right; exact X|auto]].
        destruct X as [E|X]; [inversion E|]. exists x. auto.
    + rewrite <- (i_objs _ _ _ I j b' oc' t H Ht). split; intros (x & X & E1 & E2); [|exists x; split; [right; exact X|auto]].
      destruct X as [E|X]; [inversion E; subst x; cbn in E1; congruence|]. exists x. auto.
  - intros b' H. destruct (i_large_objs _ _ _ I b' H) as (x & X & E). exists x. split; [right; exact X|exact E].
  - intros j b' oc' rest H. unfold put in *. destruct (Nat.eqb_spec j k) as [->|N].
    + destruct o; cbn [c_rows c_bytes] in *; inversion H; subst; (split; [lia|]); (split; [fold cap; lia|]).
      * intros x [E|X] Eb; [inversion E|]. destruct (Bytes x X Eb) as (s' & E1 & L). exists s'. fold cap. split; [exact E1|]. lia.
      * intros x [E|X] Eb.
        -- inversion E; subst x. cbn [b_off]. exists s. split; [reflexivity|]. fold cap. unfold s. lia.
        -- destruct (Bytes x X Eb) as (s' & E1 & L). exists s'. fold cap. split; [exact E1|]. lia.
    + destruct (i_head _ _ _ I j b' oc' rest H) as (A & B & C). split; [exact A|]. split; [exact B|].
      intros x [E|X] Eb; [|apply C; assumption]. inversion E; subst x. cbn [b_buf] in Eb. subst b'. exfalso.
      assert (Hj : In (b, oc') (c_rows (x_colls h j))) by (rewrite H; left; reflexivity).
      destruct (i_small _ _ _ I j b oc' Hj) as (Ow' & _). congruence.
  - cbn [map fst]. apply separate_cons; [apply (i_sep _ _ _ I)|]. intros x H. apply in_map_iff in H. destruct H as ([x' o'] & E & H). cbn [fst] in E. subst x'.
    destruct (Z.eq_dec (b_buf x) b) as [E|N].
    + destruct (NewNot x o' H E) as (s' & E1 & E2 & E3). eapply (slot_separate (unit k) _ _ s s'); cbn [b_off b_size]; try lia; try assumption; reflexivity.
    + intros y (E & _). cbn [b_buf] in E. congruence.
Qed.

(** A large block. *)
Lemma inv_large : forall own h got n len (o : bool), inv own h got -> 0 <= n <= len ->
  let id := Z.of_nat (length (x_bufs h)) in
  inv (fun b => if b =? id then None else own b)
      (XHeap (len :: x_bufs h) (x_colls h) (if o then id :: large_objs h else large_objs h) (if o then large_bytes h else id :: large_bytes h))
      ((Blk id 0 n, o) :: got).
Proof.
  intros own h got n len o I Hn id.
  assert (Old : forall j b oc, In (b, oc) (c_rows (x_colls h j)) -> b <> id).
  { intros j b oc H. destruct (i_small _ _ _ I j b oc H) as (_ & _ & R & _). unfold id. lia. }
  assert (OldB : forall x o, In (x, o) got -> b_buf x <> id).
  { intros x o' H. destruct (i_blk _ _ _ I x o' H) as (R & _). apply inside_range in R. unfold id. lia. }
  assert (OldL : forall b, In b (large_objs h ++ large_bytes h) -> b <> id).
  { intros b H. destruct (i_large _ _ _ I b H) as (_ & R). unfold id. lia. }
  assert (Lg : forall b, In b ((if o then id :: large_objs h else large_objs h) ++ (if o then large_bytes h else id :: large_bytes h)) <->
     b = id \/ In b (large_objs h ++ large_bytes h)).
  { intro b. rewrite !in_app_iff. destruct o; cbn [In]; intuition auto. }
  constructor; cbn [x_bufs x_colls large_objs large_bytes].
  - intros j b oc H. pose proof (Old _ _ _ H). destruct (Z.eqb_spec b id); [contradiction|]. destruct (i_small _ _ _ I j b oc H) as (A & B & C & D & E).
    split; [exact A|]. split; [apply nth_more; exact B|]. split; [cbn [length]; lia|]. split; assumption.
  - apply (i_nodup _ _ _ I).
  - intros b H. apply Lg in H. destruct H as [->|H]; [rewrite Z.eqb_refl; split; [reflexivity|]; unfold id; cbn [length]; lia|].
    pose proof (OldL b H). destruct (Z.eqb_spec b id); [contradiction|]. destruct (i_large _ _ _ I b H). split; [assumption|]. cbn [length]. lia.
  - destruct o.
    + cbn [app]. constructor; [intro H; apply (OldL _ H eq_refl)|apply (i_large_nodup _ _ _ I)].
    + apply NoDup_Add with (a := id) (l := large_objs h ++ large_bytes h); [apply Add_app|]. split; [apply (i_large_nodup _ _ _ I)|]. intro H. apply (OldL _ H eq_refl).
  - intros b H. destruct (Z.eqb_spec b id) as [->|N]; [apply Lg; auto|].
    assert (R : 0 <= b < Z.of_nat (length (x_bufs h))) by (unfold id in N; cbn [length] in H; lia).
    pose proof (i_all _ _ _ I b R) as A. destruct (own b) as [j|]; [exact A|]. apply Lg. auto.
  - intros x o' [E|H].
    + inversion E; subst x o'. cbn [b_buf b_off b_size]. rewrite Z.eqb_refl. split.
      * exists len. cbn [b_buf b_off b_size]. split; [apply nth_new|]. unfold id. lia.
      * split; [reflexivity|]. destruct o; left; reflexivity.
    + pose proof (OldB x o' H). destruct (Z.eqb_spec (b_buf x) id); [contradiction|]. destruct (i_blk _ _ _ I x o' H) as (A & B).
      split; [apply inside_more; exact A|]. destruct (own (b_buf x)); [exact B|]. destruct B as [B1 B2]. split; [exact B1|]. destruct o', o; try exact B2; right; exact B2.
  - intros j b oc s H Hs. rewrite <- (i_objs _ _ _ I j b oc s H Hs). split; intros (x & X & E1 & E2); [|exists x; split; [right; exact X|auto]].
    destruct X as [E|X]; [|exists x; auto]. inversion E; subst x. cbn [b_buf] in E1. exfalso. apply (Old _ _ _ H). symmetry. exact E1.
  - intros b H. destruct o.
    + destruct H as [<-|H]; [exists (Blk id 0 n); split; [left; reflexivity|split; reflexivity]|].
      destruct (i_large_objs _ _ _ I b H) as (x & X & E). exists x. split; [right; exact X|exact E].
    + destruct (i_large_objs _ _ _ I b H) as (x & X & E). exists x. split; [right; exact X|exact E].
  - intros j b oc rest H. destruct (i_head _ _ _ I j b oc rest H) as (A & B & C). split; [exact A|]. split; [exact B|].
    intros x [E|X] Eb; [|apply C; assumption]. inversion E; subst x. cbn [b_buf] in Eb. exfalso.
    apply (Old j b oc); [rewrite H; left; reflexivity|]. symmetry. exact Eb.
  - cbn [map fst]. apply separate_cons; [apply (i_sep _ _ _ I)|]. intros x H y (E & _). cbn [b_buf] in E.
    apply in_map_iff in H. destruct H as ([x' o'] & E' & H). cbn [fst] in E'. subst x'. apply (OldB _ _ H). symmetry. exact E.
Qed.

Lemma inv_ext : forall own h h' got, inv own h got -> x_bufs h' = x_bufs h -> large_objs h' = large_objs h -> large_bytes h' = large_bytes h ->
  (forall k, x_colls h' k = x_colls h k) -> inv own h' got.
Proof.
  intros own h h' got I A B C D. destruct I. constructor.
  - intros k b oc. rewrite D, A. apply i_small0.
  - intro k. rewrite D. apply i_nodup0.
  - intro b. rewrite A, B, C. apply i_large0.
  - rewrite B, C. assumption.
  - intros b. rewrite A, B, C. intro H. specialize (i_all0 b H). destruct (own b); [rewrite D|]; assumption.
  - intros x o H. rewrite A, B, C. apply i_blk0. exact H.
  - intros k b oc s. rewrite D. apply i_objs0.
  - intro b. rewrite B. apply i_large_objs0.
  - intros k b oc rest. rewrite D. apply i_head0.
  - assumption.
Qed.

Lemma align4 : forall n, 0 <= n < 2 ^ 64 - 4 -> alignf n 4 = 4 * ((n + 3) / 4).
Proof.
  intros n H. change 4 with (2 ^ 2) at 1. rewrite align_up.
  - change (2 ^ 2) with 4. replace (n + 4 - 1) with (n + 3) by lia. reflexivity.
  - lia.
  - lia.
  - change (2 ^ 2) with 4. change (modulus U64) with (2 ^ 64). lia.
Qed.

Lemma xalloc_inv : forall own h got n o, inv own h got -> 0 < n < 2 ^ 64 - 4 ->
  exists h1 b own1, xalloc n o h = Some (h1, b) /\ b_size b = n /\ inv own1 h1 ((b, o) :: got).
Proof.
  intros own h got n o I Hn. unfold xalloc. rewrite align4 by lia. set (ns := 4 * ((n + 3) / 4)).
  assert (Ns : n <= ns <= n + 3 /\ ns mod 4 = 0) by (unfold ns; lia). clearbody ns.
  destruct (Z.ltb_spec 128 ns) as [L|L].
  { do 3 eexists. split; [reflexivity|]. split; [reflexivity|]. apply (inv_large own h got n ns o I). lia. }
  destruct (Z.eqb_spec ns 0) as [E0|N0]; [lia|].
  set (k := Z.to_nat (ns / 4 - 1)). assert (K : (k < 32)%nat) by (unfold k; lia).
  assert (U : unit k = ns) by (unfold unit, k; lia). destruct (capacity_fits k K) as (Cp & Cu & Up).
  assert (Step : forall own' h', inv own' h' got -> x_bufs h' = x_bufs h' -> forall b oc older,
     c_rows (x_colls h' k) = (b, oc) :: older -> oc + c_bytes (x_colls h' k) < capacity k ->
     exists h1 bl own1,
     (let '(rc2, off) :=
        if o then (Coll ((b, oc + 1) :: older) (c_bytes (x_colls h' k)), oc * ns)
        else (Coll (c_rows (x_colls h' k)) (c_bytes (x_colls h' k) + 1), (capacity k - c_bytes (x_colls h' k) - 1) * ns) in
      Some (XHeap (x_bufs h') (fun j => if (j =? k)%nat then rc2 else x_colls h' j) (large_objs h') (large_bytes h'), Blk b off n))
     = Some (h1, bl) /\ b_size bl = n /\ inv own1 h1 ((bl, o) :: got)).
  { intros own' h' I' _ b oc older R Room.
    pose proof (inv_place own' h' got k b oc older n o I' R Room ltac:(lia)) as P. cbv zeta in P. rewrite R, U in *.
    destruct o; do 3 eexists; (split; [reflexivity|]); (split; [reflexivity|]); exact P. }
  assert (Fresh : forall tail, c_rows (x_colls h k) = tail ->
     exists h1 bl own1,
     (let '(rc2, off) :=
        if o then (Coll ((Z.of_nat (length (x_bufs h)), 0 + 1) :: tail) 0, 0 * ns)
        else (Coll ((Z.of_nat (length (x_bufs h)), 0) :: tail) (0 + 1), (capacity k - 0 - 1) * ns) in
      Some (XHeap (1024 :: x_bufs h) (fun j => if (j =? k)%nat then rc2 else x_colls h j) (large_objs h) (large_bytes h),
            Blk (Z.of_nat (length (x_bufs h))) off n))
     = Some (h1, bl) /\ b_size bl = n /\ inv own1 h1 ((bl, o) :: got)).
  { intros tail T. pose proof (inv_row own h got k I K) as I2. rewrite T in I2.
    set (h2 := XHeap _ _ _ _) in I2.
    destruct (Step _ h2 I2 eq_refl (Z.of_nat (length (x_bufs h))) 0 tail) as (h1 & bl & own1 & E & S & V).
    - unfold h2, put. cbn [x_colls]. rewrite Nat.eqb_refl. reflexivity.
    - unfold h2, put. cbn [x_colls]. rewrite Nat.eqb_refl. cbn [c_bytes]. lia.
    - unfold h2, put in E. cbn [x_colls x_bufs large_objs large_bytes] in E. rewrite Nat.eqb_refl in E. cbn [c_bytes c_rows] in E.
      destruct o; inversion E; subst h1 bl; do 3 eexists; (split; [reflexivity|]); (split; [reflexivity|]);
        (eapply inv_ext; [exact V|reflexivity|reflexivity|reflexivity|]); intro j; cbn [x_colls]; destruct (j =? k)%nat; reflexivity. }
  destruct (c_rows (x_colls h k)) as [|[b oc] older] eqn:R.
  - cbn [c_rows c_bytes]. apply (Fresh [] eq_refl).
  - destruct (Z.leb_spec (capacity k) (c_bytes (x_colls h k) + oc)) as [Lc|Lc].
    + cbn [c_rows c_bytes]. apply (Fresh _ eq_refl).
    + rewrite R. destruct (Step own h I eq_refl b oc older R ltac:(lia)) as (h1 & bl & own1 & E & S & V). exists h1, bl, own1. rewrite R in E. auto.
Qed.

Lemma inv_empty : inv (fun _ => None) xempty [].
Proof.
  constructor; cbn.
  - intros k b oc [].
  - intro k. constructor.
  - intros b [].
  - constructor.
  - intros b H. lia.
  - intros x o [].
  - intros k b oc s [].
  - intros b [].
  - intros k b oc rest H. discriminate.
  - intros i j a b _ X. destruct i; discriminate.
Qed.

Lemma xalloc_all_inv : forall rq own h got, inv own h got -> Forall (fun r => 0 < fst r < 2 ^ 64 - 4) rq ->
  exists h1 bs own1, xalloc_all rq h got = Some (h1, bs) /\ inv own1 h1 bs /\
    map (fun x => (b_size (fst x), snd x)) bs = rev rq ++ map (fun x => (b_size (fst x), snd x)) got.
Proof.
  induction rq as [|[n o] rq IH]; intros own h got I F; cbn [xalloc_all]; [exists h, got, own; auto|].
  inversion F; subst. cbn [fst] in *. destruct (xalloc_inv own h got n o I ltac:(assumption)) as (h1 & b & own1 & E & Sz & I1). rewrite E.
  destruct (IH own1 h1 ((b, o) :: got) I1 ltac:(assumption)) as (h2 & bs & own2 & E2 & I2 & M). exists h2, bs, own2. split; [exact E2|]. split; [exact I2|].
  rewrite M. cbn [map fst snd rev]. rewrite Sz, <- app_assoc. reflexivity.
Qed.

Lemma destroyed_iff : forall own h got, inv own h got -> forall b o,
  In (b, o) (destroyed h) <-> exists x, In (x, true) got /\ b_buf x = b /\ b_off x = o.
Proof.
  intros own h got I b o. unfold destroyed. rewrite in_app_iff, in_map_iff, in_flat_map. split.
  - intros [(b' & E & H)|(k & Hk & H)].
    + inversion E; subst. apply (i_large_objs _ _ _ I b H).
    + apply in_flat_map in H. destruct H as ([b' oc] & Hr & H). apply in_map_iff in H. destruct H as (j & E & Hj). cbn [fst snd] in *. inversion E; subst.
      apply in_seq in Hj. destruct (i_small _ _ _ I k b oc Hr) as (_ & _ & _ & R & _).
      destruct (proj2 (i_objs _ _ _ I k b oc (Z.of_nat j) Hr ltac:(lia)) ltac:(lia)) as (x & X & E1 & E2).
      exists x. split; [exact X|]. split; [exact E1|]. exact E2.
  - intros (x & X & <- & <-). destruct (i_blk _ _ _ I x true X) as (Ins & B). pose proof (i_all _ _ _ I _ (inside_range _ _ Ins)) as A.
    destruct (own (b_buf x)) as [k|] eqn:Ow.
    + right. apply in_map_iff in A. destruct A as ([b oc] & E & Hr). cbn [fst] in E. subst b.
      destruct (i_small _ _ _ I k _ oc Hr) as (_ & _ & _ & R & K). exists k. split; [apply in_seq; lia|]. apply in_flat_map. exists (b_buf x, oc). split; [exact Hr|].
      destruct B as (s & E1 & E2 & _). apply in_map_iff. exists (Z.to_nat s). cbn [fst snd]. split.
      * f_equal. rewrite E1. unfold unit. rewrite Z2Nat.id by lia. reflexivity.
      * apply in_seq. assert (s < oc) by (apply (i_objs _ _ _ I k _ oc s Hr ltac:(lia)); exists x; auto). lia.
    + left. destruct B as [B1 B2]. exists (b_buf x). split; [rewrite B1; reflexivity|exact B2].
Qed.

Lemma nodup_flat_map : forall {A B} (f : A -> list B) l, NoDup l -> (forall x, In x l -> NoDup (f x)) ->
  (forall x y b, In x l -> In y l -> In b (f x) -> In b (f y) -> x = y) -> NoDup (flat_map f l).
Proof.
  intros A B f l ND. induction ND as [|x l NI ND IH]; intros Hf Hd; cbn [flat_map]; [constructor|].
  assert (D : forall b, In b (f x) -> ~ In b (flat_map f l)).
  { intros b Hb Hc. apply in_flat_map in Hc. destruct Hc as (y & Hy & Hb'). assert (x = y) by (eapply Hd; [left; reflexivity|right; exact Hy|exact Hb|exact Hb']). subst. contradiction. }
  assert (N1 : NoDup (f x)) by (apply Hf; left; reflexivity).
  assert (N2 : NoDup (flat_map f l)) by (apply IH; [intros; apply Hf; right; assumption|intros; eapply Hd; [right|right| |]; eassumption]).
  revert D. induction N1 as [|b t Nb Nt IHt]; intro D; cbn [app]; [exact N2|]. constructor.
  - rewrite in_app_iff. intros [H|H]; [contradiction|]. apply (D b (or_introl eq_refl) H).
  - apply IHt. intros c Hc. apply D. right. exact Hc.
Qed.

Lemma nodup_app : forall {A} (a b : list A), NoDup a -> NoDup b -> (forall x, In x a -> ~ In x b) -> NoDup (a ++ b).
Proof.
  intros A a b Na Nb D. induction Na as [|x a Nx Na IH]; [exact Nb|]. cbn [app]. constructor.
  - rewrite in_app_iff. intros [H|H]; [contradiction|]. apply (D x (or_introl eq_refl) H).
  - apply IH. intros y Hy. apply D. right. exact Hy.
Qed.

Lemma app_nodup_l : forall {A} (a b : list A), NoDup (a ++ b) -> NoDup a /\ NoDup b /\ (forall x, In x a -> ~ In x b).
Proof.
  intros A a b. induction a as [|x a IH]; intro N; cbn [app] in N; [split; [constructor|]; split; [exact N|intros x []]|].
  inversion N; subst. destruct (IH H2) as (N1 & N2 & D). split; [constructor; [|exact N1]; intro H; apply H1; apply in_app_iff; auto|].
  split; [exact N2|]. intros y [<-|Hy]; [intro H; apply H1; apply in_app_iff; auto|apply D; exact Hy].
Qed.

Lemma destroyed_nodup : forall own h got, inv own h got -> NoDup (destroyed h).
Proof.
  intros own h got I. unfold destroyed.
  destruct (app_nodup_l _ _ (i_large_nodup _ _ _ I)) as (N1 & N2 & D).
  apply nodup_app.
  - apply FinFun.Injective_map_NoDup; [|exact N1]. intros x y E. inversion E. reflexivity.
  - apply nodup_flat_map; [apply seq_NoDup| |].
    + intros k _. assert (ND := i_nodup _ _ _ I k). apply nodup_flat_map.
      * eapply NoDup_map_inv. exact ND.
      * intros [b oc] _. apply FinFun.Injective_map_NoDup; [|apply seq_NoDup]. intros x y E. inversion E as [E']. change (Z.pos (Pos.of_succ_nat k)) with (Z.of_nat (S k)) in E'. nia.
      * intros [b oc] [b' oc'] [c o] H H' E E'. apply in_map_iff in E, E'. destruct E as (j & E & _). destruct E' as (j' & E' & _). cbn [fst] in *.
        inversion E; inversion E'; subst. clear - ND H H'. induction (c_rows (x_colls h k)) as [|[b oc2] t IH]; [contradiction|].
        cbn [map fst] in ND. inversion ND; subst. destruct H as [H|H]; destruct H' as [H'|H'].
        -- congruence.
        -- inversion H; subst. exfalso. apply H2. apply (in_map fst) in H'. exact H'.
        -- inversion H'; subst. exfalso. apply H2. apply (in_map fst) in H. exact H.
        -- apply IH; assumption.
    + intros k k' [c o] _ _ H H'. apply in_flat_map in H, H'. destruct H as ([b oc] & Hr & H). destruct H' as ([b' oc'] & Hr' & H').
      apply in_map_iff in H, H'. destruct H as (j & E & _). destruct H' as (j' & E' & _). cbn [fst] in *. inversion E; inversion E'; subst.
      destruct (i_small _ _ _ I k _ _ Hr) as (O1 & _). destruct (i_small _ _ _ I k' _ _ Hr') as (O2 & _). congruence.
  - intros [c o] H H'. apply in_map_iff in H. destruct H as (b & E & H). inversion E; subst. apply in_flat_map in H'. destruct H' as (k & _ & H').
    apply in_flat_map in H'. destruct H' as ([b oc] & Hr & H'). apply in_map_iff in H'. destruct H' as (j & E' & _). cbn [fst] in E'. inversion E'; subst.
    destruct (i_small _ _ _ I k _ _ Hr) as (O1 & _). destruct (i_large _ _ _ I c) as (O2 & _); [apply in_app_iff; auto|]. congruence.
Qed.

Lemma freed_ok : forall own h got, inv own h got -> NoDup (freed h) /\ forall b, In b (freed h) <-> 0 <= b < Z.of_nat (length (x_bufs h)).
Proof.
  intros own h got I. unfold freed. destruct (app_nodup_l _ _ (i_large_nodup _ _ _ I)) as (N1 & N2 & D).
  assert (Rows : forall b, In b (flat_map (fun k => map fst (c_rows (x_colls h k))) (seq 0 32)) -> exists k, own b = Some k /\ 0 <= b < Z.of_nat (length (x_bufs h))).
  { intros b H. apply in_flat_map in H. destruct H as (k & _ & H). apply in_map_iff in H. destruct H as ([b' oc] & E & Hr). cbn in E. subst b'.
    destruct (i_small _ _ _ I k b oc Hr) as (O1 & _ & R & _). exists k. auto. }
  assert (Lo : forall b, In b (large_objs h) -> own b = None) by (intros b H; apply (i_large _ _ _ I b); apply in_app_iff; auto).
  assert (Lb : forall b, In b (large_bytes h) -> own b = None) by (intros b H; apply (i_large _ _ _ I b); apply in_app_iff; auto).
  split.
  - apply nodup_app; [exact N1| |].
    + apply nodup_app; [|exact N2|].
      * apply nodup_flat_map; [apply seq_NoDup|intros k _; apply (i_nodup _ _ _ I)|].
        intros k k' b _ _ H H'. apply in_map_iff in H, H'. destruct H as ([b1 oc] & E & Hr). destruct H' as ([b2 oc'] & E' & Hr'). cbn in *. subst.
        destruct (i_small _ _ _ I k _ _ Hr) as (O1 & _). destruct (i_small _ _ _ I k' _ _ Hr') as (O2 & _). congruence.
      * intros b H H'. destruct (Rows b H) as (k & O & _). rewrite (Lb b H') in O. discriminate.
    + intros b H H'. apply in_app_iff in H'. destruct H' as [H'|H']; [|apply (D b H H')]. destruct (Rows b H') as (k & O & _). rewrite (Lo b H) in O. discriminate.
  - intro b. rewrite !in_app_iff. split.
    + intros [H|[H|H]]; [apply (i_large _ _ _ I b); apply in_app_iff; auto| |apply (i_large _ _ _ I b); apply in_app_iff; auto].
      destruct (Rows b H) as (k & _ & R). exact R.
    + intro R. pose proof (i_all _ _ _ I b R) as A. destruct (own b) as [k|]; [|apply in_app_iff in A; tauto].
      right. left. apply in_flat_map. exists k. split; [|exact A]. apply in_map_iff in A. destruct A as ([b' oc] & E & Hr).
      destruct (i_small _ _ _ I k _ _ Hr) as (_ & _ & _ & _ & K). apply in_seq. lia.
Qed.

Lemma xheap_spec : forall rq, Forall (fun r => 0 < fst r < 2 ^ 64 - 4) rq ->
  exists h bs, xalloc_all rq xempty [] = Some (h, bs) /\
    map (fun x => (b_size (fst x), snd x)) bs = rev rq /\
    Forall (fun x => inside (x_bufs h) (fst x)) bs /\ all_separate (map fst bs) /\
    (NoDup (destroyed h) /\ forall b o, In (b, o) (destroyed h) <-> exists x, In (x, true) bs /\ b_buf x = b /\ b_off x = o) /\
    (NoDup (freed h) /\ forall b, In b (freed h) <-> 0 <= b < Z.of_nat (length (x_bufs h))).
Proof.
  intros rq F. destruct (xalloc_all_inv rq _ xempty [] inv_empty F) as (h & bs & own & E & I & M).
  exists h, bs. split; [exact E|]. split; [rewrite M; cbn [map]; apply app_nil_r|]. split; [|split; [|split]].
  - apply Forall_forall. intros [x o] H. apply (i_blk _ _ _ I x o H).
  - apply (i_sep _ _ _ I).
  - split; [eapply destroyed_nodup; exact I|eapply destroyed_iff; exact I].
  - eapply freed_ok. exact I.
Qed.
