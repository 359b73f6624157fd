(** Proofs about the small vector. *)

From Coq Require Import ZArith List Bool Arith Lia.
Import ListNotations.
From Verif Require Import CommonModel CommonProofs VecModel VecSpec.
Open Scope Z_scope.

Section Vec.
Variable V : Type.
Variable init : Z.
Hypothesis init_pos : 0 < init.

Notation vec := (vec V).
Notation len := (len V).

Definition rep (v : vec) (l : list V) : Prop :=
  count V v = len l /\
  match at_ V v with Array => len l <= init | Buffer s => 0 < s /\ len l <= s end /\
  forall i, 0 <= i < len l -> cell V v i = nth_error l (Z.to_nat i).

Lemma rep_holds : forall v l, rep v l -> holds V init v l.
Proof.
  intros v l (C & P & F). split; [exact C|]. intros i Hi. unfold get, room. destruct (Z.leb_spec 0 i); [|lia].
  destruct (at_ V v) as [|s].
  - destruct (Z.ltb_spec i (init + 1)); [|lia]. apply F. exact Hi.
  - destruct (Z.ltb_spec i s); [|lia]. apply F. exact Hi.
Qed.

Lemma len_app : forall a b : list V, len (a ++ b) = len a + len b.
Proof. intros. unfold VecSpec.len. rewrite app_length. lia. Qed.

Lemma nth_last : forall (l : list V) x, nth_error (l ++ [x]) (Z.to_nat (len l)) = Some x.
Proof. intros. unfold VecSpec.len. rewrite Nat2Z.id, nth_error_app2, Nat.sub_diag by lia. reflexivity. Qed.

Lemma nth_front : forall (l m : list V) i, 0 <= i < len l -> nth_error (l ++ m) (Z.to_nat i) = nth_error l (Z.to_nat i).
Proof. intros l m i H. apply nth_error_app1. unfold VecSpec.len in H. lia. Qed.

Lemma put_last : forall (c : cells V) l x, (forall i, 0 <= i < len l -> c i = nth_error l (Z.to_nat i)) ->
  (forall i, 0 <= i < len l + 1 -> put V (len l) (Some x) c i = nth_error (l ++ [x]) (Z.to_nat i)).
Proof.
  intros c l x F i Hi. unfold put. destruct (Z.eqb_spec i (len l)) as [->|N]; [symmetry; apply nth_last|].
  rewrite nth_front by lia. apply F. lia.
Qed.

Lemma copy_in : forall (c d : cells V) from n to i, to <= i < to + n -> copy V c from n d to i = c (from + (i - to)).
Proof. intros. unfold copy. destruct (Z.leb_spec to i); destruct (Z.ltb_spec i (to + n)); cbn [andb]; try lia. reflexivity. Qed.

Lemma copy_out : forall (c d : cells V) from n to i, i < to \/ to + n <= i -> copy V c from n d to i = d i.
Proof. intros. unfold copy. destruct (Z.leb_spec to i); destruct (Z.ltb_spec i (to + n)); cbn [andb]; try lia; reflexivity. Qed.

Lemma in_bounds : forall lc (c : cells V) from n ld d to,
  0 <= n -> 0 <= from -> from + n <= lc -> 0 <= to -> to + n <= ld ->
  copy_in_bounds V lc c from n ld d to = Some (copy V c from n d to).
Proof.
  intros lc c from n ld d to H1 H2 H3 H4 H5. unfold copy_in_bounds.
  destruct (Z.leb_spec 0 n); destruct (Z.leb_spec 0 from); destruct (Z.leb_spec (from + n) lc);
    destruct (Z.leb_spec 0 to); destruct (Z.leb_spec (to + n) ld); try lia. reflexivity.
Qed.

Lemma push_rep : forall v l x, rep v l -> exists v1, push V init x v = Went V v1 /\ rep v1 (l ++ [x]).
Proof.
  intros v l x (C & P & F). assert (L0 : 0 <= len l) by (unfold VecSpec.len; lia).
  assert (L1 : len (l ++ [x]) = len l + 1) by (rewrite len_app; reflexivity).
  unfold push, room. rewrite C. destruct (at_ V v) as [|s].
  - destruct (Z.leb_spec 0 (len l)); [|lia]. cbn [andb]. destruct (Z.ltb_spec (len l) init) as [L|L].
    + eexists. split; [reflexivity|]. split; [cbn [count]; lia|]. split; [cbn [at_]; lia|]. cbn [cell]. rewrite L1. apply put_last; assumption.
    + assert (E : len l = init) by lia. rewrite E, Z.eqb_refl. rewrite in_bounds by lia. destruct (Z.ltb_spec init (init * 2)); [|lia].
      eexists. split; [reflexivity|]. split; [cbn [count]; lia|]. split; [cbn [at_]; lia|]. cbn [cell]. rewrite L1, <- E.
      apply put_last. intros i Hi. rewrite copy_in by lia. rewrite F by lia. f_equal. f_equal. lia.
  - destruct (Z.leb_spec s (len l)) as [L|L].
    + assert (E : len l = s) by lia. rewrite in_bounds by lia. destruct (Z.ltb_spec s (s * 2)); [|lia].
      eexists. split; [reflexivity|]. split; [cbn [count]; lia|]. split; [cbn [at_]; lia|]. cbn [cell]. rewrite L1, <- E.
      apply put_last. intros i Hi. rewrite copy_in by lia. rewrite F by lia. f_equal. f_equal. lia.
    + eexists. split; [reflexivity|]. split; [cbn [count]; lia|]. split; [cbn [at_]; lia|]. cbn [cell]. rewrite L1. apply put_last; assumption.
Qed.

(** The three parts of a list with [vs] inserted. *)
Lemma nth_inserted : forall (l vs : list V) (k j : nat), (k <= length l)%nat ->
  nth_error (firstn k l ++ vs ++ skipn k l) j =
  if (j <? k)%nat then nth_error l j else if (j <? k + length vs)%nat then nth_error vs (j - k) else nth_error l (j - length vs).
Proof.
  intros l vs k j H. destruct (Nat.ltb_spec j k).
  - rewrite nth_error_app1 by (rewrite firstn_length; lia). rewrite <- (firstn_skipn k l) at 2. rewrite nth_error_app1 by (rewrite firstn_length; lia). reflexivity.
  - rewrite nth_error_app2 by (rewrite firstn_length; lia). rewrite firstn_length, Nat.min_l by lia.
    destruct (Nat.ltb_spec j (k + length vs)).
    + rewrite nth_error_app1 by lia. reflexivity.
    + rewrite nth_error_app2 by lia. rewrite <- (firstn_skipn k l) at 2. rewrite nth_error_app2 by (rewrite firstn_length; lia).
      rewrite firstn_length, Nat.min_l by lia. f_equal. lia.
Qed.

Lemma of_list_nth : forall (vs : list V) i, 0 <= i -> of_list V vs i = nth_error vs (Z.to_nat i).
Proof. intros vs i H. unfold of_list. destruct (Z.ltb_spec i 0); [lia|reflexivity]. Qed.

Lemma insert_rep : forall v l vs k, rep v l -> 0 <= k <= len l -> len l + len vs < 2 ^ 63 ->
  exists v1, insert V init vs k v = Went V v1 /\ rep v1 (firstn (Z.to_nat k) l ++ vs ++ skipn (Z.to_nat k) l).
Proof.
  intros v l vs k (C & P & F) Hk B. assert (L0 : 0 <= len l /\ 0 <= len vs) by (unfold VecSpec.len; lia).
  assert (L1 : len (firstn (Z.to_nat k) l ++ vs ++ skipn (Z.to_nat k) l) = len l + len vs).
  { rewrite !len_app. unfold VecSpec.len in *. rewrite firstn_length, skipn_length. lia. }
  unfold insert. rewrite C. fold (len vs). destruct (Z.ltb_spec (len l) k); [lia|]. cbv zeta.
  assert (Target : forall c : cells V,
     (forall i, 0 <= i < k -> c i = cell V v i) -> (forall i, k <= i < k + len vs -> c i = nth_error vs (Z.to_nat (i - k))) ->
     (forall i, k + len vs <= i < len l + len vs -> c i = cell V v (i - len vs)) ->
     forall i, 0 <= i < len l + len vs -> c i = nth_error (firstn (Z.to_nat k) l ++ vs ++ skipn (Z.to_nat k) l) (Z.to_nat i)).
  { intros c A1 A2 A3 i Hi. rewrite nth_inserted by (unfold VecSpec.len in *; lia).
    destruct (Nat.ltb_spec (Z.to_nat i) (Z.to_nat k)).
    - rewrite A1 by lia. apply F. lia.
    - destruct (Nat.ltb_spec (Z.to_nat i) (Z.to_nat k + length vs)).
      + rewrite A2 by (unfold VecSpec.len in *; lia). f_equal. lia.
      + rewrite A3 by (unfold VecSpec.len in *; lia). rewrite F by (unfold VecSpec.len in *; lia). f_equal. unfold VecSpec.len in *. lia. }
  assert (RM : len l <= room V init v) by (unfold room; destruct (at_ V v); lia).
  match goal with |- context [if ?b then _ else _] => destruct b eqn:Fit end.
  - assert (RN : len l + len vs <= room V init v) by (unfold room; destruct (at_ V v); apply Z.leb_le in Fit; lia).
    rewrite in_bounds by lia. rewrite in_bounds by lia.
    eexists. split; [reflexivity|]. split; [cbn [count]; lia|]. split.
    + cbn [at_]. destruct (at_ V v); apply Z.leb_le in Fit; lia.
    + cbn [cell]. rewrite L1. apply Target; intros i Hi.
      * rewrite copy_out by lia. rewrite copy_out by lia. reflexivity.
      * rewrite copy_in by lia. rewrite of_list_nth by lia. f_equal. 
      * rewrite copy_out by lia. rewrite copy_in by lia. f_equal. lia.
  - destruct (alignd_spec (len l) (len l + len vs) ltac:(lia) ltac:(lia)) as (j & Hj & E & G & _). rewrite E.
    destruct (Z.leb_spec (len l + len vs) (Z.max 1 (len l) * 2 ^ j)); [|lia].
    rewrite in_bounds by lia. rewrite in_bounds by lia. rewrite in_bounds by lia.
    eexists. split; [reflexivity|]. split; [cbn [count]; lia|]. split; [cbn [at_]; assert (0 < 2 ^ j) by (apply Z.pow_pos_nonneg; lia); nia|].
    cbn [cell]. rewrite L1. apply Target; intros i Hi.
    + rewrite copy_out by lia. rewrite copy_out by lia. rewrite copy_in by lia. f_equal. lia.
    + rewrite copy_out by lia. rewrite copy_in by lia. rewrite of_list_nth by lia. f_equal.
    + rewrite copy_in by lia. f_equal. lia.
Qed.

Lemma truncate_rep : forall v l n, rep v l -> 0 <= n -> rep (truncate V n v) (firstn (Z.to_nat n) l).
Proof.
  intros v l n (C & P & F) Hn. unfold truncate. rewrite C.
  assert (L : len (firstn (Z.to_nat n) l) = Z.min n (len l)) by (unfold VecSpec.len; rewrite firstn_length; lia).
  destruct (Z.ltb_spec n (len l)).
  - split; [cbn [count]; lia|]. split; [cbn [at_]; destruct (at_ V v); lia|]. cbn [cell]. intros i Hi. rewrite F by lia.
    rewrite <- (firstn_skipn (Z.to_nat n) l) at 1. apply nth_error_app1. unfold VecSpec.len in *. lia.
  - rewrite firstn_all2 by (unfold VecSpec.len in *; lia). split; [exact C|]. split; [exact P|exact F].
Qed.

Lemma removelast_firstn' : forall l : list V, removelast l = firstn (length l - 1) l.
Proof. intro l. rewrite removelast_firstn_len. f_equal. lia. Qed.

Lemma replace_nth : forall (l : list V) i x j, (i < length l)%nat ->
  nth_error (replace V l i x) j = if (j =? i)%nat then Some x else nth_error l j.
Proof.
  induction l as [|y l IH]; intros i x j H; cbn in H; [lia|]. destruct i as [|i]; cbn [replace]; destruct j as [|j]; try reflexivity.
  cbn [nth_error]. rewrite IH by lia. reflexivity.
Qed.

Lemma replace_length : forall (l : list V) i x, length (replace V l i x) = length l.
Proof. induction l as [|y l IH]; intros i x; [reflexivity|]. destruct i; cbn [replace length]; [reflexivity|]. rewrite IH. reflexivity. Qed.

Lemma set_rep : forall v l i x, rep v l -> 0 <= i < len l ->
  exists v1, set V init i x v = Went V v1 /\ rep v1 (replace V l (Z.to_nat i) x).
Proof.
  intros v l i x (C & P & F) Hi. unfold set, room. destruct (Z.leb_spec 0 i); [|lia]. cbn [andb].
  assert (R : (i <? match at_ V v with Array => init + 1 | Buffer s => s end) = true) by (apply Z.ltb_lt; destruct (at_ V v); lia).
  rewrite R. eexists. split; [reflexivity|]. unfold rep, VecSpec.len. rewrite replace_length. split; [exact C|]. split; [exact P|].
  cbn [cell]. intros j Hj. rewrite replace_nth by (unfold VecSpec.len in Hi; lia). unfold put.
  destruct (Z.eqb_spec j i) as [->|N]; [rewrite Nat.eqb_refl; reflexivity|]. destruct (Nat.eqb_spec (Z.to_nat j) (Z.to_nat i)); [lia|]. apply F. exact Hj.
Qed.

Lemma copied_rep : forall v l, rep v l -> exists v1, copied V init v = Went V v1 /\ rep v1 l.
Proof.
  intros v l (C & P & F). assert (0 <= len l) by (unfold VecSpec.len; lia).
  unfold copied, room. destruct (at_ V v) as [|s] eqn:A; rewrite in_bounds by lia; (eexists; split; [reflexivity|]).
  - split; [exact C|]. split; [exact P|]. cbn [cell]. intros i Hi. rewrite copy_in by lia. rewrite F by lia. f_equal. f_equal. lia.
  - split; [exact C|]. split; [exact P|]. cbn [cell]. intros i Hi. rewrite copy_in by lia. rewrite F by lia. f_equal. f_equal. lia.
Qed.

Lemma moved_rep : forall v l, rep v l -> exists v1, moved V init v = Went V v1 /\ rep v1 l.
Proof.
  intros v l R. pose proof (copied_rep v l R) as C. unfold moved, copied in *. destruct (at_ V v); [exact C|exists v; split; [reflexivity|exact R]].
Qed.

Lemma run_rep : forall os v l, rep v l -> all_proper V l os ->
  exists v1, run V init v os = Some v1 /\ rep v1 (fold_left (on_list V) os l).
Proof.
  induction os as [|o os IH]; intros v l R A; cbn [run fold_left]; [eauto|]. destruct A as [[B P] A].
  assert (C : count V v = len l) by apply R.
  destruct o as [x|i|vs i|n| | |i x| |]; cbn [step on_list] in *.
  - destruct (push_rep v l x R) as (v1 & E & R1). rewrite E. apply IH; assumption.
  - contradiction.
  - destruct (Z.leb_spec i (len l)) as [L|L].
    + assert (B' : len l + len vs < 2 ^ 63).
      { rewrite !len_app in B. unfold VecSpec.len in *. rewrite firstn_length, skipn_length in B. lia. }
      destruct (insert_rep v l vs i R ltac:(lia) B') as (v1 & E & R1). rewrite E. apply IH; assumption.
    + unfold insert. rewrite C. destruct (Z.ltb_spec (len l) i); [|lia]. apply IH; assumption.
  - apply IH; [apply truncate_rep; assumption|exact A].
  - unfold pop. rewrite C. destruct l as [|y l]; [cbn; apply IH; assumption|].
    destruct (Z.eqb_spec (len (y :: l)) 0); [unfold VecSpec.len in *; cbn in *; lia|]. apply IH; [|exact A].
    rewrite removelast_firstn'. replace (length (y :: l) - 1)%nat with (Z.to_nat (len (y :: l) - 1)) by (unfold VecSpec.len; lia).
    apply truncate_rep; [exact R|]. unfold VecSpec.len. cbn [length]. lia.
  - apply IH; [|exact A]. destruct R as (_ & P' & _). split; [reflexivity|]. split; [cbn [clear at_]; unfold VecSpec.len in *; destruct (at_ V v); cbn in *; lia|].
    intros i Hi. unfold VecSpec.len in Hi. cbn in Hi. lia.
  - destruct (set_rep v l i x R P) as (v1 & E & R1). rewrite E. apply IH; assumption.
  - destruct (copied_rep v l R) as (v1 & E & R1). rewrite E. apply IH; assumption.
  - destruct (moved_rep v l R) as (v1 & E & R1). rewrite E. apply IH; assumption.
Qed.

Lemma empty_rep : rep (empty V) [].
Proof. split; [reflexivity|]. split; [cbn; lia|]. intros i Hi. cbn in Hi. lia. Qed.

Lemma vec_list : forall os, all_proper V [] os ->
  exists v, run V init (empty V) os = Some v /\ holds V init v (on_list_all V os).
Proof. intros os A. destruct (run_rep os _ _ empty_rep A) as (v & E & R). exists v. split; [exact E|]. apply rep_holds. exact R. Qed.

Lemma fold_push : forall l m, fold_left (on_list V) (map (Push V) l) m = m ++ l.
Proof. induction l as [|x l IH]; intro m; cbn [map fold_left on_list]; [rewrite app_nil_r; reflexivity|]. rewrite IH, <- app_assoc. reflexivity. Qed.

Lemma run_app : forall a b v, run V init v (a ++ b) = match run V init v a with Some w => run V init w b | None => None end.
Proof.
  induction a as [|o a IH]; intros b v; cbn [app run]; [reflexivity|]. destruct (step V init v o); try apply IH; reflexivity.
Qed.

(** Pushing an own element when the array is full. *)
Lemma pushes_rep : forall l v m, rep v m -> exists v1, run V init v (map (Push V) l) = Some v1 /\ rep v1 (m ++ l).
Proof.
  induction l as [|x l IH]; intros v m R; cbn [map run step]; [exists v; rewrite app_nil_r; auto|].
  destruct (push_rep v m x R) as (v1 & E & R1). rewrite E. destruct (IH v1 _ R1) as (v2 & E2 & R2). exists v2. rewrite <- app_assoc in R2. auto.
Qed.

Lemma array_pushes : forall l v m, rep v m -> at_ V v = Array -> len m + len l <= init ->
  exists v1, run V init v (map (Push V) l) = Some v1 /\ rep v1 (m ++ l) /\ at_ V v1 = Array.
Proof.
  induction l as [|x l IH]; intros v m R A L; cbn [map run step]; [exists v; rewrite app_nil_r; auto|].
  assert (L2 : len (x :: l) = 1 + len l) by (unfold VecSpec.len; cbn [length]; lia).
  assert (L3 : 0 <= len l /\ 0 <= len m) by (unfold VecSpec.len; lia).
  destruct (push_rep v m x R) as (v1 & E & R1). rewrite E.
  assert (A1 : at_ V v1 = Array).
  { unfold push in E. rewrite A in E. destruct R as (C & _). rewrite C in E.
    destruct (Z.leb_spec 0 (len m)); destruct (Z.ltb_spec (len m) init); cbn [andb] in E; try lia. inversion E. reflexivity. }
  destruct (IH v1 _ R1 A1) as (v2 & E2 & R2 & A2); [rewrite len_app; change (len [x]) with 1; lia|]. exists v2. rewrite <- app_assoc in R2. auto.
Qed.

Lemma own_full : forall l i, len l = init -> run V init (empty V) (map (Push V) l ++ [PushOwn V i]) = None.
Proof.
  intros l i E. rewrite run_app. destruct (array_pushes l (empty V) [] empty_rep eq_refl) as (v & R & (C & _) & A).
  - change (len []) with 0. lia.
  - rewrite R. cbn [run step]. unfold push_own. rewrite A, C. cbn [app]. rewrite E, Z.eqb_refl. reflexivity.
Qed.

(** An own element pushed while there is room. *)
Lemma own_room : forall v l i x, rep v l -> 0 <= i < len l -> nth_error l (Z.to_nat i) = Some x ->
  len l < match at_ V v with Array => init | Buffer s => s end ->
  exists v1, step V init v (PushOwn V i) = Went V v1 /\ holds V init v1 (l ++ [x]).
Proof.
  intros v l i x R Hi E L. destruct (push_rep v l x R) as (v1 & P & R1). destruct R as (C & _ & F). exists v1. split; [|apply rep_holds; exact R1].
  cbn [step]. unfold push_own. rewrite C. rewrite (F i Hi), E.
  destruct (at_ V v); [destruct (Z.eqb_spec (len l) init); [lia|exact P]|destruct (Z.leb_spec size (len l)); [lia|exact P]].
Qed.

End Vec.
