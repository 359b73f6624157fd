(** Proofs about copying and clearing memory. *)

From Coq Require Import ZArith List Bool Lia.
Import ListNotations.
From Verif Require Import MemModel MemSpec.
Open Scope Z_scope.

Ltac Zify.zify_post_hook ::= Z.div_mod_to_equations.

Definition total (cs : list Z) : Z := fold_right Z.add 0 cs.

Lemma total_app : forall a b, total (a ++ b) = total a + total b.
Proof. induction a as [|x a IH]; intro b; [reflexivity|]. unfold total in *. cbn [app fold_right]. rewrite IH. lia. Qed.

Lemma total_nonneg : forall cs, Forall (fun c => 0 <= c) cs -> 0 <= total cs.
Proof. induction 1; unfold total in *; cbn [fold_right]; lia. Qed.

Ltac cases :=
  repeat match goal with
  | |- context [?x <=? ?y] => destruct (Z.leb_spec x y)
  | |- context [?x <? ?y] => destruct (Z.ltb_spec x y)
  end; cbn [andb]; try lia; try reflexivity.

Ltac decide_all :=
  repeat (match goal with
  | |- context [?x <=? ?y] =>
    first [replace (x <=? y) with true by (symmetry; apply Z.leb_le; lia)
          |replace (x <=? y) with false by (symmetry; apply Z.leb_gt; lia)]
  | |- context [?x <? ?y] =>
    first [replace (x <? y) with true by (symmetry; apply Z.ltb_lt; lia)
          |replace (x <? y) with false by (symmetry; apply Z.ltb_ge; lia)]
  end; cbn [andb]).

Lemma upwards_moved : forall cs dst src m, Forall (fun c => 0 <= c) cs -> (dst <= src \/ src + total cs <= dst) ->
  moved (total cs) dst src m (upwards cs dst src m).
Proof.
  induction cs as [|c cs IH]; intros dst src m NN D a; cbn [upwards].
  - change (total []) with 0. cases.
  - inversion NN; subst. pose proof (total_nonneg cs H2).
    assert (T : total (c :: cs) = c + total cs) by reflexivity. rewrite T in *.
    rewrite (IH (dst + c) (src + c) (move c dst src m)) by (auto; lia). unfold move. cases; f_equal; lia.
Qed.

Lemma downwards_moved : forall cs de se m, Forall (fun c => 0 <= c) cs -> (se <= de \/ de <= se - total cs) ->
  moved (total cs) (de - total cs) (se - total cs) m (downwards cs de se m).
Proof.
  induction cs as [|c cs IH]; intros de se m NN D a; cbn [downwards].
  - change (total []) with 0. cases.
  - inversion NN; subst. pose proof (total_nonneg cs H2).
    assert (T : total (c :: cs) = c + total cs) by reflexivity. rewrite T in *.
    rewrite (IH (de - c) (se - c) (move c (de - c) (se - c) m)) by (auto; lia). unfold move. cases; f_equal; lia.
Qed.

Lemma pieces_total : forall n, 0 <= n <= 8 -> total (pieces n) = n /\ Forall (fun c => 0 <= c) (pieces n).
Proof.
  intros n H. assert (n = 0 \/ n = 1 \/ n = 2 \/ n = 3 \/ n = 4 \/ n = 5 \/ n = 6 \/ n = 7 \/ n = 8) as X by lia.
  repeat (destruct X as [->|X]; [split; [reflexivity|cbn; repeat constructor; lia]|]). subst n. split; [reflexivity|cbn; repeat constructor; lia].
Qed.

Lemma total_rev : forall cs, total (rev cs) = total cs.
Proof. induction cs as [|c cs IH]; [reflexivity|]. cbn [rev]. rewrite total_app, IH. unfold total. cbn [fold_right]. lia. Qed.

Lemma small_up : forall n dst src m, 0 <= n <= 8 -> (dst <= src \/ src + n <= dst) ->
  moved n dst src m (quick_copy_small dst src n m).
Proof.
  intros n dst src m H D. destruct (pieces_total n H) as [T NN]. unfold quick_copy_small.
  pose proof (upwards_moved (pieces n) dst src m NN) as U. rewrite T in U. apply U. exact D.
Qed.

Lemma small_down : forall n dst src m, 0 <= n <= 8 -> (src <= dst \/ dst + n <= src) ->
  moved n dst src m (quick_copy_small_backward dst src n m).
Proof.
  intros n dst src m H D. destruct (pieces_total n H) as [T NN]. unfold quick_copy_small_backward.
  pose proof (downwards_moved (rev (pieces n)) (dst + n) (src + n) m) as U. rewrite total_rev, T in U.
  replace (dst + n - n) with dst in U by lia. replace (src + n - n) with src in U by lia. apply U; [|lia].
  apply Forall_rev. exact NN.
Qed.

(** A copy of the lower part followed upwards by the upper part, and the other way round. *)
Lemma moved_up : forall n1 n2 dst src m m1 m2, 0 <= n1 -> 0 <= n2 -> (dst <= src \/ src + n1 + n2 <= dst) ->
  moved n1 dst src m m1 -> moved n2 (dst + n1) (src + n1) m1 m2 -> moved (n1 + n2) dst src m m2.
Proof. intros n1 n2 dst src m m1 m2 H1 H2 D A B a. rewrite B, !A. cases; f_equal; lia. Qed.

Lemma moved_down : forall n1 n2 dst src m m1 m2, 0 <= n1 -> 0 <= n2 -> (src <= dst \/ dst + n1 + n2 <= src) ->
  moved n2 (dst + n1) (src + n1) m m1 -> moved n1 dst src m1 m2 -> moved (n1 + n2) dst src m m2.
Proof. intros n1 n2 dst src m m1 m2 H1 H2 D A B a. rewrite B, !A. cases; f_equal; lia. Qed.

Lemma moved_refl : forall dst src m, moved 0 dst src m m.
Proof. intros dst src m a. cases. Qed.

Lemma moved_move : forall n dst src m, moved n dst src m (move n dst src m).
Proof. intros n dst src m a. reflexivity. Qed.

Lemma words_down_moved : forall k de se size m, 0 <= size -> size < 8 * Z.of_nat k + 8 -> (se <= de \/ de <= se - size) ->
  exists m' r, words_down k de se size m = Some (m', r) /\ 0 <= r < 8 /\ r <= size /\ moved (size - r) (de - (size - r)) (se - (size - r)) m m'.
Proof.
  induction k as [|k IH]; intros de se size m H0 HK D; cbn [words_down]; destruct (Z.leb_spec 8 size) as [L|L].
  - lia.
  - exists m, size. split; [reflexivity|]. split; [lia|]. split; [lia|]. replace (size - size) with 0 by lia. apply moved_refl.
  - destruct (IH (de - 8) (se - 8) (size - 8) (move 8 (de - 8) (se - 8) m) ltac:(lia) ltac:(lia) ltac:(lia)) as (m' & r & E & R & R' & M).
    exists m', r. split; [exact E|]. split; [exact R|]. split; [lia|].
    replace (size - r) with ((size - 8 - r) + 8) by lia.
    apply (moved_down (size - 8 - r) 8 _ _ m (move 8 (de - 8) (se - 8) m) m'); [lia|lia|lia| |].
    + replace (de - (size - 8 - r + 8) + (size - 8 - r)) with (de - 8) by lia.
      replace (se - (size - 8 - r + 8) + (size - 8 - r)) with (se - 8) by lia. apply moved_move.
    + replace (de - (size - 8 - r + 8)) with (de - 8 - (size - 8 - r)) by lia.
      replace (se - (size - 8 - r + 8)) with (se - 8 - (size - 8 - r)) by lia. exact M.
  - exists m, size. split; [reflexivity|]. split; [lia|]. split; [lia|]. replace (size - size) with 0 by lia. apply moved_refl.
Qed.

Lemma words_up_moved : forall k dst src size m, 0 <= size -> size < 8 * Z.of_nat k + 8 -> (dst <= src \/ src + size <= dst) ->
  exists m' r, words_up k dst src size m = Some (m', dst + (size - r), src + (size - r), r) /\ 0 <= r < 8 /\ r <= size /\
    moved (size - r) dst src m m'.
Proof.
  induction k as [|k IH]; intros dst src size m H0 HK D; cbn [words_up]; destruct (Z.leb_spec 8 size) as [L|L].
  - lia.
  - exists m, size. replace (size - size) with 0 by lia. rewrite !Z.add_0_r. split; [reflexivity|]. split; [lia|]. split; [lia|]. apply moved_refl.
  - destruct (IH (dst + 8) (src + 8) (size - 8) (move 8 dst src m) ltac:(lia) ltac:(lia) ltac:(lia)) as (m' & r & E & R & R' & M).
    exists m', r. split; [rewrite E; replace (dst + 8 + (size - 8 - r)) with (dst + (size - r)) by lia; replace (src + 8 + (size - 8 - r)) with (src + (size - r)) by lia; reflexivity|]. split; [exact R|]. split; [lia|].
    replace (size - r) with (8 + (size - 8 - r)) by lia.
    eapply moved_up; [lia|lia|lia|apply moved_move|exact M].
  - exists m, size. replace (size - size) with 0 by lia. rewrite !Z.add_0_r. split; [reflexivity|]. split; [lia|]. split; [lia|]. apply moved_refl.
Qed.

Lemma quick_copy_moved : forall dst src size m, 0 <= size ->
  (~ overlaps_above size dst src \/ 8 < size \/ size = 1 \/ size = 2 \/ size = 4 \/ size = 8) ->
  exists m', quick_copy dst src size m = Some m' /\ moved size dst src m m'.
Proof.
  intros dst src size m H0 C. unfold quick_copy.
  destruct (Z.eqb_spec dst src) as [->|N].
  { cbn [orb]. exists m. split; [reflexivity|]. intro a. cases. f_equal. lia. }
  destruct (Z.eqb_spec size 0) as [->|N0]; cbn [orb].
  { exists m. split; [reflexivity|]. apply moved_refl. }
  destruct (Z.leb_spec size 8) as [L|L].
  { exists (quick_copy_small dst src size m). split; [reflexivity|]. destruct C as [C|C].
    - apply small_up; [lia|]. unfold overlaps_above in C. lia.
    - destruct C as [C|[C|[C|[C|C]]]]; [lia| | | |]; subst size; intro a; reflexivity. }
  destruct ((src <? dst) && (dst <=? src + size)) eqn:B.
  - apply andb_true_iff in B. destruct B as [B1 B2]. apply Z.ltb_lt in B1. apply Z.leb_le in B2. cbv zeta.
    set (o := (src + size) mod 8). assert (Ho : 0 <= o < 8) by (unfold o; lia). clearbody o.
    destruct (Z.ltb_spec 0 o) as [O|O].
    + pose proof (small_down (8 - o) (dst + size - (8 - o)) (src + size - (8 - o)) m ltac:(lia) ltac:(lia)) as M1.
      set (m1 := quick_copy_small_backward _ _ _ m) in *. clearbody m1.
      destruct (words_down_moved (Z.to_nat size) (dst + size - (8 - o)) (src + size - (8 - o)) (size - (8 - o)) m1 ltac:(lia) ltac:(lia) ltac:(lia))
        as (m2 & r & E & R & R' & M2).
      rewrite E. eexists. split; [reflexivity|].
      pose proof (small_down r dst src m2 ltac:(lia) ltac:(lia)) as M3.
      set (m3 := quick_copy_small_backward dst src r m2) in *. clearbody m3.
      assert (M12 : moved (size - r) (dst + r) (src + r) m m2).
      { replace (size - r) with ((size - (8 - o) - r) + (8 - o)) by lia.
        eapply (moved_down (size - (8 - o) - r) (8 - o)); [lia|lia|lia| |].
        - replace (dst + r + (size - (8 - o) - r)) with (dst + size - (8 - o)) by lia.
          replace (src + r + (size - (8 - o) - r)) with (src + size - (8 - o)) by lia. exact M1.
        - replace (dst + size - (8 - o) - (size - (8 - o) - r)) with (dst + r) in M2 by lia.
          replace (src + size - (8 - o) - (size - (8 - o) - r)) with (src + r) in M2 by lia. exact M2. }
      replace size with (r + (size - r)) by lia. eapply moved_down; [lia|lia|lia|exact M12|exact M3].
    + destruct (words_down_moved (Z.to_nat size) (dst + size) (src + size) size m ltac:(lia) ltac:(lia) ltac:(lia))
        as (m2 & r & E & R & R' & M2).
      rewrite E. eexists. split; [reflexivity|].
      pose proof (small_down r dst src m2 ltac:(lia) ltac:(lia)) as M3.
      set (m3 := quick_copy_small_backward dst src r m2) in *. clearbody m3.
      replace (dst + size - (size - r)) with (dst + r) in M2 by lia.
      replace (src + size - (size - r)) with (src + r) in M2 by lia.
      replace size with (r + (size - r)) by lia. eapply moved_down; [lia|lia|lia|exact M2|exact M3].
  - assert (D : dst <= src \/ src + size <= dst).
    { apply andb_false_iff in B. destruct B as [B|B]; [apply Z.ltb_ge in B|apply Z.leb_gt in B]; lia. }
    cbv zeta. set (o := src mod 8). assert (Ho : 0 <= o < 8) by (unfold o; lia). clearbody o.
    destruct (Z.ltb_spec 0 o) as [O|O].
    + pose proof (small_up (8 - o) dst src m ltac:(lia) ltac:(lia)) as M1.
      set (m1 := quick_copy_small dst src (8 - o) m) in *. clearbody m1.
      destruct (words_up_moved (Z.to_nat size) (dst + (8 - o)) (src + (8 - o)) (size - (8 - o)) m1 ltac:(lia) ltac:(lia) ltac:(lia))
        as (m2 & r & E & R & R' & M2).
      rewrite E. eexists. split; [reflexivity|].
      pose proof (moved_up (8 - o) (size - (8 - o) - r) dst src m m1 m2 ltac:(lia) ltac:(lia) ltac:(lia) M1 M2) as M12.
      replace (8 - o + (size - (8 - o) - r)) with (size - r) in M12 by lia.
      replace (dst + (8 - o) + (size - (8 - o) - r)) with (dst + (size - r)) by lia.
      replace (src + (8 - o) + (size - (8 - o) - r)) with (src + (size - r)) by lia.
      replace size with (size - r + r) at 1 by lia.
      eapply moved_up; [lia|lia|lia|exact M12|]. apply small_up; lia.
    + destruct (words_up_moved (Z.to_nat size) dst src size m ltac:(lia) ltac:(lia) ltac:(lia)) as (m2 & r & E & R & R' & M2).
      rewrite E. eexists. split; [reflexivity|]. replace size with (size - r + r) at 1 by lia.
      eapply moved_up; [lia|lia|lia|exact M2|]. apply small_up; lia.
Qed.

(** Every other overlap goes wrong. *)
Lemma quick_copy_wrong : forall dst src size, overlaps_above size dst src -> size = 3 \/ size = 5 \/ size = 6 \/ size = 7 ->
  exists m m', quick_copy dst src size m = Some m' /\ ~ moved size dst src m m'.
Proof.
  intros dst src size O C. unfold overlaps_above in O. exists (fun a => a), (quick_copy_small dst src size (fun a => a)). split.
  - unfold quick_copy. destruct (Z.eqb_spec dst src); [lia|]. destruct (Z.eqb_spec size 0); [lia|]. cbn [orb].
    destruct (Z.leb_spec size 8); [reflexivity|lia].
  - intro M. pose proof (M (dst + size - 1)) as M1. pose proof (M (dst + size - 2)) as M2. clear M.
    rewrite (proj2 (Z.leb_le _ _)), (proj2 (Z.ltb_lt _ _)) in M1 by lia.
    rewrite (proj2 (Z.leb_le _ _)), (proj2 (Z.ltb_lt _ _)) in M2 by lia. cbn [andb] in M1, M2.
    unfold quick_copy_small, upwards, move in M1, M2.
    assert (K : exists k, dst = src + k) by (exists (dst - src); lia). destruct K as [k ->].
    assert (Kr : k = 1 \/ k = 2 \/ k = 3 \/ k = 4 \/ k = 5 \/ k = 6) by lia.
    destruct C as [->|[->|[->| ->]]]; cbn [pieces Z.eqb Pos.eqb] in M1, M2;
    destruct Kr as [->|[->|[->|[->|[->| ->]]]]]; try lia;
    first [clear M2; revert M1; decide_all; lia | clear M1; revert M2; decide_all; lia].
Qed.

Lemma quick_copy_t_moved : forall k n dst src m, 0 <= n -> n <= 8 * Z.of_nat k + 8 -> (dst <= src \/ src + n <= dst) ->
  exists m', quick_copy_t k n dst src m = Some m' /\ moved n dst src m m'.
Proof.
  induction k as [|k IH]; intros n dst src m H0 HK D; cbn [quick_copy_t]; destruct (Z.ltb_spec 8 n) as [L|L].
  - lia.
  - eexists. split; [reflexivity|]. apply small_up; lia.
  - destruct (IH (n - 8) (dst + 8) (src + 8) (move 8 dst src m) ltac:(lia) ltac:(lia) ltac:(lia)) as (m' & E & M).
    exists m'. split; [exact E|]. replace n with (8 + (n - 8)) by lia. eapply moved_up; [lia|lia|lia|apply moved_move|exact M].
  - eexists. split; [reflexivity|]. apply small_up; lia.
Qed.

Lemma clear_upwards_cleared : forall cs p m, Forall (fun c => 0 <= c) cs -> cleared (total cs) p m (clear_upwards cs p m).
Proof.
  induction cs as [|c cs IH]; intros p m NN a; cbn [clear_upwards].
  - change (total []) with 0. cases.
  - inversion NN; subst. pose proof (total_nonneg cs H2). assert (T : total (c :: cs) = c + total cs) by reflexivity. rewrite T in *.
    rewrite (IH (p + c) (clear c p m) H2). unfold clear. cases.
Qed.

Lemma quick_zero_cleared : forall k p size m, 0 <= size -> size <= 8 * Z.of_nat k + 8 ->
  exists m', quick_zero k p size m = Some m' /\ cleared size p m m'.
Proof.
  induction k as [|k IH]; intros p size m H0 HK; cbn [quick_zero]; destruct (Z.ltb_spec 8 size) as [L|L].
  - lia.
  - eexists. split; [reflexivity|]. destruct (pieces_total size ltac:(lia)) as [T NN]. rewrite <- T at 1. apply clear_upwards_cleared. exact NN.
  - destruct (IH (p + 8) (size - 8) (clear 8 p m) ltac:(lia) ltac:(lia)) as (m' & E & M). exists m'. split; [exact E|].
    intro a. rewrite M. unfold clear. cases.
  - eexists. split; [reflexivity|]. destruct (pieces_total size ltac:(lia)) as [T NN]. rewrite <- T at 1. apply clear_upwards_cleared. exact NN.
Qed.

(** The template that copies backward starts one byte from the end: sixteen bytes, apart. *)
Lemma backward_t_wrong : exists m, quick_copy_backward_t 1 16 100 0 (fun a => a) = Some m /\
  m 114 <> 14 /\ m 116 <> 116.
Proof. eexists. split; [reflexivity|]. split; vm_compute; discriminate. Qed.
