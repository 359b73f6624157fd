(** A constant committed again is given the row of its first commit. *)
From Coq Require Import ZArith Lia List Bool.
From Verif Require Import AsmHeapModel AsmHeapSpec.
Import ListNotations.
Open Scope Z_scope.

Lemma str_ltb_irrefl : forall s, str_ltb s s = false.
Proof.
  induction s as [|x s IH]; [reflexivity|]. cbn [str_ltb]. rewrite Z.ltb_irrefl, IH, andb_false_r. reflexivity.
Qed.

Lemma same_refl ops v : shareable ops v -> cval_same v v = true.
Proof.
  intros H. unfold cval_same.
  assert (E : cval_ltb v v = false); [|now rewrite E].
  unfold cval_ltb. rewrite Z.eqb_refl. cbn [negb].
  destruct v as [t r|s| |r]; cbn in H; try contradiction.
  - unfold tvalue_ltb, nty_eqb. rewrite Z.eqb_refl. cbn [orb].
    destruct H as (H & _). destruct t; cbn in H; try congruence;
      cbn [num_of num_ltb]; unfold fin_ltb; apply Z.ltb_irrefl.
  - apply str_ltb_irrefl.
Qed.

Lemma key_set_new m v i : key_find m v = None -> cval_same v v = true -> key_find (key_set m v i) v = Some i.
Proof.
  induction m as [|[k j] m IH]; intros H R; cbn [key_set key_find] in *.
  - now rewrite R.
  - destruct (cval_same k v) eqn:E; [discriminate H|]. cbn [key_find]. rewrite E. now apply IH.
Qed.

Lemma key_set_keeps m w j v i : key_find m w = None -> key_find m v = Some i -> key_find (key_set m w j) v = Some i.
Proof.
  induction m as [|[k l] m IH]; intros H F; cbn [key_set key_find] in *; [discriminate F|].
  destruct (cval_same k w) eqn:E; [discriminate H|]. cbn [key_find].
  destruct (cval_same k v); [exact F | now apply IH].
Qed.

Lemma kinds_differ k w v : cval_same k w = true -> kind_code w <> kind_code v -> cval_same k v = false.
Proof.
  unfold cval_same, cval_ltb. intros H N.
  destruct (Z.eqb_spec (kind_code k) (kind_code w)) as [E|E].
  - destruct (Z.eqb_spec (kind_code k) (kind_code v)) as [E'|E']; [congruence|].
    destruct (Z.eqb_spec (kind_code v) (kind_code k)) as [E2|E2]; [congruence|]. cbn [negb].
    destruct (Z.ltb_spec (kind_code k) (kind_code v)); cbn [negb andb]; [reflexivity|].
    destruct (Z.ltb_spec (kind_code v) (kind_code k)); [reflexivity|]. lia.
  - destruct (Z.eqb_spec (kind_code w) (kind_code k)) as [E2|E2]; [congruence|]. cbn [negb] in H.
    apply andb_true_iff in H. destruct H as (H1 & H2).
    apply negb_true_iff in H1, H2. apply Z.ltb_ge in H1, H2. lia.
Qed.

Lemma key_set_other_kind m w j v i : kind_code w <> kind_code v -> key_find m v = Some i -> key_find (key_set m w j) v = Some i.
Proof.
  intros N. induction m as [|[k l] m IH]; intros F; cbn [key_set key_find] in *; [discriminate F|].
  destruct (cval_same k w) eqn:E; cbn [key_find].
  - rewrite (kinds_differ k w v E N) in *. exact F.
  - destruct (cval_same k v); [exact F | now apply IH].
Qed.

Lemma commit_keeps s v i w s1 x :
  (match v with CStr _ => True | _ => ~ is_type w end) ->
  key_find (s_keys s) v = Some i -> commit s w = Some (s1, x) -> key_find (s_keys s1) v = Some i.
Proof.
  intros T F C. unfold commit in C.
  destruct w as [t r|str| |r].
  - destruct (key_find (s_keys s) (CNum t r)) eqn:K; [injection C as <- _; exact F|].
    destruct (number_row (s_heap s) t r) as [h c]. injection C as <- _. cbn [append_row s_keys].
    now apply key_set_keeps.
  - destruct (key_find (s_keys s) (CStr str)) eqn:K; [injection C as <- _; exact F|].
    destruct (append_string (s_heap s) (upto_nul str)) as [[h r]|]; [|discriminate C].
    injection C as <- _. cbn [append_row s_keys]. now apply key_set_keeps.
  - injection C as <- _. exact F.
  - destruct (key_find (s_keys s) (CType r)) eqn:K; [injection C as <- _; exact F|].
    injection C as <- _. cbn [append_row s_keys]. apply key_set_other_kind; [|exact F].
    destruct v; try (exfalso; apply T; now eexists). cbn. lia.
Qed.

Lemma crun_keeps v i : forall ops s s1 xs,
  shareable ops v -> key_find (s_keys s) v = Some i -> crun s ops = Some (s1, xs) ->
  key_find (s_keys s1) v = Some i.
Proof.
  induction ops as [|o ops IH]; intros s s1 xs T F C.
  - injection C as <- _. exact F.
  - destruct o as [w|o]; cbn [crun] in C.
    + destruct (commit s w) as [[s2 x]|] eqn:E; [|discriminate C].
      destruct (crun s2 ops) as [[s3 ys]|] eqn:E2; [|discriminate C]. injection C as <- _.
      apply (IH s2 s3 ys); [| |exact E2].
      * destruct v; cbn in *; try exact T. destruct T as (A & B). split; [exact A|]. now inversion B.
      * apply (commit_keeps s v i w s2 x); [|exact F|exact E].
        destruct v; cbn in *; try exact Logic.I; try contradiction. destruct T as (_ & B). now inversion B.
    + destruct (hstep (s_heap s) o) as [[h r]|]; [|discriminate C].
      destruct (crun _ ops) as [[s3 ys]|] eqn:E2; [|discriminate C]. injection C as <- _.
      apply (IH (CState h (s_rows s) (s_keys s)) s3 ys); [|exact F|exact E2].
      destruct v; cbn in *; exact T.
Qed.

Lemma committed_again : forall s v s1 x ops s2 xs,
  shareable ops v -> commit s v = Some (s1, x) -> crun s1 ops = Some (s2, xs) ->
  commit s2 v = Some (s2, x).
Proof.
  intros s v s1 x ops s2 xs T C R.
  assert (N : v <> CNull) by (intros ->; exact T).
  assert (X : exists i, x = Some i /\ key_find (s_keys s1) v = Some i).
  { unfold commit in C. destruct v as [t r|str| |r]; cbn in T; try contradiction.
    - destruct (key_find (s_keys s) (CNum t r)) as [i|] eqn:K.
      + injection C as <- <-. exists i. split; [reflexivity | exact K].
      + destruct (number_row (s_heap s) t r) as [h c]. injection C as <- <-.
        eexists. split; [reflexivity|]. cbn [s_keys]. apply key_set_new; [exact K|]. exact (same_refl ops (CNum t r) T).
    - destruct (key_find (s_keys s) (CStr str)) as [i|] eqn:K.
      + injection C as <- <-. exists i. split; [reflexivity | exact K].
      + destruct (append_string (s_heap s) (upto_nul str)) as [[h r]|]; [|discriminate C].
        injection C as <- <-. eexists. split; [reflexivity|]. cbn [s_keys].
        apply key_set_new; [exact K|]. exact (same_refl ops (CStr str) T). }
  destruct X as (i & -> & F).
  pose proof (crun_keeps v i ops s1 s2 xs T F R) as F2.
  unfold commit. rewrite F2. destruct v; try reflexivity. now elim N.
Qed.
