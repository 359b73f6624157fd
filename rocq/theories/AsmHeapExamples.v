(** Concrete heaps and constants. *)

From Coq Require Import ZArith Lia List Bool.
From Verif Require Import AsmHeapModel AsmHeapSpec AsmHeapProofs.
Import ListNotations.
Open Scope Z_scope.

(** "hi", a block, "hi" again, a euro sign, eight raw bytes, and a last string. *)
Definition ex_ops : list hop :=
  [AString [104; 105]; ABlock [1; 0; 255]; AString [104; 105]; AString [8364];
   ABytes [1; 2; 3; 4; 5; 6; 7; 8]; AString [122]].

Lemma ex_ops_ok : Forall storable ex_ops.
Proof.
  unfold ex_ops. repeat constructor; cbn [storable]; unfold text_char, byte; try lia; cbn; lia.
Qed.

Lemma ex_ops_run : exists h, hrun heap_new ex_ops = Some (h, [1; 4; 1; 8; 12; 20])
  /\ hsize h < 4294967296.
Proof. eexists. split; [vm_compute; reflexivity|reflexivity]. Qed.

(** One integer twice, a string, null, a heap string in between, a wide value via another type is
    absent: all numbers are of type int. *)
Definition ex_consts : list cop :=
  [CommitConst (CNum NI32 7); CommitConst (CStr [104; 105]); Other (AString [120]);
   CommitConst CNull; CommitConst (CNum NI32 4294967295); CommitConst (CNum NI32 7)].

Lemma ex_consts_ok : Forall cop_ok ex_consts /\ Forall exact_number (consts ex_consts)
  /\ Forall (fun v => ~ is_type v) (consts ex_consts)
  /\ (forall u raw, In (CNum u raw) (consts ex_consts) -> u = NI32).
Proof.
  split; [|split; [|split]].
  - unfold ex_consts. repeat constructor; cbn [cop_ok const_ok storable]; unfold text_char; cbn; lia.
  - apply Forall_forall. intros v H. unfold ex_consts in H. cbn [consts In] in H.
    repeat destruct H as [<-|H]; try contradiction; cbn [exact_number In]; auto;
      intros [C|[C|[C|[]]]]; discriminate.
  - apply Forall_forall. intros v H. unfold ex_consts in H. cbn [consts In] in H.
    repeat destruct H as [<-|H]; try contradiction; intros [r C]; discriminate.
  - intros u raw H. unfold ex_consts in H. cbn [consts In] in H.
    repeat destruct H as [H|H]; try contradiction; congruence.
Qed.

Lemma ex_consts_run : exists s, crun cstate_new ex_consts
  = Some (s, [Some 0%nat; Some 1%nat; None; None; Some 2%nat; Some 0%nat]).
Proof. eexists. vm_compute. reflexivity. Qed.

(** Read the answer to the last commit of a history, with [d] written after it. *)
Definition last_read (ops : list cop) (d : list Z) : option (out cval) :=
  match crun cstate_new ops with
  | None => None
  | Some (s, xs) =>
      match last xs None with
      | None => None
      | Some i => option_map (read_const (h_bytes (s_heap s) ++ d)) (nth_error (s_rows s) i)
      end
  end.

Lemma last_read_some : forall ops d w, last_read ops d = Some w ->
  exists s xs i c, crun cstate_new ops = Some (s, xs) /\ last xs None = Some i
    /\ nth_error (s_rows s) i = Some c /\ read_const (h_bytes (s_heap s) ++ d) c = w.
Proof.
  intros ops d w H. unfold last_read in H.
  destruct (crun cstate_new ops) as [[s xs]|]; [|discriminate].
  destruct (last xs None) as [i|] eqn:L; [|discriminate].
  destruct (nth_error (s_rows s) i) as [c|] eqn:N; [|discriminate].
  cbn [option_map] in H. apply some_inj in H.
  exists s, xs, i, c. auto.
Qed.
