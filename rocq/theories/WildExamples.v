(** A small directory for the theorems about patterns. *)
From Coq Require Import List Bool ZArith Lia.
From Verif Require Import WildModel WildSpec.
Import ListNotations.
Open Scope Z_scope.

Fixpoint str_eqb (a b : str) : bool :=
  match a, b with
  | [], [] => true
  | x :: a', y :: b' => (x =? y) && str_eqb a' b'
  | _, _ => false
  end.

(* src, a.cs, b.txt, lib *)
Definition n_src : str := [115; 114; 99].
Definition n_a : str := [97; 46; 99; 115].
Definition n_b : str := [98; 46; 116; 120; 116].
Definition n_lib : str := [108; 105; 98].
(* ?.cs and *.cs *)
Definition p_one : str := [63; 46; 99; 115].
Definition p_cs : str := [42; 46; 99; 115].

Definition disk : fs := mk_fs
  (fun p => str_eqb p n_src || str_eqb p (n_src ++ [47] ++ n_a))
  (fun p => str_eqb p n_src)
  (fun p => if str_eqb p n_src then [(n_a, false); (n_b, false); (n_lib, true)] else []).

Lemma one_line_check s : forallb (fun c => negb (memZ c [10; 13; 8232; 8233])) s = true -> one_line s.
Proof.
  intros H c Hc E. rewrite forallb_forall in H. specialize (H c Hc).
  assert (X : memZ c [10; 13; 8232; 8233] = true).
  { unfold memZ. apply existsb_exists. exists c. split; [exact E | apply Z.eqb_refl]. }
  now rewrite X in H.
Qed.

Lemma disk_names d : names_ok disk d.
Proof.
  intros n b H. unfold disk, fs_entries in H. destruct (str_eqb d n_src); [|destruct H].
  cbn [In] in H. destruct H as [[= <- <-]|[[= <- <-]|[[= <- <-]|[]]]]; now apply one_line_check.
Qed.

Lemma simple_check f : forallb (fun c => negb (memZ c [0; 43; 94; 36; 124])) f = true -> simple f.
Proof.
  intros H c Hc E. rewrite forallb_forall in H. specialize (H c Hc).
  assert (X : memZ c [0; 43; 94; 36; 124] = true).
  { unfold memZ. apply existsb_exists. exists c. split; [exact E | apply Z.eqb_refl]. }
  now rewrite X in H.
Qed.
