(** Histories for the examples on object locks. *)

From Coq Require Import ZArith List Bool Arith Lia.
Import ListNotations.
From Verif Require Import CppInt PoolModel LockModel LockSpec.
Local Open Scope Z_scope.

(** The state after a list of events, first event first. *)
Fixpoint follow (s : state) (l : list event) : result :=
  match l with
  | [] => Done s
  | e :: r => match step s e with Done s' => follow s' r | x => x end
  end.

Definition proper_b (n : nat) (h : list event) (e : event) : bool :=
  match e with
  | Enter t o => Nat.ltb t n && (match asks h t with None => true | _ => false end) && negb (holds h t o)
  | Lock t o => match asks h t with Some o' => o' =? o | None => false end
  | Exit t o => (match asks h t with None => true | _ => false end) && holds h t o
  end.

Fixpoint all_proper (n : nat) (h l : list event) : bool :=
  match l with
  | [] => true
  | e :: r => proper_b n h e && all_proper n (e :: h) r
  end.

Lemma proper_right : forall n h e, proper_b n h e = true -> proper n h e.
Proof.
  intros n h e H. destruct e as [t o | t o | t o]; cbn [proper proper_b] in *.
  - apply andb_prop in H. destruct H as (H & H2). apply andb_prop in H. destruct H as (H & H1). apply Nat.ltb_lt in H.
    destruct (asks h t); [discriminate |]. apply negb_true_iff in H2. split; [exact H | split; [reflexivity | exact H2]].
  - destruct (asks h t) as [o' |]; [| discriminate]. apply Z.eqb_eq in H. subst. reflexivity.
  - apply andb_prop in H. destruct H as (H & H1). destruct (asks h t); [discriminate |]. split; [reflexivity | exact H1].
Qed.

Lemma follow_runs : forall n l h s s', runs n h s -> all_proper n h l = true -> follow s l = Done s' -> runs n (rev l ++ h) s'.
Proof.
  intros n l. induction l as [| e l IH]; intros h s s' R A E; cbn [follow all_proper rev app] in *.
  - injection E as <-. exact R.
  - apply andb_prop in A. destruct A as (A & A2). destruct (step s e) as [s1 | | |] eqn:St; try discriminate.
    rewrite <- app_assoc. apply (IH (e :: h) s1 s'); [| exact A2 | exact E]. exact (Runs_step n h s e s1 R (proper_right n h e A) St).
Qed.

(** Thread 0 goes through eleven objects and holds the last two; thread 1 waits for one of them and thread 2 holds another. *)
Definition round (o : Z) : list event := [Enter 0 o; Lock 0 o; Exit 0 o].
Definition busy : list event :=
  flat_map round [100; 104; 108; 112; 116; 120; 124; 128; 132; 136] ++
  [Enter 0 140; Enter 2 144; Lock 2 144; Lock 0 140; Enter 1 140].

(** A thread that enters an object it is in. *)
Definition again : list event := [Enter 0 7; Lock 0 7; Enter 0 7; Lock 0 7].

Definition thread_of (e : event) : nat := match e with Enter t _ | Lock t _ | Exit t _ => t end.
Definition object_of (e : event) : Z := match e with Enter _ o | Lock _ o | Exit _ o => o end.

Lemma holds_mentioned : forall h t o, holds h t o = true -> In t (map thread_of h) /\ In o (map object_of h).
Proof.
  intros h t o. induction h as [| e h IH]; intros H; [discriminate |]. cbn [map In].
  destruct e as [u x | u x | u x]; cbn [holds thread_of object_of] in *.
  - destruct (IH H). split; right; assumption.
  - destruct (Nat.eqb_spec u t); destruct (Z.eqb_spec x o); cbn [andb] in H; try (destruct (IH H); split; right; assumption). split; left; assumption.
  - destruct (Nat.eqb u t && (x =? o)); [discriminate |]. destruct (IH H). split; right; assumption.
Qed.

Lemma asks_mentioned : forall h t o, asks h t = Some o -> In t (map thread_of h) /\ In o (map object_of h).
Proof.
  intros h t o. induction h as [| e h IH]; intros H; [discriminate |]. cbn [map In].
  destruct e as [u x | u x | u x]; cbn [asks thread_of object_of] in *.
  - destruct (Nat.eqb_spec u t); [injection H as <-; split; left; auto |]. destruct (IH H). split; right; assumption.
  - destruct (Nat.eqb u t); [discriminate |]. destruct (IH H). split; right; assumption.
  - destruct (IH H). split; right; assumption.
Qed.

Definition used_b (h : list event) (objs : list Z) : bool :=
  forallb (fun o => forallb (fun t => implb (holds h t o || match asks h t with Some o' => o' =? o | None => false end) (existsb (Z.eqb o) objs)) (map thread_of h)) (map object_of h).

Lemma used_right : forall h objs, used_b h objs = true -> forall o, in_use h o -> In o objs.
Proof.
  intros h objs U o (t & H). unfold used_b in U. rewrite forallb_forall in U.
  assert (M : In t (map thread_of h) /\ In o (map object_of h)) by (destruct H; [apply holds_mentioned | apply asks_mentioned]; assumption).
  specialize (U o (proj2 M)). rewrite forallb_forall in U. specialize (U t (proj1 M)).
  assert (E : holds h t o || match asks h t with Some o' => o' =? o | None => false end = true) by (destruct H as [-> | ->]; [reflexivity | rewrite Z.eqb_refl; apply orb_true_r]).
  rewrite E in U. cbn [implb] in U. apply existsb_exists in U. destruct U as (x & I & X). apply Z.eqb_eq in X. subst. exact I.
Qed.
