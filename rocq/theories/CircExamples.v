(** Constraints and types for the examples. *)

From Coq Require Import List Bool Arith Lia Relations.Relation_Operators.
From Verif Require Import CircModel CircSpec CircProofs.
Import ListNotations.

Definition where_ (x : name) (l : list gtype) : constraint :=
  {| cparam := x; cclass := false; cstruct := false; cnew := false; ctypes := l |}.

(* where T : new(), Base, IFace, U  where U : class, IFace, V *)
Definition plain : list constraint :=
  [{| cparam := 0; cclass := false; cstruct := false; cnew := true;
      ctypes := [GType 7 true false; GType 8 false false; GParam 1] |};
   {| cparam := 1; cclass := true; cstruct := false; cnew := false;
      ctypes := [GType 8 false false; GParam 2] |}].

(* where A : B, C  where B : D  where C : D *)
Definition diamond : list constraint :=
  [where_ 0 [GParam 1; GParam 2]; where_ 1 [GParam 3]; where_ 2 [GParam 3]].

(* where T : U  where U : T *)
Definition ring : list constraint := [where_ 0 [GParam 1]; where_ 1 [GParam 0]].

Lemma where_rules : forall x l, NoDup l -> Forall (fun t => exists n, t = GParam n) l -> rules (where_ x l).
Proof.
  intros x l ND F. rewrite Forall_forall in F.
  constructor; cbn [where_ ctypes cclass cstruct cnew]; auto; try (intros [X Y]; discriminate).
  - intros I. destruct (F _ I) as (n & E). discriminate E.
  - intros i k I. destruct (F _ I) as (n & E). discriminate E.
  - intros l1 t l2 -> K. destruct (F t) as (n & ->); [apply in_app_iff; right; left; reflexivity|].
    inversion K.
Qed.

Lemma diamond_lawful : lawful diamond.
Proof.
  split.
  - repeat constructor; cbn; intuition discriminate.
  - intros c [<-|[<-|[<-|[]]]]; apply where_rules; repeat constructor; cbn; try (intuition discriminate); eauto.
Qed.

Lemma diamond_less : forall x y, clos_trans _ (needs diamond) x y -> x < y.
Proof.
  intros x y H. induction H as [x y (c & I & E & M)|]; [|lia].
  destruct I as [<-|[<-|[<-|[]]]]; cbn in E, M; subst; intuition (try congruence);
    repeat match goal with H : GParam _ = GParam _ |- _ => injection H as <- end; lia.
Qed.

Lemma ring_circle : clos_trans _ (needs ring) 0 0.
Proof.
  apply t_trans with 1; apply t_step.
  - exists (where_ 0 [GParam 1]). cbn. auto.
  - exists (where_ 1 [GParam 0]). cbn. auto.
Qed.

(* class A : B<A>, I;  class B<T> : C;  class C : A;  interface I.  B<A> is the type 10. *)
Definition looped : types :=
  {| univ := [0; 1; 2; 3];
     supers := fun t => match t with 0 => [3; 10] | 1 => [2] | 2 => [0] | _ => [] end;
     general := fun t => match t with 10 => 1 | t => t end |}.

Lemma looped_closed : closed looped.
Proof.
  intros a b _ (s & I & <-). destruct a as [|[|[|a]]]; cbn in I; intuition; subst; cbn; auto.
Qed.

Lemma looped_circle : clos_trans _ (base looped) 0 0.
Proof.
  apply t_trans with 1; [apply t_step; exists 10; cbn; auto|].
  apply t_trans with 2; [apply t_step; exists 2; cbn; auto|].
  apply t_step. exists 0. cbn. auto.
Qed.
