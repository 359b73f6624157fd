(** A library (assembly 0) and a program (assembly 1) that uses it:

      // assembly 0
      public class Object { }
      public class Base { private class Node { }  private class Peer { }
                          protected internal class Kit { }  internal class Part { } }
      // assembly 1
      public class Derived : Base { class Inner { } }
      public class Box<T> { }
      public class IntBox : Box<Object> { }
      internal class Other { }
      public class Tool { public class Head { } }                                        *)
From Coq Require Import List Arith Bool PeanoNat Relations Lia.
Import ListNotations.
From Verif Require Import OverModel OverSpec AccessModel AccessSpec.

Definition Object := 0. Definition Base := 1. Definition Node := 2. Definition Peer := 3.
Definition Derived := 4. Definition Inner := 5. Definition Box := 6. Definition IntBox := 7.
Definition Other := 8. Definition Kit := 9. Definition Part := 10. Definition Tool := 11.
Definition Head := 12.

Definition shop_world : world := mk_world
  (fun t => match t with
            | TGeneral 0 => []
            | TGeneral 4 => [TGeneral Base]
            | TGeneral 7 => [TGeneric Box [TGeneral Object]]
            | TGeneral _ => [TGeneral Object]
            | TGeneric _ _ => [TGeneral Object]
            | _ => []
            end)
  (fun _ => VMobject).

Definition shop : decls := mk_decls shop_world
  (fun i => match i with 2 | 3 | 9 | 10 => Some Base | 5 => Some Derived | 12 => Some Tool | _ => None end)
  (fun i => match i with 0 | 1 | 2 | 3 | 9 | 10 => 0 | _ => 1 end)
  (fun i => match i with
            | 0 | 1 | 4 | 6 | 7 | 11 | 12 => Some Public
            | 9 => Some ProtectedOrInternal
            | 10 => Some Internal
            | 2 | 3 => Some Private
            | _ => None end)
  (fun _ => false) Object.

Definition shop_types : list ty :=
  TGeneric Box [TGeneral Object] :: map TGeneral (seq 0 13).

Definition shop_depth (i : nat) : nat := match d_host shop i with Some _ => 1 | None => 0 end.

Lemma shop_declared : well_declared shop shop_types shop_depth.
Proof.
  split.
  - intros t h. unfold shop_depth. intros E. rewrite E.
    destruct t as [|[|[|[|[|[|[|[|[|[|[|[|[|t]]]]]]]]]]]]]; cbn in E; try discriminate E; injection E as <-; cbn; lia.
  - intros t h E.
    destruct t as [|[|[|[|[|[|[|[|[|[|[|[|[|t]]]]]]]]]]]]]; cbn in E; try discriminate E; injection E as <-; reflexivity.
  - intros t s HI HS. unfold direct_super in HS. cbn in HI.
    repeat (destruct HI as [<-|HI]; [cbn in HS; unfold shop_types; cbn; intuition|]). destruct HI.
Qed.

Lemma shop_enough : enough shop_types shop_depth 20.
Proof.
  split; [cbn; lia|]. intros t. unfold shop_depth. destruct (d_host shop t); lia.
Qed.

Lemma derived_base : inherits shop_world (TGeneral Derived) (TGeneral Base).
Proof. apply t_step. left. reflexivity. Qed.

Lemma intbox_box : inherits shop_world (TGeneral IntBox) (TGeneric Box [TGeneral Object]).
Proof. apply t_step. left. reflexivity. Qed.

Lemma shop_supers_derived s : inherits shop_world (TGeneral Derived) s -> s = TGeneral Base \/ s = TGeneral Object.
Proof.
  intros H.
  assert (G : forall t, inherits shop_world t s ->
     t = TGeneral Derived \/ t = TGeneral Base \/ t = TGeneral Object -> s = TGeneral Base \/ s = TGeneral Object).
  { clear H. intros t H. unfold inherits in H. apply clos_trans_t1n in H. induction H.
    - intros [->|[->| ->]]; cbn in H; intuition congruence.
    - intros [->|[->| ->]]; cbn in H; try (destruct H as [H|[]]; subst y; apply IHclos_trans_1n; tauto). destruct H. }
  apply (G (TGeneral Derived) H). tauto.
Qed.

Lemma shop_plain_derived : plain_supers shop Derived.
Proof. intros s H. apply shop_supers_derived in H. destruct H as [->| ->]; eexists; reflexivity. Qed.
