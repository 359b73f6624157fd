(* Assemblies for PropertiesMeta.v. *)
From Coq Require Import ZArith NArith List Bool Lia.
From Verif Require Import MetaModel MetaSpec.
Import ListNotations.
Local Open Scope nat_scope.

(* The types of another assembly: Object, Outer and Outer.IList<T> *)
Definition others : list xtype :=
  [ Xtype 9 None 50 0 70; Xtype 9 None 51 0 70; Xtype 9 (Some 1) 52 1 70 ].

Definition others_find (asm : Z) (host : option nat) (space name count : Z) : option nat :=
  match host with
  | None => if Z.eqb name 50 then Some 0 else if Z.eqb name 51 then Some 1 else None
  | Some 1 => if Z.eqb name 52 && Z.eqb count 1 then Some 2 else None
  | _ => None
  end.

Definition loader : library := Library others_find (fun _ => 9%Z).

(* The methods are not numbered in the order of their names.
   class Chain<T> : Object, Outer.IList<T> {
     class Node { T[] items; Chain<ref T[]> rest; }
     U map<U>(T x, U[,] y) { }   Chain() { }   Node first { get; }
     Node start;   event Outer.IList<T> changed; } *)
Definition chain : assembly :=
  Assembly
    [ Gtype 1 17 70 1 2 None [0] [2; 0; 1] [0] [0] [0] [1]
        [General (Other 0); Instance (Other 2) (ACons (Param 0) 0 ANil) NoType];
      Gtype 2 18 70 1 2 (Some 0) [] [] [] [1; 2] [] [] [General (Other 0)] ]
    [ Method 3 1 1 [1] (Param 1) NoType [0; 1];
      Method 4 1 2 [] NoType NoType [];
      Method 5 1 5 [] (General (Own 1)) (Instance (Other 2) (ACons (Param 0) 0 ANil) NoType) [] ]
    [ Field 6 1 (General (Own 1)) 0; Field 7 1 (Array (Param 0) 1) 0;
      Field 8 1 (Instance (Own 0) (ACons (Array (Param 0) 1) 1 ANil) NoType) 12 ]
    [ Prop_ 9 1 (General (Own 1)) NoType [] (Some 2) None ]
    [ Event 10 1 (Instance (Other 2) (ACons (Param 0) 0 ANil) NoType) NoType None None ]
    [ Param_ 11 (Param 0) 0 0; Param_ 12 (Array (Param 1) 2) 1 13 ]
    [ Gparam 14 0; Gparam 15 1 ]
    (Some 0).

Ltac each := let H := fresh in intros ? H; repeat (destruct H as [<-|H]); try destruct H.

Lemma chain_param : type_param chain 0.
Proof. eexists. split; [left; reflexivity|cbn; tauto]. Qed.

Lemma chain_good : good_assembly chain others.
Proof.
  pose proof chain_param as P.
  constructor.
  - each; constructor; try (cbn; lia); try (unfold short; cbn; repeat split; lia).
    + discriminate.
    + unfold numbers. repeat split; each; cbn; lia.
    + each; cbn; repeat split; auto; lia.
    + intros h E. injection E as <-. cbn. lia.
    + unfold numbers. repeat split; each; cbn; lia.
    + each; cbn; repeat split; auto; lia.
  - each; constructor; try (unfold short; cbn; repeat split; lia); try discriminate;
      try reflexivity; try (unfold numbers; each; cbn; lia).
    + split; cbn; [|exact Logic.I]. right. cbn. auto.
    + each; eexists; (split; [reflexivity|]); cbn; repeat split; try discriminate; try lia;
        [left; exact P|right; cbn; auto].
    + split; cbn; repeat split; try lia. left. exact P.
  - each; split; try discriminate; cbn; repeat split; try lia; auto; discriminate.
  - each. constructor; try discriminate; try (unfold short; cbn; lia); try (each).
  - each. constructor; try discriminate.
    + cbn. repeat split; auto; lia.
    + split; exact Logic.I.
  - repeat split; cbn; repeat constructor; cbn; lia.
  - intros n t h E. destruct n as [|[|n]]; cbn in E; [| |destruct n; discriminate E];
      injection E as <-; cbn [t_host]; split.
    + discriminate.
    + intros (u & EU & I). destruct h as [|[|h]]; cbn in EU; [| |destruct h; discriminate EU];
        injection EU as <-; cbn in I; lia.
    + intros E. injection E as <-. eexists. split; [reflexivity|]. cbn. auto.
    + intros (u & EU & I). destruct h as [|[|h]]; cbn in EU; [| |destruct h; discriminate EU];
        injection EU as <-; cbn in I; [reflexivity|lia].
  - cbn. auto.
Qed.

Lemma loader_good : good_library loader others.
Proof.
  intros e x E. destruct e as [|[|[|e]]]; cbn in E; [| | |destruct e; discriminate E];
    injection E as <-; (split; [reflexivity|]); (split; [cbn; lia|]);
    (split; [reflexivity|]); intros h E; try discriminate E.
  injection E as <-. split; [lia|]. eexists. split; reflexivity.
Qed.

(* A class with many methods *)
Definition crowd (n : nat) : assembly :=
  Assembly [Gtype 1 17 70 1 2 None [] (seq 0 n) [] [] [] [] []]
    (repeat (Method 3 1 1 [] (General (Own 0)) NoType []) n) [] [] [] [] [] None.

Lemma crowd_good n : (N.of_nat n < 512)%N -> good_assembly (crowd n) [].
Proof.
  intros H. constructor.
  - each. constructor; try (cbn; lia); try discriminate.
    + unfold numbers. repeat split; try (solve [each]).
      cbn. rewrite repeat_length. intros k I. apply in_seq in I. lia.
    + unfold short. cbn. rewrite seq_length. repeat split; lia.
  - intros m I. apply repeat_spec in I. subst m. constructor; try discriminate.
    + cbn. repeat split; lia.
    + unfold short. cbn. lia.
    + unfold numbers. each.
    + each.
  - each.
  - each.
  - each.
  - assert (L : listed (crowd n) t_methods = seq 0 n) by (cbn; apply app_nil_r).
    split; [rewrite L; apply seq_NoDup|]. split; [constructor|]. split; [constructor|].
    split; [constructor|]. unfold declared. rewrite L. cbn [listed crowd w_types flat_map t_params app].
    replace (flat_map _ _) with (@nil nat); [constructor|].
    generalize (seq 0 n) as l. intros l. symmetry. induction l as [|k l IH]; [reflexivity|].
    cbn [flat_map]. rewrite IH, app_nil_r.
    destruct (nth_error _ k) as [m|] eqn:E; [|reflexivity].
    apply nth_error_In, repeat_spec in E. now subst m.
  - intros i t h E. destruct i as [|i]; [|destruct i; discriminate E]. injection E as <-.
    cbn [t_host]. split; [discriminate|]. intros (u & EU & I).
    destruct h as [|h]; [|destruct h; discriminate EU]. injection EU as <-. destruct I.
  - exact Logic.I.
Qed.

(* What reading makes of a class with 512 methods: the rows are there, but
   were never filled. *)
Lemma crowd_written : exists T, write (crowd 512) [] 2 = Done T /\ fits T /\
  forall L g, read L T g = Unset.
Proof.
  destruct (write (crowd 512) [] 2) as [T| | |] eqn:E;
    [|exfalso; vm_compute in E; discriminate E..].
  exists T. split; [reflexivity|]. vm_compute in E. injection E as <-. split.
  - intros k. destruct k; vm_compute; discriminate.
  - intros L g. vm_compute. reflexivity.
Qed.

(* What reading makes of the chain: the mode of the argument of the third field
   and the owner of the accessor are lost. *)
Lemma chain_written : exists T A', write chain others 100 = Done T /\ fits T /\
  read loader T 20 = Done A' /\
  nth_error (w_fields A') 2 =
    Some (Field 8 1 (Instance (Own 0) (ACons (Array (Param 0) 1) 0 ANil) NoType) 12) /\
  nth_error (w_methods A') 0 = Some (Method 5 1 5 [] (General (Own 1)) NoType []) /\
  w_entry A' = Some 1.
Proof.
  destruct (write chain others 100) as [T| | |] eqn:E;
    [|exfalso; vm_compute in E; discriminate E..].
  exists T. vm_compute in E. injection E as <-.
  eexists. split; [reflexivity|]. split; [|split; [vm_compute; reflexivity|repeat split]].
  intros k. destruct k; vm_compute; discriminate.
Qed.
