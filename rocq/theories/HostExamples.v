(* Assemblies for PropertiesHost.v. *)
From Coq Require Import ZArith NArith List Bool Lia.
From Verif Require Import MetaModel MetaSpec MetaExamples HostModel HostSpec.
Import ListNotations.
Local Open Scope nat_scope.

(* class Left { class Item { } }   class Empty { }
   class Right { class Item { void f() { } } void g() { } int x; } *)
Definition twins : assembly :=
  Assembly
    [ Gtype 1 17 70 1 2 None [] [] [] [] [] [1] [];
      Gtype 2 18 70 1 2 (Some 0) [] [] [] [] [] [] [];
      Gtype 3 17 70 1 2 None [] [] [] [] [] [] [];
      Gtype 4 17 70 1 2 None [] [1] [] [0] [] [5] [];
      Gtype 5 17 70 1 2 None [] [] [] [] [] [] [];
      Gtype 2 18 70 1 2 (Some 3) [] [0] [] [] [] [] [] ]
    [ Method 6 1 1 [] (General (Own 2)) NoType []; Method 7 1 1 [] (General (Own 2)) NoType [] ]
    [ Field 8 1 (General (Own 2)) 0 ] [] [] [] [] None.

Lemma twins_good : good_assembly twins [].
Proof.
  constructor.
  - each; constructor; try (cbn; lia); try (unfold short; cbn; repeat split; lia);
      try discriminate; try (unfold numbers; repeat split; each; cbn; lia); try (each; cbn; lia).
    + intros h E. injection E as <-. cbn. lia.
    + intros h E. injection E as <-. cbn. lia.
  - each; constructor; try discriminate; try (unfold short; cbn; repeat split; lia);
      try (unfold numbers; each); try (each); cbn; repeat split; lia.
  - each. split; [discriminate|cbn; lia].
  - each.
  - each.
  - repeat split; cbn; repeat constructor; cbn; lia.
  - intros n t h E.
    do 6 (destruct n as [|n]; [cbn in E; injection E as <-; cbn [t_host]; split;
      [intros Q; first [discriminate Q | injection Q as <-; eexists; split; [reflexivity|cbn; auto]]
      |intros (u & EU & I);
       do 6 (destruct h as [|h]; [cbn in EU; injection EU as <-; cbn in I;
         (reflexivity || lia)|]); destruct h; discriminate EU]|]).
    destruct n; discriminate E.
  - exact Logic.I.
Qed.

Lemma twins_written : exists T, write twins [] 100 = Done T /\ roomy T /\
  made_for T TMethod 0 (KId 1) /\ host_by_method T 0 = Done (Some 3) /\
  made_for T TMethod 1 (KId 0) /\ host_by_method T 1 = Done (Some 5) /\
  host_by_method T 2 = Done None /\
  made_for T TField 0 (KId 0) /\ host_by_field T 0 = Done (Some 3) /\
  host_by_nest T 1 = [Done (Some 0)] /\ host_by_nest T 5 = [Done (Some 3)] /\
  host_by_nest T 2 = [Done None] /\
  get_type T 70 4 0 = [Some 3] /\ get_type T 70 9 0 = [None] /\
  get_type T 70 2 0 = [Some 1; Some 5].
Proof.
  destruct (write twins [] 100) as [T| | |] eqn:E;
    [|exfalso; vm_compute in E; discriminate E..].
  exists T. vm_compute in E. injection E as <-.
  split; [reflexivity|]. split; [intros k; destruct k; vm_compute; reflexivity|].
  repeat match goal with |- _ /\ _ => split end;
    first [eexists; split; reflexivity | vm_compute; reflexivity].
Qed.

Lemma none_first : hosts_first [].
Proof. intros e x h E. destruct e; discriminate E. Qed.
