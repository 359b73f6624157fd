(* What it means to find the type of a member or a type by its name. *)
From Coq Require Import ZArith NArith List.
From Verif Require Import MetaModel.
Import ListNotations.
Local Open Scope nat_scope.

(* The row of a table that the writer made for a thing *)
Definition made_for (T : tables) (k : tab) (j : nat) (e : key) : Prop :=
  exists x, nth_error (T k) j = Some x /\ en_key x = Some e.

(* No table is full. *)
Definition roomy (T : tables) : Prop :=
  forall k, (N.of_nat (length (T k)) < 1048576)%N.

(* A type of another assembly comes after the one it is nested in. *)
Definition hosts_first (X : list xtype) : Prop :=
  forall e x h, nth_error X e = Some x -> x_host x = Some h -> h < e.

(* A type with this namespace, name and number of generic params *)
Definition called (space name : Z) (count : nat) (t : gtype) : Prop :=
  t_space t = space /\ t_name t = name /\ length (t_params t) = count.
