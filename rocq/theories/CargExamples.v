(** Programs for the examples about generic arguments. *)
From Coq Require Import List Arith Bool PeanoNat Relations Lia.
From Verif Require Import OverModel CargModel CargSpec CargProofs.
Import ListNotations.

(** Object (0), Enum (1), the interface Shape (2), the class Base (3), the class
    Derived : Base, Shape (4), the struct Int32 (5), the enum Color (6), the
    class List<T> : IList<T> (7), the interface IList<T> (8) and the enum
    Level (9). *)
Definition demo_decls : list tdecl :=
  [ mk_tdecl KClass VMobject [] [] true;
    mk_tdecl KClass VMobject [] [TGeneral 0] false;
    mk_tdecl KInterface VMobject [] [] false;
    mk_tdecl KClass VMobject [] [TGeneral 0] false;
    mk_tdecl KClass VMobject [] [TGeneral 3; TGeneral 2] true;
    mk_tdecl KStruct VInt32 [] [TGeneral 0] true;
    mk_tdecl KEnum VInt32 [] [TGeneral 1] false;
    mk_tdecl KClass VMobject [0] [TGeneral 0; TGeneric 8 [TParam 0]] true;
    mk_tdecl KInterface VMobject [0] [] false;
    mk_tdecl KEnum VInt32 [] [TGeneral 1] false ].

Definition demo : program :=
  mk_program (fun c => nth c demo_decls (mk_tdecl KInterface VMobject [] [] false)) 0 1.

Definition Object := TGeneral 0.
Definition Shape := TGeneral 2.
Definition Base := TGeneral 3.
Definition Derived := TGeneral 4.
Definition Int32 := TGeneral 5.
Definition Color := TGeneral 6.
Definition List_ (t : ty) := TGeneric 7 [t].
Definition IList (t : ty) := TGeneric 8 [t].
Definition Level := TGeneral 9.

Lemma demo_out c : 10 <= c -> p_decl demo c = mk_tdecl KInterface VMobject [] [] false.
Proof. intros H. cbn [demo p_decl]. apply nth_overflow. cbn [demo_decls length]. exact H. Qed.

Lemma decl_cases (Q : nat -> Prop) :
  Q 0 -> Q 1 -> Q 2 -> Q 3 -> Q 4 -> Q 5 -> Q 6 -> Q 7 -> Q 8 -> Q 9 ->
  (forall c, 10 <= c -> Q c) -> forall c, Q c.
Proof.
  intros. destruct (le_lt_dec 10 c) as [L|L]; [auto|].
  do 10 (destruct c as [|c]; [assumption|]). lia.
Qed.

Lemma nodup_params c : NoDup (d_params (p_decl demo c)).
Proof.
  revert c. match goal with |- forall c, @?Q c => apply (decl_cases Q) end; try (cbn; repeat constructor; cbn; tauto).
  intros c H. cbv beta. rewrite demo_out by exact H. constructor.
Qed.

Lemma super_cases c s : In s (d_supers (p_decl demo c)) ->
  In (c, s) [(1, TGeneral 0); (3, TGeneral 0); (4, TGeneral 3); (4, TGeneral 2); (5, TGeneral 0);
             (6, TGeneral 1); (7, TGeneral 0); (7, TGeneric 8 [TParam 0]); (9, TGeneral 1)].
Proof.
  revert c. match goal with |- forall c, @?Q c => apply (decl_cases Q) end.
  11: intros c H; cbv beta; rewrite demo_out by exact H; intros [].
  all: cbn; intuition subst; tauto.
Qed.

Lemma demo_supers : supers_ok demo.
Proof.
  intros c. split; [apply nodup_params|]. intros s H. apply super_cases in H.
  repeat (destruct H as [H|H]; [injection H as <- <-|]); [..|destruct H].
  8:{ split; [exists 8; right; eexists; reflexivity|]. split.
      - constructor; [reflexivity|]. intros t [<-|[]]. constructor.
      - intros x Hx. inversion Hx as [|? ? t Ht Ho|]; subst. destruct Ht as [<-|[]].
        inversion Ho. now left. }
  all: split; [eexists; left; reflexivity|]; split;
    [constructor; reflexivity | intros x Hx; inversion Hx].
Qed.

Lemma demo_bases : bases_ok demo.
Proof.
  intros c s b H D K NO NE. apply super_cases in H.
  repeat (destruct H as [H|H]; [injection H as <- <-|]); [..|destruct H];
    try (exfalso; apply NO; reflexivity); try (exfalso; apply NE; reflexivity).
  - split; [reflexivity | split; discriminate].
  - destruct D as [D|(a & D)]; [injection D as <-; discriminate K | discriminate D].
  - destruct D as [D|(a & D)]; [discriminate D | injection D as <- _; discriminate K].
Qed.

(** Which type derives from which. *)
Lemma below_step t u s : declared_super demo t u -> below demo u s -> below demo t s.
Proof. intros H1 H2. apply rt_trans with u; [now apply rt_step | exact H2]. Qed.

Lemma derived_base : below demo Derived Base.
Proof. apply rt_step. constructor. cbn. tauto. Qed.

Lemma derived_shape : below demo Derived Shape.
Proof. apply rt_step. constructor. cbn. tauto. Qed.

Lemma proper_demo t : In t [Object; Shape; Base; Derived; Int32; Color; Level] -> proper demo t.
Proof.
  intros H. repeat (destruct H as [<-|H]; [constructor; reflexivity|]). destruct H.
Qed.

Lemma ground_demo t : In t [Object; Shape; Base; Derived; Int32; Color; Level] ->
  proper demo t /\ forall y, ~ occurs y t.
Proof.
  intros H. split; [now apply proper_demo|]. intros y Hy.
  repeat (destruct H as [<-|H]; [inversion Hy|]). destruct H.
Qed.

(** What is not above: the types reached from a type are in a finite list. *)
Lemma not_below U t s : In t U -> (forall a b, In a U -> declared_super demo a b -> In b U) ->
  ~ In s U -> ~ below demo t s.
Proof.
  intros Ht CL N B. apply N. clear N. apply clos_rt_rt1n in B. revert Ht.
  induction B as [t|t u s H1 H2 IH]; intros Ht; [exact Ht|]. apply IH. eapply CL; eauto.
Qed.

Lemma supers_general c s : declared_super demo (TGeneral c) s -> In s (d_supers (p_decl demo c)).
Proof. intros H. inversion H; subst; assumption. Qed.

(** *** Settings *)

Definition env (l : list (nat * ty)) (x : nat) : ty :=
  match glookup l x with Some t => t | None => Object end.

(** In a method [m<T> where T : Base, Shape, new()] the type [F<T, List<T>>] is
    written, of a template [F<X, Y> where X : class, Base, new() where Y : IList<X>]. *)
Definition demo_template : scope :=
  mk_scope [20; 21] [mk_gcon 20 true false true [Base]; mk_gcon 21 false false false [IList (TParam 20)]].
Definition demo_place : place :=
  mk_place (Some (mk_scope [10] [mk_gcon 10 false false true [Base; Shape]])) [].
Definition demo_args : list ty := [TParam 10; List_ (TParam 10)].
Definition demo_q : nat -> ty := env (combine [20; 21] demo_args).
Definition demo_r : nat -> ty := env [(10, Derived)].

Lemma assigns_env params args : NoDup params -> length args = length params ->
  assigns params args (env (combine params args)).
Proof.
  intros ND L i x t H1 H2. unfold env.
  rewrite (glookup_combine params args (assign_of params args) x ND L).
  - exact (assign_of_assigns params args ND i x t H1 H2).
  - now apply assign_of_assigns.
  - eapply nth_error_In; eauto.
Qed.

Lemma env_ground l : (forall x t, In (x, t) l -> In t [Object; Shape; Base; Derived; Int32; Color; Level]) ->
  forall x, proper demo (env l x) /\ forall y, ~ occurs y (env l x).
Proof.
  intros H x. apply ground_demo. unfold env. induction l as [|(y, t) l IH]; cbn [glookup]; [now left|].
  destruct (x =? y).
  - apply (H y t). now left.
  - apply IH. intros z u Hz. apply (H z u). now right.
Qed.

Ltac split_in :=
  repeat match goal with
  | H : False |- _ => destruct H
  | H : _ \/ _ |- _ => destruct H
  | H : In _ _ |- _ => progress cbn in H
  end; subst.

Ltac pr :=
  solve [ apply proper_param
        | apply proper_general; reflexivity
        | apply proper_generic; [reflexivity | intros ? [<-|[]]; pr] ].

Ltac scope_tac :=
  split; [repeat constructor; cbn; intuition discriminate|];
  split; [intros ? ?; split_in; cbn; tauto | intros ? ? ? ?; split_in; cbn [g_types In] in *; split_in; pr].

Ltac own_tac :=
  intros ? ? ? ? ? ?; split_in; cbn [g_types In] in *; split_in;
  repeat match goal with H : occurs _ _ |- _ => inversion H; clear H; subst; split_in end; cbn; tauto.

Ltac setting_tac :=
  constructor; [exact demo_supers | exact demo_bases
  | intros ? ?; split_in; scope_tac
  | scope_tac | own_tac | reflexivity
  | intros ? ?; split_in; pr
  | apply assigns_env; [repeat constructor; cbn; intuition discriminate | reflexivity]
  | | apply env_ground; intros ? ? ?; cbn in *; intuition (match goal with H : (_, _) = (_, _) |- _ => injection H as <- <- end; tauto)].

(** A constraint without flags is about its types only. *)
Lemma plain_satisfies r x us :
  (forall u, In u us -> below demo (r x) (subst r u)) ->
  satisfies demo r (mk_gcon x false false false us).
Proof. intros H. constructor; cbn; [exact H | discriminate..]. Qed.

Lemma demo_setting : setting demo demo_place demo_template demo_args demo_q demo_r.
Proof.
  setting_tac. intros c [[_ Hc]|[_ []]]. split_in. constructor; cbn; try discriminate.
  - intros u Hu. split_in; [exact derived_base | exact derived_shape].
  - intros _. exists 4. split; [now left|]. split; [now left | reflexivity].
Qed.

Lemma demo_side : no_shadowing demo_place /\ object_constraints demo demo_template /\
  struct_arguments demo_place demo_template demo_q.
Proof.
  split; [repeat constructor; cbn; tauto|]. split.
  - intros c u Hc Hu. split_in; cbn [g_types] in Hu; split_in.
    + left. exists 3. split; [now left|]. split; [now left | reflexivity].
    + left. exists 8. split; [right; eexists; reflexivity|]. split; [now right | reflexivity].
  - intros c x Hc G. split_in; discriminate G.
Qed.

(** [B<X> where X : struct] is given the parameter [T] of [m<T>], which has no
    constraint. *)
Definition struct_template : scope := mk_scope [20] [mk_gcon 20 false true false []].
Definition struct_place : place := mk_place (Some (mk_scope [10] [])) [].
Definition struct_q := env (combine [20] [TParam 10]).
Definition struct_r := env [(10, Derived)].

Lemma struct_setting : setting demo struct_place struct_template [TParam 10] struct_q struct_r.
Proof. setting_tac. intros c [[_ Hc]|[_ []]]. split_in. Qed.

(** [B<X, Y> where X : Y] is given [T] and [V] in [m<T, U, V> where T : U]. *)
Definition param_template : scope := mk_scope [20; 21] [mk_gcon 20 false false false [TParam 21]].
Definition param_place : place :=
  mk_place (Some (mk_scope [10; 11; 12] [mk_gcon 10 false false false [TParam 11]])) [].
Definition param_args := [TParam 10; TParam 12].
Definition param_q := env (combine [20; 21] param_args).
Definition param_r := env [(10, Derived); (11, Base); (12, Int32)].

Lemma param_setting : setting demo param_place param_template param_args param_q param_r.
Proof.
  setting_tac. intros c [[_ Hc]|[_ []]]. split_in. apply plain_satisfies.
  intros u Hu. split_in. exact derived_base.
Qed.

(** [B<X> where X : Base] is given the parameter [T] of [m<T>] in a type [A<T> where
    T : Base]. *)
Definition shadow_template : scope := mk_scope [20] [mk_gcon 20 false false false [Base]].
Definition shadow_place : place :=
  mk_place (Some (mk_scope [10] [])) [mk_scope [10] [mk_gcon 10 false false false [Base]]].
Definition shadow_q := env (combine [20] [TParam 10]).
Definition shadow_r := env [(10, Int32)].

Lemma shadow_setting : setting demo shadow_place shadow_template [TParam 10] shadow_q shadow_r.
Proof.
  setting_tac. intros c [[_ Hc]|[N [[Hp _]|[_ []]]]]; [split_in|]. destruct N. exact Hp.
Qed.

(** [B<X> where X : Color] is given [Level], another enum. *)
Definition enum_template : scope := mk_scope [20] [mk_gcon 20 false false false [Color]].
Definition enum_q := env (combine [20] [Level]).
Definition enum_r := env [].

Lemma enum_setting : setting demo struct_place enum_template [Level] enum_q enum_r.
Proof. setting_tac. intros c [[_ Hc]|[_ []]]. split_in. Qed.

Lemma general_closed cs : (forall c s, In c cs -> In s (d_supers (p_decl demo c)) ->
    exists b, s = TGeneral b /\ In b cs) ->
  forall a b, In a (map TGeneral cs) -> declared_super demo a b -> In b (map TGeneral cs).
Proof.
  intros H a b Ha D. apply in_map_iff in Ha. destruct Ha as (c & <- & Hc).
  destruct (H c b Hc (supers_general c b D)) as (k & -> & Hk). now apply in_map.
Qed.

Lemma derived_not_int : ~ below demo Derived Int32.
Proof.
  apply (not_below (map TGeneral [4; 3; 2; 0])).
  - now left.
  - apply general_closed. intros c s Hc Hs. split_in; cbn in Hs; split_in; eexists; (split; [reflexivity | cbn; tauto]).
  - intros H. split_in; discriminate.
Qed.

Lemma int_not_base : ~ below demo Int32 Base.
Proof.
  apply (not_below (map TGeneral [5; 0])).
  - now left.
  - apply general_closed. intros c s Hc Hs. split_in; cbn in Hs; split_in; eexists; (split; [reflexivity | cbn; tauto]).
  - intros H. split_in; discriminate.
Qed.

Lemma level_not_color : ~ below demo Level Color.
Proof.
  apply (not_below (map TGeneral [9; 1; 0])).
  - now left.
  - apply general_closed. intros c s Hc Hs. split_in; cbn in Hs; split_in; eexists; (split; [reflexivity | cbn; tauto]).
  - intros H. split_in; discriminate.
Qed.

Lemma derived_not_value : ~ value_type demo Derived.
Proof.
  intros (c & [E|(a & E)] & K); [|discriminate E]. injection E as <-. destruct K as [K|K]; discriminate K.
Qed.

(** *** Places without a method, and chains *)

(** The field [B<T> f] of [A<T> where T : Base]. *)
Definition field_place : place :=
  mk_place None [mk_scope [10] [mk_gcon 10 false false false [Base]]].

(** [B<T>] in [m<T, U> where T : U where U : Base]. *)
Definition chain_place : place :=
  mk_place (Some (mk_scope [10; 11]
    [mk_gcon 10 false false false [TParam 11]; mk_gcon 11 false false false [Base]])) [].

(** A setting for arguments that are not parameters. *)
Definition plain_args := [Derived; List_ Derived].
Definition wrong_args := [Base; List_ Int32].
Definition plain_types : list ty :=
  [Derived; Base; Shape; Object; List_ Derived; IList Derived; List_ Int32; IList Int32].

Lemma plain_closed : closed_above demo plain_types.
Proof.
  intros t s Ht D. split_in; inversion D as [c0 s0 Hs|c0 a0 r0 s0 A Hs]; subst; cbn in Hs; split_in;
    cbn [subst map]; try (cbn; tauto).
  - rewrite (A 0 0 Derived eq_refl eq_refl). cbn. tauto.
  - rewrite (A 0 0 Int32 eq_refl eq_refl). cbn. tauto.
Qed.

Lemma plain_proper t : In t plain_types -> proper demo t.
Proof. intros H. split_in; pr. Qed.
