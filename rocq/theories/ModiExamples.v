(** Types and members for the examples. *)
From Coq Require Import List Bool Arith Lia.
From Verif Require Import ModiModel ModiSpec.
Import ListNotations.

Definition plain (a : access) : decorate :=
  mk_decorate a false false false false false false false false false.
Definition virtual (a : access) : decorate :=
  mk_decorate a false false false true false false false false false.
Definition override (a : access) : decorate :=
  mk_decorate a false false true false false false false false false.
Definition abstract (a : access) : decorate :=
  mk_decorate a false false false false true false false false false.
Definition new_ (a : access) : decorate :=
  mk_decorate a false false false false false true false false false.

Definition method (id host name : nat) (ps : list (nat * nat)) (d : decorate) : member :=
  mk_member id host false Method name name 5 ps 0 d true None None false false.
Definition property (id host name : nat) (d : decorate) : member :=
  mk_member id host false Property name name 5 [] 0 d false (Some true) None false false.
Definition field (id host name : nat) (d : decorate) : member :=
  mk_member id host false Field name name 5 [] 0 d false None None false false.
(** An indexer compiled from source: it is kept without a name. *)
Definition indexer (id host : nat) (d : decorate) : member :=
  mk_member id host false Property 9 0 5 [(3, 0)] 0 d false (Some true) None false false.

(** [class Base { public virtual R run(A a); public virtual R size { get; } public R f; R g; }] *)
Definition Base : type :=
  mk_type 1 100 false false
    [method 10 1 1 [(3, 0)] (virtual Public); property 11 1 2 (virtual Public);
     field 12 1 3 (plain Public); field 13 1 4 (plain Unspecified)].

(** [class Middle : Base { public R other(); }] *)
Definition Middle : type := mk_type 2 200 false false [method 20 2 6 [] (plain Public)].

Definition demo_run : member := method 30 3 1 [(3, 0)] (override Public).
Definition demo_overload : member := method 31 3 1 [(4, 0)] (plain Unspecified).
Definition demo_f : member := field 32 3 3 (plain Public).

(** [class Derived : Middle { public override R run(A a); R run(B b); public R f; }] *)
Definition Derived : type := mk_type 3 300 false false [demo_run; demo_overload; demo_f].

Definition demo_chain : list type := [Middle; Base].

Ltac members H := repeat match goal with
  | H : In _ (_ :: _) |- _ => destruct H as [<-|H]
  | H : In _ [] |- _ => destruct H
  | H : In _ (t_members _) |- _ => cbn [t_members Base Middle Derived] in H
  end.

Lemma demo_filed : Forall filed demo_chain.
Proof. repeat constructor; intros x Hx; members Hx; reflexivity. Qed.

Lemma demo_foreign m : In m (t_members Derived) -> foreign m demo_chain.
Proof.
  intros H t x Ht Hx. unfold demo_chain in Ht. members Ht; discriminate.
Qed.

Lemma demo_above : above Derived demo_chain.
Proof. intros t x Ht Hx. unfold demo_chain in Ht. members Ht; discriminate. Qed.

(** What [run] and [f] meet. *)
Lemma clash_name m x : m_name m <> m_name x -> ~ clash m x.
Proof. intros N (E & _). contradiction. Qed.

Lemma demo_nearest_run x : nearest demo_chain demo_run x <-> x = method 10 1 1 [(3, 0)] (virtual Public).
Proof.
  split.
  - intros H. destruct H as (b & t & a & E & _ & Hx & (N & _)).
    assert (Ht : In t demo_chain) by (rewrite E; apply in_or_app; right; now left).
    unfold demo_chain in Ht. members Ht; try discriminate N. reflexivity.
  - intros ->. exists [Middle], Base, []. split; [reflexivity|]. split.
    + intros u y Hu Hy. members Hu. now apply clash_name.
    + split; [now left|]. split; [reflexivity|]. split; [now split | discriminate].
Qed.

Lemma demo_nearest_f x : nearest demo_chain demo_f x <-> x = field 12 1 3 (plain Public).
Proof.
  split.
  - intros H. destruct H as (b & t & a & E & _ & Hx & (N & _)).
    assert (Ht : In t demo_chain) by (rewrite E; apply in_or_app; right; now left).
    unfold demo_chain in Ht. members Ht; try discriminate N. reflexivity.
  - intros ->. exists [Middle], Base, []. split; [reflexivity|]. split.
    + intros u y Hu Hy. members Hu. now apply clash_name.
    + split; [right; right; now left|]. split; [reflexivity|]. split; discriminate.
Qed.

Lemma demo_single m : In m (t_members Derived) -> single Derived m.
Proof.
  intros H. split; [left; members H; discriminate|]. intros x Hx NE (N & M & _).
  members H; try discriminate N; try (now destruct NE); destruct (M eq_refl eq_refl) as [Q _]; discriminate Q.
Qed.

Lemma demo_rules_run : rules Derived demo_run.
Proof.
  constructor; cbn; try (intros; discriminate); auto.
  - intros NW. destruct NW. now left.
Qed.

(** *** Cases the checks miss *)

(** [interface I { override R run(); }] *)
Definition odd_interface_member : member :=
  mk_member 40 4 true Method 1 1 5 [] 0 (override Unspecified) false None None false false.
Definition Interface : type := mk_type 4 400 true false [odd_interface_member].

(** [abstract class A { public abstract R run() { ... } public virtual abstract R go(); }] *)
Definition abstract_body : member := method 50 5 1 [] (abstract Public).
Definition virtual_abstract : member :=
  mk_member 51 5 false Method 2 2 5 [] 0
    (mk_decorate Public false false false true true false false false false) false None None false false.
Definition Abstract : type := mk_type 5 500 false true [abstract_body; virtual_abstract].

(** [public override R size() { ... }] below a virtual property. *)
Definition method_for_property : member := method 60 6 2 [] (override Public).
(** [public override R run(ref A a)]. *)
Definition passed_by_reference : member := method 61 6 1 [(3, 1)] (override Public).
(** [protected new R run(A a)]. *)
Definition new_member : member := method 62 6 1 [(3, 0)] (new_ Protected).
(** [public new R nothing()]. *)
Definition new_nothing : member := method 63 6 7 [] (new_ Public).
Definition type_of (m : member) : type := mk_type 6 600 false false [m].

(** [R get_size() { ... }  R size { get { ... } }]: the accessor is appended to the methods. *)
Definition user_get : member := method 70 7 8 [] (plain Public).
Definition accessor : member :=
  mk_member 71 7 false Method 8 8 5 [] 0 (plain Public) true None None true false.
Definition Accessors : type :=
  mk_type 7 700 false false [user_get; accessor; property 72 7 2 (plain Public)].

(** Two equal indexers, two that differ, and one below another. *)
Definition Indexers : type :=
  mk_type 8 800 false false [indexer 80 8 (plain Public); indexer 81 8 (plain Public)].
(** [R this[A a] { get; } R this[B b] { get; }] *)
Definition indexer_by_other : member :=
  mk_member 83 8 false Property 9 0 5 [(4, 0)] 0 (plain Public) false (Some true) None false false.
Definition Overloads : type :=
  mk_type 8 800 false false [indexer 82 8 (plain Public); indexer_by_other].
Definition IndexerBase : type := mk_type 9 900 false false [indexer 90 9 (virtual Public)].
Definition IndexerDerived : type := mk_type 10 1000 false false [indexer 91 10 (override Public)].

(** [extern R p { get; }] *)
Definition extern_property : member :=
  mk_member 64 6 false Property 2 2 5 [] 0
    (mk_decorate Public true false false false false false false false true) false (Some false) None false false.
