(** What compiling a solution should do. *)

From Coq Require Import List Bool Relations.Relation_Operators.
From Verif Require Import BuildModel.
Import ListNotations.

Section WithSolution.

Variable S0 : solution.

(** The names of the projects are different. *)
Definition distinct : Prop := NoDup (map pname (projects S0)).

Definition is_project (k : name) : Prop := exists p, In p (projects S0) /\ pname p = k.

(** In the walk of the project [a] there is the event [e]. *)
Definition has_event (a : name) (e : event) : Prop :=
  exists p, In p (projects S0) /\ pname p = a /\ In e (events p).

(** The project [a] imports the project [b]. *)
Definition imports (a b : name) : Prop := has_event a (Import None b) /\ is_project b.

(** There is something for an import. *)
Definition found (package : option name) (k : name) : Prop :=
  (package = None /\ is_project k) \/ In (package, k) (refs S0).

(** [a] comes before [b] in a list. *)
Definition before (a b : name) (l : list name) : Prop := exists l1 l2 l3, l = l1 ++ a :: l2 ++ b :: l3.

(** A solution without errors: all files are parsed, all imports are found, no
    project imports itself, directly or over others, there are no other errors. *)
Record clean : Prop := {
  c_parse : parse_errors S0 = 0;
  c_fault : forall a, ~ has_event a Fault;
  c_found : forall a package k, has_event a (Import package k) -> found package k;
  c_circle : forall a, ~ clos_trans _ imports a a }.

(** An error that is reported is one. *)
Definition justified (e : error) : Prop :=
  match e with
  | EParse => parse_errors S0 <> 0
  | EItself a => imports a a
  | ECircular a b => imports a b /\ clos_refl_trans _ imports b a
  | ENotFound a package k => has_event a (Import package k) /\ ~ found package k
  | EFault a => has_event a Fault
  end.

End WithSolution.
