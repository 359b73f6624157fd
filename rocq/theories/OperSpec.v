(** What operators of user types and the types of values should be like. *)
From Coq Require Import List Bool Arith.
From Verif Require Import OverModel OverSpec OperModel.
Import ListNotations.

(** An operand that is an object: of a class, an interface or a string. *)
Definition object (W : world) (t : ty) : Prop :=
  t <> TNull /\ (w_vtype W t = VMobject \/ w_vtype W t = VString).

(** The operators that are written alike. *)
Definition sign (o : op) : op :=
  match o with Positive => Add | Minus => Sub | _ => o end.

(** Operators a program may define for its types. *)
Definition overloadable (o : op) : Prop :=
  ~ In o [LogicAnd; LogicOr; Assign; MemberPoint; As; Is; NullCoalescing; NullCoalescingAssign].

(** A method that declares the operator [o] of the type [T] as it has to. *)
Record well_declared (W : world) (F : facts) (T : ty) (o : op) (m : method) : Prop := {
  wd_static : f_static F m = true;
  wd_public : f_public F m = true;
  wd_params : length (m_params m) = arity o;
  wd_type : exists p, In p (m_params m) /\ p_type p = T;
  wd_result : exists t, f_result F m = Some t /\ (t = TNull \/ w_vtype W t <> VVoid)
}.

(** The operands can be given to the method. *)
Definition takes (W : world) (m : method) (ts : list ty) : Prop :=
  Forall2 (fun p t => converts W t (p_type p)) (m_params m) ts.

(** The method returns a value of the type. *)
Definition returns (W : world) (result : option ty) (t : ty) : Prop :=
  result = Some t /\ (t = TNull \/ w_vtype W t <> VVoid).
