(** What a declared type should have. *)
From Coq Require Import List Bool Arith.
From Verif Require Import ModiModel DfltModel.
Import ListNotations.

(** A field as an enum should have them: of the type of the enum, and a public constant. *)
Definition enum_constant (t : nat) (f : fld) : Prop :=
  f_type f = Some t /\ exists d, f_dec f = Some d /\ d_access d = Public /\ d_static d = true /\ d_const d = true /\
    d_sealed d = false /\ d_override d = false /\ d_virtual d = false /\ d_abstract d = false /\
    d_new d = false /\ d_readonly d = false /\ d_extern d = false.

(** Only a name is written. *)
Definition bare (f : fld) : Prop := f_type f = None /\ f_dec f = None.

(** A constructor without parameters. *)
Definition parameterless (m : meth) : bool := c_constructor m && (c_params m =? 0).

Definition constructors (t : decl) : list meth := filter c_constructor (t_methods t).

(** What was written, not added. *)
Definition as_written (t : decl) : Prop := forall m, In m (t_methods t) -> c_added m = false.

(** Constants are static. *)
Definition constants_static (t : decl) : Prop :=
  forall f d, In f (t_fields t) -> f_dec f = Some d -> d_const d = true -> d_static d = true.

(** The same field, but for being static. *)
Definition same_but_static (f g : fld) : Prop :=
  f_name f = f_name g /\ f_type f = f_type g /\
  match f_dec f, f_dec g with
  | None, None => True
  | Some d, Some e =>
      d_access d = d_access e /\ d_sealed d = d_sealed e /\ d_override d = d_override e /\
      d_virtual d = d_virtual e /\ d_abstract d = d_abstract e /\ d_new d = d_new e /\ d_const d = d_const e /\
      d_readonly d = d_readonly e /\ d_extern d = d_extern e /\ (d_const d = false -> d_static d = d_static e) /\
      (d_const d = true -> d_static e = true)
  | _, _ => False
  end.
