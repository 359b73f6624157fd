(** The rules for members of types, as a user of the language knows them. *)
From Coq Require Import List Bool Arith.
From Verif Require Import ModiModel.
Import ListNotations.

(** Two members cannot both be in one type: they have the same name and are not methods, or
    indexers, told apart by the types of their parameters. *)
Definition clash (m x : member) : Prop :=
  m_name m = m_name x /\
  (m_kind m = Method -> m_kind x = Method ->
     map fst (m_params m) = map fst (m_params x) /\ m_gparams m = m_gparams x) /\
  (m_kind m = Property -> m_kind x = Property -> m_params m = m_params x).

(** [x] is one of the members that [m] meets first on the way up from the base type. *)
Definition nearest (chain : list type) (m x : member) : Prop :=
  exists before t after, chain = before ++ t :: after /\
    (forall u y, In u before -> In y (t_members u) -> ~ clash m y) /\
    In x (t_members t) /\ clash m x.

(** Members that are kept under their names; all but indexers compiled from source are. *)
Definition filed (t : type) : Prop := forall x, In x (t_members t) -> m_key x = m_name x.

(** All but properties are. *)
Definition kept (t : type) : Prop :=
  forall x, In x (t_members t) -> m_kind x <> Property -> m_key x = m_name x.

Definition no_indexers (t : type) : Prop :=
  forall x, In x (t_members t) -> m_kind x = Property -> m_params x = [].

(** The base types are other types, and their members know where they are. *)
Definition above (T : type) (chain : list type) : Prop :=
  forall t x, In t chain -> In x (t_members t) -> m_host x <> t_id T.

(** A member of [T] itself is none of theirs. *)
Definition foreign (m : member) (chain : list type) : Prop :=
  forall t x, In t chain -> In x (t_members t) -> m_id x <> m_id m.

(** Can be seen in derived types. *)
Definition visible (m : member) : Prop :=
  match d_access (m_dec m) with
  | Private => False
  | Unspecified => m_in_interface m = true
  | _ => True
  end.

(** What is in effect if nothing is written. *)
Definition equally_visible (m x : member) : Prop :=
  let eff y := match d_access (m_dec y) with
               | Unspecified => if m_in_interface y then Public else Private
               | a => a
               end in
  eff m = eff x.

Definition dispatched (m : member) : Prop :=
  d_virtual (m_dec m) = true \/ d_abstract (m_dec m) = true \/ d_override (m_dec m) = true.

Definition with_code (m : member) : Prop :=
  m_kind m = Method \/ m_kind m = Property \/ m_kind m = Event.

(** *** Members of interfaces *)

Record interface_rules (m : member) : Prop := {
  i_kind : m_kind m <> Field;
  i_access : d_access (m_dec m) = Unspecified;
  i_modifiers : d_static (m_dec m) = false /\ d_sealed (m_dec m) = false /\
    d_virtual (m_dec m) = false /\ d_abstract (m_dec m) = false /\ d_const (m_dec m) = false /\
    d_readonly (m_dec m) = false /\ d_extern (m_dec m) = false;
  i_body : m_kind m = Method -> m_body m = false;
  i_accessors : m_kind m = Property -> m_get m <> Some true /\ m_set m <> Some true
}.

(** *** Members of other types *)

Record class_rules (T : type) (m : member) : Prop := {
  r_dispatched : with_code m -> dispatched m -> visible m /\ d_static (m_dec m) = false;
  r_override : with_code m -> d_override (m_dec m) = true ->
    d_virtual (m_dec m) = false /\ d_new (m_dec m) = false;
  r_abstract : with_code m -> d_abstract (m_dec m) = true -> t_abstract T = true;
  r_sealed : with_code m -> d_sealed (m_dec m) = true -> d_override (m_dec m) = true;
  r_value : with_code m -> d_readonly (m_dec m) = false /\ d_const (m_dec m) = false;
  r_extern : with_code m -> d_extern (m_dec m) = true ->
    m_kind m = Method /\ d_static (m_dec m) = true /\ m_body m = false;
  r_field : ~ with_code m -> ~ dispatched m /\ d_extern (m_dec m) = false /\ d_sealed (m_dec m) = false;
  r_typedef : m_kind m = TypeDef -> d_const (m_dec m) = false /\ d_readonly (m_dec m) = false /\
    d_static (m_dec m) = false
}.

Definition rules (T : type) (m : member) : Prop :=
  if t_interface T then interface_rules m else class_rules T m.

(** The member [m] may say [override] because of [x]. *)
Record overrides (m x : member) : Prop := {
  o_dispatched : dispatched x;
  o_open : d_sealed (m_dec x) = false;
  o_type : m_type x = m_type m
}.

(** Members the compiler looks at: nested types and accessors have other checks. *)
Definition checked (m : member) : Prop := m_accessor m = false /\ m_kind m <> Nested.

(** [m] is hidden by nothing in its type, and is not called as the type is. *)
Definition single (T : type) (m : member) : Prop :=
  (m_name m <> t_name T \/ (m_kind m = Method /\ m_special m = true)) /\
  forall x, In x (t_members T) -> m_id x <> m_id m -> ~ clash m x.

(** What may be said about an inherited member [x]: nothing about one that is not visible; [m] has
    the access of what it overrides. *)
Definition keeps_access (m x : member) : Prop :=
  visible x -> visible m -> m_kind m = m_kind x -> dispatched x ->
  d_override (m_dec m) = true \/ d_new (m_dec m) = true -> equally_visible m x.

(** [m] hides [x] and does not say so. *)
Definition silently_hides (m x : member) : Prop :=
  visible x /\ visible m /\ d_new (m_dec m) = false /\
  ~ (m_kind m = m_kind x /\ dispatched x /\ d_override (m_dec m) = true).
