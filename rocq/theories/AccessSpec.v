(** The protection rules of the language, on the declarations alone. *)
From Coq Require Import List Arith Bool PeanoNat Relations.
Import ListNotations.
From Verif Require Import OverModel OverSpec AccessModel.

(** Type [a] is [b] or is declared somewhere inside [b]. *)
Inductive inside (D : decls) : nat -> nat -> Prop :=
| inside_self a : inside D a a
| inside_host a h b : d_host D a = Some h -> inside D h b -> inside D a b.

(** The type a declaration introduces, of which [t] is an instance. *)
Definition declared (D : decls) (t : ty) (i : nat) : Prop :=
  t = TGeneral i \/ (exists args, t = TGeneric i args) \/
  (exists e n, t = TArray e n /\ i = d_array D).

(** [a] is [b] or has an instance of [b] among its super types. *)
Definition derives (D : decls) (a b : nat) : Prop :=
  a = b \/ exists s, inherits (d_world D) (TGeneral a) s /\ declared D s b.

(** The access of a type: as written, else internal at the top level, public
    inside an interface and private inside anything else. *)
Definition type_access (D : decls) (i : nat) (av : access) : Prop :=
  d_access D i = Some av \/
  (d_access D i = None /\
   ((d_host D i = None /\ av = Internal) \/
    (exists h, d_host D i = Some h /\
               av = if d_interface D h then Public else Private))).

(** The access of a member of [h]. *)
Definition member_access (D : decls) (h : nat) (written : option access) (av : access) : Prop :=
  written = Some av \/
  (written = None /\ av = if d_interface D h then Public else Private).

(** Code of the type [from] may use what [h] declares with the access [av]. *)
Definition visible (D : decls) (from h : nat) (av : access) : Prop :=
  let same := d_assembly D from = d_assembly D h in
  let family := exists e, inside D from e /\ derives D e h in
  match av with
  | Public => True
  | Private => inside D from h
  | Internal => same
  | Protected => family
  | ProtectedOrInternal => family \/ same
  | ProtectedAndInternal => family /\ same
  end.

(** Code of the type [from] may name the type [t]. *)
Inductive may_name (D : decls) (from : nat) : nat -> Prop :=
| name_top t :
    d_host D t = None ->
    (type_access D t Public \/ d_assembly D from = d_assembly D t) -> may_name D from t
| name_nested t h av :
    d_host D t = Some h -> may_name D from h -> type_access D t av -> visible D from h av ->
    may_name D from t.

(** Code of the type [from] may use a member of [h]. *)
Definition may_use (D : decls) (from h : nat) (written : option access) : Prop :=
  may_name D from h /\ exists av, member_access D h written av /\ visible D from h av.

(** Code outside any type, in [assembly]. *)
Definition visible_outside (D : decls) (assembly h : nat) (av : access) : Prop :=
  av = Public \/ ((av = Internal \/ av = ProtectedOrInternal) /\ assembly = d_assembly D h).

Inductive may_name_outside (D : decls) (assembly : nat) : nat -> Prop :=
| outside_top t :
    d_host D t = None -> (type_access D t Public \/ assembly = d_assembly D t) ->
    may_name_outside D assembly t
| outside_nested t h av :
    d_host D t = Some h -> may_name_outside D assembly h -> type_access D t av ->
    visible_outside D assembly h av -> may_name_outside D assembly t.

Definition may_use_outside (D : decls) (assembly h : nat) (written : option access) : Prop :=
  may_name_outside D assembly h /\
  exists av, member_access D h written av /\ visible_outside D assembly h av.

(** The declarations of a program: nesting ends and stays in one assembly, and
    [U] holds every type that occurs in the hierarchy.  [depth] bounds the
    nesting. *)
Record well_declared (D : decls) (U : list ty) (depth : nat -> nat) : Prop := {
  wd_nesting : forall t h, d_host D t = Some h -> depth h < depth t;
  wd_assembly : forall t h, d_host D t = Some h -> d_assembly D t = d_assembly D h;
  wd_hierarchy : hierarchy (d_world D) U
}.

(** Enough steps for the nesting and for the hierarchy. *)
Definition enough (U : list ty) (depth : nat -> nat) (fuel : nat) : Prop :=
  length U < fuel /\ forall t, depth t < fuel.

(** No super type of [a] is an instance of a generic type or an array. *)
Definition plain_supers (D : decls) (a : nat) : Prop :=
  forall s, inherits (d_world D) (TGeneral a) s -> exists i, s = TGeneral i.

(** [t] and the types around it are public or internal. *)
Inductive open_type (D : decls) : nat -> Prop :=
| open_top t : d_host D t = None -> open_type D t
| open_nested t h av :
    d_host D t = Some h -> type_access D t av -> (av = Public \/ av = Internal) ->
    open_type D h -> open_type D t.
