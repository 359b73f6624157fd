(* What it means that an assembly that was read is the one that was written,
   and which assemblies are meant. *)
From Coq Require Import ZArith NArith List Bool Lia.
From Verif Require Import MetaModel.
Import ListNotations.
Local Open Scope nat_scope.

(* ---- the same assembly under other numbers ---- *)

(* Types keep their places.  All other things get new numbers: for every new
   number the old one. *)
Record naming := Naming {
  n_method : nat -> nat; n_field : nat -> nat; n_prop : nat -> nat;
  n_event : nat -> nat; n_param : nat -> nat; n_gparam : nat -> nat }.

(* A type with the old numbers of its generic params *)
Fixpoint old_ty (f : naming) (t : ty) : ty :=
  match t with
  | NoType => NoType
  | General g => General g
  | Instance g a h => Instance g (old_targs f a) (old_ty f h)
  | Array e d => Array (old_ty f e) d
  | Param p => Param (n_gparam f p)
  end
with old_targs (f : naming) (a : targs) : targs :=
  match a with
  | ANil => ANil
  | ACons t m a' => ACons (old_ty f t) m (old_targs f a')
  end.

(* A type without the modes (ref, out, params) of the arguments *)
Fixpoint plain (t : ty) : ty :=
  match t with
  | Instance g a h => Instance g (plain_targs a) (plain h)
  | Array e d => Array (plain e) d
  | _ => t
  end
with plain_targs (a : targs) : targs :=
  match a with
  | ANil => ANil
  | ACons t _ a' => ACons (plain t) 0 (plain_targs a')
  end.

Definition same_ty (f : naming) (old new : ty) : Prop := old_ty f new = plain old.

Definition same_gtype (f : naming) (old new : gtype) : Prop :=
  t_name new = t_name old /\ t_decorate new = t_decorate old /\
  t_space new = t_space old /\ t_kind new = t_kind old /\ t_value new = t_value old /\
  t_host new = t_host old /\
  map (n_gparam f) (t_params new) = t_params old /\
  map (n_method f) (t_methods new) = t_methods old /\
  map (n_prop f) (t_props new) = t_props old /\
  map (n_field f) (t_fields new) = t_fields old /\
  map (n_event f) (t_events new) = t_events old /\
  t_nested new = t_nested old /\
  Forall2 (same_ty f) (t_supers old) (t_supers new).

(* The owner of a method, property or event is not kept. *)
Definition same_method (f : naming) (old new : method) : Prop :=
  m_name new = m_name old /\ m_decorate new = m_decorate old /\
  m_trait new = m_trait old /\
  map (n_gparam f) (m_gparams new) = m_gparams old /\
  same_ty f (m_type old) (m_type new) /\
  map (n_param f) (m_params new) = m_params old.

Definition same_field (f : naming) (old new : field) : Prop :=
  f_name new = f_name old /\ f_decorate new = f_decorate old /\
  same_ty f (f_type old) (f_type new) /\ f_init new = f_init old.

Definition same_prop (f : naming) (old new : prop) : Prop :=
  p_name new = p_name old /\ p_decorate new = p_decorate old /\
  same_ty f (p_type old) (p_type new) /\
  map (n_param f) (p_params new) = p_params old /\
  option_map (n_method f) (p_get new) = p_get old /\
  option_map (n_method f) (p_set new) = p_set old.

Definition same_event (f : naming) (old new : event) : Prop :=
  e_name new = e_name old /\ e_decorate new = e_decorate old /\
  same_ty f (e_type old) (e_type new) /\
  option_map (n_method f) (e_add new) = e_add old /\
  option_map (n_method f) (e_remove new) = e_remove old.

Definition same_param (f : naming) (old new : param) : Prop :=
  a_name new = a_name old /\ same_ty f (a_type old) (a_type new) /\
  a_mode new = a_mode old /\ a_default new = a_default old.

(* Every new thing is like the old one whose new number it has. *)
Definition each_same {A} (number : nat -> nat) (same : A -> A -> Prop)
  (old new : list A) : Prop :=
  forall i y, nth_error new i = Some y ->
  exists x, nth_error old (number i) = Some x /\ same x y.

(* No two new things come from the same old one. *)
Definition apart {A} (number : nat -> nat) (new : list A) : Prop :=
  forall i j, i < length new -> j < length new -> number i = number j -> i = j.

Definition same_assembly (old new : assembly) : Prop :=
  exists f : naming,
    Forall2 (same_gtype f) (w_types old) (w_types new) /\
    each_same (n_method f) (same_method f) (w_methods old) (w_methods new) /\
    each_same (n_field f) (same_field f) (w_fields old) (w_fields new) /\
    each_same (n_prop f) (same_prop f) (w_props old) (w_props new) /\
    each_same (n_event f) (same_event f) (w_events old) (w_events new) /\
    each_same (n_param f) (same_param f) (w_params old) (w_params new) /\
    each_same (n_gparam f) eq (w_gparams old) (w_gparams new) /\
    apart (n_method f) (w_methods new) /\ apart (n_field f) (w_fields new) /\
    apart (n_prop f) (w_props new) /\ apart (n_event f) (w_events new) /\
    apart (n_gparam f) (w_gparams new) /\
    option_map (n_method f) (w_entry new) = w_entry old.

(* ---- the assemblies that are meant ---- *)

Definition short {A} (l : list A) : Prop := (N.of_nat (length l) < 512)%N.
Definition numbers {A} (l : list nat) (things : list A) : Prop :=
  forall n, In n l -> n < length things.

Fixpoint args_count (a : targs) : nat :=
  match a with ANil => 0 | ACons _ _ a' => S (args_count a') end.

Definition good_gref (A : assembly) (X : list xtype) (g : gref) : Prop :=
  match g with Own t => t < length (w_types A) | Other e => e < length X end.

(* A type made of types that exist and of the given generic params, with less
   than 512 arguments everywhere, arrays of something and with dimensions of
   16 bits *)
Fixpoint good_ty (A : assembly) (X : list xtype) (known : nat -> Prop) (t : ty) : Prop :=
  match t with
  | NoType => True
  | General g => good_gref A X g
  | Instance g a h =>
      good_gref A X g /\ (N.of_nat (args_count a) < 512)%N /\
      good_targs A X known a /\ good_ty A X known h
  | Array e d =>
      e <> NoType /\ (-32768 <= d < 32768)%Z /\ good_ty A X known e
  | Param p => known p
  end
with good_targs (A : assembly) (X : list xtype) (known : nat -> Prop) (a : targs) : Prop :=
  match a with
  | ANil => True
  | ACons t _ a' => good_ty A X known t /\ good_targs A X known a'
  end.

(* A generic param of some type of the assembly *)
Definition type_param (A : assembly) (p : nat) : Prop :=
  exists t, In t (w_types A) /\ In p (t_params t).

Definition listed (A : assembly) (part : gtype -> list nat) : list nat :=
  flat_map part (w_types A).

Definition method_param (A : assembly) (m : method) (p : nat) : Prop :=
  type_param A p \/ In p (m_gparams m).

Definition good_param (A : assembly) (X : list xtype) (known : nat -> Prop) (n : nat) : Prop :=
  exists p, nth_error (w_params A) n = Some p /\
    a_type p <> NoType /\ good_ty A X known (a_type p).

Definition good_accessor (A : assembly) (m : option nat) : Prop :=
  match m with Some n => In n (listed A t_methods) | None => True end.

Record good_gtype (A : assembly) (X : list xtype) (t : gtype) : Prop := {
  gt_kind : (0 <= t_kind t < 8)%Z;
  gt_value : (0 <= t_value t < 32)%Z;
  gt_host : forall h, t_host t = Some h -> h < length (w_types A);
  gt_numbers :
    numbers (t_params t) (w_gparams A) /\ numbers (t_methods t) (w_methods A) /\
    numbers (t_props t) (w_props A) /\ numbers (t_fields t) (w_fields A) /\
    numbers (t_events t) (w_events A) /\ numbers (t_nested t) (w_types A);
  gt_short :
    short (t_params t) /\ short (t_methods t) /\ short (t_props t) /\
    short (t_fields t) /\ short (t_events t) /\ short (t_nested t) /\ short (t_supers t);
  gt_supers : forall s, In s (t_supers t) -> good_ty A X (type_param A) s }.

Record good_method (A : assembly) (X : list xtype) (m : method) : Prop := {
  gm_type : m_type m = NoType -> may_lack_type (m_trait m) = true;
  gm_types : good_ty A X (method_param A m) (m_type m) /\
             good_ty A X (method_param A m) (m_owner m);
  gm_short : short (m_gparams m) /\ short (m_params m);
  gm_gparams : numbers (m_gparams m) (w_gparams A);
  gm_params : forall n, In n (m_params m) -> good_param A X (method_param A m) n }.

Record good_prop (A : assembly) (X : list xtype) (p : prop) : Prop := {
  gp_type : p_type p <> NoType;
  gp_types : good_ty A X (type_param A) (p_type p) /\ good_ty A X (type_param A) (p_owner p);
  gp_short : short (p_params p);
  gp_params : forall n, In n (p_params p) -> good_param A X (type_param A) n;
  gp_accessors : good_accessor A (p_get p) /\ good_accessor A (p_set p) }.

Record good_event (A : assembly) (X : list xtype) (e : event) : Prop := {
  ge_type : e_type e <> NoType;
  ge_types : good_ty A X (type_param A) (e_type e) /\ good_ty A X (type_param A) (e_owner e);
  ge_accessors : good_accessor A (e_add e) /\ good_accessor A (e_remove e) }.

(* All generic params that are declared, in types and in methods of types *)
Definition declared (A : assembly) : list nat :=
  listed A t_params ++
  flat_map (fun n => match nth_error (w_methods A) n with
                     | Some m => m_gparams m | None => [] end)
           (listed A t_methods).

(* An assembly as the compiler makes it: everything mentioned exists, nothing
   is declared in two places, a type is nested in the type that lists it, the
   accessors and the entry point are methods of types, and no list has 512
   members. *)
Record good_assembly (A : assembly) (X : list xtype) : Prop := {
  ga_types : forall t, In t (w_types A) -> good_gtype A X t;
  ga_methods : forall m, In m (w_methods A) -> good_method A X m;
  ga_fields : forall f, In f (w_fields A) ->
    f_type f <> NoType /\ good_ty A X (type_param A) (f_type f);
  ga_props : forall p, In p (w_props A) -> good_prop A X p;
  ga_events : forall e, In e (w_events A) -> good_event A X e;
  ga_once :
    NoDup (listed A t_methods) /\ NoDup (listed A t_fields) /\
    NoDup (listed A t_props) /\ NoDup (listed A t_events) /\ NoDup (declared A);
  ga_nested : forall n t h, nth_error (w_types A) n = Some t ->
    (t_host t = Some h <->
     exists u, nth_error (w_types A) h = Some u /\ In n (t_nested u));
  ga_entry : good_accessor A (w_entry A) }.

(* The other assemblies: a type comes after the type it is nested in, which is
   of the same assembly; the loader finds every type there is. *)
Definition good_library (L : library) (X : list xtype) : Prop :=
  forall e x, nth_error X e = Some x ->
    l_asm L e = x_asm x /\ (0 <= x_count x < 65536)%Z /\
    l_find L (x_asm x) (x_host x) (x_space x) (x_name x) (x_count x) = Some e /\
    forall h, x_host x = Some h ->
      h < e /\ exists y, nth_error X h = Some y /\ x_asm y = x_asm x.

(* No table has more rows than an index of 20 bits can tell apart. *)
Definition fits (T : tables) : Prop :=
  forall k, (N.of_nat (length (T k)) <= 1048576)%N.
