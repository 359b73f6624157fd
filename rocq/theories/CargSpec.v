(** When the arguments of a generic type or method meet its constraints,
    written from the declarations and without the compiler's checks. *)
From Coq Require Import List Arith Bool Relations.
From Verif Require Import OverModel CargModel.
Import ListNotations.

(** Putting types for parameters. *)
Fixpoint subst (r : nat -> ty) (t : ty) : ty :=
  match t with
  | TNull => TNull
  | TGeneral c => TGeneral c
  | TParam x => r x
  | TGeneric c args => TGeneric c (map (subst r) args)
  | TArray e d => TArray (subst r e) d
  end.

(** [r] gives the i-th argument to the i-th parameter. *)
Definition assigns (params : list nat) (args : list ty) (r : nat -> ty) : Prop :=
  forall i x t, nth_error params i = Some x -> nth_error args i = Some t -> r x = t.

(** The parameters that occur in a type. *)
Inductive occurs (x : nat) : ty -> Prop :=
| occurs_here : occurs x (TParam x)
| occurs_arg c args t : In t args -> occurs x t -> occurs x (TGeneric c args)
| occurs_elem e d : occurs x e -> occurs x (TArray e d).

(** A type with as many arguments as its template has parameters. *)
Inductive proper (P : program) : ty -> Prop :=
| proper_general c : d_params (p_decl P c) = [] -> proper P (TGeneral c)
| proper_param x : proper P (TParam x)
| proper_generic c args :
    length args = length (d_params (p_decl P c)) ->
    (forall t, In t args -> proper P t) -> proper P (TGeneric c args)
| proper_array e d : proper P e -> proper P (TArray e d).

(** The declaration of a type names [s] as a super type of it. *)
Inductive declared_super (P : program) : ty -> ty -> Prop :=
| super_general c s :
    In s (d_supers (p_decl P c)) -> declared_super P (TGeneral c) s
| super_generic c args r s :
    assigns (d_params (p_decl P c)) args r -> In s (d_supers (p_decl P c)) ->
    declared_super P (TGeneric c args) (subst r s).

(** The same type, or one that derives from it. *)
Definition below (P : program) : ty -> ty -> Prop :=
  clos_refl_trans ty (declared_super P).

Definition declares (P : program) (t : ty) (c : nat) : Prop :=
  t = TGeneral c \/ exists args, t = TGeneric c args.

Definition reference_type (P : program) (t : ty) : Prop :=
  (exists c, declares P t c /\
     (d_kind (p_decl P c) = KClass \/ d_kind (p_decl P c) = KInterface)) \/
  (exists e d, t = TArray e d).

Definition value_type (P : program) (t : ty) : Prop :=
  exists c, declares P t c /\
    (d_kind (p_decl P c) = KStruct \/ d_kind (p_decl P c) = KEnum).

(** [new t()] can be written anywhere. *)
Definition creatable (P : program) (t : ty) : Prop :=
  exists c, declares P t c /\
    (d_kind (p_decl P c) = KClass \/ d_kind (p_decl P c) = KStruct) /\
    d_ctor (p_decl P c) = true.

(** The types [r] puts for the parameters meet a constraint. *)
Record satisfies (P : program) (r : nat -> ty) (c : gcon) : Prop := {
  sat_types  : forall u, In u (g_types c) -> below P (r (g_param c)) (subst r u);
  sat_class  : g_class c = true -> reference_type P (r (g_param c));
  sat_struct : g_struct c = true -> value_type P (r (g_param c));
  sat_new    : g_new c = true -> creatable P (r (g_param c))
}.

(** The constraint is of a parameter that code in the innermost of the scopes
    can name. *)
Fixpoint visible (ss : list scope) (c : gcon) : Prop :=
  match ss with
  | [] => False
  | s :: ss' =>
      (In (g_param c) (s_params s) /\ In c (s_cons s)) \/
      (~ In (g_param c) (s_params s) /\ visible ss' c)
  end.

Definition scopes (pl : place) : list scope :=
  match pl_method pl with
  | None => pl_types pl
  | Some s => s :: pl_types pl
  end.

(** One way the code around can be instantiated. *)
Definition instance (P : program) (pl : place) (r : nat -> ty) : Prop :=
  forall c, visible (scopes pl) c -> satisfies P r c.

(** What the checks of declarations have made sure of. *)
Definition scope_ok (P : program) (s : scope) : Prop :=
  NoDup (s_params s) /\
  (forall c, In c (s_cons s) -> In (g_param c) (s_params s)) /\
  (forall c u, In c (s_cons s) -> In u (g_types c) -> proper P u).

(** A template whose constraints mention its own parameters only. *)
Definition own_parameters (F : scope) : Prop :=
  forall c u x, In c (s_cons F) -> In u (g_types c) -> occurs x u -> In x (s_params F).

Definition no_shadowing (pl : place) : Prop :=
  NoDup (flat_map s_params (scopes pl)).

(** Super types are declared types, have as many arguments as parameters and
    mention the parameters of the declaration only. *)
Definition supers_ok (P : program) : Prop :=
  forall c, NoDup (d_params (p_decl P c)) /\
    forall s, In s (d_supers (p_decl P c)) ->
      (exists b, declares P s b) /\ proper P s /\
      (forall x, occurs x s -> In x (d_params (p_decl P c))).

(** Only classes derive from classes other than Object and Enum, and these two
    do not. *)
Definition bases_ok (P : program) : Prop :=
  forall c s b, In s (d_supers (p_decl P c)) -> declares P s b ->
    d_kind (p_decl P b) = KClass -> s <> TGeneral (p_object P) ->
    s <> TGeneral (p_enum P) ->
    d_kind (p_decl P c) = KClass /\ c <> p_object P /\ c <> p_enum P.

(** A class, an interface or an array, the values of which are object
    references. *)
Definition object_type (P : program) (u : ty) : Prop :=
  (exists c, declares P u c /\
     (d_kind (p_decl P c) = KClass \/ d_kind (p_decl P c) = KInterface) /\
     d_vtype (p_decl P c) = VMobject) \/
  (exists e d, u = TArray e d).

(** Every constraint type of the template is one. *)
Definition object_constraints (P : program) (F : scope) : Prop :=
  forall c u, In c (s_cons F) -> In u (g_types c) -> object_type P u.

(** Parameters are given for [struct] parameters only if they are constrained
    by [struct] themselves. *)
Definition struct_arguments (pl : place) (F : scope) (r : nat -> ty) : Prop :=
  forall c x, In c (s_cons F) -> g_struct c = true -> r (g_param c) = TParam x ->
    exists c', visible (scopes pl) c' /\ g_param c' = x /\ g_struct c' = true.

(** The types the checks are made of, and one instance of the code around: the
    arguments [args], given to the parameters of the template [F] by [q], are
    written at [pl], whose parameters [r] replaces by types without
    parameters. *)
Record setting (P : program) (pl : place) (F : scope) (args : list ty)
  (q r : nat -> ty) : Prop := {
  set_supers   : supers_ok P;
  set_bases    : bases_ok P;
  set_places   : forall s, In s (scopes pl) -> scope_ok P s;
  set_template : scope_ok P F;
  set_own      : own_parameters F;
  set_length   : length args = length (s_params F);
  set_args     : forall t, In t args -> proper P t;
  set_assigns  : assigns (s_params F) args q;
  set_instance : instance P pl r;
  set_ground   : forall x, proper P (r x) /\ forall y, ~ occurs y (r x)
}.

(** The arguments of the instance meet the constraints of the template. *)
Definition met (P : program) (F : scope) (q r : nat -> ty) : Prop :=
  forall c, In c (s_cons F) -> satisfies P (fun x => subst r (q x)) c.

(** A finite set of types with all their super types. *)
Definition closed_above (P : program) (U : list ty) : Prop :=
  forall t s, In t U -> declared_super P t s -> In s U.

(** What an error says is so. *)
Inductive true_of (P : program) (r : nat -> ty) (c : gcon) : cerror -> Prop :=
| true_conversion u : In u (g_types c) ->
    ~ below P (r (g_param c)) (subst r u) ->
    true_of P r c (NoConversion (r (g_param c)) (subst r u))
| true_reference : g_class c = true -> ~ reference_type P (r (g_param c)) ->
    true_of P r c (NotReference (r (g_param c)))
| true_value : g_struct c = true -> ~ value_type P (r (g_param c)) ->
    true_of P r c (NotValue (r (g_param c)))
| true_ctor : g_new c = true -> ~ creatable P (r (g_param c)) ->
    true_of P r c (NoConstructor (r (g_param c))).

(** One error for each constraint that is not met, in their order. *)
Inductive reports (P : program) (r : nat -> ty) : list gcon -> list cerror -> Prop :=
| reports_nil : reports P r [] []
| reports_met c cs es :
    satisfies P r c -> reports P r cs es -> reports P r (c :: cs) es
| reports_unmet c cs e es :
    ~ satisfies P r c -> true_of P r c e -> reports P r cs es ->
    reports P r (c :: cs) (e :: es).
