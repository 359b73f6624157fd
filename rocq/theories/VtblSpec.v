(** Specification of run-time dispatch, in terms of the classes as written:
    which method a virtual call and an interface call must run, and which
    types an object belongs to.  No tables and no offsets appear here. *)
From Coq Require Import ZArith List Bool.
From Verif Require Import VtblModel.
Import ListNotations.
Local Open Scope nat_scope.

(* ------------------------------------------------------------------ *)
(** * Overriding *)

(** Two methods clash when they have the same name, the same number of
    generic parameters and the same parameters: the return type is left out. *)
Definition clash (s s' : sig) : Prop :=
  s_name s = s_name s' /\ s_generics s = s_generics s' /\ s_params s = s_params s'.

(** A method that takes part in overriding. *)
Definition dispatched (m : meth) : Prop :=
  m_virt m = true \/ m_over m = true \/ m_abs m = true.

(** A method that starts a new chain of overrides: it is virtual or abstract
    and does not itself override. *)
Definition introducing (m : meth) : Prop :=
  m_virt m = true \/ (m_abs m = true /\ m_over m = false).

(** [nearest t s host m]: looking from [t] towards the root, [m] is the first
    ordinary method that clashes with [s], and [host] is the class that
    declares it (with its bases). *)
Inductive nearest : ty -> sig -> ty -> meth -> Prop :=
| nearest_here : forall c b s m,
    In m (c_methods c) -> m_owner m = None -> clash (m_sig m) s ->
    nearest (c :: b) s (c :: b) m
| nearest_base : forall c b s host m,
    (forall m', In m' (c_methods c) -> m_owner m' = None -> ~ clash (m_sig m') s) ->
    nearest b s host m ->
    nearest (c :: b) s host m.

(** [introduced host m r]: [r] is the method that introduced the chain of
    overrides to which method [m] of class [host] belongs. *)
Inductive introduced : ty -> meth -> meth -> Prop :=
| introduced_self : forall host m,
    introducing m -> introduced host m m
| introduced_base : forall c b m host m' r,
    m_over m = true -> nearest b (m_sig m) host m' -> introduced host m' r ->
    introduced (c :: b) m r.

(** [most_derived t r m]: among the methods of [t] and its bases that belong to
    the chain introduced by [r], [m] is the one declared closest to [t].  This
    is the method a virtual call must run on an object of class [t]. *)
Inductive most_derived : ty -> meth -> meth -> Prop :=
| most_derived_here : forall c b r m,
    In m (c_methods c) -> introduced (c :: b) m r -> most_derived (c :: b) r m
| most_derived_base : forall c b r m,
    (forall m', In m' (c_methods c) -> ~ introduced (c :: b) m' r) ->
    most_derived b r m ->
    most_derived (c :: b) r m.

(* ------------------------------------------------------------------ *)
(** * Classes the compiler accepts *)

(** The rules of modules/compile/ast.cpp 720-960 and of the duplicate check
    (modules/core/core.cpp 3888-3940) that matter here. *)
Definition accepted_class (c : cls) (b : ty) : Prop :=
  (forall m, In m (c_methods c) ->
     (m_over m = true -> m_virt m = false) /\
     (dispatched m -> m_static m = false /\ m_extern m = false) /\
     (m_over m = true ->
        exists host m', nearest b (m_sig m) host m' /\ dispatched m' /\
                        s_ret (m_sig m') = s_ret (m_sig m))) /\
  (forall m m', In m (c_methods c) -> In m' (c_methods c) ->
     m_owner m = m_owner m' -> clash (m_sig m) (m_sig m') -> m = m').

Fixpoint accepted (t : ty) : Prop :=
  match t with
  | [] => True
  | c :: b => accepted_class c b /\ accepted b
  end.

Definition all_methods (t : ty) : list meth := concat (map c_methods t).

(** The classes are loaded: every method is found in the method tables under
    its own indices, and the indices fit in the bits a table has for them. *)
Definition loaded (methods_at : Z -> Z -> option meth) (t : ty) : Prop :=
  (forall m, In m (all_methods t) ->
     methods_at (m_asm m) (m_idx m) = Some m /\
     (0 <= m_asm m < 2 ^ 11)%Z /\ (0 <= m_idx m < 2 ^ 20)%Z) /\
  NoDup (all_methods t).

(** The methods of every class stand in an order the writer can produce. *)
Definition laid_out (t : ty) : Prop :=
  Forall (fun c => exists source, written source (c_methods c)) t.

(** In the table of every class the methods that introduce come before those
    that override. *)
Definition introducing_first (t : ty) : Prop :=
  Forall (fun c => forall l1 m l2, c_methods c = l1 ++ m :: l2 -> introducing m ->
                   Forall (fun m' => m_over m' = false) l1) t.

(** No class introduces a method that clashes with one introduced by a base
    class (the `new virtual' of the language). *)
Fixpoint no_reintroduction (t : ty) : Prop :=
  match t with
  | [] => True
  | c :: b =>
      (forall m m', In m (c_methods c) -> introducing m ->
         In m' (all_methods b) -> introducing m' -> ~ clash (m_sig m) (m_sig m')) /\
      no_reintroduction b
  end.

(** Explicit implementations of interface methods are plain methods, and none
    clashes with a method that is dispatched. *)
Definition explicit_apart (t : ty) : Prop :=
  forall m, In m (all_methods t) -> m_owner m <> None ->
    ~ dispatched m /\
    forall m', In m' (all_methods t) -> dispatched m' -> ~ clash (m_sig m) (m_sig m').

(* ------------------------------------------------------------------ *)
(** * Interfaces *)

(** [i] is [j] or extends it, directly or not. *)
Inductive reaches : iface -> iface -> Prop :=
| reaches_self : forall i, reaches i i
| reaches_super : forall i j k, In j (iface_supers i) -> reaches j k -> reaches i k.

(** Class [c] lists interface [i], or one that extends it. *)
Definition lists (c : cls) (i : iface) : Prop :=
  exists j, In j (c_ifaces c) /\ reaches j i.

(** An object of class [t] implements [i]. *)
Definition implements (t : ty) (i : iface) : Prop := exists c, In c t /\ lists c i.

(** An interface is known by its identity. *)
Definition identities (t : ty) : Prop :=
  forall i j, implements t i -> implements t j -> iface_id i = iface_id j -> i = j.

(** [m] can implement method [s] of interface number [n]. *)
Definition candidate (n : nat) (s : sig) (m : meth) : Prop :=
  m_sig m = s /\ (m_owner m = None \/ m_owner m = Some n).

(** [chosen t n s host m]: the class [t], which lists interface [n],
    implements its method [s] by method [m] of [host]: the nearest class with a
    candidate, and there an explicit implementation before an ordinary one. *)
Inductive chosen : ty -> nat -> sig -> ty -> meth -> Prop :=
| chosen_here : forall c b n s m,
    In m (c_methods c) -> candidate n s m ->
    (m_owner m = None ->
       forall m', In m' (c_methods c) -> m_sig m' = s -> m_owner m' <> Some n) ->
    chosen (c :: b) n s (c :: b) m
| chosen_base : forall c b n s host m,
    (forall m', In m' (c_methods c) -> ~ candidate n s m') ->
    chosen b n s host m ->
    chosen (c :: b) n s host m.

(** [interface_target t i s m']: the method a call of method [s] of interface
    [i] must run on an object of class [t].  Among the classes that list the
    interface the one closest to [t] decides which method implements it; if
    that is an ordinary virtual method, the call is then a virtual call. *)
Inductive interface_target (t : ty) (i : iface) (s : sig) : meth -> Prop :=
| target_plain : forall above c b host m,
    t = above ++ c :: b -> lists c i ->
    (forall c', In c' above -> ~ lists c' i) ->
    chosen (c :: b) (iface_id i) s host m ->
    (m_owner m <> None \/ ~ dispatched m) ->
    interface_target t i s m
| target_virtual : forall above c b host m r m',
    t = above ++ c :: b -> lists c i ->
    (forall c', In c' above -> ~ lists c' i) ->
    chosen (c :: b) (iface_id i) s host m ->
    m_owner m = None -> dispatched m ->
    introduced host m r -> most_derived t r m' ->
    interface_target t i s m'.

(** The case in which the loop over the derived classes does its work: no
    class derived from the implementing one declares the method again, or the
    implementing method introduces and the class of the object itself
    overrides it. *)
Definition override_seen (t : ty) (i : iface) (s : sig) : Prop :=
  forall above c b host m,
    t = above ++ c :: b -> lists c i ->
    (forall c', In c' above -> ~ lists c' i) ->
    chosen (c :: b) (iface_id i) s host m ->
    m_owner m = None -> dispatched m ->
    (forall x, In x (all_methods above) -> m_owner x = None -> ~ clash (m_sig x) s) \/
    (introducing m /\ exists d above', above = d :: above' /\
       exists x, In x (c_methods d) /\ m_over x = true /\ m_sig x = s).

(* ------------------------------------------------------------------ *)
(** * Casts *)

(** An object of class [t] belongs to the target type. *)
Definition belongs (t : ty) (g : target) : Prop :=
  match g with
  | ToClass n => exists c, In c t /\ c_id c = n
  | ToInterface n => exists i, implements t i /\ iface_id i = n
  end.

(** What a cast of a reference to an object of class [t] must leave. *)
Definition cast_meaning (k : cast_kind) (g : target) (t : ty) (r : cast_result) : Prop :=
  match k with
  | CastDefault => (belongs t g -> r = SameReference) /\ (~ belongs t g -> r = InvalidCast)
  | CastIs => (belongs t g -> r = BoolResult true) /\ (~ belongs t g -> r = BoolResult false)
  | CastAs => (belongs t g -> r = SameReference) /\ (~ belongs t g -> r = NullResult)
  end.
