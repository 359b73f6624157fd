(** Model of the checks of generic parameter constraints and of base types.

    Modelled: modules/compile/ast.cpp 3060-3295
    (__check_generic_template_constraints_t) and 3420-3473
    (__check_circle_base_types); modules/core/core.cpp 3253-3270 (to_general),
    4057-4071 (each_super_type).

    Simplifications: names are numbers; what is logged is the error without its
    arguments; a type is given by what the checks ask of it. *)

From Coq Require Import List Bool Arith.
Import ListNotations.

Definition name := nat.

(** *** Constraints *)

(** A type in a constraint: a generic parameter of the same template (its ttype
    is unknown and it is not sealed, core.h 2770-2773), the types Object and
    Enum, or another type, which is a class or not and sealed or not.  Equal types
    are the same object. *)
Inductive gtype :=
| GParam (n : name)
| GObject
| GEnum
| GType (id : nat) (cls sealed : bool).

Definition gtype_eqb (a b : gtype) : bool :=
  match a, b with
  | GParam x, GParam y => Nat.eqb x y
  | GObject, GObject | GEnum, GEnum => true
  | GType i c s, GType j d r => Nat.eqb i j && Bool.eqb c d && Bool.eqb s r
  | _, _ => false
  end.

(** is_class, is_sealed *)
Definition is_class (t : gtype) : bool :=
  match t with GObject | GEnum => true | GType _ c _ => c | GParam _ => false end.
Definition is_sealed (t : gtype) : bool :=
  match t with GType _ _ s => s | _ => false end.

(** generic_constraint_t (core.h 2871-2890): the flags of cttype and the types *)
Record constraint := {
  cparam : name; cclass : bool; cstruct : bool; cnew : bool; ctypes : list gtype }.

Inductive cerror :=
| DuplicateSpecified | DuplicateTypes | UnexpectedClassOrStruct | SpecialType | InvalidType
| PositionError | CombinedOrDuplicated | NewWithStruct | CircularDependency.

(** The loop over the types of a constraint (3141-3185): the names appended to
    the dependencies, and the error. *)
Fixpoint check_types (c : constraint) (types : list gtype) (index : nat) (l : list gtype)
  : list name * option cerror :=
  match l with
  | [] => ([], None)
  | t :: r =>
      if existsb (gtype_eqb t) types then ([], Some DuplicateTypes)
      else if is_class t && negb (gtype_eqb t GEnum) && (cclass c || cstruct c)
      then ([], Some UnexpectedClassOrStruct)
      else if gtype_eqb t GObject then ([], Some SpecialType)
      else if is_sealed t then ([], Some InvalidType)
      else if is_class t && (1 <=? index) then ([], Some PositionError)
      else
        let (d, e) := check_types c (t :: types) (S index) r in
        (match t with GParam n => n :: d | _ => d end, e)
  end.

(** __check (3136-3205): the dependencies and the error *)
Definition check_one (c : constraint) : list name * option cerror :=
  let (d, e) := check_types c [] 0 (ctypes c) in
  (d, match e with
      | Some x => Some x
      | None =>
          if cclass c && cstruct c then Some CombinedOrDuplicated
          else if cstruct c && cnew c then Some NewWithStruct
          else None
      end).

(** __param_dependencies, in the order of __param_dependency_names *)
Definition dependencies := list (name * list name).

Fixpoint lookup (x : name) (D : dependencies) : option (list name) :=
  match D with
  | [] => None
  | (y, ns) :: r => if Nat.eqb x y then Some ns else lookup x r
  end.

(** The loop of check (3096-3110).  [None]: a parameter is constrained twice, which
    ends the check (3099). *)
Fixpoint check_each (names : list name) (cs : list constraint) (D : dependencies) (log : list cerror)
  : option dependencies * list cerror :=
  match cs with
  | [] => (Some D, log)
  | c :: r =>
      if existsb (Nat.eqb (cparam c)) names then (None, log ++ [DuplicateSpecified])
      else
        let (d, e) := check_one c in
        check_each (cparam c :: names) r
          (match d with [] => D | _ => D ++ [(cparam c, d)] end)
          (log ++ match e with Some x => [x] | None => [] end)
  end.

(** The answer of a walk: a name was met again, the names walked, or the walk is
    deeper than [n]. *)
Inductive walked := Again | Walked (w : list name) | Deep.

(** __check_circle_dependency for a list of names (3249-3259), given that for a
    name *)
Fixpoint visit_list (visit : list name -> name -> walked) (w : list name) (ns : list name) : walked :=
  match ns with
  | [] => Walked w
  | x :: r => match visit w x with Walked w' => visit_list visit w' r | a => a end
  end.

(** __check_circle_dependency for a name (3261-3278) *)
Fixpoint visit (D : dependencies) (n : nat) (w : list name) (x : name) : walked :=
  match n with
  | O => Deep
  | S n' =>
      if existsb (Nat.eqb x) w then Again
      else match lookup x D with
      | Some ns => visit_list (visit D n') (x :: w) ns
      | None => Walked (x :: w)
      end
  end.

(** __check_circle_dependency (3227-3247): the first name with a circle is
    logged.  The walk from a name begins with that name in walked_names, as if the
    name was visited. *)
Fixpoint check_circles (D : dependencies) (l : dependencies) : list cerror :=
  match l with
  | [] => []
  | (x, _) :: r =>
      match visit D (S (S (length D))) [] x with
      | Walked _ => check_circles D r
      | _ => [CircularDependency]
      end
  end.

(** check (3088-3116): everything that is logged *)
Definition check_constraints (cs : list constraint) : list cerror :=
  match check_each [] cs [] [] with
  | (None, log) => log
  | (Some D, log) => log ++ check_circles D D
  end.

(** *** Base types *)

Definition tid := nat.

(** The types of a program: [univ] are the general types, [supers] the super types
    of a type as they are written, [general] is to_general: the template of a
    generic type, the type itself otherwise. *)
Record types := { univ : list tid; supers : tid -> list tid; general : tid -> tid }.

Section WithTypes.

Variable G : types.

(** [this] *)
Variable T : tid.

(** each_super_type (core.cpp 4057-4071) with a callback that has the walked types
    as its state: the super type where the callback ends the loop.  [None]: the
    callback goes too deep. *)
Fixpoint each_super (f : list tid -> tid -> option (bool * list tid)) (w : list tid) (l : list tid)
  : option (option tid * list tid) :=
  match l with
  | [] => Some (None, w)
  | s :: r =>
      match f w s with
      | None => None
      | Some (true, w') => Some (Some s, w')
      | Some (false, w') => each_super f w' r
      end
  end.

(** __check_circle_base_types (3433-3473) *)
Fixpoint leads_back (n : nat) (w : list tid) (s : tid) : option (bool * list tid) :=
  match n with
  | O => None
  | S n' =>
      let x := general G s in
      if existsb (Nat.eqb x) w then Some (false, w)
      else if Nat.eqb x T then Some (true, x :: w)
      else match each_super (leads_back n') (x :: w) (supers G x) with
      | None => None
      | Some (Some _, w') => Some (true, w')
      | Some (None, w') => Some (false, w')
      end
  end.

(** __check_circle_base_types (3422-3431): walked_types is new for each super
    type. *)
Fixpoint first_back (n : nat) (l : list tid) : option (option tid) :=
  match l with
  | [] => Some None
  | s :: r =>
      match leads_back n [] s with
      | None => None
      | Some (true, _) => Some (Some s)
      | Some (false, _) => first_back n r
      end
  end.

Definition circle_base : option (option tid) := first_back (S (length (univ G))) (supers G T).

End WithTypes.
