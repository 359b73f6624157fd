(** What implicit conversion and overload choice should mean, written without
    the analyser's own functions. *)
From Coq Require Import List Arith ZArith Bool Relations.
From Verif Require Import OverModel.
Import ListNotations.

(* ------------------------------------------------------------------ *)
(** * Numbers *)

(** The integers an integer type can hold. *)
Definition int_range (v : vt) : option (Z * Z) :=
  match v with
  | VInt8   => Some (- 2 ^ 7, 2 ^ 7 - 1)%Z
  | VUint8  => Some (0, 2 ^ 8 - 1)%Z
  | VInt16  => Some (- 2 ^ 15, 2 ^ 15 - 1)%Z
  | VUint16 => Some (0, 2 ^ 16 - 1)%Z
  | VInt32  => Some (- 2 ^ 31, 2 ^ 31 - 1)%Z
  | VUint32 => Some (0, 2 ^ 32 - 1)%Z
  | VInt64  => Some (- 2 ^ 63, 2 ^ 63 - 1)%Z
  | VUint64 => Some (0, 2 ^ 64 - 1)%Z
  | _ => None
  end.

Definition holds_int (v : vt) (z : Z) : Prop :=
  match int_range v with
  | Some (lo, hi) => (lo <= z <= hi)%Z
  | None => False
  end.

(** An integer a binary floating point type with [p] bits of significand
    represents exactly: an odd part of at most [p] bits times a power of two
    (the exponent range of both types covers 64 bit integers). *)
Definition float_bits (v : vt) : option Z :=
  match v with VFloat => Some 24%Z | VDouble => Some 53%Z | _ => None end.

Definition holds_exactly (v : vt) (z : Z) : Prop :=
  match float_bits v with
  | Some p => exists m e, (0 <= e)%Z /\ (z = m * 2 ^ e)%Z /\ (Z.abs m < 2 ^ p)%Z
  | None => holds_int v z
  end.

(** The conversions between value types of different kind that need no cast:
    to a wider integer of the same signedness, from a signed integer to a
    floating type, from float to double. *)
Definition signed_size (v : vt) : option nat :=
  match v with
  | VInt8 => Some 8 | VInt16 => Some 16 | VInt32 => Some 32 | VInt64 => Some 64
  | _ => None
  end.

Definition unsigned_size (v : vt) : option nat :=
  match v with
  | VUint8 => Some 8 | VUint16 => Some 16 | VUint32 => Some 32 | VUint64 => Some 64
  | _ => None
  end.

Inductive widens : vt -> vt -> Prop :=
| widens_signed v w a b :
    signed_size v = Some a -> signed_size w = Some b -> a < b -> widens v w
| widens_unsigned v w a b :
    unsigned_size v = Some a -> unsigned_size w = Some b -> a < b -> widens v w
| widens_to_float v a : signed_size v = Some a -> widens v VFloat
| widens_to_double v a : signed_size v = Some a -> widens v VDouble
| widens_float : widens VFloat VDouble.

(* ------------------------------------------------------------------ *)
(** * Types *)

(** [s] is one of the types the declaration of [t] names as super types. *)
Definition direct_super (W : world) (t s : ty) : Prop := In s (w_supers W t).

(** [s] is reached by one or more steps. *)
Definition inherits (W : world) : ty -> ty -> Prop :=
  clos_trans ty (direct_super W).

(** A finite part of the hierarchy that contains [t] and every super type of
    its members. *)
Definition hierarchy (W : world) (U : list ty) : Prop :=
  forall t s, In t U -> direct_super W t s -> In s U.

Definition reference (W : world) (t : ty) : Prop :=
  t <> TNull /\ w_vtype W t = VMobject.

(** The implicit conversions. *)
Inductive converts (W : world) : ty -> ty -> Prop :=
| converts_same t : converts W t t
| converts_null t : converts W TNull t
| converts_super t s :
    t <> TNull -> s <> TNull -> reference W t \/ reference W s ->
    inherits W t s -> converts W t s
| converts_value t s :
    t <> TNull -> s <> TNull -> ~ reference W t -> ~ reference W s ->
    w_vtype W t = w_vtype W s \/ widens (w_vtype W t) (w_vtype W s) ->
    converts W t s.

(* ------------------------------------------------------------------ *)
(** * Calls *)

(** A type without generic parameters in it. *)
Inductive closed : ty -> Prop :=
| closed_null : closed TNull
| closed_general i : closed (TGeneral i)
| closed_generic t args : Forall closed args -> closed (TGeneric t args)
| closed_array e d : closed e -> closed (TArray e d).

(** The argument is what the parameter says, word for word. *)
Definition fits (p : param) (a : arg) : Prop :=
  a_mode a = p_mode p /\ a_type a = Some (p_type p).

(** The argument can be passed: the same passing mode, and the type is the
    same, or, by value, converts to the parameter's, or, for [out], the
    parameter's converts to the argument's. *)
Definition passes (W : world) (p : param) (a : arg) : Prop :=
  a_mode a = p_mode p /\
  exists t, a_type a = Some t /\
    (t = p_type p \/
     match p_mode p with
     | PRef => False
     | POut => converts W (p_type p) t
     | _ => converts W t (p_type p)
     end).

Definition exact (as_ : list arg) (m : method) : Prop :=
  Forall2 fits (m_params m) as_.

Definition applicable (W : world) (as_ : list arg) (m : method) : Prop :=
  Forall2 (passes W) (m_params m) as_.

(** An ordinary method: no generic parameters of its own, none in its
    signature, no explicit interface. *)
Definition ordinary (m : method) : Prop :=
  m_gparams m = [] /\ Forall (fun p => closed (p_type p)) (m_params m) /\
  m_key_owner m = None /\ m_owner m = None.

(** A plain call [f(a1, ..., an)]. *)
Definition plain_call (name : nat) (as_ : list arg) (throw : bool) : call :=
  mk_call name None (Some as_) None false throw.

(** The types a call mentions lie in a finite hierarchy. *)
Definition args_in (U : list ty) (as_ : list arg) : Prop :=
  forall a t, In a as_ -> a_type a = Some t -> In t U.

Definition params_in (U : list ty) (m : method) : Prop :=
  forall p, In p (m_params m) -> In (p_type p) U.

(** Two declared methods a program could not call apart. *)
Definition same_signature (m x : method) : Prop :=
  Forall2 (fun p q => p_mode p = p_mode q /\ p_type p = p_type q)
          (m_params m) (m_params x).

(* ------------------------------------------------------------------ *)
(** * Inference *)

(** The type a declared type stands for when the generic parameters [gps]
    stand for [ts]. *)
Fixpoint lookup_arg (gps : list nat) (ts : list ty) (n : nat) : option ty :=
  match gps, ts with
  | g :: gps', t :: ts' => if Nat.eq_dec n g then Some t else lookup_arg gps' ts' n
  | _, _ => None
  end.

Fixpoint instantiate (gps : list nat) (ts : list ty) (t : ty) : ty :=
  match t with
  | TParam n => match lookup_arg gps ts n with Some u => u | None => t end
  | TGeneric g args => TGeneric g (map (instantiate gps ts) args)
  | TArray e d => TArray (instantiate gps ts e) d
  | _ => t
  end.

(** A generic instance all of whose arguments are generic parameters, or such
    instances again. *)
Inductive open_pattern (gps : list nat) : ty -> Prop :=
| open_param n : In n gps -> open_pattern gps (TParam n)
| open_generic g args :
    args <> [] -> Forall (open_pattern gps) args ->
    open_pattern gps (TGeneric g args).

Definition inferable (gps : list nat) (t : ty) : Prop :=
  closed t \/ open_pattern gps t.

(** The argument can be passed for the instantiated parameter. *)
Definition passes_as (W : world) (gps : list nat) (ts : list ty) (p : param) (a : arg) : Prop :=
  passes W (mk_param (p_mode p) (instantiate gps ts (p_type p))) a.

(* ------------------------------------------------------------------ *)
(** * The methods of a type *)

(** The non-generic methods [name] of a type are all ordinary. *)
Definition plain_methods (name : nat) (ms : list method) : Prop :=
  forall m, In m ms -> m_name m = name -> m_gparams m = [] -> ordinary m.

(** [m] is a non-generic method [name] of the type. *)
Definition candidate (name : nat) (ms : list method) (m : method) : Prop :=
  In m ms /\ m_name m = name /\ m_gparams m = [].

(** The types of the call [f(as)] and of the candidates lie in a finite
    hierarchy, and the fuel is enough for it. *)
Definition well_set (W : world) (U : list ty) (fuel : nat) (name : nat)
  (ms : list method) (as_ : list arg) : Prop :=
  hierarchy W U /\ length U < fuel /\ args_in U as_ /\
  forall m, In m ms -> m_name m = name -> params_in U m.

(** The call [f<gs>(as)]. *)
Definition generic_call (name : nat) (gs : list ty) (as_ : list arg) (throw : bool) : call :=
  mk_call name (Some gs) (Some as_) None false throw.

(** A declared type whose generic parameters are all of [gps] and stand
    outside arrays. *)
Inductive fillable (gps : list nat) : ty -> Prop :=
| fillable_closed t : closed t -> fillable gps t
| fillable_param n : In n gps -> fillable gps (TParam n)
| fillable_generic g args : Forall (fillable gps) args -> fillable gps (TGeneric g args).

(** The signature of [m] with its generic parameters replaced by [gs]. *)
Definition signature (gs : list ty) (m : method) : list param :=
  map (fun p => mk_param (p_mode p) (instantiate (m_gparams m) gs (p_type p)))
      (m_params m).

(** No argument is of a declared type that converts to the bare template of a
    generic parameter type (the analyser then takes the argument's own type). *)
Definition no_bare_template (W : world) (as_ : list arg) (m : method) : Prop :=
  forall p a g args i,
    In p (m_params m) -> In a as_ -> p_type p = TGeneric g args ->
    ~ closed (p_type p) -> a_type a = Some (TGeneral i) ->
    ~ converts W (TGeneral i) (TGeneral g).

(** [m] is a method [name] of the type with as many generic parameters as
    [gs], declared so that the call can be read. *)
Definition generic_candidate (name : nat) (gs : list ty) (ms : list method) (m : method) : Prop :=
  In m ms /\ m_name m = name /\ length (m_gparams m) = length gs.

Definition generic_ready (W : world) (U : list ty) (fuel : nat) (name : nat)
  (gs : list ty) (ms : list method) (as_ : list arg) : Prop :=
  hierarchy W U /\ length U < fuel /\ args_in U as_ /\
  forall m, generic_candidate name gs ms m ->
    NoDup (m_gparams m) /\ m_key_owner m = None /\ m_owner m = None /\
    Forall (fun p => fillable (m_gparams m) (p_type p)) (m_params m) /\
    (forall q, In q (signature gs m) -> In (p_type q) U) /\
    no_bare_template W as_ m.

(* ------------------------------------------------------------------ *)
(** * Calls whose type arguments are inferred *)

(** A generic parameter occurs in a declared type, outside arrays. *)
Inductive occurs (n : nat) : ty -> Prop :=
| occurs_param : occurs n (TParam n)
| occurs_generic g args a : In a args -> occurs n a -> occurs n (TGeneric g args).

(** The argument is what the parameter says once the generic parameters are
    replaced. *)
Definition fits_as (gps : list nat) (ts : list ty) (p : param) (a : arg) : Prop :=
  fits (mk_param (p_mode p) (instantiate gps ts (p_type p))) a.

(** No direct super type of [t] is an instance of the template [g]. *)
Definition no_twin (W : world) (t : ty) : Prop :=
  forall g args s l, t = TGeneric g args -> direct_super W t s -> s <> TGeneric g l.

(* ------------------------------------------------------------------ *)
(** * The base types of a class *)

(** [path] leads from [t] through base types, in order; the last component is
    the base type of its end. *)
Inductive bases (K : classes) : option ty -> list ty -> option ty -> Prop :=
| bases_nil t : bases K t [] t
| bases_cons t path e : bases K (k_base K t) path e -> bases K (Some t) (t :: path) e.

(** The type's own methods do not answer the call. *)
Definition silent (W : world) (fuel : nat) (K : classes) (c : call) (t : ty) : Prop :=
  lookup W fuel c (k_methods K t) = Ok Absent \/
  exists es, lookup W fuel c (k_methods K t) = Ok (NotMatchError es).

Definition answers (W : world) (fuel : nat) (K : classes) (c : call) (t : ty) (o : outcome) : Prop :=
  lookup W fuel c (k_methods K t) = Ok o /\ o <> Absent /\ forall es, o <> NotMatchError es.

(* ------------------------------------------------------------------ *)
(** * Duplicates *)

(** Parameter lists of the same types; the passing modes may differ. *)
Definition same_types (m x : method) : Prop :=
  map p_type (m_params m) = map p_type (m_params x).

(** Every method of the type is an ordinary one, and no two are one object. *)
Definition ordinary_class (ms : list method) : Prop :=
  NoDup (map m_id ms) /\ Forall ordinary ms.

(** Two parameter types are the same up to the naming of generic parameters:
    generic parameters of one index, or one and the same type. *)
Definition same_up_to_index (gidx : nat -> nat) (t u : ty) : Prop :=
  match t, u with
  | TParam n, TParam k => gidx n = gidx k
  | TParam _, _ => False
  | _, TParam _ => False
  | _, _ => t = u
  end.

(** As many generic parameters, and parameters of the same types. *)
Definition same_generic_types (gidx : nat -> nat) (m x : method) : Prop :=
  length (m_gparams m) = length (m_gparams x) /\
  Forall2 (fun p q => same_up_to_index gidx (p_type p) (p_type q))
          (m_params m) (m_params x).

(** Where [m] takes a value of a generic parameter, so does [x]. *)
Definition aligned (m x : method) : Prop :=
  Forall2 (fun p q => (exists n, p_type p = TParam n) -> exists k, p_type q = TParam k)
          (m_params m) (m_params x).

(** No two methods are one object, none implements an interface explicitly,
    and methods of one name, with as many parameters and as many generic ones,
    take values of generic parameters in the same places. *)
Definition generic_class (ms : list method) : Prop :=
  NoDup (map m_id ms) /\
  Forall (fun m => m_key_owner m = None /\ m_owner m = None) ms /\
  forall m x, In m ms -> In x ms -> m_name m = m_name x ->
    length (m_params m) = length (m_params x) ->
    length (m_gparams m) = length (m_gparams x) -> aligned m x.
