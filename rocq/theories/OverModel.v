(** Implicit conversions and the choice among overloads:
    modules/core/core.cpp 2461-2520, 2664-2684, 2742-3172, 3326-3534,
    3796-3814, 3845-3930 and 4960-5055; include/modules/core.h 4166-4262. *)
From Coq Require Import List Arith Lia Bool PeanoNat.
Import ListNotations.

(* ------------------------------------------------------------------ *)
(** * Value types *)

(* vtype_t, include/modules/core.h 635-669; the numeric names take the codes
   of value_type_t, include/common.h 415-445 (ldouble_ sits between double_
   and bool_ and has no vtype).  [VUnknown] is vtype_t::__unknown__, the vtype
   of the null type and of generic parameters. *)
Inductive vt : Type :=
| VInt8 | VUint8 | VInt16 | VUint16 | VInt32 | VUint32 | VInt64 | VUint64
| VFloat | VDouble | VBool | VChar | VPtr | VString | VVoid | VMobject
| VUnknown.

(* The code of a vtype: the enum values.  [VUnknown] is only compared for
   equality and range, its code 0 is outside every range used. *)
Definition vcode (v : vt) : nat :=
  match v with
  | VUnknown => 0
  | VInt8 => 1 | VUint8 => 2 | VInt16 => 3 | VUint16 => 4
  | VInt32 => 5 | VUint32 => 6 | VInt64 => 7 | VUint64 => 8
  | VFloat => 9 | VDouble => 10
  | VBool => 12 | VChar => 13 | VPtr => 14 | VString => 15 | VVoid => 16
  | VMobject => 17
  end.

Definition vt_eqb (a b : vt) : bool := vcode a =? vcode b.

(* __between, core.cpp 2479-2482. *)
Definition between (v v1 v2 : vt) : bool :=
  (vcode v1 <=? vcode v) && (vcode v <=? vcode v2).

(* core.cpp 2485-2500. *)
Definition is_integer_vtype (v : vt) : bool := between v VInt8 VUint64.
Definition is_float_vtype (v : vt) : bool := between v VFloat VDouble.
Definition is_numeric_vtype (v : vt) : bool := between v VInt8 VDouble.

(* core.cpp 2503-2507. *)
Definition is_signed_vtype (v : vt) : bool :=
  is_float_vtype v ||
  (is_integer_vtype v && (vcode v mod 2 =? vcode VInt8 mod 2)).

(* is_vtype_compatible, core.cpp 2461-2476. *)
Definition is_vtype_compatible (from to : vt) : bool :=
  if vt_eqb from to then true
  else if negb (is_numeric_vtype from) || negb (is_numeric_vtype to) then false
  else if vcode to <? vcode from then false
  else if is_float_vtype from then is_float_vtype to
  else Bool.eqb (is_signed_vtype from) (is_signed_vtype to).

(* ------------------------------------------------------------------ *)
(** * Types *)

(* type_t, compared by pointer in the code.  General types are declared types
   (gtype general), generic types are pooled instances of a template, so
   structural equality is pointer equality (xpool new_generic_type).  A
   generic parameter is identified by its name, as the analyser's map does
   (core.cpp 2809, 2941): two parameters of one name are not told apart.
   Array types are [TArray element dimension]. *)
Inductive ty : Type :=
| TNull
| TGeneral (id : nat)
| TParam (name : nat)
| TGeneric (tmpl : nat) (args : list ty)
| TArray (elem : ty) (dim : nat).

Fixpoint ty_eqb (a b : ty) {struct a} : bool :=
  match a, b with
  | TNull, TNull => true
  | TGeneral i, TGeneral j => i =? j
  | TParam i, TParam j => i =? j
  | TGeneric s xs, TGeneric t ys =>
      (s =? t) &&
      (fix go (xs ys : list ty) : bool :=
         match xs, ys with
         | [], [] => true
         | x :: xs', y :: ys' => ty_eqb x y && go xs' ys'
         | _, _ => false
         end) xs ys
  | TArray x d, TArray y e => ty_eqb x y && (d =? e)
  | _, _ => false
  end.

(* What the declarations say: each_super_type's order (core.cpp 4058-4071 for
   declared and generic types, 5257-5263 for arrays; the other kinds of type
   list none) and this_vtype. *)
Record world : Type := mk_world {
  w_supers : ty -> list ty;
  w_vtype  : ty -> vt
}.

(* this_vtype of the null type is __unknown__ (include/modules/core.h 2673). *)
Definition vtype_of (W : world) (t : ty) : vt :=
  match t with TNull => VUnknown | _ => w_vtype W t end.

Definition ty_mem (t : ty) (l : list ty) : bool := existsb (ty_eqb t) l.

(* __collect_super_types, core.cpp 2664-2673: a depth first walk that enters
   each type once.  The recursion depth is the fuel; [None] means the fuel ran
   out, which for a finite hierarchy a large enough fuel never does. *)
Fixpoint collect (W : world) (fuel : nat) (t : ty) (seen : list ty)
  : option (list ty) :=
  match fuel with
  | O => None
  | S f =>
      (fix go (l : list ty) (seen : list ty) : option (list ty) :=
         match l with
         | [] => Some seen
         | s :: l' =>
             if ty_mem s seen then go l' seen
             else match collect W f s (s :: seen) with
                  | None => None
                  | Some seen' => go l' seen'
                  end
         end) (w_supers W t) seen
  end.

(* type_t::has_super_type, core.cpp 2676-2684: the closure is computed when
   the stored set is empty, and the stored set answers.  The second component
   is the stored set afterwards. *)
Definition has_super_type (W : world) (fuel : nat) (stored : list ty)
  (t super : ty) : option (bool * list ty) :=
  match stored with
  | [] => match collect W fuel t [] with
          | None => None
          | Some c => Some (ty_mem super c, c)
          end
  | _ => Some (ty_mem super stored, stored)
  end.

(* A run of has_super_type calls on one type object, each made while the
   declarations are as the given world says. *)
Fixpoint super_queries (fuel : nat) (stored : list ty) (t : ty)
  (qs : list (world * ty)) : option (list bool) :=
  match qs with
  | [] => Some []
  | (W, s) :: qs' =>
      match has_super_type W fuel stored t s with
      | None => None
      | Some (b, stored') =>
          match super_queries fuel stored' t qs' with
          | None => None
          | Some bs => Some (b :: bs)
          end
      end
  end.

(* is_super_type, core.cpp 2742-2751, on non-null pointers. *)
Definition is_super_type (W : world) (fuel : nat) (derived super : ty)
  : option bool :=
  match has_super_type W fuel [] derived super with
  | None => None
  | Some (b, _) => Some b
  end.

(* __is_mobject, core.cpp 2754-2757. *)
Definition is_mobject (W : world) (t : ty) : bool :=
  vt_eqb (vtype_of W t) VMobject.

(* is_type_compatible, core.cpp 2762-2780. *)
Definition is_type_compatible (W : world) (fuel : nat) (from to : ty)
  : option bool :=
  if ty_eqb from to then Some true
  else match from with
       | TNull => Some true
       | _ =>
           match to with
           | TNull => Some (is_mobject W TNull)
           | _ =>
               if is_mobject W from || is_mobject W to
               then is_super_type W fuel from to
               else Some (is_vtype_compatible (vtype_of W from) (vtype_of W to))
           end
       end.

(* ------------------------------------------------------------------ *)
(** * Comparing a declared signature with a call *)

(* param_type_t, include/modules/core.h 1932-1944. *)
Inductive pmode : Type := PDefault | PRef | POut | PParams | PExtends.

Definition pmode_code (m : pmode) : nat :=
  match m with
  | PDefault => 0 | PRef => 1 | POut => 2 | PParams => 3 | PExtends => 4
  end.

Definition pmode_eqb (a b : pmode) : bool := pmode_code a =? pmode_code b.

(* param_t: passing mode and declared type. *)
Record param : Type := mk_param { p_mode : pmode; p_type : ty }.

(* atype_t: passing mode and type of an argument; the type is null when the
   argument expression has none. *)
Record arg : Type := mk_arg { a_mode : pmode; a_type : option ty }.

(* method_t.  [m_key_owner] is what get_owner_type returned when the method
   was added to its type (the key of the name index, core.h 4198-4206),
   [m_owner] what the owner type name resolves to when the call is analysed.
   [m_id] stands for the method's identity. *)
Record method : Type := mk_method {
  m_id : nat;
  m_name : nat;
  m_gparams : list nat;
  m_params : list param;
  m_key_owner : option ty;
  m_owner : option ty
}.

(* __member_compare_t, core.cpp 2711-2718. *)
Inductive cmp : Type :=
| CNotMatch | CMatch | CEquals | CSameName | CAuto | CAutoFailed.

(* The outcome of a computation: a value, a failed assertion or unexpected
   case, or fuel running out. *)
Inductive res (A : Type) : Type :=
| Ok (a : A)
| Bad
| NoFuel.
Arguments Ok {A} a.
Arguments Bad {A}.
Arguments NoFuel {A}.

Definition of_fuel {A} (o : option A) : res A :=
  match o with Some a => Ok a | None => NoFuel end.

Definition bind {A B} (r : res A) (k : A -> res B) : res B :=
  match r with Ok a => k a | Bad => Bad | NoFuel => NoFuel end.

Definition gmap : Type := list (nat * ty).

(* get_type, core.cpp 2815-2821. *)
Fixpoint gget (m : gmap) (n : nat) : option ty :=
  match m with
  | [] => None
  | (k, t) :: m' => if n =? k then Some t else gget m' n
  end.

(* __generic_param_map[name] = type: the newest binding answers. *)
Definition gset (m : gmap) (n : nat) (t : ty) : gmap := (n, t) :: m.

(* has_generic_params, core.cpp 3235-3251. *)
Fixpoint has_generic_params (t : ty) : bool :=
  match t with
  | TGeneric _ args =>
      (fix go (l : list ty) : bool :=
         match l with
         | [] => false
         | TParam _ :: _ => true
         | a :: l' => has_generic_params a || go l'
         end) args
  | _ => false
  end.

(* __fill_generic_type, core.cpp 3012-3041: a parameter without a type fails
   the assertion. *)
Fixpoint fill_args (m : gmap) (t : ty) : res ty :=
  match t with
  | TGeneric tmpl args =>
      bind ((fix go (l : list ty) : res (list ty) :=
               match l with
               | [] => Ok []
               | a :: l' =>
                   bind (match a with
                         | TParam n => match gget m n with
                                       | Some u => Ok u
                                       | None => Bad
                                       end
                         | TGeneric _ _ => fill_args m a
                         | _ => Ok a
                         end)
                        (fun u => bind (go l') (fun us => Ok (u :: us)))
               end) args)
           (fun us => Ok (TGeneric tmpl us))
  | _ => Ok t
  end.

(* __determine_generic_param_types, core.cpp 3044-3083.  [known] is the
   analyser's map, [m] the map under construction; [Ok None] is false.  The
   size assertion is the [Bad] of lists of different lengths. *)
Fixpoint determine (known m : gmap) (p a : ty) {struct p} : res (option gmap) :=
  match p, a with
  | TGeneric tp pargs, TGeneric ta aargs =>
      if tp =? ta then
        if length pargs =? length aargs then
          (fix go (ps as_ : list ty) (m : gmap) : res (option gmap) :=
             match ps, as_ with
             | [], [] => Ok (Some m)
             | p1 :: ps', a1 :: as' =>
                 match p1 with
                 | TParam n =>
                     match (match gget known n with
                            | Some t => Some t
                            | None => gget m n
                            end) with
                     | None => go ps' as' (gset m n a1)
                     | Some t => if ty_eqb t a1 then go ps' as' m else Ok None
                     end
                 | TGeneric _ _ =>
                     match a1 with
                     | TGeneric _ _ =>
                         bind (determine known m p1 a1)
                              (fun o => match o with
                                        | Some m' => go ps' as' m'
                                        | None => Ok None
                                        end)
                     | _ => Ok None
                     end
                 | _ => go ps' as' m
                 end
             | _, _ => Bad
             end) pargs aargs m
        else Bad
      else Ok None
  | _, _ => Ok None
  end.

(* __each_types with the lambda of core.cpp 2972-2986: the argument type and
   its direct super types, those of the wanted template that unify. *)
Fixpoint matches_of (known : gmap) (p : ty) (tmpl : nat) (ts : list ty)
  : res (list (ty * gmap)) :=
  match ts with
  | [] => Ok []
  | t :: ts' =>
      bind (match t with
            | TGeneric u _ =>
                if u =? tmpl
                then bind (determine known [] p t)
                          (fun o => Ok (match o with
                                        | Some m => [(t, m)]
                                        | None => []
                                        end))
                else Ok []
            | _ => Ok []
            end)
           (fun l => bind (matches_of known p tmpl ts') (fun l' => Ok (l ++ l')))
  end.

(* the copy loop of core.cpp 2996-3002.  The map under construction holds one
   entry per parameter. *)
Definition gmerge (known m : gmap) : gmap := m ++ known.

(* __to_real_type, core.cpp 2926-3010.  [explicit] is whether the call wrote
   generic arguments.  The result: the type, whether a comparison result is
   already settled, and the analyser's map. *)
Definition to_real_type (W : world) (fuel : nat) (explicit : bool) (known : gmap)
  (p a : ty) : res (ty * option cmp * gmap) :=
  match p with
  | TParam n =>
      match gget known n with
      | Some t => Ok (t, None, known)
      | None => Ok (a, Some CAuto, gset known n a)
      end
  | TGeneric tmpl pargs =>
      if has_generic_params p then
        bind (match a with
              | TGeneral _ => of_fuel (is_type_compatible W fuel a (TGeneral tmpl))
              | _ => Ok false
              end)
             (fun raw : bool =>
                if raw then Ok (a, None, known)
                else if explicit then
                  bind (fill_args known p) (fun t => Ok (t, None, known))
                else
                  bind (matches_of known p tmpl (a :: w_supers W a))
                       (fun ms => match ms with
                                  | [(t, m)] => Ok (t, None, gmerge known m)
                                  | _ => Ok (p, Some CAutoFailed, known)
                                  end))
      else Ok (p, None, known)
  | _ => Ok (p, None, known)
  end.

(* __compare_argument, core.cpp 2885-2923. *)
Definition compare_argument (W : world) (fuel : nat) (explicit : bool)
  (known : gmap) (p : param) (a : arg) : res (cmp * gmap) :=
  match a_type a with
  | None => Ok (CNotMatch, known)
  | Some at_ =>
      if negb (pmode_eqb (p_mode p) (a_mode a)) then Ok (CNotMatch, known)
      else
        bind (to_real_type W fuel explicit known (p_type p) at_)
             (fun r => match r with
              | (pt, settled, known') =>
                  match settled with
                  | Some c => Ok (c, known')
                  | None =>
                      if ty_eqb pt at_ then Ok (CEquals, known')
                      else match p_mode p with
                           | PRef => Ok (CNotMatch, known')
                           | POut =>
                               bind (of_fuel (is_type_compatible W fuel pt at_))
                                    (fun b : bool => Ok (if b then CMatch else CNotMatch, known'))
                           | _ =>
                               bind (of_fuel (is_type_compatible W fuel at_ pt))
                                    (fun b : bool => Ok (if b then CMatch else CNotMatch, known'))
                           end
                  end
              end)
  end.

(* compare, core.cpp 2832-2870, after the count check. *)
Fixpoint compare_loop (W : world) (fuel : nat) (explicit : bool) (known : gmap)
  (r : cmp) (ps : list param) (as_ : list arg) : res (cmp * gmap) :=
  match ps, as_ with
  | p :: ps', a :: as' =>
      bind (compare_argument W fuel explicit known p a)
           (fun x => match x with
            | (c, known') =>
                match c with
                | CNotMatch | CAutoFailed => Ok (CNotMatch, known')
                | CMatch =>
                    compare_loop W fuel explicit known'
                      (match r with CAuto => CAuto | _ => CMatch end) ps' as'
                | CAuto => compare_loop W fuel explicit known' CAuto ps' as'
                | CEquals => compare_loop W fuel explicit known' r ps' as'
                | CSameName => Bad
                end
            end)
  | _, _ => Ok (r, known)
  end.

Definition compare_args (W : world) (fuel : nat) (explicit : bool) (known : gmap)
  (ps : list param) (as_ : list arg) : res (cmp * gmap) :=
  if length as_ =? length ps
  then compare_loop W fuel explicit known CEquals ps as_
  else Ok (CNotMatch, known).

(* The constructor of the analyser, core.cpp 2788-2812: written generic
   arguments must be as many as the parameters (otherwise it throws). *)
Definition explicit_map (gps : list nat) (gargs : list ty) : res gmap :=
  if length gargs =? length gps
  then Ok (rev (combine gps gargs))
  else Bad.

(* the loop of core.cpp 3158-3168: the types found, and whether all were. *)
Fixpoint determined (m : gmap) (gps : list nat) : list ty * bool :=
  match gps with
  | [] => ([], true)
  | n :: gps' =>
      match gget m n with
      | None => ([], false)
      | Some t => match determined m gps' with
                  | (ts, ok) => (t :: ts, ok)
                  end
      end
  end.

(* What a call asks for: analyze_member_args_t, include/modules/core.h
   2324-2351.  [c_args] is [None] when no argument list was written. *)
Record call : Type := mk_call {
  c_name : nat;
  c_gargs : option (list ty);
  c_args : option (list arg);
  c_owner : option ty;
  c_exact : bool;
  c_throw : bool
}.

(* __compare_method, core.cpp 3135-3172.  The second component is what was
   appended to out_arg_types. *)
Definition compare_method (W : world) (fuel : nat) (m : method) (c : call)
  : res (cmp * list ty) :=
  match c_args c with
  | None =>
      match c_gargs c with
      | None => Ok (CSameName, [])
      | Some gs => Ok (if length (m_gparams m) =? length gs
                       then CSameName else CNotMatch, [])
      end
  | Some as_ =>
      match as_ with
      | [] => Ok (match m_params m with [] => CEquals | _ => CNotMatch end, [])
      | _ =>
          if negb (length as_ =? length (m_params m)) then Ok (CNotMatch, [])
          else
            bind (match c_gargs c with
                  | None => Ok []
                  | Some gs => explicit_map (m_gparams m) gs
                  end)
                 (fun known =>
                    bind (compare_args W fuel
                            (match c_gargs c with None => false | Some _ => true end)
                            known (m_params m) as_)
                         (fun x => match x with
                          | (r, known') =>
                              match m_gparams m, c_gargs c with
                              | _ :: _, None =>
                                  match determined known' (m_gparams m) with
                                  | (ts, true) => Ok (r, ts)
                                  | (ts, false) => Ok (CAutoFailed, ts)
                                  end
                              | _, _ => Ok (r, [])
                              end
                          end))
      end
  end.

(* ------------------------------------------------------------------ *)
(** * Choosing among the methods of a type *)

Definition oty_eqb (a b : option ty) : bool :=
  match a, b with
  | None, None => true
  | Some x, Some y => ty_eqb x y
  | _, _ => false
  end.

(* __method_analyzer_t's collections: the equalled method, the matched, the
   undetermined and the unmatched ones.  Each keeps the type arguments that
   were found for that method: the index into __arg_types_list (core.cpp
   3470-3512) selects the list that this method's comparison filled, or none
   when it filled nothing. *)
Record verdicts : Type := mk_verdicts {
  v_equal : option (method * list ty);
  v_matched : list (method * list ty);
  v_failed : list (method * list ty);
  v_unmatched : list (method * list ty)
}.

Definition no_verdicts : verdicts := mk_verdicts None [] [] [].

(* __analyze, core.cpp 3431-3467, after the owner test. *)
Definition note (v : verdicts) (m : method) (r : cmp) (ts : list ty) : verdicts :=
  match r with
  | CEquals | CAuto =>
      mk_verdicts (Some (m, ts)) (v_matched v) (v_failed v) (v_unmatched v)
  | CMatch | CSameName =>
      mk_verdicts (v_equal v) (v_matched v ++ [(m, ts)]) (v_failed v) (v_unmatched v)
  | CNotMatch =>
      mk_verdicts (v_equal v) (v_matched v) (v_failed v) (v_unmatched v ++ [(m, ts)])
  | CAutoFailed =>
      mk_verdicts (v_equal v) (v_matched v) (v_failed v ++ [(m, ts)]) (v_unmatched v)
  end.

(* The iteration of __member_vector_t::each (core.h 4212-4229) over the
   methods under one key, in the order they were added: a method whose owner
   is not the wanted one returns false and so ends the iteration
   (core.cpp 3433-3434). *)
Fixpoint analyze_list (W : world) (fuel : nat) (c : call) (v : verdicts)
  (ms : list method) : res verdicts :=
  match ms with
  | [] => Ok v
  | m :: ms' =>
      if negb (oty_eqb (m_owner m) (c_owner c)) then Ok v
      else bind (compare_method W fuel m c)
                (fun x => match x with
                 | (r, ts) => analyze_list W fuel c (note v m r ts) ms'
                 end)
  end.

(* The keys of __method_map: name, number of generic parameters and no owner
   (core.h 4231-4238). *)
Definition keyed (c : call) (n : nat) (m : method) : bool :=
  (m_name m =? c_name c) && (length (m_gparams m) =? n) &&
  match m_key_owner m with None => true | Some _ => false end.

Definition keyed_generic (c : call) (m : method) : bool :=
  (m_name m =? c_name c) && negb (length (m_gparams m) =? 0) &&
  match m_key_owner m with None => true | Some _ => false end.

Definition gargs_count (c : call) : nat :=
  match c_gargs c with None => 0 | Some gs => length gs end.

Definition not_found (v : verdicts) : bool :=
  match v_equal v, v_matched v with
  | None, [] => true
  | _, _ => false
  end.

(* analyze, core.cpp 3337-3357, for calls by name: methods with the written
   number of generic arguments, then, when nothing was found and no generic
   argument was written, the generic methods. *)
Definition analyze (W : world) (fuel : nat) (c : call) (ms : list method)
  : res verdicts :=
  bind (analyze_list W fuel c no_verdicts (filter (keyed c (gargs_count c)) ms))
       (fun v => if not_found v && (gargs_count c =? 0)
                 then analyze_list W fuel c v (filter (keyed_generic c) ms)
                 else Ok v).

(* What a lookup ends with: a method and its type arguments, nullptr, or one
   of the three errors of method_compare_error_t with its related methods. *)
Inductive outcome : Type :=
| Found (m : method) (targs : list ty)
| Absent
| NotMatchError (ms : list method)
| ConflictError (ms : list method)
| UndeterminedError (ms : list method).

(* get_method, core.cpp 3360-3393. *)
Definition get_method (c : call) (v : verdicts) : outcome :=
  match v_equal v with
  | Some (m, ts) => Found m ts
  | None =>
      if c_exact c then
        if c_throw c
        then NotMatchError (map fst (match v_matched v with
                                     | [] => v_unmatched v
                                     | _ => v_matched v
                                     end))
        else Absent
      else
        match v_matched v with
        | _ :: _ :: _ => ConflictError (map fst (v_matched v))
        | [(m, ts)] => Found m ts
        | [] =>
            match v_failed v with
            | _ :: _ => UndeterminedError (map fst (v_failed v))
            | [] => if c_throw c
                    then NotMatchError (map fst (v_unmatched v))
                    else Absent
            end
        end
  end.

(* __analyze_method, core.cpp 3528-3534. *)
Definition lookup (W : world) (fuel : nat) (c : call) (ms : list method)
  : res outcome :=
  bind (analyze W fuel c ms) (fun v => Ok (get_method c v)).

(* ------------------------------------------------------------------ *)
(** * Looking in the base types *)

(* A class hierarchy as get_member sees it: the methods of each type and its
   base type. *)
Record classes : Type := mk_classes {
  k_methods : ty -> list method;
  k_base : ty -> option ty
}.

(* __try_get_member, core.cpp 5039-5052: a not_match error counts as not
   found, another error is passed on. *)
Definition try_lookup (W : world) (fuel : nat) (K : classes) (c : call) (t : ty)
  : res outcome :=
  bind (lookup W fuel c (k_methods K t))
       (fun o => Ok (match o with NotMatchError _ => Absent | _ => o end)).

(* __get_member_for_non_interface, core.cpp 5008-5018; [steps] bounds the
   recursion, [None] of the base ends it, a type already walked ends it. *)
Fixpoint walk_bases (W : world) (fuel : nat) (K : classes) (c : call)
  (steps : nat) (walked : list ty) (t : option ty) : res outcome :=
  match steps with
  | O => NoFuel
  | S n =>
      match t with
      | None => Ok Absent
      | Some t =>
          if ty_mem t walked then Ok Absent
          else bind (try_lookup W fuel K c t)
                    (fun o => match o with
                              | Absent => walk_bases W fuel K c n (t :: walked) (k_base K t)
                              | _ => Ok o
                              end)
      end
  end.

(* __get_member of a non-interface type with the base types included, and
   get_member's final test (core.cpp 4970-5005).  The methods that did not
   match are left out of the final error. *)
Definition get_member (W : world) (fuel : nat) (K : classes) (c : call)
  (steps : nat) (t : ty) : res outcome :=
  bind (bind (try_lookup W fuel K c t)
             (fun o => match o with
                       | Absent => walk_bases W fuel K c steps [t] (k_base K t)
                       | _ => Ok o
                       end))
       (fun o => Ok (match o with
                     | Absent => if c_throw c then NotMatchError [] else Absent
                     | _ => o
                     end)).

(* ------------------------------------------------------------------ *)
(** * The duplicate check *)

(* __is_params_equals for methods, core.cpp 3845-3885.  A generic parameter is
   compared by its index; the second type is cast to generic_param_t without
   looking at what it is, which is the [Bad] case.  [gidx] gives the index of
   a generic parameter.  Passing modes are not compared. *)
Fixpoint params_equal_loop (gidx : nat -> nat) (ps qs : list param) : res bool :=
  match ps, qs with
  | p :: ps', q :: qs' =>
      match p_type p with
      | TParam n =>
          match p_type q with
          | TParam k => if gidx n =? gidx k
                        then params_equal_loop gidx ps' qs' else Ok false
          | _ => Bad
          end
      | t => if ty_eqb t (p_type q)
             then params_equal_loop gidx ps' qs' else Ok false
      end
  | _, _ => Ok true
  end.

Definition method_params_equal (gidx : nat -> nat) (a b : method) : res bool :=
  if negb (length (m_params a) =? length (m_params b)) then Ok false
  else if negb (length (m_gparams a) =? length (m_gparams b)) then Ok false
  else params_equal_loop gidx (m_params a) (m_params b).

(* __search_member over the methods of one name (core.cpp 3796-3814): the
   first method before [m] with the same owner and equal parameters.  Methods
   after [m] are not reported. *)
Fixpoint search_duplicate (gidx : nat -> nat) (m : method) (ms : list method)
  : res (option method) :=
  match ms with
  | [] => Ok None
  | x :: ms' =>
      if m_id x =? m_id m then Ok None
      else if oty_eqb (m_owner x) (m_owner m)
           then bind (method_params_equal gidx m x)
                     (fun b : bool => if b then Ok (Some x)
                                      else search_duplicate gidx m ms')
           else search_duplicate gidx m ms'
  end.

Definition same_name (m x : method) : bool :=
  (m_name x =? m_name m) &&
  match m_key_owner x with None => true | Some _ => false end.

(* check_duplicate of a method among the methods of its type, core.cpp
   3919-3929 (the tests against fields, events, nested types, type
   definitions and properties are left out). *)
Definition check_duplicate (gidx : nat -> nat) (m : method) (ms : list method)
  : res (option method) :=
  search_duplicate gidx m (filter (same_name m) ms).
