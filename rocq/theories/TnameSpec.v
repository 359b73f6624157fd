(* What a type name means, said without the order in which things are tried. *)
From Coq Require Import ZArith List Bool.
From Verif Require Import TnameModel.
Import ListNotations.
Local Open Scope nat_scope.

(* A type comes after the type it is nested in, which is of the same assembly. *)
Definition good_decls (D : list decl) : Prop :=
  forall i d h, nth_error D i = Some d -> d_host d = Some h ->
    h < i /\ exists e, nth_error D h = Some e /\ d_asm e = d_asm d.

(* The context is inside a type of the assembly, if it is inside a type. *)
Definition good_context (C : context) : Prop :=
  good_decls (c_decls C) /\
  forall i, c_type C = Some i ->
    exists d, nth_error (c_decls C) i = Some d /\ d_asm d = c_asm C.

(* ---- which declaration has a name ---- *)

Definition at_top (a : nat) (ns : path) (d : decl) : Prop :=
  d_host d = None /\ d_asm d = a /\ d_space d = ns.
Definition in_type (h : nat) (d : decl) : Prop := d_host d = Some h.

(* Any number of arguments *)
Definition open (d : decl) : Prop := d_many d = true /\ d_params d <> [].

Definition first_such (D : list decl) (Q : decl -> Prop) (i : nat) : Prop :=
  (exists d, nth_error D i = Some d /\ Q d) /\
  forall j d, j < i -> nth_error D j = Some d -> ~ Q d.

(* The declaration with a name and a number of params at a place: the one with
   this number, or else the one that takes any number and can take this one *)
Definition named (D : list decl) (place : decl -> Prop) (n : Z) (c : nat) (i : nat) : Prop :=
  let exact d := place d /\ d_name d = n /\ ~ open d /\ length (d_params d) = c in
  let loose d := place d /\ d_name d = n /\ open d in
  first_such D exact i \/
  ((forall j, ~ first_such D exact j) /\ first_such D loose i /\
   forall d, nth_error D i = Some d -> length (d_params d) <= S c).

(* ---- what the rest of a name means inside a type ---- *)

(* A type in an instance is an instance in it. *)
Definition made (i : nat) (u : unit_) (host : ty) : ty :=
  match host, u_args u with
  | TGeneral _, [] => TGeneral i
  | _, args => TInstance i args (Some host)
  end.

Definition top (i : nat) (u : unit_) : ty :=
  match u_args u with [] => TGeneral i | args => TInstance i args None end.

Definition of_decl (t : ty) (h : nat) : Prop :=
  match t with TGeneral i | TInstance i _ _ => i = h | _ => False end.

Inductive inside (D : list decl) : ty -> list unit_ -> ty -> Prop :=
| in_here t : inside D t [] t
| in_next t h u us i t' :
    of_decl t h -> named D (in_type h) (u_name u) (length (u_args u)) i ->
    inside D (made i u t) us t' -> inside D t (u :: us) t'.

(* ---- what a name means in a namespace of an assembly ---- *)

Definition plain (u : unit_) : Prop := u_args u = [].

(* A beginning [ps] of the name goes on with the namespace, the next unit names
   a type in it, the others name types nested in that. *)
Definition reads (D : list decl) (a : nat) (ns : path) (us : list unit_) (k : nat) (t : ty)
  : Prop :=
  exists ps u rest i, us = ps ++ u :: rest /\ length ps = k /\ Forall plain ps /\
    named D (at_top a (ns ++ map u_name ps)) (u_name u) (length (u_args u)) i /\
    inside D (top i u) rest t.

(* As little of the name as possible belongs to the namespace. *)
Definition space_meaning (D : list decl) (a : nat) (ns : path) (us : list unit_) (t : ty)
  : Prop :=
  exists k, reads D a ns us k t /\ forall k' t', k' < k -> ~ reads D a ns us k' t'.

(* ---- what it means inside a type ---- *)

(* [j] is [i] or a type around it; [closer] are the types between. *)
Inductive enclosing (D : list decl) : nat -> list nat -> nat -> Prop :=
| enc_self i : enclosing D i [] i
| enc_host i d h closer j :
    nth_error D i = Some d -> d_host d = Some h ->
    enclosing D h closer j -> enclosing D i (i :: closer) j.

(* In the closest type around that has a nested type with the first unit *)
Definition nested_meaning (C : context) (us : list unit_) (t : ty) : Prop :=
  exists u rest i closer j, us = u :: rest /\ c_type C = Some i /\
    enclosing (c_decls C) i closer j /\
    inside (c_decls C) (TGeneral j) us t /\
    forall k n, In k closer ->
      ~ named (c_decls C) (in_type k) (u_name u) (length (u_args u)) n.

(* A generic param: of the method or else of the closest type with one *)
Definition first_param (ps : list Z) (n : Z) (k : nat) : Prop :=
  nth_error ps k = Some n /\ forall j, j < k -> nth_error ps j <> Some n.

Definition params_of (D : list decl) (i : nat) : list Z :=
  match nth_error D i with Some d => d_params d | None => [] end.

Definition method_params (C : context) : list Z :=
  match c_method C with Some ps => ps | None => [] end.

Definition param_means (C : context) (us : list unit_) (t : ty) : Prop :=
  exists n, us = [Unit n []] /\
    ((exists k, first_param (method_params C) n k /\ t = TMethodParam k) \/
     (~ In n (method_params C) /\
      exists i closer j k, c_type C = Some i /\ enclosing (c_decls C) i closer j /\
        first_param (params_of (c_decls C) j) n k /\ t = TParam j k /\
        forall i', In i' closer -> ~ In n (params_of (c_decls C) i'))).

(* ---- the namespaces that are looked at, the closest first ---- *)

Definition own_spaces (C : context) (us : list unit_) : list (nat * path * list unit_) :=
  map (fun k => (c_asm C, firstn k (c_space C), us))
      (rev (seq 0 (S (length (c_space C))))).

Definition called (m : import) : path :=
  match i_alias m with Some x => [x] | None => i_name m end.

(* The name without the given units *)
Fixpoint strip (p : path) (us : list unit_) : option (list unit_) :=
  match p, us with
  | [], _ => Some us
  | _ :: _, [] => None
  | x :: p', u :: us' =>
      match u_args u with
      | [] => if Z.eqb x (u_name u) then strip p' us' else None
      | _ => None
      end
  end.

Definition import_space (us : list unit_) (m : import) : list (nat * path * list unit_) :=
  match called m, i_asm m, strip (called m) us with
  | _ :: _, Some a, Some rest => [(a, [], rest)]
  | _, _, _ => []
  end.

(* The whole name from the outermost namespace, in this assembly or in an
   imported one *)
Definition global_spaces (C : context) (us : list unit_) : list (nat * path * list unit_) :=
  match c_document C with
  | None => []
  | Some (ms, _) => (c_asm C, [], us) :: flat_map (import_space us) ms
  end.

Definition spelled (p : path) : list unit_ := map (fun n => Unit n []) p.

Definition using_spaces (C : context) (us : list unit_) (s : using_)
  : list (nat * path * list unit_) :=
  match s_alias s with
  | None => global_spaces C (spelled (s_space s) ++ us)
  | Some x =>
      match strip [x] us with
      | Some ((_ :: _) as rest) => global_spaces C (spelled (s_space s) ++ rest)
      | _ => []
      end
  end.

Definition spaces (C : context) (us : list unit_) : list (nat * path * list unit_) :=
  own_spaces C us ++ global_spaces C us ++
  match c_document C with
  | None => []
  | Some (_, ss) => flat_map (using_spaces C us) ss
  end.

Definition place_meaning (D : list decl) (p : nat * path * list unit_) (t : ty) : Prop :=
  space_meaning D (fst (fst p)) (snd (fst p)) (snd p) t.

(* The meaning in the first namespace in which there is one *)
Definition first_meaning (D : list decl) (l : list (nat * path * list unit_)) (t : ty) : Prop :=
  exists before p after, l = before ++ p :: after /\ place_meaning D p t /\
    forall q t', In q before -> ~ place_meaning D q t'.

(* What a name means: a generic param; a nested type; a type of a namespace. *)
Definition means (C : context) (us : list unit_) (t : ty) : Prop :=
  param_means C us t \/
  (forall t', ~ param_means C us t') /\
  (nested_meaning C us t \/
   (forall t', ~ nested_meaning C us t') /\ first_meaning (c_decls C) (spaces C us) t).

(* The name from the outermost namespace: global::A.B and ::A.B *)
Definition root_means (C : context) (us : list unit_) (t : ty) : Prop :=
  param_means C us t \/
  (forall t', ~ param_means C us t') /\ first_meaning (c_decls C) (global_spaces C us) t.

(* [C'] is [C] with declarations of other assemblies, imports and usings. *)
Definition extends (C C' : context) : Prop :=
  c_document C = None /\
  (exists E, c_decls C' = c_decls C ++ E /\ forall d, In d E -> d_asm d <> c_asm C) /\
  c_asm C' = c_asm C /\ c_method C' = c_method C /\ c_type C' = c_type C /\
  c_space C' = c_space C.

Definition is_param (t : ty) : Prop :=
  match t with TMethodParam _ | TParam _ _ => True | _ => False end.
