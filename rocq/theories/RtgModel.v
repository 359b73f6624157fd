(* Generic types at run time: modules/rt/layout.cpp 9-90, 262-385
   (generic_param_manager_t and its builder), modules/rt/__layout.h 100-245,
   modules/rt/rt.cpp 699-705, 839-895, 900-960, 1007-1030, 1951-1996,
   2476-2482, 2545-2552, 2625-2705, 2912-2985, 3192-3224 and
   modules/exec/commands.cpp 917-977.

   A type in the metadata is a tree with generic params in it.  At run time it
   is turned into a type without them, with the arguments of the instance the
   code runs in; these are kept by the names of the params.

   Simplifications, for the whole file:
   - There is one assembly; a type of another one is found by its name
     (rt.cpp 2634-2643).  References by index (generic_param_index) are left out.
   - Types are compared as trees: the pool makes every instance and array type
     once (rt.cpp 253-283).
   - The place of a named argument among all arguments, which the layout of
     parameters uses, and explicit owners of methods are left out.
   - An assertion that fails (X_DEBUG), an index that is not there and an array
     read past its end are [Failed]. *)
From Coq Require Import ZArith List Bool.
Import ListNotations.
Local Open Scope nat_scope.

(* ---- metadata ---- *)

(* A type reference: null, a general type, an instance with the type it is in,
   an array, a generic param by its row *)
Inductive mty :=
| MNull
| MGeneral (i : nat)
| MInstance (i : nat) (a : list mty) (h : mty)
| MArray (e : mty) (d : Z)
| MParam (p : nat).

(* generic_param: the name and whether it takes any number of types *)
Record gparam := Gparam { g_name : Z; g_pack : bool }.

(* method: the name, the number of generic params, the type, the params with
   their modes *)
Record meth := Meth { m_name : Z; m_count : nat; m_ret : mty; m_params : list (Z * mty) }.

(* general type: generic params and the type it is nested in *)
Record decl := Decl { d_params : list nat; d_host : option nat }.

Record prog := Prog { p_decls : list decl; p_gparams : list gparam }.

(* ---- run time ---- *)

(* rt_general_type_t, rt_generic_type_t, rt_array_type_t, the place holders *)
Inductive rty :=
| RGeneral (i : nat)
| RInstance (i : nat) (a : list rty) (h : option rty)
| RArray (e : rty) (d : Z)
| RHolder (k : nat).

Inductive result (A : Type) := Done (a : A) | Failed.
Arguments Done {A}. Arguments Failed {A}.

Definition bind {A B} (o : result A) (f : A -> result B) : result B :=
  match o with Done a => f a | Failed => Failed end.

(* ---- generic_param_manager_t ---- *)

(* __atypes, __named_atypes, __type_map, parent *)
Inductive mgr := Mgr (types : list rty) (packs : list (Z * (nat * nat)))
                     (named : list (Z * rty)) (parent : option mgr).

Fixpoint lookup {A} (n : Z) (l : list (Z * A)) : option A :=
  match l with
  | [] => None
  | (m, a) :: l' => if Z.eqb m n then Some a else lookup n l'
  end.

(* append with a name, layout.cpp 13-21; the name must be new *)
Definition append_named (M : mgr) (n : Z) (t : rty) : result mgr :=
  match M with
  | Mgr ts ps ns up =>
      match lookup n ns with
      | Some _ => Failed
      | None => Done (Mgr (ts ++ [t]) ps ((n, t) :: ns) up)
      end
  end.

(* append of many types under a name, layout.cpp 24-35, 278-284 *)
Definition append_pack (M : mgr) (n : Z) (us : list rty) : mgr :=
  match M with
  | Mgr ts ps ns up => Mgr (ts ++ us) ((n, (length ts, length us)) :: ps) ns up
  end.

Definition size (M : mgr) : nat := match M with Mgr ts _ _ _ => length ts end.

(* type_at by name, layout.cpp 47-57: also in the parent *)
Fixpoint type_at (M : mgr) (n : Z) : option rty :=
  match M with
  | Mgr _ _ ns up =>
      match lookup n ns with
      | Some t => Some t
      | None => match up with Some M' => type_at M' n | None => None end
      end
  end.

(* pick_types, __layout.h 195-213, and types_of, layout.cpp 60-73: not in the
   parent.  Nothing is picked when there is no such name. *)
Definition pick_types (M : mgr) (n : Z) : list rty :=
  match M with
  | Mgr ts ps _ _ =>
      match lookup n ps with
      | Some (i, c) => firstn c (skipn i ts)
      | None => []
      end
  end.

Definition empty_mgr : mgr := Mgr [] [] [] None.

Definition gparam_at (P : prog) (p : nat) : result gparam :=
  match nth_error (p_gparams P) p with Some g => Done g | None => Failed end.

(* generic_param_manager_builder_t::append with types, layout.cpp 266-294 *)
Fixpoint append_args (P : prog) (ps : list nat) (ts : list rty) (M : mgr) : result mgr :=
  match ps with
  | [] => Done M
  | p :: ps' =>
      bind (gparam_at P p) (fun g =>
      if g_pack g then Done (append_pack M (g_name g) ts)
      else match ts with
           | [] => Failed
           | t :: ts' => bind (append_named M (g_name g) t) (append_args P ps' ts')
           end)
  end.

(* append with place holders, layout.cpp 297-306 *)
Fixpoint append_holders (P : prog) (ps : list nat) (M : mgr) : result mgr :=
  match ps with
  | [] => Done M
  | p :: ps' =>
      bind (gparam_at P p) (fun g =>
      bind (append_named M (g_name g) (RHolder (size M))) (append_holders P ps'))
  end.

(* import of a type, layout.cpp 352-371: the types around first.  [fuel] is for
   the types around a general type. *)
Fixpoint import_general (P : prog) (fuel : nat) (i : nat) (M : mgr) : result mgr :=
  match nth_error (p_decls P) i with
  | None => Failed
  | Some d =>
      bind (match d_host d with
            | None => Done M
            | Some h => match fuel with
                        | O => Failed
                        | S fuel' => import_general P fuel' h M
                        end
            end) (append_holders P (d_params d))
  end.

Fixpoint import (P : prog) (t : rty) (M : mgr) : result mgr :=
  match t with
  | RInstance i a h =>
      bind (match h with Some h' => import P h' M | None => Done M end)
      (fun M' => match nth_error (p_decls P) i with
                 | Some d => append_args P (d_params d) a M'
                 | None => Failed
                 end)
  | RGeneral i => import_general P (length (p_decls P)) i M
  | _ => Done M
  end.

(* The constructor, __layout.h 159-176 *)
Definition build (P : prog) (t : rty) (up : option mgr) : result mgr :=
  import P t (Mgr [] [] [] up).

(* For a generic method: import, layout.cpp 374-382, and append, 309-314 *)
Definition build_method (P : prog) (t : rty) (ps : list nat) (args : list rty)
  : result mgr :=
  bind (build P t None) (append_args P ps args).

(* ---- get_type ---- *)

(* is_match and has_uncertain_types, rt.cpp 787-807 *)
Definition is_match (P : prog) (i : nat) (c : nat) : result bool :=
  match nth_error (p_decls P) i with
  | None => Failed
  | Some d =>
      match rev (d_params d) with
      | [] => Done (c =? 0)
      | p :: _ =>
          bind (gparam_at P p) (fun g =>
          Done (if g_pack g then length (d_params d) - 1 <=? c
                else length (d_params d) =? c))
      end
  end.

(* assembly_analyzer_t::get_type, rt.cpp 2625-2705; [Done None] is nullptr *)
Fixpoint get_type (P : prog) (M : mgr) (m : mty) : result (option rty) :=
  match m with
  | MNull => Done None
  | MGeneral i => Done (Some (RGeneral i))
  | MArray e d =>
      bind (get_type P M e) (fun o =>
      match o with Some t => Done (Some (RArray t d)) | None => Failed end)
  | MInstance i a h =>
      bind (get_type P M h) (fun host =>
      bind (is_match P i (length a)) (fun b =>
      if b then
        bind ((fix args (l : list mty) : result (list rty) :=
                 match l with
                 | [] => Done []
                 | x :: l' =>
                     bind (match x with
                           | MParam p =>
                               bind (gparam_at P p) (fun g =>
                               if g_pack g then Done (pick_types M (g_name g))
                               else match type_at M (g_name g) with
                                    | Some t => Done [t]
                                    | None => Failed
                                    end)
                           | _ =>
                               bind (get_type P M x) (fun o =>
                               match o with Some t => Done [t] | None => Failed end)
                           end) (fun ts =>
                     bind (args l') (fun us => Done (ts ++ us)))
                 end) a) (fun ts => Done (Some (RInstance i ts host)))
      else Failed))
  | MParam p =>
      bind (gparam_at P p) (fun g =>
      if g_pack g then Failed else Done (type_at M (g_name g)))
  end.

(* ---- fields of instances ---- *)

(* A reference to a field of an instance: the type it is in and the type of the
   field in the template (mt_generic_field_t) *)
Record field_ref := Field_ref { f_host : mty; f_type : mty }.

(* get_field, rt.cpp 2912-2925: found once for a reference, then kept in the
   pool under the assembly and the reference.  __get_field, 2928-2985, the case
   of an instance: the host by get_host_type_by_field_ref (2545-2552), the type
   with the arguments of the host. *)
Definition find_field (P : prog) (M : mgr) (f : field_ref) : result (rty * option rty) :=
  bind (get_type P M (f_host f)) (fun o =>
  match o with
  | None => Failed
  | Some h =>
      bind (build P h None) (fun M' =>
      bind (get_type P M' (f_type f)) (fun t => Done (h, t)))
  end).

(* The kept fields, by the number of the reference *)
Definition cache := list (Z * (rty * option rty)).

Definition get_field (P : prog) (M : mgr) (c : cache) (k : Z) (f : field_ref)
  : result ((rty * option rty) * cache) :=
  match lookup k c with
  | Some r => Done (r, c)
  | None => bind (find_field P M f) (fun r => Done (r, (k, r) :: c))
  end.

(* __field_type, commands.cpp 917-977, the case of an instance *)
Definition field_type (P : prog) (M : mgr) (c : cache) (k : Z) (f : field_ref)
  : result (option rty * cache) :=
  bind (get_field P M c k f) (fun r => Done (snd (fst r), snd r)).

(* ---- prototypes ---- *)

Record proto := Proto {
  t_name : Z; t_count : nat; t_ret : option rty; t_params : list (Z * option rty) }.

Fixpoint types_of_params (P : prog) (M : mgr) (l : list (Z * mty))
  : result (list (Z * option rty)) :=
  match l with
  | [] => Done []
  | (mode, m) :: l' =>
      bind (get_type P M m) (fun o =>
      bind (types_of_params P M l') (fun r => Done ((mode, o) :: r)))
  end.

(* get_prototype, rt.cpp 3204-3224 *)
Definition get_prototype (P : prog) (M : mgr) (m : meth) : result proto :=
  bind (types_of_params P M (m_params m)) (fun ps =>
  bind (get_type P M (m_ret m)) (fun r =>
  Done (Proto (m_name m) (m_count m) r ps))).

Fixpoint rty_eqb (a b : rty) : bool :=
  match a, b with
  | RGeneral i, RGeneral j => i =? j
  | RInstance i x h, RInstance j y k =>
      (i =? j) &&
      ((fix eqs (l m : list rty) : bool :=
          match l, m with
          | [], [] => true
          | s :: l', t :: m' => rty_eqb s t && eqs l' m'
          | _, _ => false
          end) x y) &&
      match h, k with
      | None, None => true
      | Some s, Some t => rty_eqb s t
      | _, _ => false
      end
  | RArray s d, RArray t e => rty_eqb s t && Z.eqb d e
  | RHolder j, RHolder k => j =? k
  | _, _ => false
  end.

Definition same_type (a b : option rty) : bool :=
  match a, b with
  | None, None => true
  | Some s, Some t => rty_eqb s t
  | _, _ => false
  end.

(* The loop of compare_to, rt.cpp 1974-1990 *)
Definition is_holder (o : option rty) : bool :=
  match o with Some (RHolder _) => true | _ => false end.

Fixpoint compare_params (P : prog) (M : mgr) (ps : list (Z * mty))
  (ts : list (Z * option rty)) : result bool :=
  match ps, ts with
  | (mode, m) :: ps', (mode', t) :: ts' =>
      if negb (Z.eqb mode mode') then Done false else
      let rest :=
        bind (get_type P M m) (fun o =>
        if same_type o t then compare_params P M ps' ts' else Done false) in
      match m with
      | MParam p =>
          bind (gparam_at P p) (fun g =>
          if g_pack g then Done (is_holder t) else rest)
      | _ => rest
      end
  | _, _ => Done true
  end.

(* compare_to, rt.cpp 1951-1996 *)
Definition compare_to (P : prog) (M : mgr) (t : proto) (m : meth) : result bool :=
  if negb (Z.eqb (m_name m) (t_name t)) then Done false else
  if negb (t_count t =? m_count m) then Done false else
  if negb (length (t_params t) =? length (m_params m)) then Done false else
  bind (get_type P M (m_ret m)) (fun r =>
  if same_type (t_ret t) r then compare_params P M (m_params m) (t_params t)
  else Done false).

(* ---- methods of interfaces ---- *)

(* The search in one class, rt.cpp 912-935: the last method that fits *)
Fixpoint last_match (P : prog) (M : mgr) (t : proto) (k : nat) (ms : list meth)
  (found : option nat) : result (option nat) :=
  match ms with
  | [] => Done found
  | m :: ms' =>
      bind (compare_to P M t m) (fun b =>
      last_match P M t (S k) ms' (if b then Some k else found))
  end.

(* __build_interfaces, rt.cpp 1007-1030, for one method of the interface and one
   class: the manager of the interface, above it that of the class if the class
   is an instance (pre_new, 1271-1288) and none if it is a general type *)
Definition bind_interface (P : prog) (class iface : rty) (m : meth) (ms : list meth)
  : result (option nat) :=
  bind (match class with
        | RInstance _ _ _ => bind (build P class None) (fun M => Done (Some M))
        | _ => Done None
        end) (fun up =>
  bind (build P iface up) (fun M =>
  bind (get_prototype P M m) (fun t => last_match P M t 0 ms None))).

(* ---- overriding ---- *)

(* The search in __build_vfunctions, rt.cpp 866-880: the functions in the table
   are compared without a manager. *)
Fixpoint first_match (P : prog) (t : proto) (k : nat) (vs : list meth)
  : result (option nat) :=
  match vs with
  | [] => Done None
  | m :: vs' =>
      bind (compare_to P empty_mgr t m) (fun b =>
      if b then Done (Some k) else first_match P t (S k) vs')
  end.

(* The place an override takes; [Done None] is reported as a virtual method that
   is not found (883-888). *)
Definition override_slot (P : prog) (class : rty) (m : meth) (vs : list meth)
  : result (option nat) :=
  bind (match class with
        | RInstance _ _ _ => build P class None
        | _ => Done empty_mgr
        end) (fun M =>
  bind (get_prototype P M m) (fun t => first_match P t 0 vs)).

(* ---- runs ---- *)

(* Code that reads fields one after another, each in an instance *)
Fixpoint read_fields (P : prog) (fs : Z -> field_ref) (l : list (rty * Z)) (c : cache)
  : result (list (option rty)) :=
  match l with
  | [] => Done []
  | (t, k) :: l' =>
      bind (build P t None) (fun M =>
      bind (field_type P M c k (fs k)) (fun r =>
      bind (read_fields P fs l' (snd r)) (fun os => Done (fst r :: os))))
  end.
