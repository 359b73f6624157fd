(* The tables of an assembly file that describe types and members:
   modules/core/assembly_writer.cpp 44-53, 101-447, 496-1110 (the writer),
   modules/core/assembly_reader.cpp 9-13, 335-441, 477-766, 908-1255 (the reader),
   modules/core/__assembly_layout.h 380-560, 860-1250 (the tables) and
   modules/core/__xil.h 420-525 (references).

   The writer keeps one table for every sort of thing.  A thing gets a row and
   is put into a queue when it is first met; the rows are filled one after
   another, which may make more rows.  The reader makes an object for every row
   and then fills the objects from the rows.

   Simplifications, for the whole file:
   - Names, namespaces, decorates, traits, constants and the other plain
     members of a row are numbers; 0 stands for one that is missing.  How they
     are stored is the matter of AsmHeapModel.v, and how rows become bytes that
     of AsmFileModel.v.
   - Attributes, type definitions, method bodies and what only a body uses
     (method and field references, generic methods and fields) are left out.
   - Objects are numbers, so that two types are the same object when they are
     the same tree (the pool makes every array type and instance once).  The
     null type is left out.
   - The writer sorts the members of a type in place before it writes them
     (assembly_writer.cpp 151-157); here they are given sorted.
   - A reference to another assembly is the number of that assembly.
   - mtype is written, is not read and is worked out again (core.cpp 4778). *)
From Coq Require Import ZArith NArith List Bool.
Import ListNotations.
Local Open Scope nat_scope.

(* ---- assemblies ---- *)

(* A class, structure, interface or enum: of this assembly or of another. *)
Inductive gref := Own (t : nat) | Other (e : nat).

(* type_t, core.h 2400-3300: general types, instances of generic types with
   the modes of their arguments (typex_t), arrays and generic params. *)
Inductive ty :=
| NoType
| General (g : gref)
| Instance (g : gref) (a : targs) (host : ty)
| Array (e : ty) (dim : Z)
| Param (p : nat)
with targs := ANil | ACons (t : ty) (mode : Z) (a : targs).

(* general_type_t *)
Record gtype := Gtype {
  t_name : Z; t_decorate : Z; t_space : Z; t_kind : Z; t_value : Z;
  t_host : option nat;
  t_params : list nat; t_methods : list nat; t_props : list nat;
  t_fields : list nat; t_events : list nat; t_nested : list nat;
  t_supers : list ty }.

(* method_t *)
Record method := Method {
  m_name : Z; m_decorate : Z; m_trait : Z;
  m_gparams : list nat; m_type : ty; m_owner : ty; m_params : list nat }.

(* field_t *)
Record field := Field { f_name : Z; f_decorate : Z; f_type : ty; f_init : Z }.

(* property_t *)
Record prop := Prop_ {
  p_name : Z; p_decorate : Z; p_type : ty; p_owner : ty;
  p_params : list nat; p_get : option nat; p_set : option nat }.

(* event_t *)
Record event := Event {
  e_name : Z; e_decorate : Z; e_type : ty; e_owner : ty;
  e_add : option nat; e_remove : option nat }.

(* param_t *)
Record param := Param_ { a_name : Z; a_type : ty; a_mode : Z; a_default : Z }.

(* generic_param_t *)
Record gparam := Gparam { g_name : Z; g_mode : Z }.

(* assembly_t: the types in the order of the map of types_t (assembly.cpp
   94-107), all other things by their numbers, the entry point *)
Record assembly := Assembly {
  w_types : list gtype; w_methods : list method; w_fields : list field;
  w_props : list prop; w_events : list event; w_params : list param;
  w_gparams : list gparam; w_entry : option nat }.

(* A type of another assembly, as far as it is written: assembly, namespace,
   name, number of generic params and the type it is nested in. *)
Record xtype := Xtype {
  x_asm : Z; x_host : option nat; x_name : Z; x_count : Z; x_space : Z }.

(* ---- references, __xil.h 424-495 ---- *)

Record ref := Ref { r_index : N; r_extra : N; r_count : N }.

(* The members are 20, 3 and 9 bits wide. *)
Definition mkref (i : nat) (c : nat) (x : N) : ref :=
  Ref (N.of_nat i mod 1048576) x (N.of_nat c mod 512).

(* ref_t::null *)
Definition null : ref := Ref 0 0 0.

(* ---- tables, __assembly_layout.h 380-560 ---- *)

Inductive tab :=
| TType | TTypeRef | TInstance | TArray | TArg | TSuper | TNested
| TField | TMethod | TProp | TEvent | TGparam | TParam | TAssembly.

(* mt_t::extra, __assembly_layout.h 215-238, 867-1213 *)
Definition extra (k : tab) : N :=
  match k with
  | TTypeRef => 1 | TInstance => 2 | TArray => 3 | TGparam => 4 | _ => 0
  end%N.

Inductive key := KId (n : nat) | KTy (t : ty) (mode : Z).

Inductive cell := CVal (v : Z) | CRef (r : ref).

(* A row: the thing it was made for, if it was noted, and the members, if they
   were filled. *)
Record entry := Entry { en_key : option key; en_row : option (list cell) }.

Definition tables := tab -> list entry.

Record state := State { s_tabs : tables; s_queue : list (tab * nat * key) }.

Definition tab_eqb (a b : tab) : bool :=
  match a, b with
  | TType, TType | TTypeRef, TTypeRef | TInstance, TInstance | TArray, TArray
  | TArg, TArg | TSuper, TSuper | TNested, TNested | TField, TField
  | TMethod, TMethod | TProp, TProp | TEvent, TEvent | TGparam, TGparam
  | TParam, TParam | TAssembly, TAssembly => true
  | _, _ => false
  end.

Definition gref_eqb (a b : gref) : bool :=
  match a, b with
  | Own x, Own y | Other x, Other y => x =? y
  | _, _ => false
  end.

Fixpoint ty_eqb (a b : ty) : bool :=
  match a, b with
  | NoType, NoType => true
  | General g, General h => gref_eqb g h
  | Instance g x p, Instance h y q => gref_eqb g h && targs_eqb x y && ty_eqb p q
  | Array x d, Array y e => ty_eqb x y && Z.eqb d e
  | Param p, Param q => p =? q
  | _, _ => false
  end
with targs_eqb (a b : targs) : bool :=
  match a, b with
  | ANil, ANil => true
  | ACons t m x, ACons u n y => ty_eqb t u && Z.eqb m n && targs_eqb x y
  | _, _ => false
  end.

Definition key_eqb (a b : key) : bool :=
  match a, b with
  | KId n, KId m => n =? m
  | KTy t m, KTy u n => ty_eqb t u && Z.eqb m n
  | _, _ => false
  end.

Definition entry_is (e : key) (x : entry) : bool :=
  match en_key x with Some e' => key_eqb e e' | None => false end.

(* Where the last row noted for a thing is: the map of search_ref (467-474) has
   the reference that was noted last. *)
Fixpoint search_from (i : nat) (l : list entry) (e : key) : option nat :=
  match l with
  | [] => None
  | x :: l' =>
      match search_from (S i) l' e with
      | Some j => Some j
      | None => if entry_is e x then Some i else None
      end
  end.

Definition search (s : state) (k : tab) (e : key) : option nat :=
  search_from 0 (s_tabs s k) e.

Definition put_tab (T : tables) (k : tab) (l : list entry) : tables :=
  fun k' => if tab_eqb k' k then l else T k'.

(* append (388-402) and __enque_assign (assembly_writer.cpp 499-502) *)
Definition append (s : state) (k : tab) (e : key) : ref * state :=
  (mkref (length (s_tabs s k)) 1 (extra k),
   State (put_tab (s_tabs s) k (s_tabs s k ++ [Entry (Some e) None]))
         (s_queue s ++ [(k, length (s_tabs s k), e)])).

(* search_ref, and append when there is none *)
Definition find_or_append (s : state) (k : tab) (e : key) : ref * state :=
  match search s k e with
  | Some i => (mkref i 1 (extra k), s)
  | None => append s k e
  end.

(* acquire (486-525): a row for every thing.  The loop at 510 goes along the
   reference, whose count has 9 bits, and the things: it stops at the shorter.
   The rows it does not come to are neither noted nor filled. *)
Definition acquire (s : state) (k : tab) (es : list key) : ref * state :=
  match es with
  | [] => (Ref (N.of_nat (length (s_tabs s k)) mod 1048576) 0 0, s)
  | _ =>
      let n := length (s_tabs s k) in
      let c := N.to_nat (N.of_nat (length es) mod 512) in
      (mkref n (length es) (extra k),
       State (put_tab (s_tabs s) k
                (s_tabs s k ++ map (fun e => Entry (Some e) None) (firstn c es)
                            ++ map (fun _ => Entry None None) (skipn c es)))
             (s_queue s ++ map (fun p => (k, n + fst p, snd p))
                               (combine (seq 0 c) (firstn c es))))
  end.

(* ---- outcomes ---- *)

(* Done, an exception, a loop that goes on, or a row that was never filled, an
   assertion or a cast that fails *)
Inductive result (A : Type) := Done (a : A) | Refused | Endless | Unset.
Arguments Done {A}. Arguments Refused {A}. Arguments Endless {A}. Arguments Unset {A}.

Definition bind {A B} (o : result A) (f : A -> result B) : result B :=
  match o with
  | Done a => f a | Refused => Refused | Endless => Endless | Unset => Unset
  end.

(* ---- the writer ---- *)

(* __commit_type (assembly_writer.cpp 794-826), __commit_general_type to
   __commit_array_type (626-687), __commit_generic_param (730-738) *)
Definition commit_type (s : state) (t : ty) : ref * state :=
  match t with
  | NoType => (null, s)
  | General (Own n) => find_or_append s TType (KId n)
  | General (Other n) => find_or_append s TTypeRef (KId n)
  | Instance _ _ _ => find_or_append s TInstance (KTy t 0)
  | Array _ _ => find_or_append s TArray (KTy t 0)
  | Param p =>
      match search s TGparam (KId p) with
      | Some i => (mkref i 1 (extra TGparam), s)
      | None => (mkref p 1 5, s)
      end
  end.

(* What is done for a member of a row: a plain member is stored; a type is
   committed; a type that must be there is checked and committed
   (__CheckEmptyV); a type is committed only to be met (148-149); a method is
   looked up (__commit_method, 883-920); rows are acquired for a list. *)
Inductive item :=
| IVal (v : Z) | IType (t : ty) | INeed (t : ty) | ITouch (t : ty)
| IMethod (m : option nat) | IMany (k : tab) (es : list key).

Definition commit_item (s : state) (i : item) : result (list cell * state) :=
  match i with
  | IVal v => Done ([CVal v], s)
  | IType t => let (r, s') := commit_type s t in Done ([CRef r], s')
  | INeed NoType => Refused
  | INeed t => let (r, s') := commit_type s t in Done ([CRef r], s')
  | ITouch t => let (_, s') := commit_type s t in Done ([], s')
  | IMethod None => Done ([CRef null], s)
  | IMethod (Some m) =>
      match search s TMethod (KId m) with
      | Some i => Done ([CRef (mkref i 1 (extra TMethod))], s)
      | None => Unset
      end
  | IMany k es => let (r, s') := acquire s k es in Done ([CRef r], s')
  end.

Fixpoint commit_items (s : state) (l : list item) : result (list cell * state) :=
  match l with
  | [] => Done ([], s)
  | i :: l' =>
      bind (commit_item s i) (fun p =>
      bind (commit_items (snd p) l') (fun q => Done (fst p ++ fst q, snd q)))
  end.

Definition ids (l : list nat) : list key := map KId l.
Definition tys (l : list ty) : list key := map (fun t => KTy t 0) l.
Definition own (l : list nat) : list key := map (fun n => KTy (General (Own n)) 0) l.
Definition host_type (h : option nat) : ty :=
  match h with Some n => General (Own n) | None => NoType end.
Definition other_type (h : option nat) : ty :=
  match h with Some n => General (Other n) | None => NoType end.

Fixpoint args_of (a : targs) : list key :=
  match a with ANil => [] | ACons t m a' => KTy t m :: args_of a' end.

(* A method without a type must be a constructor, a static constructor or a
   destructor (method_trait_t, core.h 2304-2316; assembly_writer.cpp 305-311). *)
Definition may_lack_type (trait : Z) : bool :=
  Z.eqb trait 2 || Z.eqb trait 3 || Z.eqb trait 4.

(* __assign_mt (assembly_writer.cpp 111-447): the members of a row in the order
   they are worked out. *)
Definition describe (A : assembly) (X : list xtype) (k : tab) (e : key)
  : option (list item) :=
  match k, e with
  | TType, KId n =>
      match nth_error (w_types A) n with
      | Some t => Some
          [ IVal (t_name t); IVal (t_decorate t); IVal (t_space t);
            ITouch (host_type (t_host t));
            IMany TGparam (ids (t_params t)); IMany TMethod (ids (t_methods t));
            IMany TProp (ids (t_props t)); IMany TField (ids (t_fields t));
            IMany TEvent (ids (t_events t)); IMany TNested (own (t_nested t));
            IMany TSuper (tys (t_supers t));
            IVal (t_kind t mod 8); IVal (t_value t mod 32) ]
      | None => None
      end
  | TTypeRef, KId n =>
      match nth_error X n with
      | Some x => Some
          [ IVal (x_asm x); IType (other_type (x_host x)); IVal (x_name x);
            IVal (x_count x mod 65536); IVal (x_space x) ]
      | None => None
      end
  | TInstance, KTy (Instance g a h) _ =>
      Some [ INeed (General g); IMany TArg (args_of a); IType h ]
  | TArray, KTy (Array t d) _ =>
      Some [ INeed t; IVal ((d + 32768) mod 65536 - 32768) ]
  | TArg, KTy t m => Some [ IType t; IVal m ]
  | TSuper, KTy t _ => Some [ IType t ]
  | TNested, KTy t _ => Some [ IType t ]
  | TField, KId n =>
      match nth_error (w_fields A) n with
      | Some f => Some
          [ IVal (f_decorate f); IVal (f_name f); INeed (f_type f); IVal (f_init f) ]
      | None => None
      end
  | TMethod, KId n =>
      match nth_error (w_methods A) n with
      | Some m => Some
          [ IVal (m_name m); IVal (m_decorate m); IVal (m_trait m);
            IMany TGparam (ids (m_gparams m));
            (if may_lack_type (m_trait m) then IType (m_type m) else INeed (m_type m));
            IType (m_owner m); IMany TParam (ids (m_params m)) ]
      | None => None
      end
  | TProp, KId n =>
      match nth_error (w_props A) n with
      | Some p => Some
          [ IVal (p_decorate p); IVal (p_name p); INeed (p_type p); IType (p_owner p);
            IMany TParam (ids (p_params p)); IMethod (p_get p); IMethod (p_set p) ]
      | None => None
      end
  | TEvent, KId n =>
      match nth_error (w_events A) n with
      | Some v => Some
          [ IVal (e_decorate v); IVal (e_name v); INeed (e_type v); IType (e_owner v);
            IMethod (e_add v); IMethod (e_remove v) ]
      | None => None
      end
  | TGparam, KId n =>
      match nth_error (w_gparams A) n with
      | Some g => Some [ IVal (g_name g); IVal (g_mode g) ]
      | None => None
      end
  | TParam, KId n =>
      match nth_error (w_params A) n with
      | Some p => Some
          [ IVal (a_name p); INeed (a_type p); IVal (a_mode p); IVal (a_default p) ]
      | None => None
      end
  | TAssembly, _ => Some [ IMethod (w_entry A) ]
  | _, _ => None
  end.

Fixpoint set_row (l : list entry) (i : nat) (r : list cell) : list entry :=
  match l, i with
  | [], _ => []
  | x :: l', 0 => Entry (en_key x) (Some r) :: l'
  | x :: l', S i' => x :: set_row l' i' r
  end.

(* __assign_mts (534-592).  [fuel] bounds the turns of the loop. *)
Fixpoint assign (A : assembly) (X : list xtype) (fuel : nat) (s : state)
  : result tables :=
  match s_queue s with
  | [] => Done (s_tabs s)
  | (k, i, e) :: q =>
      match fuel with
      | O => Endless
      | S fuel' =>
          match describe A X k e with
          | None => Unset
          | Some l =>
              bind (commit_items (State (s_tabs s) q) l) (fun p =>
              let s' := snd p in
              assign A X fuel'
                (State (put_tab (s_tabs s') k (set_row (s_tabs s' k) i (fst p)))
                       (s_queue s')))
          end
      end
  end.

Definition empty : state := State (fun _ => []) [].

(* each_general_types, 521-523 *)
Definition commit_types (A : assembly) : state :=
  fold_left (fun s n => snd (find_or_append s TType (KId n)))
            (seq 0 (length (w_types A))) empty.

(* __commit_eobjects (519-531), __commit_assembly (595-604) *)
Definition write (A : assembly) (X : list xtype) (fuel : nat) : result tables :=
  assign A X fuel (snd (append (commit_types A) TAssembly (KId 0))).

(* ---- the reader ---- *)

(* What the loader answers: the type of another assembly by namespace, name,
   number of params and host, and the assembly of such a type. *)
Record library := Library {
  l_find : Z -> option nat -> Z -> Z -> Z -> option nat;
  l_asm : nat -> Z }.

Definition index_of (r : ref) : nat := N.to_nat (r_index r).
Definition count_of (r : ref) : nat := N.to_nat (r_count r).

(* __CheckRefLimit (9-13) *)
Definition within (r : ref) (limit : nat) : bool :=
  (count_of r =? 0) || (index_of r + count_of r - 1 <? limit).

Definition row_at (T : tables) (k : tab) (i : nat) : result (list cell) :=
  match nth_error (T k) i with
  | Some x => match en_row x with Some l => Done l | None => Unset end
  | None => Unset
  end.

(* The indexes a reference stands for: __to_entities (593-610),
   __fill_entities (1031-1043), each (__assembly_layout.h 437-452) *)
Definition span (r : ref) (limit : nat) : result (list nat) :=
  if count_of r =? 0 then Done []
  else if within r limit then Done (seq (index_of r) (count_of r))
  else Refused.

Fixpoint traverse {A B} (f : A -> result B) (l : list A) : result (list B) :=
  match l with
  | [] => Done []
  | a :: l' => bind (f a) (fun b => bind (traverse f l') (fun bs => Done (b :: bs)))
  end.

(* __import_type_ref (721-766).  The fuel is for the types it is nested in. *)
Fixpoint import_ref (L : library) (T : tables) (fuel : nat) (i : nat) : result nat :=
  match fuel with
  | O => Endless
  | S fuel' =>
      bind (row_at T TTypeRef i) (fun row =>
      match row with
      | [CVal asm; CRef host; CVal name; CVal count; CVal space] =>
          bind (if count_of host =? 0 then Done None
                else if negb (r_extra host =? 1)%N || negb (count_of host =? 1)
                then Refused
                else bind (import_ref L T fuel' (index_of host)) (fun h =>
                     if Z.eqb (l_asm L h) asm then Done (Some h) else Refused))
          (fun h =>
          match l_find L asm h space name count with
          | Some e => Done e
          | None => Refused
          end)
      | _ => Unset
      end)
  end.

(* The arguments of an instance (400-405): the mode of an argument is not
   looked at. *)
Fixpoint read_args (get : ref -> result ty) (T : tables) (l : list nat) : result targs :=
  match l with
  | [] => Done ANil
  | i :: l' =>
      bind (row_at T TArg i) (fun row =>
      match row with
      | [CRef r; CVal _] =>
          bind (get r) (fun t =>
          bind (read_args get T l') (fun a => Done (ACons t 0 a)))
      | _ => Unset
      end)
  end.

(* __get_type (354-384), __get_generic_type (387-420), __get_array_type
   (423-441).  [xs] are the imported types.  What is kept of instances and
   arrays already made is left out: the pool gives the same object again. *)
Fixpoint read_type (xs : list nat) (T : tables) (fuel : nat) (r : ref) : result ty :=
  match fuel with
  | O => Endless
  | S fuel' =>
      if count_of r =? 0 then Done NoType else
      match r_extra r with
      | 0%N =>
          if within r (length (T TType)) then Done (General (Own (index_of r)))
          else Refused
      | 1%N =>
          if within r (length xs) then
            match nth_error xs (index_of r) with
            | Some e => Done (General (Other e))
            | None => Unset
            end
          else Refused
      | 2%N =>
          if within r (length (T TInstance)) then
            bind (row_at T TInstance (index_of r)) (fun row =>
            match row with
            | [CRef tm; CRef args; CRef host] =>
                bind (read_type xs T fuel' tm) (fun t =>
                match t with
                | General g =>
                    bind (span args (length (T TArg))) (fun l =>
                    bind (read_args (read_type xs T fuel') T l) (fun a =>
                    bind (read_type xs T fuel' host) (fun h =>
                    Done (Instance g a h))))
                | _ => Unset
                end)
            | _ => Unset
            end)
          else Refused
      | 3%N =>
          if within r (length (T TArray)) then
            bind (row_at T TArray (index_of r)) (fun row =>
            match row with
            | [CRef e; CVal d] =>
                bind (read_type xs T fuel' e) (fun t =>
                match t with NoType => Unset | _ => Done (Array t d) end)
            | _ => Unset
            end)
          else Refused
      | 4%N =>
          if within r (length (T TGparam)) then Done (Param (index_of r)) else Refused
      | _ => Unset
      end
  end.

(* __get and __get_method (547-560): the extra member is not looked at *)
Definition read_method_ref (T : tables) (r : ref) : result (option nat) :=
  if count_of r =? 0 then Done None
  else if within r (length (T TMethod)) then Done (Some (index_of r))
  else Refused.

(* __load_nest_types (923-937), for one row *)
Definition read_nested (xs : list nat) (T : tables) (fuel : nat) (row : list cell)
  : result nat :=
  match row with
  | [CRef r] =>
      if (r_extra r =? 0)%N then
        bind (read_type xs T fuel r) (fun t =>
        match t with General (Own n) => Done n | _ => Refused end)
      else Refused
  | _ => Unset
  end.

(* __load_super_types (913-920), for one row *)
Definition read_super (xs : list nat) (T : tables) (fuel : nat) (row : list cell)
  : result ty :=
  match row with [CRef r] => read_type xs T fuel r | _ => Unset end.

Definition pick {A} (l : list A) (i : nat) : result A :=
  match nth_error l i with Some a => Done a | None => Unset end.

(* __build_general_type (1094-1103), __fill_general_type_nest_types and
   __fill_general_type_members (1106-1136).  The host is set afterwards. *)
Definition read_gtype (T : tables) (nested : list nat) (supers : list ty)
  (row : list cell) : result gtype :=
  match row with
  | [CVal name; CVal dec; CVal space; CRef ps; CRef ms; CRef prs; CRef fs; CRef es;
     CRef ns; CRef ss; CVal kind; CVal value] =>
      bind (span ps (length (T TGparam))) (fun ps' =>
      bind (span ms (length (T TMethod))) (fun ms' =>
      bind (span prs (length (T TProp))) (fun prs' =>
      bind (span fs (length (T TField))) (fun fs' =>
      bind (span es (length (T TEvent))) (fun es' =>
      bind (span ns (length nested)) (fun ns' =>
      bind (traverse (pick nested) ns') (fun ns'' =>
      bind (span ss (length supers)) (fun ss' =>
      bind (traverse (pick supers) ss') (fun ss'' =>
      Done (Gtype name dec space kind value None ps' ms' prs' fs' es' ns'' ss''))))))))))
  | _ => Unset
  end.

(* __build_method (1157-1168): the owner is not read *)
Definition read_method (get : ref -> result ty) (T : tables) (row : list cell)
  : result method :=
  match row with
  | [CVal name; CVal dec; CVal trait; CRef gs; CRef t; CRef _; CRef ps] =>
      bind (get t) (fun t' =>
      bind (span gs (length (T TGparam))) (fun gs' =>
      bind (span ps (length (T TParam))) (fun ps' =>
      Done (Method name dec trait gs' t' NoType ps'))))
  | _ => Unset
  end.

(* __build_field (1144-1154) *)
Definition read_field (get : ref -> result ty) (row : list cell) : result field :=
  match row with
  | [CVal dec; CVal name; CRef t; CVal init] =>
      bind (get t) (fun t' => Done (Field name dec t' init))
  | _ => Unset
  end.

(* __build_property (1171-1184): the owner is not read *)
Definition read_prop (get : ref -> result ty) (T : tables) (row : list cell)
  : result prop :=
  match row with
  | [CVal dec; CVal name; CRef t; CRef _; CRef ps; CRef g; CRef s] =>
      bind (get t) (fun t' =>
      bind (span ps (length (T TParam))) (fun ps' =>
      bind (read_method_ref T g) (fun g' =>
      bind (read_method_ref T s) (fun s' =>
      Done (Prop_ name dec t' NoType ps' g' s')))))
  | _ => Unset
  end.

(* __build_event (1187-1199): the owner is not read *)
Definition read_event (get : ref -> result ty) (T : tables) (row : list cell)
  : result event :=
  match row with
  | [CVal dec; CVal name; CRef t; CRef _; CRef a; CRef r] =>
      bind (get t) (fun t' =>
      bind (read_method_ref T a) (fun a' =>
      bind (read_method_ref T r) (fun r' =>
      Done (Event name dec t' NoType a' r'))))
  | _ => Unset
  end.

(* __build_param (1220-1227) *)
Definition read_param (get : ref -> result ty) (row : list cell) : result param :=
  match row with
  | [CVal name; CRef t; CVal mode; CVal def] =>
      bind (get t) (fun t' => Done (Param_ name t' mode def))
  | _ => Unset
  end.

(* __build_generic_param (1249-1254) *)
Definition read_gparam (row : list cell) : result gparam :=
  match row with
  | [CVal name; CVal mode] => Done (Gparam name mode)
  | _ => Unset
  end.

(* __load_assembly (969-994) *)
Definition read_entry (T : tables) (rows : list (list cell)) : result (option nat) :=
  match rows with
  | [[CRef r]] => read_method_ref T r
  | [] | _ :: _ :: _ => Refused
  | _ => Unset
  end.

(* __fill_members (1046-1055) sets the host of the nested types of the [i]th
   type, after those of the types before it. *)
Definition set_host (ts : list gtype) (n : nat) (h : nat) : list gtype :=
  map (fun p : nat * gtype =>
         let (i, t) := p in
         if i =? n
         then Gtype (t_name t) (t_decorate t) (t_space t) (t_kind t) (t_value t)
                    (Some h) (t_params t) (t_methods t) (t_props t) (t_fields t)
                    (t_events t) (t_nested t) (t_supers t)
         else t)
      (combine (seq 0 (length ts)) ts).

Definition set_hosts (ts : list gtype) : list gtype :=
  fold_left (fun us p => fold_left (fun vs n => set_host vs n (fst p)) (snd p) us)
            (combine (seq 0 (length ts)) (map t_nested ts)) ts.

Definition rows_of (T : tables) (k : tab) : result (list (list cell)) :=
  traverse (row_at T k) (seq 0 (length (T k))).

(* __build_entities (477-540) *)
Definition read (L : library) (T : tables) (fuel : nat) : result assembly :=
  bind (traverse (import_ref L T fuel) (seq 0 (length (T TTypeRef)))) (fun xs =>
  let get := read_type xs T fuel in
  bind (rows_of T TSuper) (fun rows => bind (traverse (read_super xs T fuel) rows) (fun supers =>
  bind (rows_of T TNested) (fun rows => bind (traverse (read_nested xs T fuel) rows) (fun nested =>
  bind (rows_of T TMethod) (fun rows => bind (traverse (read_method get T) rows) (fun ms =>
  bind (rows_of T TField) (fun rows => bind (traverse (read_field get) rows) (fun fs =>
  bind (rows_of T TProp) (fun rows => bind (traverse (read_prop get T) rows) (fun prs =>
  bind (rows_of T TEvent) (fun rows => bind (traverse (read_event get T) rows) (fun es =>
  bind (rows_of T TParam) (fun rows => bind (traverse (read_param get) rows) (fun ps =>
  bind (rows_of T TGparam) (fun rows => bind (traverse read_gparam rows) (fun gs =>
  bind (rows_of T TType) (fun rows => bind (traverse (read_gtype T nested supers) rows) (fun ts =>
  bind (rows_of T TAssembly) (fun rows => bind (read_entry T rows) (fun entry =>
  Done (Assembly (set_hosts ts) ms fs prs es ps gs entry)))))))))))))))))))))).
