(** Model of run-time dispatch: how the virtual table of a class is built,
    how the offset of a virtual method is computed, how virtual and interface
    calls pick the method that runs, and how casts test a type.

    Modelled: /repo/modules/rt/rt.cpp (89-112, 347-384, 690-740, 839-1162,
    1951-1996, 3139-3189), /repo/include/modules/rt.h (130-292),
    /repo/modules/exec/commands.cpp (4305-4490, 5350-5430),
    /repo/modules/core/assembly_writer.cpp (151-153) and
    /repo/modules/core/xil.cpp (1158-1187).

    Not modelled: generic types and generic methods (so a prototype holds only
    plain types), array and tuple types, the memory layout of a table beyond
    which slots lie inside it. *)
From Coq Require Import ZArith List Bool Lia Permutation.
Import ListNotations.
Local Open Scope nat_scope.

(* ------------------------------------------------------------------ *)
(** * Methods *)

(** A method prototype: name, number of generic parameters, return type and
    the (passing mode, type) of every parameter (method_prototype_t,
    include/modules/rt.h; names and types are numbered). *)
Record sig := Sig {
  s_name : nat;
  s_generics : nat;
  s_ret : nat;
  s_params : list (nat * nat)
}.

(** A method record.  [m_asm], [m_idx] are the index of its assembly and its
    position in the method table, [m_owner] is the interface of an explicit
    implementation, the flags are those of its decoration
    (include/modules/core.h 1516-1532). *)
Record meth := Meth {
  m_asm : Z;
  m_idx : Z;
  m_sig : sig;
  m_virt : bool;
  m_over : bool;
  m_abs : bool;
  m_static : bool;
  m_extern : bool;
  m_owner : option nat
}.

(** __is_virtual, modules/rt/rt.cpp 89-92. *)
Definition is_virtual (m : meth) : bool :=
  m_virt m || (negb (m_over m) && m_abs m).

(** __is_override, modules/rt/rt.cpp 102-105. *)
Definition is_override (m : meth) : bool := m_over m.

(** The walk over the parameters in rt_method_t::compare_to,
    modules/rt/rt.cpp 1972-1990, without the generic parameter case. *)
Fixpoint params_match (ps qs : list (nat * nat)) : bool :=
  match ps, qs with
  | [], _ => true
  | (k, t) :: ps', (k', t') :: qs' =>
      if Nat.eqb k k' then
        if Nat.eqb t t' then params_match ps' qs' else false
      else false
  | _ :: _, [] => false
  end.

(** rt_method_t::compare_to, modules/rt/rt.cpp 1951-1996. *)
Definition compare_to (m : meth) (s : sig) : bool :=
  if negb (Nat.eqb (s_name (m_sig m)) (s_name s)) then false
  else if negb (Nat.eqb (s_generics s) (s_generics (m_sig m))) then false
  else if negb (Nat.eqb (length (s_params s)) (length (s_params (m_sig m)))) then false
  else if negb (Nat.eqb (s_ret s) (s_ret (m_sig m))) then false
  else params_match (s_params (m_sig m)) (s_params s).

(* ------------------------------------------------------------------ *)
(** * Types *)

(** An interface: its identity (the address of its run-time record), its
    methods in table order and the interfaces it extends. *)
Inductive iface := Iface (i_id : nat) (i_methods : list sig) (i_supers : list iface).

Definition iface_id (i : iface) : nat := match i with Iface n _ _ => n end.
Definition iface_methods (i : iface) : list sig := match i with Iface _ ms _ => ms end.
Definition iface_supers (i : iface) : list iface := match i with Iface _ _ l => l end.

(** A class without its base: identity, methods in table order and the
    interfaces it lists (the super types that are not its base class). *)
Record cls := Cls {
  c_id : nat;
  c_methods : list meth;
  c_ifaces : list iface
}.

(** A class type: itself, then its base class, and so on to the root
    (get_base_type, modules/rt/rt.cpp 620-639). *)
Definition ty := list cls.

(* ------------------------------------------------------------------ *)
(** * The order in which a class is written *)

(** call_type_of_method with runtime = false, modules/core/xil.cpp 1158-1187,
    for a method of a class; the values of xil_call_type_t are those of
    modules/core/__xil.h 224-238. *)
Definition call_type (m : meth) : nat :=
  if m_extern m then 4
  else if m_static m then 3
  else if m_virt m || m_over m || m_abs m then 1
  else 2.

Fixpoint call_types_sorted (ms : list meth) : Prop :=
  match ms with
  | [] => True
  | m :: r => Forall (fun m' => call_type m <= call_type m') r /\ call_types_sorted r
  end.

(** The methods of a class as the assembly writer lays them out:
    std::sort by call type, modules/core/assembly_writer.cpp 151-153.
    std::sort is not stable, so any sorted permutation may come out. *)
Definition written (source table : list meth) : Prop :=
  Permutation source table /\ call_types_sorted table.

(* ------------------------------------------------------------------ *)
(** * The functions of a virtual table *)

(** A virtual function: 11 bits of assembly index and 20 bits of method index
    (rt_vtable_function_t, include/modules/rt.h 131-172). *)
Definition vfun := (Z * Z)%type.

Definition vfun_of (m : meth) : vfun :=
  ((m_asm m mod 2 ^ 11)%Z, (m_idx m mod 2 ^ 20)%Z).

(** What becomes of building a table: an assembly error is thrown, or an index
    that names no method is dereferenced. *)
Inductive built (A : Type) := Built (a : A) | AssemblyError | BadMethodIndex.
Arguments Built {A} a.
Arguments AssemblyError {A}.
Arguments BadMethodIndex {A}.

Section Tables.

(** The method tables of the loaded assemblies
    (env.assemblies.at(i)->get_method(j)). *)
Variable methods_at : Z -> Z -> option meth.

(** The search for the method an override replaces,
    modules/rt/rt.cpp 864-885. *)
Fixpoint replace_first (s : sig) (v : vfun) (vs : list vfun) : built (list vfun) :=
  match vs with
  | [] => AssemblyError
  | f :: r =>
      match methods_at (fst f) (snd f) with
      | None => BadMethodIndex
      | Some m0 =>
          if compare_to m0 s then Built (v :: r)
          else match replace_first s v r with
               | Built r' => Built (f :: r')
               | AssemblyError => AssemblyError
               | BadMethodIndex => BadMethodIndex
               end
      end
  end.

(** The walk over the methods of one class in __build_vfunctions,
    modules/rt/rt.cpp 853-892. *)
Fixpoint add_vfunctions (ms : list meth) (vs : list vfun) : built (list vfun) :=
  match ms with
  | [] => Built vs
  | m :: r =>
      if is_virtual m then add_vfunctions r (vs ++ [vfun_of m])
      else if is_override m then
        match replace_first (m_sig m) (vfun_of m) vs with
        | Built vs' => add_vfunctions r vs'
        | e => e
        end
      else Built vs
  end.

(** __build_vfunctions, modules/rt/rt.cpp 839-893. *)
Fixpoint build_vfunctions (t : ty) : built (list vfun) :=
  match t with
  | [] => Built []
  | c :: b =>
      match build_vfunctions b with
      | Built vs => add_vfunctions (c_methods c) vs
      | e => e
      end
  end.

(* ------------------------------------------------------------------ *)
(** * The offset of a virtual method *)

(** rt_type_t::on_caculate_virtual_count, modules/rt/rt.cpp 371-384: the walk
    ends at the first method that is not virtual. *)
Fixpoint own_virtual_count (ms : list meth) : nat :=
  match ms with
  | [] => 0
  | m :: r => if is_virtual m then S (own_virtual_count r) else 0
  end.

(** rt_type_t::get_virtual_count, modules/rt/rt.cpp 347-361. *)
Fixpoint virtual_count (t : ty) : nat :=
  match t with
  | [] => 0
  | c :: b => own_virtual_count (c_methods c) + virtual_count b
  end.

Definition same_method (m m' : meth) : bool :=
  Z.eqb (m_asm m) (m_asm m') && Z.eqb (m_idx m) (m_idx m').

(** rt_general_type_t::get_method_offset, modules/rt/rt.cpp 667-673: the
    position of the method in the table of its class. *)
Fixpoint method_offset (m : meth) (ms : list meth) : nat :=
  match ms with
  | [] => 0
  | m' :: r => if same_method m m' then 0 else S (method_offset m r)
  end.

(** rt_general_type_t::search_method with default options,
    modules/rt/rt.cpp 708-740. *)
Definition search_method (ms : list meth) (s : sig) : option meth :=
  find (fun m => compare_to m s) ms.

(** The part of assembly_analyzer_t::get_virtual_method_offset that looks for
    the method an override replaces and asks for its offset,
    modules/rt/rt.cpp 3169-3188.  [None] is the assembly error. *)
Fixpoint overridden_offset (b : ty) (s : sig) : option nat :=
  match b with
  | [] => None
  | c :: b' =>
      match search_method (c_methods c) s with
      | None => overridden_offset b' s
      | Some m =>
          if is_virtual m then Some (method_offset m (c_methods c) + virtual_count b')
          else if is_override m then overridden_offset b' (m_sig m)
          else None
      end
  end.

(** assembly_analyzer_t::get_virtual_method_offset, modules/rt/rt.cpp
    3139-3189, for a method [m] of the class at the head of [host]. *)
Definition virtual_offset (host : ty) (m : meth) : option nat :=
  match host with
  | [] => None
  | c :: b =>
      if is_virtual m then Some (method_offset m (c_methods c) + virtual_count b)
      else if is_override m then overridden_offset b (m_sig m)
      else None
  end.

(* ------------------------------------------------------------------ *)
(** * Virtual calls *)

Inductive outcome :=
| Calls (f : vfun)          (* this method is entered *)
| NullReference             (* a null reference exception *)
| OutsideTable              (* a slot outside the table is read *)
| Refused.                  (* the assembly is refused, or an index is bad *)

(** __virtual_call_command_t, modules/exec/commands.cpp 4305-4362, of method
    [m] of the class at the head of [host], on an object (or null) whose
    run-time type is [obj]. *)
Definition virtual_call (host : ty) (m : meth) (obj : option ty) : outcome :=
  match virtual_offset host m with
  | None => Refused
  | Some k =>
      match obj with
      | None => NullReference
      | Some t =>
          match build_vfunctions t with
          | Built vs => match nth_error vs k with
                        | Some f => Calls f
                        | None => OutsideTable
                        end
          | _ => Refused
          end
      end
  end.

End Tables.

(* ------------------------------------------------------------------ *)
(** * Interface functions *)

Fixpoint set_nth {A} (n : nat) (a : A) (l : list A) : list A :=
  match l, n with
  | [], _ => []
  | _ :: r, O => a :: r
  | x :: r, S n' => x :: set_nth n' a r
  end.

(** The walk over the methods of one class in __build_interface,
    modules/rt/rt.cpp 913-932: an explicit implementation of this interface
    ends the walk, an ordinary method does not. *)
Fixpoint scan_impl (iid : nat) (s : sig) (ms : list meth) (acc : option meth) : option meth :=
  match ms with
  | [] => acc
  | m :: r =>
      if negb (compare_to m s) then scan_impl iid s r acc
      else match m_owner m with
           | Some o => if negb (Nat.eqb o iid) then scan_impl iid s r acc else Some m
           | None => scan_impl iid s r (Some m)
           end
  end.

(** __build_interface, modules/rt/rt.cpp 896-956: the entries after the call
    ([snd] of the C++ result is whether entry [k] exists). *)
Fixpoint build_interface (t : ty) (iid : nat) (s : sig) (k : nat) (vfs : list meth) : list meth :=
  match t with
  | [] => vfs
  | c :: b =>
      let vfs1 := build_interface b iid s k vfs in
      match scan_impl iid s (c_methods c) None with
      | None => vfs1
      | Some m => if Nat.eqb k (length vfs1) then vfs1 ++ [m] else set_nth k m vfs1
      end
  end.

(** __build_interface_override, modules/rt/rt.cpp 960-992: the entries and the
    result of the function. *)
Fixpoint build_interface_override (ms : list meth) (s : sig) (k : nat) (vfs : list meth)
  : list meth * bool :=
  match ms with
  | [] => (vfs, false)
  | m :: r =>
      match m_owner m with
      | Some _ => build_interface_override r s k vfs
      | None =>
          if negb (compare_to m s) then build_interface_override r s k vfs
          else if is_override m then (set_nth k m vfs, false)
          else (vfs, true)
      end
  end.

(** The loop over the classes from the run-time type down to the implementing
    type, modules/rt/rt.cpp 1032-1040.  [above] lists the classes derived from
    the implementing type, most derived first. *)
Fixpoint override_loop (above : list cls) (s : sig) (k : nat) (vfs : list meth) : list meth :=
  match above with
  | [] => vfs
  | c :: r =>
      match build_interface_override (c_methods c) s k vfs with
      | (vfs1, stop) => if negb stop then vfs1 else override_loop r s k vfs1
      end
  end.

(** The walk over the methods of an interface, modules/rt/rt.cpp 1013-1046.
    [None] is the assembly error. *)
Fixpoint build_imethods (above : list cls) (t : ty) (iid : nat) (ss : list sig) (k : nat)
    (vfs : list meth) : option (list meth) :=
  match ss with
  | [] => Some vfs
  | s :: r =>
      let vfs1 := build_interface t iid s k vfs in
      match nth_error vfs1 k with
      | None => None
      | Some m1 =>
          let vfs2 :=
            if is_virtual m1 && match m_owner m1 with None => true | Some _ => false end
            then override_loop above s k vfs1 else vfs1 in
          build_imethods above t iid r (S k) vfs2
      end
  end.

(** The map from interfaces to their functions (std::map, keyed by the address
    of the interface). *)
Definition imap := list (nat * list meth).

Fixpoint imap_get (n : nat) (mp : imap) : option (list meth) :=
  match mp with
  | [] => None
  | (k, v) :: r => if Nat.eqb k n then Some v else imap_get n r
  end.

Fixpoint imap_put (n : nat) (v : list meth) (mp : imap) : imap :=
  match mp with
  | [] => [(n, v)]
  | (k, w) :: r => if Nat.eqb k n then (k, v) :: r else (k, w) :: imap_put n v r
  end.

(** __build_interfaces for one interface, modules/rt/rt.cpp 995-1047: first
    the interfaces it extends, then its own methods. *)
Fixpoint build_iface (i : iface) (above : list cls) (t : ty) (mp : imap) {struct i}
  : option imap :=
  match i with
  | Iface n ss sups =>
      let supers :=
        (fix go (l : list iface) (mp : imap) : option imap :=
           match l with
           | [] => Some mp
           | j :: r => match build_iface j above t mp with
                       | None => None
                       | Some mp' => go r mp'
                       end
           end) in
      match supers sups mp with
      | None => None
      | Some mp1 =>
          let vfs := match imap_get n mp1 with Some v => v | None => [] end in
          match build_imethods above t n ss 0 vfs with
          | None => None
          | Some vfs' => Some (imap_put n vfs' mp1)
          end
      end
  end.

Fixpoint build_iface_list (l : list iface) (above : list cls) (t : ty) (mp : imap)
  : option imap :=
  match l with
  | [] => Some mp
  | j :: r => match build_iface j above t mp with
              | None => None
              | Some mp' => build_iface_list r above t mp'
              end
  end.

(** __build_interfaces for a class, modules/rt/rt.cpp 1050-1066: base class
    first. *)
Fixpoint build_ifaces (above : list cls) (t : ty) (mp : imap) : option imap :=
  match t with
  | [] => Some mp
  | c :: b =>
      match build_ifaces (above ++ [c]) b mp with
      | None => None
      | Some mp1 => build_iface_list (c_ifaces c) above (c :: b) mp1
      end
  end.

(* ------------------------------------------------------------------ *)
(** * Looking an interface up in a table *)

(** The interface entries of a table (rt_vtable_interface_t). *)
Definition itable := list (nat * list vfun).

(** The entries of the table of class [t]: __build_vtbl copies the map and
    sorts it by address, modules/rt/rt.cpp 1126-1154.  Addresses are not
    modelled, so the order is any. *)
Definition itable_of (t : ty) (tbl : itable) : Prop :=
  exists mp, build_ifaces [] t [] = Some mp /\
             Permutation (map (fun e => (fst e, map vfun_of (snd e))) mp) tbl.

(** The outcome of a search: the entry number, null, or a read of a slot that
    lies outside the table. *)
Inductive found := At (n : nat) | NotFound | ReadsOutside.

(** The loop of __search_vtable_interface, include/modules/rt.h 275-291:
    the entry is compared before the end is tested. *)
Fixpoint search_from (checked : bool) (l : itable) (n : nat) (iid : nat) : found :=
  match l with
  | [] => ReadsOutside
  | e :: r =>
      if Nat.eqb (fst e) iid then At n
      else match r with
           | [] => if checked then NotFound else ReadsOutside
           | _ :: _ => search_from checked r (S n) iid
           end
  end.

(** __search_vtable_interface, include/modules/rt.h 262-292: the entry found
    last is tried first.  The result is the outcome and the entry to try first
    next time.  [checked] is the template argument: true in casts, false in
    calls of a release build. *)
Definition search_interface (checked : bool) (tbl : itable) (recent : nat) (iid : nat)
  : found * nat :=
  match nth_error tbl recent with
  | None => (ReadsOutside, recent)
  | Some e =>
      if Nat.eqb (fst e) iid then (At recent, recent)
      else match search_from checked tbl 0 iid with
           | At n => (At n, n)
           | r => (r, recent)
           end
  end.

(** A history of searches in one table; [recent] starts at entry 0,
    modules/rt/rt.cpp 1132.  [None] once a search has read outside. *)
Fixpoint after_searches (tbl : itable) (recent : nat) (h : list (bool * nat)) : option nat :=
  match h with
  | [] => Some recent
  | (checked, iid) :: r =>
      match search_interface checked tbl recent iid with
      | (ReadsOutside, _) => None
      | (_, recent') => after_searches tbl recent' r
      end
  end.

(** __interface_call_command_t, modules/exec/commands.cpp 4378-4423, in a
    release build: method number [k] of interface [iid]. *)
Definition interface_call (iid k : nat) (obj : option (itable * nat)) : outcome :=
  match obj with
  | None => NullReference
  | Some (tbl, recent) =>
      match search_interface false tbl recent iid with
      | (At n, _) =>
          match nth_error tbl n with
          | Some e => match nth_error (snd e) k with
                      | Some f => Calls f
                      | None => OutsideTable
                      end
          | None => OutsideTable
          end
      | _ => OutsideTable
      end
  end.

(* ------------------------------------------------------------------ *)
(** * Casts *)

(** What a cast tests for: a class or an interface. *)
Inductive target := ToClass (n : nat) | ToInterface (n : nat).

(** The base types of a table, modules/rt/rt.cpp 1084-1092. *)
Definition base_types (t : ty) : list nat :=
  match t with
  | [] => []
  | _ :: b => map c_id b
  end.

(** is_base_type, include/modules/rt.h 243-254. *)
Definition is_base_type (t : ty) (n : nat) : bool :=
  existsb (fun k => Nat.eqb n k) (base_types t).

(** __cast_test, modules/exec/commands.cpp 5356-5371.  [None]: a slot outside
    the table was read. *)
Definition cast_test (t : ty) (tbl : itable) (recent : nat) (g : target) : option bool :=
  match g with
  | ToInterface n =>
      match fst (search_interface true tbl recent n) with
      | At _ => Some true
      | NotFound => Some false
      | ReadsOutside => None
      end
  | ToClass n =>
      match t with
      | [] => Some false
      | c :: _ => Some (if Nat.eqb (c_id c) n then true else is_base_type t n)
      end
  end.

(** The three cast commands, __cast_command_t, modules/exec/commands.cpp
    5394-5431. *)
Inductive cast_kind := CastDefault | CastIs | CastAs.

(** What the command leaves: the same reference, null, a boolean, or an
    invalid cast exception; or it read outside the table. *)
Inductive cast_result :=
| SameReference | NullResult | BoolResult (b : bool) | InvalidCast | CastReadsOutside.

(** An object is null or a reference with its class, interface table and
    the entry to be tried first. *)
Definition cast (k : cast_kind) (g : target) (obj : option (ty * itable * nat)) : cast_result :=
  match obj with
  | None => match k with CastIs => BoolResult false | _ => NullResult end
  | Some (t, tbl, recent) =>
      match cast_test t tbl recent g with
      | None => CastReadsOutside
      | Some b =>
          match k with
          | CastDefault => if b then SameReference else InvalidCast
          | CastIs => BoolResult b
          | CastAs => if b then SameReference else NullResult
          end
      end
  end.
