(** Model of compiling a solution: the order of its projects, imports, errors,
    the assemblies that are written.

    Modelled: modules/compile/compile.cpp 472-535 (__building_context_t), 539-655
    (__assembly_loader_t), 850-869 (compile), 882-931 (__compile_project);
    modules/compile/ast.cpp 2331-2391 (import_ast_node_t::on_walk);
    modules/core/core.cpp 6810-6818 (load_assembly); include/modules/compile.h
    1236-1255 (log, error_count); algorithm/__std.h 126-141 (map_get);
    modules/core/assembly.cpp 223-243 (assemblies_t).

    Simplifications: names are numbers; walking the trees of a project is the
    sequence of its imports and of the other errors it logs; an assembly that is
    referenced in binary form is loaded without loading others; the streams are the
    names of the projects written to them; exceptions of writing are not modelled. *)

From Coq Require Import List Bool Arith.
Import ListNotations.

Definition name := nat.

(** What happens in the walk of a project: an import with a package and a name, an
    error. *)
Inductive event := Import (package : option name) (k : name) | Fault.

(** A project: its name and its walk.  Writing the assembly, which compiles its
    methods, logs no errors. *)
Record project := { pname : name; events : list event }.

(** A solution: the projects, the references, the errors of parsing its files
    (logged by build_ast, before). *)
Record solution := { projects : list project; refs : list (option name * name); parse_errors : nat }.

Inductive error :=
| EParse
| EItself (p : name)
| ECircular (p k : name)
| ENotFound (p : name) (package : option name) (k : name)
| EFault (p : name).

(** __compiling_assemblies; the names of the assemblies, in order; the map of the
    loader (null: false); the errors logged; the assemblies written. *)
Record state := {
  compiling : list name; compiled : list name; cache : list ((option name * name) * bool);
  log : list error; written : list name }.

Definition key_eqb (a b : option name * name) : bool :=
  match fst a, fst b with
  | None, None => true
  | Some x, Some y => Nat.eqb x y
  | _, _ => false
  end && Nat.eqb (snd a) (snd b).

Fixpoint cached (k : option name * name) (c : list ((option name * name) * bool)) : option bool :=
  match c with
  | [] => None
  | (k', b) :: r => if key_eqb k k' then Some b else cached k r
  end.

Definition log_error (st : state) (e : error) : state :=
  {| compiling := compiling st; compiled := compiled st; cache := cache st;
     log := log st ++ [e]; written := written st |}.

Definition store (st : state) (k : option name * name) (b : bool) : state :=
  {| compiling := compiling st; compiled := compiled st; cache := (k, b) :: cache st;
     log := log st; written := written st |}.

Section WithSolution.

Variable S0 : solution.

(** get_project *)
Definition get_project (k : name) : option project :=
  find (fun p => Nat.eqb k (pname p)) (projects S0).

(** get_ref_assembly (317-327) *)
Definition is_ref (k : option name * name) : bool := existsb (key_eqb k) (refs S0).

(** An assembly, null, an exception for a circle *)
Inductive loaded := Loaded | Null | Circle.

(** load_assembly (552-570) and __load_assembly (586-609), given
    __compile_project: the answer and the state. *)
Definition load (compile : state -> project -> option (bool * state)) (st : state)
  (package : option name) (k : name) : option (loaded * state) :=
  match cached (package, k) (cache st) with
  | Some true => Some (Loaded, st)
  | Some false => Some (Null, st)
  | None =>
      let from_package :=
        let b := is_ref (package, k) in
        Some (if b then Loaded else Null, store st (package, k) b) in
      match package with
      | Some _ => from_package
      | None =>
          if existsb (Nat.eqb k) (compiled st) then Some (Loaded, store st (None, k) true)
          else match get_project k with
          | Some p =>
              match compile st p with
              | None => None
              | Some (true, st') => Some (Loaded, store st' (None, k) true)
              | Some (false, st') => Some (Circle, st')
              end
          | None => from_package
          end
      end
  end.

(** on_walk of an import (ast.cpp 2331-2391), and other errors, for a project *)
Fixpoint walk (compile : state -> project -> option (bool * state)) (p : name) (st : state)
  (es : list event) : option state :=
  match es with
  | [] => Some st
  | Fault :: r => walk compile p (log_error st (EFault p)) r
  | Import package k :: r =>
      if match package with None => Nat.eqb k p | Some _ => false end
      then walk compile p (log_error st (EItself p)) r
      else match load compile st package k with
      | None => None
      | Some (Loaded, st') => walk compile p st' r
      | Some (Null, st') => walk compile p (log_error st' (ENotFound p package k)) r
      | Some (Circle, st') => walk compile p (log_error st' (ECircular p k)) r
      end
  end.

(** The end of __compile_project (904-930): the assembly is written if there was no
    error in the solution yet. *)
Definition finish (st : state) (p : project) : state :=
  let write := match log st with [] => true | _ => false end in
  {| compiling := filter (fun k => negb (Nat.eqb k (pname p))) (compiling st);
     compiled := compiled st ++ [pname p];
     cache := cache st;
     log := log st;
     written := if write then written st ++ [pname p] else written st |}.

(** __compile_project (882-931).  [false]: the exception for a circle; [None]: deeper
    than [n]. *)
Fixpoint compile_project (n : nat) (st : state) (p : project) : option (bool * state) :=
  match n with
  | O => None
  | S n' =>
      if existsb (Nat.eqb (pname p)) (compiling st) then Some (false, st)
      else
        let st1 := {| compiling := pname p :: compiling st; compiled := compiled st; cache := cache st;
                      log := log st; written := written st |} in
        match walk (compile_project n') (pname p) st1 (events p) with
        | None => None
        | Some st2 => Some (true, finish st2 p)
        end
  end.

(** The loop of compile (859-866).  An exception is not caught here. *)
Fixpoint compile_each (n : nat) (st : state) (ps : list project) : option state :=
  match ps with
  | [] => Some st
  | p :: r =>
      if existsb (Nat.eqb (pname p)) (compiling st) || existsb (Nat.eqb (pname p)) (compiled st)
      then compile_each n st r
      else match compile_project n st p with
      | Some (true, st') => compile_each n st' r
      | _ => None
      end
  end.

Definition start : state :=
  {| compiling := []; compiled := []; cache := []; log := repeat EParse (parse_errors S0); written := [] |}.

Definition compile : option state :=
  compile_each (S (length (projects S0))) start (projects S0).

End WithSolution.
