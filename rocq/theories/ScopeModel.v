(** Names and local variables of a method: the regions of modules/core/core.cpp
    6099-6290, 6500-6630, 6720-6724, 7034-7050, 8265-8277, 8338-8350 (include/modules/core.h
    5640-5725), the walk over a method in modules/compile/ast.cpp 3929-4015,
    4285-4300, 4474-4492, 4521-4531, 5085-5180, the look-up of names in
    modules/compile/ast_utils.cpp 1003-1048 and the table of locals, core.cpp
    1499-1543.

    One method is treated at a time, with the types around it: the regions of other
    methods are not reachable from it. *)
From Coq Require Import List ZArith Bool Arith.
Import ListNotations.
Open Scope Z_scope.

(* name_t: interned names, and the names core.cpp 7045 makes up. *)
Inductive name : Type := Named (n : nat) | TempName (i : Z).

Definition name_eqb (a b : name) : bool :=
  match a, b with
  | Named m, Named n => Nat.eqb m n
  | TempName i, TempName j => i =? j
  | _, _ => false
  end.

(* variable_type_t, include/modules/core.h 5190-5215; the index variables and events
   are never defined in a region. *)
Inductive vkind : Type := VLocal | VParam | VField | VProperty | VMethod.

Definition vkind_eqb (a b : vkind) : bool :=
  match a, b with
  | VLocal, VLocal | VParam, VParam | VField, VField | VProperty, VProperty | VMethod, VMethod => true
  | _, _ => false
  end.

(* Which declaration a variable object stands for: a member by the level of its
   type (0 is the type of the method, 1 the type around it) and its position
   there, a parameter by its position, a local by its number in the source text,
   a temporary by the number of its expression and its position there.  This is
   the identity of the object; the code only compares pointers. *)
Inductive decl : Type :=
| DMember (level pos : nat) | DParam (pos : nat) | DLocal (site : nat) | DTemp (expr pos : nat).

Definition decl_eqb (a b : decl) : bool :=
  match a, b with
  | DMember l p, DMember l' p' => Nat.eqb l l' && Nat.eqb p p'
  | DParam p, DParam p' => Nat.eqb p p'
  | DLocal s, DLocal s' => Nat.eqb s s'
  | DTemp e p, DTemp e' p' => Nat.eqb e e' && Nat.eqb p p'
  | _, _ => false
  end.

(* local_variable_t, include/modules/core.h 5311-5345. *)
Record local : Type := mk_local { l_decl : decl; l_identity : Z; l_index : Z }.

(* __last_local_variable: null, the address of the head, or a node (core.cpp
   6104, 6115-6117, 6148-6162). *)
Inductive last : Type := NoChain | Head | Node (d : decl).

(* variable_region_t, include/modules/core.h 5649-5725.  Regions have numbers.
   The pointer previous is set once, by the constructor; it stands as the list of
   all the regions it leads to, innermost first. *)
Record region : Type := mk_region {
  r_previous : list nat;
  r_kinds : vkind -> bool;                          (* __mask *)
  r_vars : list (name * (vkind * decl));            (* __variables, by insertion *)
  r_index : Z;                                      (* __local_index *)
  r_identity : Z;                                   (* __local_identity *)
  r_last : last
}.

(* __empty_index, core.h 5697: unknown_msize, all bits of a uint16. *)
Definition empty_index : Z := 65535.

(* ++ on msize_t, a uint16. *)
Definition msucc (z : Z) : Z := (z + 1) mod 65536.

Definition regions := nat -> region.

Definition upd (rs : regions) (r : nat) (g : region) : regions :=
  fun i => if Nat.eqb i r then g else rs i.

Definition set_index (g : region) (i : Z) : region :=
  mk_region (r_previous g) (r_kinds g) (r_vars g) i (r_identity g) (r_last g).
Definition set_identity (g : region) (i : Z) : region :=
  mk_region (r_previous g) (r_kinds g) (r_vars g) (r_index g) i (r_last g).
Definition set_last (g : region) (l : last) : region :=
  mk_region (r_previous g) (r_kinds g) (r_vars g) (r_index g) (r_identity g) l.
Definition add_var (g : region) (x : name) (v : vkind * decl) : region :=
  mk_region (r_previous g) (r_kinds g) (r_vars g ++ [(x, v)]) (r_index g) (r_identity g) (r_last g).

(* The masks of the layers: core.cpp 6615-6625, 6722; the region of temporaries
   has the default mask, core.h 5656. *)
Definition type_kinds (k : vkind) : bool :=
  match k with VField | VProperty | VMethod => true | _ => false end.
Definition method_kinds (k : vkind) : bool :=
  match k with VParam | VLocal => true | _ => false end.
Definition block_kinds (k : vkind) : bool :=
  match k with VLocal => true | _ => false end.
Definition all_kinds (k : vkind) : bool := true.

(* std::multimap::find: of equal keys the one inserted first. *)
Fixpoint find_var (x : name) (vs : list (name * (vkind * decl))) : option (vkind * decl) :=
  match vs with
  | [] => None
  | (y, v) :: rest => if name_eqb x y then Some v else find_var x rest
  end.

(* variable_region_t::get, core.cpp 6254-6263, along the regions [chain]. *)
Fixpoint get (rs : regions) (chain : list nat) (x : name) : option (vkind * decl) :=
  match chain with
  | [] => None
  | r :: previous =>
      match find_var x (r_vars (rs r)) with
      | Some v => Some v
      | None => get rs previous x
      end
  end.

(* allow_duplicate, core.h 5268, 5600. *)
Definition allow_duplicate (k : vkind) : bool := match k with VMethod => true | _ => false end.

(* __define and __check_duplicate, core.cpp 6200-6213, 6276-6297. *)
Inductive defined : Type := Defined (rs : regions) | Duplicated | Unexpected.

Definition define (rs : regions) (r : nat) (k : vkind) (x : name) (d : decl) : defined :=
  if r_kinds (rs r) k then
    match find_var x (r_vars (rs r)) with
    | Some (k', _) =>
        if allow_duplicate k && vkind_eqb k' k then Defined (upd rs r (add_var (rs r) x (k, d)))
        else Duplicated
    | None => Defined (upd rs r (add_var (rs r) x (k, d)))
    end
  else Unexpected.

(* __is_local_supported, core.h 5708-5712. *)
Definition local_supported (rs : regions) (r : nat) : bool := r_kinds (rs r) VLocal.

(* __current_local_identity, core.cpp 6222-6229: the region that counts. *)
Fixpoint identity_root (rs : regions) (r : nat) (previous : list nat) : nat :=
  match previous with
  | [] => r
  | p :: more => if local_supported rs p then identity_root rs p more else r
  end.

(* __current_local_index, core.cpp 6232-6243: the value and the regions after
   the counters on the way have been filled in. *)
Fixpoint current_index (rs : regions) (r : nat) (previous : list nat) : Z * regions :=
  if r_index (rs r) =? empty_index then
    match previous with
    | p :: more =>
        if local_supported rs p then
          let (v, rs') := current_index rs p more in
          (v, upd rs' r (set_index (rs' r) v))
        else (0, upd rs r (set_index (rs r) 0))
    | [] => (0, upd rs r (set_index (rs r) 0))
    end
  else (r_index (rs r), rs).

(* append_next on the address of the head and on a node, algorithm.h 874-916. *)
Definition insert_head (v : local) (chain : list local) : list local :=
  match chain with [] => [v] | h :: t => h :: v :: t end.

Fixpoint insert_after (d : decl) (v : local) (chain : list local) : list local :=
  match chain with
  | [] => []
  | h :: t => if decl_eqb (l_decl h) d then h :: v :: t else h :: insert_after d v t
  end.

(* What a method has gathered.  [s_locals]: the linked list of its locals.
   [s_reports]: the names reported as duplicates.  [s_null]: a definition
   statement was left with the variable nullptr (ast.cpp 3968).  [s_pending]: the
   names in expressions whose analysis is delayed, each with its region
   (core.h 6031-6034, ast.cpp 2262-2267).  [s_sites] counts the local
   declarations met; it only serves to name them. *)
Record state : Type := mk_state {
  s_regions : regions;
  s_next : nat;
  s_locals : list local;
  s_reports : list name;
  s_null : bool;
  s_pending : list (name * nat);
  s_sites : nat
}.

Definition with_regions (st : state) (rs : regions) : state :=
  mk_state rs (s_next st) (s_locals st) (s_reports st) (s_null st) (s_pending st) (s_sites st).

(* define_local, core.cpp 6121-6166.  [None]: it throws (the name is a duplicate;
   all regions it is called on support locals, see [walk]). *)
Definition define_local (st : state) (r : nat) (x : name) (d : decl) : option state :=
  match define (s_regions st) r VLocal x d with
  | Defined rs =>
      let root := identity_root rs r (r_previous (rs r)) in
      let identity := r_identity (rs root) in
      let rs1 := upd rs root (set_identity (rs root) (msucc identity)) in
      let (index, rs2) := current_index rs1 r (r_previous (rs1 r)) in
      let rs3 := upd rs2 r (set_index (rs2 r) (msucc index)) in
      let v := mk_local d identity index in
      match r_last (rs3 r) with
      | NoChain => Some (with_regions st rs3)
      | l =>
          let locals :=
            match l with
            | Node d' => insert_after d' v (s_locals st)
            | _ => insert_head v (s_locals st)
            end in
          Some (mk_state (upd rs3 r (set_last (rs3 r) (Node d))) (s_next st) locals
                  (s_reports st) (s_null st) (s_pending st) (s_sites st))
      end
  | _ => None
  end.

(* A method body as far as names and locals are concerned.
   [Use x]: an expression mentions [x].  [Temps k]: an expression that needs [k]
   temporaries for struct values (expression.cpp 1755-1780, 3168).  [Declare x]: an item
   of a definition statement; the names its initialiser mentions come before it.
   [Block]: a statement group.  [Nested]: a statement with a statement region of
   its own but no variable region (if, else, while, do, loop, for without a
   definition, switch, try, finally): its expressions and its body.  [For]: for
   with a definition.  [Catch]: a catch clause with its variable.
   A foreach is the [Nested] of its parts: its variable is defined nowhere
   (ast.cpp 4326-4333). *)
Inductive body : Type :=
| End
| Use (x : name) (rest : body)
| Temps (k : nat) (rest : body)
| Declare (x : name) (rest : body)
| Block (inner rest : body)
| Nested (inner rest : body)
| For (inner rest : body)
| Catch (x : name) (inner rest : body).

(* push_new_region, core.cpp 6720-6724, 6102-6106. *)
Definition push_region (st : state) (r : nat) : state :=
  mk_state (upd (s_regions st) (s_next st)
              (mk_region (r :: r_previous (s_regions st r)) block_kinds [] empty_index 0
                 (r_last (s_regions st r))))
    (S (s_next st)) (s_locals st) (s_reports st) (s_null st) (s_pending st) (s_sites st).

Definition met (st : state) : state :=
  mk_state (s_regions st) (s_next st) (s_locals st) (s_reports st) (s_null st) (s_pending st)
    (S (s_sites st)).

Definition report (st : state) (x : name) (null : bool) : state :=
  mk_state (s_regions st) (s_next st) (s_locals st) (s_reports st ++ [x]) (s_null st || null)
    (s_pending st) (s_sites st).

Definition delay (st : state) (x : name) (r : nat) : state :=
  mk_state (s_regions st) (s_next st) (s_locals st) (s_reports st) (s_null st)
    (s_pending st ++ [(x, r)]) (s_sites st).

(* variable_defination_t::define_local, ast_utils.cpp 1813-1833, as called from
   a definition statement, ast.cpp 3968. *)
Definition declare (st : state) (r : nat) (x : name) : state :=
  match define_local st r x (DLocal (s_sites st)) with
  | Some st' => met st'
  | None => met (report st x true)
  end.

(* The first step of the walk over a body, in the region [r]. *)
Fixpoint walk (r : nat) (b : body) (st : state) : state :=
  match b with
  | End => st
  | Use x rest => walk r rest (delay st x r)
  | Temps _ rest => walk r rest st
  | Declare x rest => walk r rest (declare st r x)
  | Block inner rest | For inner rest => walk r rest (walk (s_next st) inner (push_region st r))
  | Nested inner rest => walk r rest (walk r inner st)
  | Catch x inner rest =>
      walk r rest (walk (s_next st) inner (declare (push_region st r) (s_next st) x))
  end.

(* Defines the members of a type, or the parameters, in order; a duplicate is
   reported (ast_utils.cpp 1836-1920). *)
Fixpoint define_all (st : state) (r : nat) (ds : list (vkind * name * decl)) : state :=
  match ds with
  | [] => st
  | (k, x, d) :: more =>
      match define (s_regions st) r k x d with
      | Defined rs => define_all (with_regions st rs) r more
      | _ => define_all (report st x false) r more
      end
  end.

(* The members of a type of level [level], from position [pos]. *)
Fixpoint members_at (level pos : nat) (ms : list (vkind * name)) : list (vkind * name * decl) :=
  match ms with
  | [] => []
  | (k, x) :: more => (k, x, DMember level pos) :: members_at level (S pos) more
  end.

Fixpoint params_at (pos : nat) (ps : list name) : list (vkind * name * decl) :=
  match ps with
  | [] => []
  | x :: more => (VParam, x, DParam pos) :: params_at (S pos) more
  end.

Definition blank : region := mk_region [] (fun _ => false) [] empty_index 0 NoChain.

Definition start : state := mk_state (fun _ => blank) 0 [] [] false [] 0.

(* The regions of the types around the method, [types] from the innermost: each
   is pushed with the one around it as previous (core.cpp 6682-6687).  Gives the
   list of the regions too. *)
Fixpoint push_types (level : nat) (types : list (list (vkind * name))) (st : state)
  : state * list nat :=
  match types with
  | [] => (st, [])
  | ms :: outer =>
      let (st1, chain) := push_types (S level) outer st in
      let r := s_next st1 in
      let st2 := mk_state (upd (s_regions st1) r (mk_region chain type_kinds [] empty_index 0 NoChain))
                   (S r) (s_locals st1) (s_reports st1) (s_null st1) (s_pending st1) (s_sites st1) in
      (define_all st2 r (members_at level 0 ms), r :: chain)
  end.

(* method_ast_node_t, ast.cpp 5092-5109, 5170-5178: the region of the method, its
   body and only then its parameters.  The method's own variable and those of
   later members are already in [types]: nothing is looked up before the
   analysis step. *)
Definition walk_method (types : list (list (vkind * name))) (params : list name) (b : body)
  : state * nat :=
  let (st, chain) := push_types 0 types start in
  let r := s_next st in
  let st1 := mk_state (upd (s_regions st) r (mk_region chain method_kinds [] empty_index 0 Head))
               (S r) (s_locals st) (s_reports st) (s_null st) (s_pending st) (s_sites st) in
  (define_all (walk r b st1) r (params_at 0 params), r).

(* __walk_name, ast_utils.cpp 1003-1048; [types_named]: there is a type of the
   name (__walk_type).  A method stands for the overloads of its name. *)
Inductive resolved : Type :=
| Found (k : vkind) (d : decl) | TypeName | Undefined.

Definition walk_name (rs : regions) (types_named : name -> bool) (use : name * nat) : resolved :=
  match get rs (snd use :: r_previous (rs (snd use))) (fst use) with
  | Some (k, d) => Found k d
  | None => if types_named (fst use) then TypeName else Undefined
  end.

(* The analysis step.  A definition statement without a variable reads its type
   through the null pointer (ast.cpp 3985). *)
Inductive analysis : Type :=
| Crashed (reports : list name)
| Analysed (reports : list name) (uses : list resolved).

Definition analyse (types_named : name -> bool) (types : list (list (vkind * name)))
  (params : list name) (b : body) : analysis :=
  let (st, _) := walk_method types params b in
  if s_null st then Crashed (s_reports st)
  else Analysed (s_reports st) (map (walk_name (s_regions st) types_named) (s_pending st)).

(** ** Temporaries *)

(* How many variable regions the walk of [b] pushes. *)
Fixpoint regions_in (b : body) : nat :=
  match b with
  | End => 0
  | Use _ rest | Temps _ rest | Declare _ rest => regions_in rest
  | Block inner rest | For inner rest | Catch _ inner rest => S (regions_in inner + regions_in rest)
  | Nested inner rest => regions_in inner + regions_in rest
  end%nat.

(* statement_group_t::compile, statements.cpp 327-329: a group puts its variable
   region into the statement region it is compiled in.  [acc] is what is there
   before, [next] the number of the next variable region of the walk. *)
Fixpoint assigned (acc : option nat) (next : nat) (b : body) : option nat :=
  match b with
  | End => acc
  | Use _ rest | Temps _ rest | Declare _ rest => assigned acc next rest
  | Block inner rest =>
      assigned (assigned (Some next) (S next) inner) (S (next + regions_in inner)) rest
  | Nested inner rest => assigned acc (next + regions_in inner) rest
  | For inner rest | Catch _ inner rest => assigned acc (S (next + regions_in inner)) rest
  end%nat.

(* al::nvl. *)
Definition nvl (a : option nat) (b : nat) : nat := match a with Some c => c | None => b end.

(* The writing, core.cpp 8265-8277, 8338-8350: the variable region in which
   every expression that needs temporaries makes its own, and their number.
   [vr]: the variable region of the statement region being written.
   Simplification: in the order of the source text. *)
Fixpoint requests (vr : nat) (next : nat) (b : body) : list (nat * nat) :=
  match b with
  | End => []
  | Use _ rest | Declare _ rest => requests vr next rest
  | Temps k rest => (vr, k) :: requests vr next rest
  | Block inner rest =>
      requests vr (S next) inner ++ requests vr (S (next + regions_in inner)) rest
  | Nested inner rest =>
      requests (nvl (assigned None next inner) vr) next inner ++
      requests vr (next + regions_in inner) rest
  | For inner rest | Catch _ inner rest =>
      requests (nvl (assigned None (S next) inner) vr) (S next) inner ++
      requests vr (S (next + regions_in inner)) rest
  end%nat.

(* define_temp_local, core.cpp 7034-7050: [k] more temporaries of expression [e],
   in its region [r]. *)
Fixpoint define_temps (k : nat) (pos : nat) (e : nat) (r : nat) (st : state) : state :=
  match k with
  | O => st
  | S k' =>
      let (index, rs) := current_index (s_regions st) r (r_previous (s_regions st r)) in
      match define_local (with_regions st rs) r (TempName index) (DTemp e pos) with
      | Some st' => define_temps k' (S pos) e r st'
      | None => st
      end
  end.

(* The constructor of the region of the temporaries, core.cpp 6102-6106, 7042. *)
Definition push_temps (st : state) (vr : nat) : state :=
  mk_state (upd (s_regions st) (s_next st)
              (mk_region (vr :: r_previous (s_regions st vr)) all_kinds [] empty_index 0
                 (r_last (s_regions st vr))))
    (S (s_next st)) (s_locals st) (s_reports st) (s_null st) (s_pending st) (s_sites st).

Fixpoint write_temps (e : nat) (reqs : list (nat * nat)) (st : state) : state :=
  match reqs with
  | [] => st
  | (vr, k) :: more =>
      write_temps (S e) more (define_temps k 0 e (s_next st) (push_temps st vr))
  end.

(* std::sort by identity, core.cpp 1525-1527. *)
Fixpoint insert_sorted (v : local) (l : list local) : list local :=
  match l with
  | [] => [v]
  | h :: t => if l_identity v <? l_identity h then v :: l else h :: insert_sorted v t
  end.

Definition sort_locals (l : list local) : list local := fold_right insert_sorted [] l.

(* local_variables_t::write, core.cpp 1513-1543, after the method is compiled:
   the rows (variable, index) in the order they are written. *)
Definition table (types : list (list (vkind * name))) (params : list name) (b : body)
  : list (decl * Z) :=
  let (st, r) := walk_method types params b in
  let st' := write_temps 0 (requests (nvl (assigned None (S r) b) r) (S r) b) st in
  map (fun v => (l_decl v, l_index v)) (sort_locals (s_locals st')).
