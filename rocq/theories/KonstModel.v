(** Model of how the compiler gives the constant fields their values: the
    fields of enums and the const fields of classes and structs.

    Modelled: modules/compile/ast.cpp 2744-3066 (__fields_init_stub_t,
    __enum_fields_init_stub_t, __general_fields_init_stub_t), 3282-3401
    (__walk_analysis, __walk_analysis_init_fields), modules/core/core.cpp
    1186-1279 and 1301-1334 (cvalue_t), 5494-5505 (field_variable_t::execute),
    6795-6807 (ast_walk_context_t::__walk), include/modules/core.h 5823-5900
    (ast_walk_queue_t), 8045-8063 (each_expression).

    Simplifications: the values are integers and bools (no floats, chars,
    strings); names are resolved already, [E.X] is the field X; a constant of
    another assembly is a number; a class without constructor, whose fields are
    walked twice, is walked once; an exception thrown by an operator ends the
    compilation. *)

From Coq Require Import ZArith List Bool Arith.
From Verif Require Import CppInt ArithModel ExprModel.
Import ListNotations.
Open Scope Z_scope.

(** A field. *)
Definition fid := nat.

(** An initialiser.  [KCall] is any expression that is never a constant (a call,
    a new object, an assignment, ...) with two operands, [KNone] one without
    operands. *)
Inductive kexp :=
| KNum (v : tval)
| KField (f : fid)
| KBin (o : bop) (e1 e2 : kexp)
| KUn (o : uop) (e : kexp)
| KCast (t : vty) (e : kexp)
| KCond (c e1 e2 : kexp)
| KCall (e1 e2 : kexp)
| KNone.

(** A type: [Some t] is an enum with the underlying type [t], [None] a class or
    struct; and its fields in the order of the source. *)
Record ktype := { kenum : option ity; kfields : list fid }.

(** The types in the order in which they are walked, which fields are static and
    const (is_static_const, core.h 1635-1639), their value types, and their
    initialisers in the source.  The value type of an enum's field is the
    underlying type (core.cpp 4596). *)
Record prog := {
  ptypes : list ktype;
  pconst : fid -> bool;
  pvt : fid -> vty;
  pinit : fid -> option kexp }.

(** field_t::init_value of each field, as it is at a moment. *)
Definition inits := fid -> option kexp.

Definition upd (s : inits) (f : fid) (v : tval) : inits :=
  fun g => if Nat.eqb g f then Some (KNum v) else s g.

(** *** Expressions *)

(** The fields named in an expression, __each_field ast.cpp 2850-2869 with
    each_expression.  (Operands are visited more than once, which has no
    effect.) *)
Fixpoint names (e : kexp) : list fid :=
  match e with
  | KNum _ | KNone => []
  | KField f => [f]
  | KBin _ e1 e2 | KCall e1 e2 => names e1 ++ names e2
  | KUn _ e1 | KCast _ e1 => names e1
  | KCond c e1 e2 => names c ++ names e1 ++ names e2
  end.

(** [execute()], given what a field executes to; the operators as in
    ExprModel.execute. *)
Fixpoint exec_with (look : fid -> folded) (e : kexp) : folded :=
  match e with
  | KNum v => Const v
  | KField f => look f
  | KBin o e1 e2 =>
      match exec_with look e1 with
      | CompileError => CompileError
      | CompilerUB => CompilerUB
      | r1 =>
          match exec_with look e2 with
          | CompileError => CompileError
          | CompilerUB => CompilerUB
          | r2 =>
              match r1, r2 with
              | Const v1, Const v2 => fold_binary (to_binop o) v1 v2
              | _, _ => NotConst
              end
          end
      end
  | KUn o e1 =>
      match exec_with look e1 with
      | Const v => fold_unary (to_unop o) v
      | r => r
      end
  | KCast t e1 =>
      match exec_with look e1 with
      | Const v => Const (t, vcast t (snd v))
      | r => r
      end
  | KCond c e1 e2 =>
      match exec_with look c with
      | Const (Vb, v) => if v =? 0 then exec_with look e2 else exec_with look e1
      | CompileError => CompileError
      | CompilerUB => CompilerUB
      | _ => NotConst
      end
  | KCall _ _ | KNone => NotConst
  end.

Section WithProgram.

Variable P : prog.

(** field_variable_t::execute (core.cpp 5494-5505): a field without initialiser
    executes to the default value of its type.  [n] bounds the depth of the
    calls; behind it is a stack overflow. *)
Fixpoint look (n : nat) (s : inits) (f : fid) : folded :=
  match n with
  | O => CompilerUB
  | S n' =>
      if pconst P f then
        match s f with
        | None => Const (pvt P f, 0)
        | Some e => exec_with (look n' s) e
        end
      else NotConst
  end.

(** All fields of the program. *)
Definition all_fields : list fid := flat_map kfields (ptypes P).

(** The depth that is enough for fields that are not circular. *)
Definition depth : nat := S (length all_fields).

Definition exec (s : inits) (e : kexp) : folded := exec_with (look depth s) e.

(** *** Circular definitions *)

(** The field before [f] in a list. *)
Fixpoint before (f : fid) (l : list fid) : option fid :=
  match l with
  | a :: (b :: _) as r => if Nat.eqb b f then Some a else before f r
  | _ => None
  end.

(** The type a field is declared in (field->host_type). *)
Definition host (f : fid) : option ktype :=
  find (fun T => existsb (Nat.eqb f) (kfields T)) (ptypes P).

(** __get_enum_previous_field (ast.cpp 2902-2918) *)
Definition previous (f : fid) : option fid :=
  match host f with
  | Some T => match kenum T with Some _ => before f (kfields T) | None => None end
  | None => None
  end.

(** What __do_is_circular_defination (2887-2900) goes on with: the field before
    a field without initialiser, the fields named in an initialiser. *)
Definition next_fields (s : inits) (f : fid) : list fid :=
  match s f with
  | None => match previous f with Some g => [g] | None => [] end
  | Some e => names e
  end.

(** __is_circular_defination (2871-2885): [path] are the fields on the way.
    [n] bounds the length of the path: fields on a path are different. *)
Fixpoint circular (n : nat) (s : inits) (path : list fid) (f : fid) : bool :=
  if existsb (Nat.eqb f) path then true
  else match n with
  | O => false
  | S n' => existsb (circular n' s (f :: path)) (next_fields s f)
  end.

Definition is_circular (s : inits) (f : fid) : bool := circular depth s [] f.

(** *** Initialised fields *)

(** [f] of 2804-2812: the field has an initialiser and it executes; [None] is an
    exception. *)
Definition executes (s : inits) (g : fid) : option bool :=
  match s g with
  | None => Some false
  | Some e =>
      match exec s e with
      | Const _ => Some true
      | NotConst => Some false
      | CompileError | CompilerUB => None
      end
  end.

(** [callback] of __deep_each_field (2833-2848) for the fields of a list, in
    turn. *)
Fixpoint each (f : fid -> option bool) (l : list fid) : option bool :=
  match l with
  | [] => Some true
  | g :: r =>
      match f g with
      | Some true => each f r
      | x => x
      end
  end.

(** __is_all_fields_initialized (2800-2816) with __deep_each_field.  Called for
    fields that are not circular. *)
Fixpoint all_initialized (n : nat) (s : inits) (f : fid) : option bool :=
  match n with
  | O => None
  | S n' =>
      match s f with
      | None => Some true
      | Some e =>
          each (fun g =>
            match executes s g with
            | Some true => all_initialized n' s g
            | x => x
            end) (names e)
      end
  end.

(** *** One field *)

(** The error codes. *)
Inductive kerror := Circular | NoConstant | TooLarge | TooSmall.

(** The state of a stub: __value and __is_next_value. *)
Record stub := { svalue : Z; snext : bool }.

Inductive filled :=
| Succeed (v : tval) (b : stub)
| Error (c : kerror)
| Break
| Abort.

(** [v > max] and [v < min] (2958-2968) of cvalue_t, for two numbers: core.cpp
    1217-1279 with tvalue_t's __compare_tvalue, common/common.cpp 64-101.  A bool is
    compared as an int64. *)
Definition number_cmp (c : cmpop) (v : tval) (t : ity) (m : Z) : bool :=
  match fst v with
  | Vi t1 => compare_tvalue c t1 t (snd v) m
  | Vb => compare_tvalue c I64 t (snd v) m
  end.

Definition larger (v : tval) (t : ity) (m : Z) : bool := negb (number_cmp Le v t m).
Definition smaller (v : tval) (t : ity) (m : Z) : bool := number_cmp Lt v t m.

(** The answer where the initialiser is not a constant (2946-2956, 3044-3054). *)
Definition not_constant (s : inits) (f : fid) : filled :=
  match all_initialized depth s f with
  | Some true => Error NoConstant
  | Some false => Break
  | None => Abort
  end.

(** __enum_fields_init_stub_t::__fill_value (2933-2998) *)
Definition fill_enum (t : ity) (s : inits) (b : stub) (f : fid) : filled :=
  match s f with
  | Some e =>
      if is_circular s f then Error Circular
      else match exec s e with
      | CompileError | CompilerUB => Abort
      | NotConst => not_constant s f
      | Const v =>
          if larger v t (tmax t) then Error TooLarge
          else if smaller v t (tmin t) then Error TooSmall
          else Succeed (Vi t, vcast (Vi t) (snd v))
                       {| svalue := wrap t (snd v); snext := false |}
      end
  | None =>
      if snext b then Succeed (Vi t, svalue b) {| svalue := svalue b; snext := false |}
      else if svalue b =? tmax t then Error TooLarge
      else Succeed (Vi t, wrap t (svalue b + 1))
                   {| svalue := wrap t (svalue b + 1); snext := false |}
  end.

(** __general_fields_init_stub_t::__fill_value (3028-3060) *)
Definition fill_general (s : inits) (b : stub) (f : fid) : filled :=
  match s f with
  | None => Succeed (pvt P f, 0) b
  | Some e =>
      if is_circular s f then Error Circular
      else match exec s e with
      | CompileError | CompilerUB => Abort
      | NotConst => not_constant s f
      | Const v => Succeed v b
      end
  end.

Definition fill (k : option ity) (s : inits) (b : stub) (f : fid) : filled :=
  match k with Some t => fill_enum t s b f | None => fill_general s b f end.

(** __get_default_value (3000-3003, 3062-3067) *)
Definition default_of (k : option ity) (f : fid) : tval :=
  match k with Some t => (Vi t, 0) | None => (pvt P f, 0) end.

(** *** The fields of a type *)

(** What the loop of continue_ ends with: the fields' initialisers, the errors
    logged, the stub and the index of the first break (__break_index, -1 is
    [None]); or an exception. *)
Record passed := {
  pinits : inits; plog : list (kerror * fid); pstub : stub; pbreak : option nat }.

(** The loop of continue_ (2751-2784).  [skip]: the loop of 2772-2776 runs, which
    skips fields without initialiser behind a break. *)
Fixpoint pass (k : option ity) (l : list fid) (index : nat) (skip : bool) (x : passed)
  : option passed :=
  match l with
  | [] => Some x
  | f :: r =>
      if skip && match pinits x f with None => true | Some _ => false end
      then pass k r (S index) true x
      else if negb (pconst P f) then pass k r (S index) false x
      else match fill k (pinits x) (pstub x) f with
      | Abort => None
      | Succeed v b =>
          pass k r (S index) false
            {| pinits := upd (pinits x) f v; plog := plog x; pstub := b; pbreak := pbreak x |}
      | Error c =>
          pass k r (S index) false
            {| pinits := upd (pinits x) f (default_of k f); plog := plog x ++ [(c, f)];
               pstub := pstub x; pbreak := pbreak x |}
      | Break =>
          pass k r (S index) true
            {| pinits := pinits x; plog := plog x; pstub := pstub x;
               pbreak := match pbreak x with None => Some index | Some i => Some i end |}
      end
  end.

(** continue_ (2751-2784): from the index of the first break on *)
Definition continue_ (T : ktype) (i : nat) (b : stub) (s : inits) (log : list (kerror * fid))
  : option passed :=
  pass (kenum T) (skipn i (kfields T)) i false
       {| pinits := s; plog := log; pstub := b; pbreak := None |}.

(** *** The program *)

(** An item of the queue: a type whose fields are to be given values, from an
    index on, with its stub (2790, 3005-3007, 3345-3401). *)
Record item := { itype : ktype; ifrom : nat; istub : stub }.

(** A new stub *)
Definition fresh (T : ktype) : item :=
  {| itype := T; ifrom := 0; istub := {| svalue := 0; snext := true |} |}.

(** Finished with these values and errors, ended by an exception, or still
    running. *)
Inductive outcome :=
| Finished (s : inits) (log : list (kerror * fid))
| Aborted
| Running.

(** ast_walk_context_t::__walk (core.cpp 6795-6807), restricted to the types at
    the analysis step: a type that is not complete goes to the end of the queue
    (ast.cpp 3330-3336). *)
Fixpoint walk (fuel : nat) (q : list item) (s : inits) (log : list (kerror * fid)) : outcome :=
  match q with
  | [] => Finished s log
  | it :: q' =>
      match fuel with
      | O => Running
      | S fuel' =>
          match continue_ (itype it) (ifrom it) (istub it) s log with
          | None => Aborted
          | Some x =>
              match pbreak x with
              | None => walk fuel' q' (pinits x) (plog x)
              | Some i =>
                  walk fuel' (q' ++ [{| itype := itype it; ifrom := i; istub := pstub x |}])
                       (pinits x) (plog x)
              end
          end
      end
  end.

(** The walk of a program, for a number of steps. *)
Definition compile_constants (fuel : nat) : outcome :=
  walk fuel (map fresh (ptypes P)) (pinit P) [].

End WithProgram.
