(** Model of the expression compiler: static types, the constant evaluator,
    code generation at the three optimisation levels, and the part of the
    virtual machine that runs the generated code.

    Modelled files: modules/compile/expression.cpp, modules/compile/xilx.cpp,
    modules/lang_cs/expressions.cpp, modules/core/expression_executor.cpp,
    modules/core/core.cpp, include/modules/exec.h, modules/exec/commands.cpp.
    Operands are integers and bools in local variables and value parameters.
    Not modelled: floats, chars, strings, objects, fields, properties, array
    elements, calls, operator overloads, ref/out parameters. *)

From Coq Require Import ZArith List Bool.
From Verif Require Import CppInt ArithModel.
Import ListNotations.
Open Scope Z_scope.

(** *** Expressions *)

(** A variable: a local or a value parameter of the method
    (core.h [local_variable_t], [param_variable_t]). *)
Inductive vref := VLocal (n : nat) | VParam (n : nat).

Definition vref_eqb (x y : vref) : bool :=
  match x, y with
  | VLocal n, VLocal m | VParam n, VParam m => Nat.eqb n m
  | _, _ => false
  end.

(** The binary operators that only compute (expression.cpp 2117-2152). *)
Inductive bop := OAl (a : arith) | OCmp (c : cmpop) | OAnd | OOr.

Definition to_binop (o : bop) : binop :=
  match o with OAl a => Al a | OCmp c => Cmp c | OAnd => LAnd | OOr => LOr end.

(** The unary operators that only compute (expression.cpp 2302-2305). *)
Inductive uop := OPos | ONeg | OBNot | ONot.

Definition to_unop (o : uop) : unop :=
  match o with OPos => Positive | ONeg => Minus | OBNot => BNot | ONot => LNot end.

(** The expression tree.  [EConst t init] is a name that resolves to a local
    variable of declared type [t] whose [constant] flag is set, with its
    initialiser [init] (core.cpp 5435-5439).  [EInc post dec x] is [++x], [--x],
    [x++] or [x--].  [EComma] is cs_expressions_t with two elements; longer
    lists nest to the right. *)
Inductive expr :=
| ENum (v : tval)
| EVar (x : vref)
| EConst (t : vty) (init : expr)
| EBin (o : bop) (e1 e2 : expr)
| EUn (o : uop) (e : expr)
| EAssign (x : vref) (e : expr)
| EAssignOp (a : arith) (x : vref) (e : expr)
| EInc (post dec : bool) (x : vref)
| ECast (t : vty) (e : expr)
| ECond (c e1 e2 : expr)
| EComma (e1 e2 : expr).

(** [__is_effective(get_behaviour())], expression.cpp 466-475: assignments and
    increments have behaviour "assign"; nothing else modelled here has one. *)
Definition behaves (e : expr) : bool :=
  match e with EAssign _ _ | EAssignOp _ _ _ | EInc _ _ _ => true | _ => false end.

(** [get_vtype()] of each node: expression_executor.cpp 14-28, 256-283;
    core.cpp 5442-5445, 7210-7218, 7461-7464, 7476-7485, 8110-8111, 8154-8160;
    lang_cs/expressions.cpp 13-16.  [None] is [vtype_t::__unknown__]. *)
Fixpoint styp (vt : vref -> vty) (e : expr) : option vty :=
  match e with
  | ENum v => Some (fst v)
  | EVar x => Some (vt x)
  | EConst t _ => Some t
  | EBin o e1 e2 =>
      match styp vt e1, styp vt e2 with
      | Some t1, Some t2 => get_binary_vtype (to_binop o) t1 t2
      | _, _ => None
      end
  | EUn o e1 =>
      match styp vt e1 with
      | Some t => get_unitary_vtype (to_unop o) t
      | None => None
      end
  | EAssign x _ => Some (vt x)
  | EAssignOp a x e1 =>
      match styp vt e1 with
      | Some t => get_binary_vtype (Asg a) (vt x) t
      | None => None
      end
  | EInc post dec x =>
      get_unitary_vtype
        (if post then (if dec then RDec else RInc) else (if dec then LDec else LInc)) (vt x)
  | ECast t _ => Some t
  | ECond _ e1 _ => styp vt e1
  | EComma _ e2 => styp vt e2
  end.

(** *** The constant evaluator *)

(** [execute()] of each node: binary_expression_t expression_executor.cpp
    540-647 (both operands are executed first; nan unless both are numbers;
    assignments are nan), unitary_expression_t 208-250, type_cast_expression_t
    650-662 with cvalue_t::change_type core.cpp 1301-1327, cs_condition
    lang_cs/expressions.cpp 68-79 ([cvalue == true] is core.cpp 1282-1287: a
    number of type bool with that value), cs_expressions 112-115,
    local_variable_t core.cpp 5435-5439. *)
Fixpoint execute (e : expr) : folded :=
  match e with
  | ENum v => Const v
  | EVar _ => NotConst
  | EConst _ init => execute init
  | EBin o e1 e2 =>
      match execute e1 with
      | CompileError => CompileError
      | CompilerUB => CompilerUB
      | r1 =>
          match execute e2 with
          | CompileError => CompileError
          | CompilerUB => CompilerUB
          | r2 =>
              match r1, r2 with
              | Const v1, Const v2 => fold_binary (to_binop o) v1 v2
              | _, _ => NotConst
              end
          end
      end
  | EUn o e1 =>
      match execute e1 with
      | Const v => fold_unary (to_unop o) v
      | r => r
      end
  | EAssign _ e1 | EAssignOp _ _ e1 =>
      match execute e1 with
      | CompileError => CompileError
      | CompilerUB => CompilerUB
      | _ => NotConst
      end
  | EInc _ _ _ => NotConst
  | ECast t e1 =>
      match execute e1 with
      | Const v => Const (t, vcast t (snd v))
      | r => r
      end
  | ECond c e1 e2 =>
      match execute c with
      | Const (Vb, v) => if v =? 0 then execute e2 else execute e1
      | CompileError => CompileError
      | CompilerUB => CompilerUB
      | _ => NotConst
      end
  | EComma _ _ => NotConst
  end.

(** *** Generated code *)

(** The instructions the compiler emits here (xilx.h classes): push of a
    constant, of a local converted to [t], of a parameter; the operator
    commands with the operand types the compiler wrote into them; pop and pick
    of a variable in the variable's type; pop_empty; the two jumps.  A jump
    carries the number of instructions it skips (the labels of xilx.cpp 36-52
    resolved). *)
Inductive instr :=
| PushC (v : tval)
| PushL (t : vty) (x : nat)
| PushP (x : nat)
| BinI (o : binop) (t1 t2 : vty)
| UnI (o : unop) (t : vty)
| PopV (x : vref)
| PickV (x : vref)
| Drop
| JmpF (n : nat)
| Jmp (n : nat).

(** Optimisation levels, april/compiler.cpp 578-600. *)
Inductive level := O0 | O1 | O2.

(** compute_constant_values and remove_unnecessary_expressions: level 1. *)
Definition folds_constants (l : level) : bool := match l with O0 => false | _ => true end.
Definition removes_unused (l : level) : bool := match l with O0 => false | _ => true end.
(** optimize_basic_algorighm: level 2. *)
Definition simplifies (l : level) : bool := match l with O2 => true | _ => false end.

(** Outcome of compiling: code, a compile error, or undefined behaviour inside
    the compiler. *)
Inductive cres := Code (c : list instr) | CErr | CUB.

Definition cseq (r1 r2 : cres) : cres :=
  match r1 with
  | Code c1 => match r2 with Code c2 => Code (c1 ++ c2) | r => r end
  | r => r
  end.

(** [__compile_cvalue], expression.cpp 2554-2571: converted to the type of the
    environment when there is one. *)
Definition to_env (env : option vty) (v : tval) : tval :=
  match env with Some t => (t, vcast t (snd v)) | None => v end.

(** [__execute_expression(e) == cvalue_t(n)], core.cpp 1186-1210 with
    common.cpp 64-98: numbers are compared by value. *)
Definition is_number (n : Z) (r : folded) : bool :=
  match r with Const (_, v) => v =? n | _ => false end.

(** [__compile_add] .. [__compile_not_equal], expression.cpp 675-1030: the
    algebraic simplifications of level 2, otherwise both operands and the
    command.  [c1], [c2] are the operands' code, [x1], [x2] the outcome of
    executing them.  (An [execute] that throws here has thrown before, in
    [__try_compile_constant_expression].) *)
Definition bin_code (l : level) (o : bop) (c1 c2 : cres) (x1 x2 : folded) (t1 t2 : vty) : cres :=
  let full := cseq c1 (cseq c2 (Code [BinI (to_binop o) t1 t2])) in
  if negb (simplifies l) then full
  else match o with
  | OAl Add | OAl BOr =>
      if is_number 0 x1 then c2 else if is_number 0 x2 then c1 else full
  | OAl Sub =>
      if is_number 0 x1 then cseq c2 (Code [UnI Minus t1])
      else if is_number 0 x2 then c1 else full
  | OAl Mul =>
      if is_number 1 x1 then c2 else if is_number 1 x2 then c1 else full
  | OAl Div => if is_number 1 x2 then c1 else full
  | OAl Shl | OAl Shr => if is_number 0 x2 then c1 else full
  | OAnd => if is_number 1 x1 then c2 else if is_number 1 x2 then c1 else full
  | OOr => if is_number 0 x1 then c2 else if is_number 0 x2 then c1 else full
  | _ => full
  end.

(** [__compile_local_variable] and [__compile_param_variable], expression.cpp
    1657-1681, 1684-1731: a local is pushed converted to the environment's type,
    a parameter in its own type whatever the environment. *)
Definition push_var (vt : vref -> vty) (env : option vty) (x : vref) : instr :=
  match x with
  | VLocal n => PushL (match env with Some t => t | None => vt x end) n
  | VParam n => PushP n
  end.

(** [__post_compile_expression], expression.cpp 2044-2078, on value types: pops
    the result of an expression that has no parent.  The conversion of
    2067-2075 is never emitted: [exp_type] is [nullptr] in every call, so
    [to_xil_type(exp_type)] is empty and 480 refuses it. *)
Definition post (root : bool) (e : expr) : cres :=
  if root && negb (behaves e) then Code [Drop] else Code [].

(** [__compile_inc], expression.cpp 1582-1618. *)
Definition inc_code (vt : vref -> vty) (eff post_ dec : bool) (x : vref) : list instr :=
  let step := [ push_var vt None x; PushC (Vi I32, 1);
                BinI (Al (if dec then Sub else Add)) (vt x) (Vi I32) ] in
  if post_ then (if eff then [push_var vt None x] else []) ++ step ++ [PopV x]
  else step ++ [if eff then PickV x else PopV x].

(** [compile()] of each node: names expression.cpp 2406-2435, constants
    2575-2600, binary 2089-2172, unary 2276-2322, assign 1292-1349 with
    xilx.cpp 111-166, compound assign 1352-1439, increments 1582-1618, cast
    2883-2949, condition lang_cs/expressions.cpp 27-66, list 89-110.

    [root]: the node has no parent.  [eff]: [is_effective(ctx, parent)]
    (__expression.h 308-318, expression.cpp 466-475), false for a null parent.
    [env]: the type the context asks for. *)
Fixpoint compile (l : level) (vt : vref -> vty) (root eff : bool) (env : option vty)
    (e : expr) : cres :=
  (* is_effective(ctx, this) *)
  let here := negb (removes_unused l) || behaves e || eff in
  (* __try_compile_constant_expression, 141-158 *)
  let folding (k : cres) : cres :=
    if folds_constants l then
      match execute e with
      | Const v => if here then Code [PushC (to_env env v)] else Code []
      | CompileError => CErr
      | CompilerUB => CUB
      | NotConst => k
      end
    else k in
  match e with
  | ENum v => if eff then Code [PushC (to_env env v)] else Code []
  | EVar x => if eff then Code [push_var vt env x] else Code []
  | EConst _ init =>
      if eff then
        match execute init with
        | Const v => Code [PushC (to_env env v)]
        | CompilerUB => CUB
        | _ => CErr
        end
      else Code []
  | EBin o e1 e2 =>
      let c1 := compile l vt false here None e1 in
      let c2 := compile l vt false here None e2 in
      folding
        (if negb here then cseq c1 c2
         else match styp vt e1, styp vt e2 with
              | Some t1, Some t2 =>
                  cseq (bin_code l o c1 c2 (execute e1) (execute e2) t1 t2) (post root e)
              | _, _ => CErr
              end)
  | EUn o e1 =>
      let c1 := compile l vt false here None e1 in
      folding
        (if negb here then c1
         else match styp vt e1 with
              | Some t1 => cseq (cseq c1 (Code [UnI (to_unop o) t1])) (post root e)
              | None => CErr
              end)
  | EAssign x e1 =>
      folding
        (cseq (compile l vt false here (Some (vt x)) e1)
              (Code [if eff then PickV x else PopV x]))
  | EAssignOp a x e1 =>
      folding
        (match styp vt e1 with
         | Some t1 =>
             cseq (bin_code l (OAl a) (Code [push_var vt None x])
                     (compile l vt false here None e1) NotConst (execute e1) (vt x) t1)
                  (Code [if eff then PickV x else PopV x])
         | None => CErr
         end)
  | EInc post_ dec x => Code (inc_code vt eff post_ dec x)
  | ECast t e1 =>
      if here then cseq (compile l vt false here (Some t) e1) (post root e) else Code []
  | ECond c e1 e2 =>
      let eff1 := here || behaves e1 in
      let eff2 := here || behaves e2 in
      match execute c with
      | CompileError => CErr
      | CompilerUB => CUB
      | r =>
          if eff1 || eff2 then
            let c1 := compile l vt false here None e1 in
            let c2 := compile l vt false here None e2 in
            match r with
            | Const (Vb, v) => if v =? 0 then c2 else c1
            | _ =>
                match compile l vt false here None c, c1, c2 with
                | Code b, Code k1, Code k2 =>
                    Code (b ++ JmpF (length k1 + 1) :: k1 ++ Jmp (length k2) :: k2)
                | Code _, Code _, r2 => r2
                | Code _, r1, _ => r1
                | r0, _, _ => r0
                end
            end
          else Code []
      end
  | EComma e1 e2 =>
      cseq (compile l vt true false None e1) (compile l vt false here None e2)
  end.

(** An expression whose value is used: the statement code hands it a parent that
    is an assignment ([set_assign_parent], statements.cpp 508-512). *)
Definition compile_value (l : level) (vt : vref -> vty) (e : expr) : cres :=
  compile l vt false true None e.

(** A local definition [T x = e], xilx.cpp [local_assign_xilx_t::write] with
    expression.cpp 1345-1350: the initialiser in the variable's type, then pop. *)
Definition compile_init (l : level) (vt : vref -> vty) (x : vref) (e : expr) : cres :=
  cseq (compile l vt false true (Some (vt x)) e) (Code [PopV x]).

(** [return e], xilx.cpp [return_xilx_t::write]: the value in the method's type. *)
Definition compile_return (l : level) (vt : vref -> vty) (t : vty) (e : expr) : cres :=
  compile l vt false true (Some t) e.

(** An expression statement: no parent, statements.cpp 424. *)
Definition compile_statement (l : level) (vt : vref -> vty) (e : expr) : cres :=
  compile l vt true false None e.

(** *** The machine *)

(** Width in bits of a value on the stack; bool is one byte. *)
Definition vbits (t : vty) : Z := match t with Vi t => bits t | Vb => 8 end.

(** A stack unit of 8 bytes remembers the type and value last written to it:
    writing a value narrower than the unit goes through a union whose other
    bytes are unspecified (include/modules/exec.h 113-123). *)
Definition slot : Type := tval.

(** Reading a unit as type [t], exec.h 126-129: the low bytes.  Reading more
    bytes than were written is unspecified, and so is reading as bool a byte
    that is neither 0 nor 1: [None]. *)
Definition read (t : vty) (u : slot) : option Z :=
  match t, u with
  | Vi i, (Vi j, v) => if bits i <=? bits j then Some (wrap i v) else None
  | Vi i, (Vb, v) => if bits i <=? 8 then Some v else None
  | Vb, (Vb, v) => Some v
  | Vb, (Vi _, v) => let b := v mod 256 in if b <=? 1 then Some b else None
  end.

Definition store : Type := vref -> Z.

Definition put (st : store) (x : vref) (v : Z) : store :=
  fun y => if vref_eqb x y then v else st y.

(** Outcome of running code: the final stack and variables; undefined behaviour
    of an operator; unspecified bytes were read; the stack was empty; no such
    command. *)
Inductive outcome :=
| Done (stk : list slot) (st : store)
| OpUB
| Unspecified
| Underflow
| NoCommand.

(** The commands: push const commands.cpp 697-720, push local 727-748 (reads the
    local in its own type, converts), push argument, binary and unary operators
    4937-5103, pop local 2818-2840, pick local 3421-3443, pop_empty, jumps.
    [skip] counts the instructions still to be jumped over. *)
Fixpoint run (vt : vref -> vty) (code : list instr) (skip : nat)
    (stk : list slot) (st : store) : outcome :=
  match code with
  | [] => Done stk st
  | i :: rest =>
      match skip with
      | S k => run vt rest k stk st
      | O =>
          match i with
          | PushC v => run vt rest 0 (v :: stk) st
          | PushL t n => run vt rest 0 ((t, vcast t (st (VLocal n))) :: stk) st
          | PushP n => run vt rest 0 ((vt (VParam n), st (VParam n)) :: stk) st
          | BinI o t1 t2 =>
              match stk with
              | u2 :: u1 :: stk' =>
                  match read t1 u1, read t2 u2 with
                  | Some v1, Some v2 =>
                      match vm_binary o (t1, v1) (t2, v2) with
                      | VmVal r => run vt rest 0 (r :: stk') st
                      | VmUB => OpUB
                      | VmNoCommand => NoCommand
                      end
                  | _, _ => Unspecified
                  end
              | _ => Underflow
              end
          | UnI o t =>
              match stk with
              | u :: stk' =>
                  match read t u with
                  | Some v =>
                      match vm_unary o (t, v) with
                      | VmVal r => run vt rest 0 (r :: stk') st
                      | VmUB => OpUB
                      | VmNoCommand => NoCommand
                      end
                  | None => Unspecified
                  end
              | [] => Underflow
              end
          | PopV x =>
              match stk with
              | u :: stk' =>
                  match read (vt x) u with
                  | Some v => run vt rest 0 stk' (put st x v)
                  | None => Unspecified
                  end
              | [] => Underflow
              end
          | PickV x =>
              match stk with
              | u :: _ =>
                  match read (vt x) u with
                  | Some v => run vt rest 0 stk (put st x v)
                  | None => Unspecified
                  end
              | [] => Underflow
              end
          | Drop =>
              match stk with
              | _ :: stk' => run vt rest 0 stk' st
              | [] => Underflow
              end
          | JmpF n =>
              match stk with
              | u :: stk' =>
                  match read Vb u with
                  | Some v => run vt rest (if v =? 0 then n else 0) stk' st
                  | None => Unspecified
                  end
              | [] => Underflow
              end
          | Jmp n => run vt rest n stk st
          end
      end
  end.
