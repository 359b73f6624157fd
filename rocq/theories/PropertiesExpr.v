(** C70-C76: the expression compiler.  [typed], [meaning], [exact] and the
    conditions [sound], [foldable], [discardable], [may_convert] are in
    ExprSpec.v; [compile_value], [compile_init], [compile_return],
    [compile_statement] and [run] are in ExprModel.v. *)

From Coq Require Import ZArith List Bool.
From Verif Require Import CppInt ArithModel ArithSpec ExprModel ExprSpec ExprProofs ExprMain ExprExamples.
Import ListNotations.
Open Scope Z_scope.

(** *** C70 *)

(** Running the code of an expression, on any stack, pushes one unit that reads
    as the expression's value in its static type, and leaves the variables as
    the expression's assignments leave them.  Missing from the full property:
    expressions that are not [sound] (a value that is not a number, local or
    constant is converted to a wider type; a neutral operand removed at level 2
    next to a narrower operand; a discarded part that is not [discardable]),
    for which it is false, and constant parts that are not [foldable], which
    the compiler rejects. *)
Theorem C70_expression_value_partial : forall l vt e t st v st' stk,
  typed vt e = Some t -> sound l vt e = true -> foldable vt e = true -> store_ok vt st ->
  meaning false vt e st = Some (v, st') ->
  exists code u, compile_value l vt e = Code code
    /\ run vt code 0 stk st = Done (u :: stk) st' /\ read t u = Some (snd v).
Proof. exact c70_value. Qed.
Print Assumptions C70_expression_value_partial.

(** The value has the static type the compiler computes. *)
Theorem C70_static_type : forall vt e t st v st',
  typed vt e = Some t -> store_ok vt st -> meaning false vt e st = Some (v, st') ->
  styp vt e = Some t /\ fst v = t /\ vrange t (snd v) /\ store_ok vt st'.
Proof.
  exact (fun vt e t st v st' T S M =>
    conj (typed_styp vt e t T) (meaning_typed vt false e t st v st' T S M)).
Qed.
Print Assumptions C70_static_type.

(** [(x = y + 3) * 2 - s++] and [q && w > x ? x + y : p - 1]. *)
Example C70_instance :
  (forall l, typed types ex_value = Some (Vi I32) /\ sound l types ex_value = true /\
     foldable types ex_value = true /\
     outval (meaning false types ex_value values) = Some (Vi I32, 13) /\
     outvar (meaning false types ex_value values) x = Some 3 /\
     outvar (meaning false types ex_value values) s = Some (-6)) /\
  (forall l, typed types ex_cond = Some (Vi I32) /\ sound l types ex_cond = true /\
     foldable types ex_cond = true /\
     outval (meaning false types ex_cond values) = Some (Vi I32, 6)) /\
  store_ok types values.
Proof.
  split; [|split; [|exact values_ok]]; intros []; vm_compute; repeat split.
Qed.

(** FINDING.  [(long)(x + y) + w]: no conversion is generated for the cast, so
    the addition reads 8 bytes of which 4 were written, at every level. *)
Theorem C70_widening_cast_refuted :
  exists vt e t st v st', typed vt e = Some t /\ foldable vt e = true /\ store_ok vt st /\
    meaning false vt e st = Some (v, st') /\
    forall l, exists code, compile_value l vt e = Code code /\ run vt code 0 [] st = Unspecified.
Proof.
  exists types, (add (ECast (Vi I64) (add (EVar x) (EVar y))) (EVar w)), (Vi I64), values.
  do 2 eexists. split; [reflexivity|]. split; [reflexivity|]. split; [exact values_ok|].
  split; [reflexivity|]. intros []; eexists; split; reflexivity.
Qed.
Print Assumptions C70_widening_cast_refuted.

(** FINDING.  Assigning an [int] parameter to a [long] variable: parameters are
    pushed in their own type whatever the target. *)
Theorem C70_widening_parameter_refuted :
  exists vt n m st, vt (VParam n) = Vi I32 /\ vt (VLocal m) = Vi I64 /\ store_ok vt st /\
    forall l, exists code,
      compile_value l vt (EAssign (VLocal m) (EVar (VParam n))) = Code code /\
      run vt code 0 [] st = Unspecified.
Proof.
  exists types, 0%nat, 2%nat, values. split; [reflexivity|]. split; [reflexivity|].
  split; [exact values_ok|]. intros []; eexists; split; reflexivity.
Qed.
Print Assumptions C70_widening_parameter_refuted.

(** *** C71 *)

(** If the expression has a value over the mathematical integers, with every
    intermediate result in the range of its type and no mix of unsigned with
    signed operands, running its code gives that integer.  Missing: as C70. *)
Theorem C71_exact_arithmetic_partial : forall l vt e t st v st' stk,
  typed vt e = Some t -> sound l vt e = true -> foldable vt e = true -> store_ok vt st ->
  exact vt e st = Some (v, st') ->
  exists code u, compile_value l vt e = Code code
    /\ run vt code 0 stk st = Done (u :: stk) st' /\ read t u = Some v.
Proof. exact c71_value. Qed.
Print Assumptions C71_exact_arithmetic_partial.

Example C71_instance :
  option_map fst (exact types ex_value values) = Some 13 /\
  option_map fst (exact types ex_cond values) = Some 6 /\
  option_map fst (exact types ex_statement values) = Some 36.
Proof. vm_compute. repeat split. Qed.

(** *** C72 *)

(** [&&] and [||] behave as if the right operand were skipped when the left one
    decides, if the right operands are comparisons and logic of variables and
    numbers.  Missing: right operands with effects or undefined operators, for
    which it is false. *)
Theorem C72_short_circuit_partial : forall l vt e t st v st' stk,
  typed vt e = Some t -> sound l vt e = true -> foldable vt e = true -> store_ok vt st ->
  harmless_rights e = true ->
  meaning true vt e st = Some (v, st') ->
  exists code u, compile_value l vt e = Code code
    /\ run vt code 0 stk st = Done (u :: stk) st' /\ read t u = Some (snd v).
Proof. exact c72_lazy. Qed.
Print Assumptions C72_short_circuit_partial.

Example C72_instance :
  harmless_rights ex_cond = true /\
  outval (meaning true types ex_cond values) = Some (Vi I32, 6).
Proof. vm_compute. split; reflexivity. Qed.

(** FINDING.  [b && (x = 1) == 1] assigns [x] although [b] is false. *)
Theorem C72_effect_refuted :
  exists vt e z st v st', typed vt e = Some Vb /\ (forall l, sound l vt e = true) /\
    foldable vt e = true /\ store_ok vt st /\
    meaning true vt e st = Some (v, st') /\ snd v = 0 /\ st' z = st z /\
    forall l, exists code u st2, compile_value l vt e = Code code /\
      run vt code 0 [] st = Done [u] st2 /\ st2 z <> st z.
Proof.
  exists types, (EBin OAnd (EVar b) (EBin (OCmp Eq) (EAssign x (num 1)) (num 1))), x, values.
  do 2 eexists. split; [reflexivity|]. split; [intros []; reflexivity|].
  split; [reflexivity|]. split; [exact values_ok|]. split; [reflexivity|].
  split; [reflexivity|]. split; [reflexivity|].
  intros []; do 3 eexists; (split; [reflexivity|]; split; [reflexivity|]; discriminate).
Qed.
Print Assumptions C72_effect_refuted.

(** FINDING.  The guard [y != 0 && x / y > 1] does not protect the division. *)
Theorem C72_guard_refuted :
  exists vt e st v, typed vt e = Some Vb /\ (forall l, sound l vt e = true) /\
    foldable vt e = true /\ store_ok vt st /\
    meaning true vt e st = Some (v, st) /\ snd v = 0 /\
    forall l, exists code, compile_value l vt e = Code code /\ run vt code 0 [] st = OpUB.
Proof.
  exists types, (EBin OAnd (EBin (OCmp Ne) (EVar y) (num 0))
                  (EBin (OCmp Gt) (EBin (OAl Div) (EVar x) (EVar y)) (num 1))), values.
  eexists. split; [reflexivity|]. split; [intros []; reflexivity|].
  split; [reflexivity|]. split; [exact values_ok|]. split; [reflexivity|]. split; [reflexivity|].
  intros []; eexists; split; reflexivity.
Qed.
Print Assumptions C72_guard_refuted.

(** *** C73 *)

(** The optimisation levels agree: same variables, same value.  Missing: as
    C70. *)
Theorem C73_levels_agree_partial : forall l1 l2 vt e t code1 code2 st v st' stk,
  typed vt e = Some t -> sound l1 vt e = true -> sound l2 vt e = true -> store_ok vt st ->
  meaning false vt e st = Some (v, st') ->
  compile_value l1 vt e = Code code1 -> compile_value l2 vt e = Code code2 ->
  exists u1 u2 st2,
    run vt code1 0 stk st = Done (u1 :: stk) st2 /\
    run vt code2 0 stk st = Done (u2 :: stk) st2 /\
    read t u1 = read t u2 /\ read t u1 <> None.
Proof. exact c73_levels. Qed.
Print Assumptions C73_levels_agree_partial.

(** [x * (2 + 3) + 0]: three different codes, one value. *)
Example C73_instance :
  let e := add (mul (EVar x) (add (num 2) (num 3))) (num 0) in
  (forall l, sound l types e = true) /\
  compile_value O0 types e <> compile_value O1 types e /\
  compile_value O1 types e <> compile_value O2 types e /\
  top (exec (compile_value O0 types e)) (Vi I32) = Some 30 /\
  top (exec (compile_value O1 types e)) (Vi I32) = Some 30 /\
  top (exec (compile_value O2 types e)) (Vi I32) = Some 30.
Proof.
  cbn zeta. split; [intros []; reflexivity|]. vm_compute. repeat split; discriminate.
Qed.

(** FINDING.  [x = s + 0] with [s] an sbyte: fine at levels 0 and 1; level 2
    drops the addition and with it the promotion to int. *)
Theorem C73_neutral_refuted :
  exists vt e t st v st', typed vt e = Some t /\ foldable vt e = true /\ store_ok vt st /\
    meaning false vt e st = Some (v, st') /\ sound O0 vt e = true /\ sound O1 vt e = true /\
    exists code, compile_value O2 vt e = Code code /\ run vt code 0 [] st = Unspecified.
Proof.
  exists types, (EAssign x (add (EVar s) (num 0))), (Vi I32), values.
  do 2 eexists. split; [reflexivity|]. split; [reflexivity|]. split; [exact values_ok|].
  split; [reflexivity|]. split; [reflexivity|]. split; [reflexivity|].
  eexists; split; reflexivity.
Qed.
Print Assumptions C73_neutral_refuted.

(** FINDING.  [0 - u] with [u] an uint: level 2 compiles a negation of the type
    of the 0, int; the stack holds an int where the next command reads a long. *)
Theorem C73_zero_minus_refuted :
  exists vt e t st v st', typed vt e = Some t /\ foldable vt e = true /\ store_ok vt st /\
    meaning false vt e st = Some (v, st') /\ sound O0 vt e = true /\ sound O1 vt e = true /\
    exists code, compile_value O2 vt e = Code code /\ run vt code 0 [] st = Unspecified.
Proof.
  exists types, (add (sub (num 0) (EVar u)) (EVar w)), (Vi I64), values.
  do 2 eexists. split; [reflexivity|]. split; [reflexivity|]. split; [exact values_ok|].
  split; [reflexivity|]. split; [reflexivity|]. split; [reflexivity|].
  eexists; split; reflexivity.
Qed.
Print Assumptions C73_zero_minus_refuted.

(** *** C74 *)

(** An expression statement performs the expression's assignments and leaves
    the stack as it found it.  Missing: as C70, and statements that are not
    [discardable], for which it is false. *)
Theorem C74_statement_partial : forall l vt e t st v st' stk,
  typed vt e = Some t -> sound l vt e = true -> discardable l e = true -> foldable vt e = true ->
  store_ok vt st ->
  meaning false vt e st = Some (v, st') ->
  exists code, compile_statement l vt e = Code code /\ run vt code 0 stk st = Done stk st'.
Proof. exact c74_statement. Qed.
Print Assumptions C74_statement_partial.

Example C74_instance : forall l,
  typed types ex_statement = Some (Vi I32) /\ sound l types ex_statement = true /\
  discardable l ex_statement = true /\ foldable types ex_statement = true /\
  outvar (meaning false types ex_statement values) x = Some 36.
Proof. intros []; vm_compute; repeat split. Qed.

(** FINDING.  [x++, y++] as a statement at level 0 leaves a unit on the stack. *)
Theorem C74_comma_refuted :
  exists vt e st code u st', store_ok vt st /\ sound O0 vt e = true /\ foldable vt e = true /\
    compile_statement O0 vt e = Code code /\ run vt code 0 [] st = Done [u] st'.
Proof.
  exists types, (EComma (EInc true false x) (EInc true false y)), values. do 3 eexists.
  split; [exact values_ok|]. repeat (split; [reflexivity|]). reflexivity.
Qed.
Print Assumptions C74_comma_refuted.

(** FINDING.  [q ? x++ : y++] as a statement: level 0 leaves a unit on the
    stack; from level 1 on the condition is not compiled and the jump pops from
    an empty stack. *)
Theorem C74_conditional_refuted :
  exists vt e st, store_ok vt st /\ foldable vt e = true /\ (forall l, sound l vt e = true) /\
    (exists code u st', compile_statement O0 vt e = Code code /\
       run vt code 0 [] st = Done [u] st') /\
    forall l, l <> O0 -> exists code, compile_statement l vt e = Code code /\
       run vt code 0 [] st = Underflow.
Proof.
  exists types, (ECond (EVar q) (EInc true false x) (EInc true false y)), values.
  split; [exact values_ok|]. split; [reflexivity|]. split; [intros []; reflexivity|]. split.
  - do 3 eexists. split; reflexivity.
  - intros [] H; try congruence; eexists; split; reflexivity.
Qed.
Print Assumptions C74_conditional_refuted.

(** FINDING.  [(long)(x = 1)] as a statement assigns nothing from level 1 on. *)
Theorem C74_cast_refuted :
  exists vt e z st v st', store_ok vt st /\ typed vt e = Some (vt z) /\ foldable vt e = true /\
    (forall l, sound l vt e = true) /\
    meaning false vt e st = Some (v, st') /\ st' z <> st z /\
    forall l, l <> O0 -> compile_statement l vt e = Code [].
Proof.
  exists types, (ECast (Vi I32) (EAssign x (num 1))), x, values. do 2 eexists.
  split; [exact values_ok|]. split; [reflexivity|]. split; [reflexivity|].
  split; [intros []; reflexivity|]. split; [reflexivity|]. split; [discriminate|].
  intros [] H; try congruence; reflexivity.
Qed.
Print Assumptions C74_cast_refuted.

(** *** C75 *)

(** [T x = e] stores the value of [e] converted to [T], and [return e] pushes
    the value converted to the method's type.  Missing: as C70, and values that
    are not numbers, locals or constants converted to a wider type, for which it
    is false. *)
Theorem C75_initialiser_partial : forall l vt e t x st v st' stk,
  typed vt e = Some t -> sound l vt e = true -> foldable vt e = true -> store_ok vt st ->
  may_convert l e t (vt x) = true ->
  meaning false vt e st = Some (v, st') ->
  exists code, compile_init l vt x e = Code code
    /\ run vt code 0 stk st = Done stk (put st' x (convert (vt x) (snd v))).
Proof. exact c75_init. Qed.
Print Assumptions C75_initialiser_partial.

Theorem C75_return_partial : forall l vt e t r st v st' stk,
  typed vt e = Some t -> sound l vt e = true -> foldable vt e = true -> store_ok vt st ->
  may_convert l e t r = true ->
  meaning false vt e st = Some (v, st') ->
  exists code s, compile_return l vt r e = Code code
    /\ run vt code 0 stk st = Done (s :: stk) st' /\ read r s = Some (convert r (snd v)).
Proof. exact c75_return. Qed.
Print Assumptions C75_return_partial.

(** [sbyte s = x + 250], [long w = u], [return 7] in a method returning long. *)
Example C75_instance : forall l,
  may_convert l (add (EVar x) (num 250)) (Vi I32) (types s) = true /\
  convert (types s) 256 = 0 /\
  may_convert l (EVar u) (Vi U32) (types w) = true /\
  final (exec (compile_init l types w (EVar u))) w = Some 4000000000 /\
  may_convert l (num 7) (Vi I32) (Vi I64) = true /\
  top (exec (compile_return l types (Vi I64) (num 7))) (Vi I64) = Some 7.
Proof. intros []; vm_compute; repeat split. Qed.

(** FINDING.  [long w = x + y] and [return x + y] from a method returning long. *)
Theorem C75_widening_refuted :
  exists vt e z st v st', store_ok vt st /\ typed vt e = Some (Vi I32) /\ vt z = Vi I64 /\
    (forall l, sound l vt e = true) /\ foldable vt e = true /\
    meaning false vt e st = Some (v, st') /\
    (forall l, exists code, compile_init l vt z e = Code code /\ run vt code 0 [] st = Unspecified) /\
    (forall l, exists code s st2, compile_return l vt (Vi I64) e = Code code /\
       run vt code 0 [] st = Done [s] st2 /\ read (Vi I64) s = None).
Proof.
  exists types, (add (EVar x) (EVar y)), w, values. do 2 eexists.
  split; [exact values_ok|]. split; [reflexivity|]. split; [reflexivity|].
  split; [intros []; reflexivity|]. split; [reflexivity|]. split; [reflexivity|]. split.
  - intros []; eexists; split; reflexivity.
  - intros []; do 3 eexists; (split; [reflexivity|]; split; reflexivity).
Qed.
Print Assumptions C75_widening_refuted.

(** *** C76 *)

(** From level 1 on an operator applied to constants compiles to one push of its
    value.  Missing: shifts and conditionals, and constant comparisons of bools
    by [!=], which are not folded or not accepted (next theorems). *)
Theorem C76_constant_folding_partial : forall l vt e t st v st',
  match e with EBin _ _ _ | EUn _ _ => True | _ => False end ->
  l <> O0 ->
  typed vt e = Some t -> literal e = true -> foldable vt e = true -> store_ok vt st ->
  meaning false vt e st = Some (v, st') ->
  compile_value l vt e = Code [PushC v].
Proof. exact c76_fold. Qed.
Print Assumptions C76_constant_folding_partial.

Example C76_instance :
  let e := mul (add (num 2) (EConst (Vi I64) (ENum (Vi I64, 5)))) (EUn ONeg (num 3)) in
  typed types e = Some (Vi I64) /\ literal e = true /\ foldable types e = true /\
  outval (meaning false types e values) = Some (Vi I64, -21).
Proof. vm_compute. repeat split. Qed.

(** FINDING.  [true != false] has a value and runs at level 0, and is a compile
    error from level 1 on. *)
Theorem C76_bool_not_equal_refuted :
  exists vt e st v, typed vt e = Some Vb /\ literal e = true /\
    meaning false vt e st = Some (v, st) /\
    (exists code, compile_value O0 vt e = Code code) /\
    compile_value O1 vt e = CErr /\ compile_value O2 vt e = CErr.
Proof.
  exists types, (EBin (OCmp Ne) (ENum (Vb, 1)) (ENum (Vb, 0))), values. eexists.
  split; [reflexivity|]. split; [reflexivity|]. split; [reflexivity|].
  split; [eexists; reflexivity|]. split; reflexivity.
Qed.
Print Assumptions C76_bool_not_equal_refuted.

(** FINDING.  A constant initialised by a shift cannot be used. *)
Theorem C76_shift_constant_refuted :
  exists vt e st v, typed vt e = Some (Vi I32) /\
    meaning false vt e st = Some (v, st) /\ snd v = 8 /\
    forall l, compile_value l vt e = CErr.
Proof.
  exists types, (EConst (Vi I32) (EBin (OAl Shl) (num 1) (num 3))), values. eexists.
  split; [reflexivity|]. split; [reflexivity|]. split; [reflexivity|]. intros []; reflexivity.
Qed.
Print Assumptions C76_shift_constant_refuted.

(** FINDING.  [q ? x : 1 / 0]: from level 1 on the compiler itself divides by
    zero, although the expression has a value. *)
Theorem C76_division_refuted :
  exists vt e st v, typed vt e = Some (Vi I32) /\
    meaning false vt e st = Some (v, st) /\
    (exists code, compile_value O0 vt e = Code code) /\
    compile_value O1 vt e = CUB /\ compile_value O2 vt e = CUB.
Proof.
  exists types, (ECond (EVar q) (EVar x) (EBin (OAl Div) (num 1) (num 0))), values. eexists.
  split; [reflexivity|]. split; [reflexivity|]. split; [eexists; reflexivity|]. split; reflexivity.
Qed.
Print Assumptions C76_division_refuted.
