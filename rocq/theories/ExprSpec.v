(** Specification vocabulary for C70-C76: what an expression means, and which
    expressions the theorems speak about.  Nothing here mentions code, stacks
    or optimisation, except that some conditions depend on the level. *)

From Coq Require Import ZArith List Bool.
From Verif Require Import CppInt ArithModel ArithSpec ExprModel.
Import ListNotations.
Open Scope Z_scope.

(** [v] is a value of type [t]. *)
Definition vrange (t : vty) (v : Z) : Prop :=
  match t with Vi i => in_range i v | Vb => v = 0 \/ v = 1 end.

Definition vrangeb (t : vty) (v : Z) : bool :=
  match t with Vi i => in_rangeb i v | Vb => (v =? 0) || (v =? 1) end.

(** Every variable holds a value of its type. *)
Definition store_ok (vt : vref -> vty) (st : store) : Prop := forall x, vrange (vt x) (st x).

(** *** Meaning of an expression

    Operands from left to right; each operator as the machine's operator on
    typed values (C06-C09 say what that is); assignment and cast convert to the
    target type.  [lazy] chooses whether [&&] and [||] skip the right operand
    when the left one decides.  [None]: some operator has undefined behaviour,
    or the expression is ill-typed. *)
Fixpoint meaning (lazy : bool) (vt : vref -> vty) (e : expr) (st : store)
  : option (tval * store) :=
  let op (o : binop) (x y : tval) : option tval :=
    match vm_binary o x y with VmVal r => Some r | _ => None end in
  match e with
  | ENum v => Some (v, st)
  | EVar x => Some ((vt x, st x), st)
  | EConst t init =>
      match meaning lazy vt init st with
      | Some (v, _) => Some ((t, vcast t (snd v)), st)
      | None => None
      end
  | EBin o e1 e2 =>
      match meaning lazy vt e1 st with
      | Some (v1, st1) =>
          let stop := match o with
                      | OAnd => lazy && (snd v1 =? 0)
                      | OOr => lazy && negb (snd v1 =? 0)
                      | _ => false
                      end in
          if stop then Some (v1, st1)
          else match meaning lazy vt e2 st1 with
               | Some (v2, st2) =>
                   match op (to_binop o) v1 v2 with Some r => Some (r, st2) | None => None end
               | None => None
               end
      | None => None
      end
  | EUn o e1 =>
      match meaning lazy vt e1 st with
      | Some (v, st1) =>
          match vm_unary (to_unop o) v with VmVal r => Some (r, st1) | _ => None end
      | None => None
      end
  | EAssign x e1 =>
      match meaning lazy vt e1 st with
      | Some (v, st1) =>
          let w := vcast (vt x) (snd v) in Some ((vt x, w), put st1 x w)
      | None => None
      end
  | EAssignOp a x e1 =>
      match meaning lazy vt e1 st with
      | Some (v, st1) =>
          match op (Al a) (vt x, st x) v with
          | Some r => let w := vcast (vt x) (snd r) in Some ((vt x, w), put st1 x w)
          | None => None
          end
      | None => None
      end
  | EInc post dec x =>
      match op (Al (if dec then Sub else Add)) (vt x, st x) (Vi I32, 1) with
      | Some r =>
          let w := vcast (vt x) (snd r) in
          Some ((vt x, if post then st x else w), put st x w)
      | None => None
      end
  | ECast t e1 =>
      match meaning lazy vt e1 st with
      | Some (v, st1) => Some ((t, vcast t (snd v)), st1)
      | None => None
      end
  | ECond c e1 e2 =>
      match meaning lazy vt c st with
      | Some (v, st1) => meaning lazy vt (if snd v =? 0 then e2 else e1) st1
      | None => None
      end
  | EComma e1 e2 =>
      match meaning lazy vt e1 st with
      | Some (_, st1) => meaning lazy vt e2 st1
      | None => None
      end
  end.

(** *** Which expressions *)

(** Language typing: integers for arithmetic, bools for logic, one type for
    both branches of a conditional, numbers in the range of their type. *)
Fixpoint typed (vt : vref -> vty) (e : expr) : option vty :=
  match e with
  | ENum (t, v) => if vrangeb t v then Some t else None
  | EVar x => Some (vt x)
  | EConst t init =>
      match typed vt init with
      | Some t' => if vty_eqb t t' then Some t else None
      | None => None
      end
  | EBin o e1 e2 =>
      match o, typed vt e1, typed vt e2 with
      | OAl _, Some (Vi i), Some (Vi j) => Some (Vi (lang_result_type i j))
      | OCmp _, Some (Vi _), Some (Vi _) => Some Vb
      | OCmp Eq, Some Vb, Some Vb | OCmp Ne, Some Vb, Some Vb => Some Vb
      | OAnd, Some Vb, Some Vb | OOr, Some Vb, Some Vb => Some Vb
      | _, _, _ => None
      end
  | EUn o e1 =>
      match o, typed vt e1 with
      | ONot, Some Vb => Some Vb
      | ONeg, Some (Vi U64) => None
      | ONeg, Some (Vi U32) => Some (Vi I64)
      | ONeg, Some (Vi i) | OPos, Some (Vi i) | OBNot, Some (Vi i) => Some (Vi (promote i))
      | _, _ => None
      end
  | EAssign x e1 => match typed vt e1 with Some _ => Some (vt x) | None => None end
  | EAssignOp _ x e1 =>
      match vt x, typed vt e1 with Vi i, Some (Vi _) => Some (Vi i) | _, _ => None end
  | EInc _ _ x => match vt x with Vi i => Some (Vi i) | Vb => None end
  | ECast t e1 => match typed vt e1 with Some _ => Some t | None => None end
  | ECond c e1 e2 =>
      match typed vt c, typed vt e1, typed vt e2 with
      | Some Vb, Some t1, Some t2 => if vty_eqb t1 t2 then Some t1 else None
      | _, _, _ => None
      end
  | EComma e1 e2 => match typed vt e1, typed vt e2 with Some _, Some t => Some t | _, _ => None end
  end.

(** The expression reads no variable and has no effect, and contains no shift:
    literals and named constants combined by operators. *)
Fixpoint literal (e : expr) : bool :=
  match e with
  | ENum _ => true
  | EConst _ init => literal init
  | EBin (OAl Shl) _ _ | EBin (OAl Shr) _ _ => false
  | EBin _ e1 e2 => literal e1 && literal e2
  | EUn _ e1 | ECast _ e1 => literal e1
  | _ => false
  end.

(** The expression contains no assignment. *)
Fixpoint pure (e : expr) : bool :=
  match e with
  | ENum _ | EVar _ | EConst _ _ => true
  | EBin _ e1 e2 | EComma e1 e2 => pure e1 && pure e2
  | EUn _ e1 | ECast _ e1 => pure e1
  | ECond c e1 e2 => pure c && pure e1 && pure e2
  | EAssign _ _ | EAssignOp _ _ _ | EInc _ _ _ => false
  end.

(** Converting from [t] to [u] needs no more bytes than [t] has. *)
Definition no_wider (t u : vty) : bool :=
  match t, u with
  | Vi i, Vi j => bits j <=? bits i
  | Vb, Vb => true
  | _, _ => false
  end.

(** The value of [e], of type [t], may be converted to [u]: it is a number, a
    local variable or a named constant, or (from level 1) an operator applied
    to constants, or the conversion does not widen. *)
Definition may_convert (l : level) (e : expr) (t u : vty) : bool :=
  match e with
  | ENum _ | EVar (VLocal _) | EConst _ _ => true
  | EBin _ _ _ | EUn _ _ => (folds_constants l && literal e) || no_wider t u
  | _ => no_wider t u
  end.

(** [e] might be a compile-time constant: no variable outside the branches of a
    conditional. *)
Fixpoint maybe_constant (e : expr) : bool :=
  match e with
  | ENum _ => true
  | EConst _ init => maybe_constant init
  | EBin _ e1 e2 => maybe_constant e1 && maybe_constant e2
  | EUn _ e1 | ECast _ e1 => maybe_constant e1
  | ECond c e1 e2 => maybe_constant c && (maybe_constant e1 || maybe_constant e2)
  | _ => false
  end.

(** [e] is a constant with value [n]. *)
Definition constant_is (vt : vref -> vty) (n : Z) (e : expr) : bool :=
  maybe_constant e
  && match meaning false vt e (fun _ => 0) with
     | Some ((_, v), _) => v =? n
     | None => false
     end.

(** At level 2 an operand that is the neutral element may be removed; this asks
    that the operand that stays is as wide as the result, and for [0 - x] that
    the two have the same type, not uint64. *)
Definition neutral_ok (l : level) (vt : vref -> vty) (a : arith) (e1 e2 : expr)
    (t1 t2 r : ity) : bool :=
  let left_stays n := implb (constant_is vt n e2) (bits r <=? bits t1) in
  let right_stays n := implb (constant_is vt n e1) (bits r <=? bits t2) in
  if negb (simplifies l) then true
  else match a with
  | Add | BOr => left_stays 0 && right_stays 0
  | Sub => left_stays 0
           && implb (constant_is vt 0 e1) (ity_eqb t1 t2 && negb (ity_eqb t1 U64))
  | Mul => left_stays 1 && right_stays 1
  | Div => left_stays 1
  | Shl | Shr => left_stays 0
  | _ => true
  end.

(** The value of [e] may be thrown away: at level 0 the value must be that of an
    operator, a cast, an assignment or a plain name; from level 1 on, casts and
    conditionals must be free of assignments. *)
Fixpoint discardable (l : level) (e : expr) : bool :=
  match e with
  | ENum _ | EVar _ | EConst _ _ | EAssign _ _ | EAssignOp _ _ _ | EInc _ _ _ => true
  | EBin _ e1 e2 => match l with O0 => true | _ => discardable l e1 && discardable l e2 end
  | EUn _ e1 => match l with O0 => true | _ => discardable l e1 end
  | ECast _ e1 => match l with O0 => true | _ => pure e1 end
  | ECond c e1 e2 => match l with O0 => false | _ => pure c && pure e1 && pure e2 end
  | EComma e1 e2 => match l with O0 => false | _ => discardable l e2 end
  end.

(** The conditions above at every node. *)
Fixpoint sound (l : level) (vt : vref -> vty) (e : expr) : bool :=
  match e with
  | ENum _ | EVar _ | EInc _ _ _ => true
  | EConst _ init => sound l vt init
  | EBin o e1 e2 =>
      sound l vt e1 && sound l vt e2 &&
      match o, typed vt e1, typed vt e2 with
      | OAl a, Some (Vi i), Some (Vi j) => neutral_ok l vt a e1 e2 i j (lang_result_type i j)
      | _, _, _ => true
      end
  | EUn _ e1 => sound l vt e1
  | EAssign x e1 =>
      sound l vt e1 &&
      match typed vt e1 with Some t => may_convert l e1 t (vt x) | None => false end
  | EAssignOp _ _ e1 => sound l vt e1
  | ECast u e1 =>
      sound l vt e1 &&
      match typed vt e1 with Some t => may_convert l e1 t u | None => false end
  | ECond c e1 e2 => sound l vt c && sound l vt e1 && sound l vt e2
  | EComma e1 e2 => sound l vt e1 && discardable l e1 && sound l vt e2
  end.

(** *** Expressions the compiler does not reject *)

(** No operator of [e] is applied to constants only, and no named constant. *)
Fixpoint folds_nothing (e : expr) : bool :=
  match e with
  | ENum _ | EVar _ | EInc _ _ _ => true
  | EConst _ _ => false
  | EBin _ e1 e2 =>
      negb (maybe_constant e1 && maybe_constant e2) && folds_nothing e1 && folds_nothing e2
  | EUn _ e1 => negb (maybe_constant e1) && folds_nothing e1
  | EAssign _ e1 | EAssignOp _ _ e1 | ECast _ e1 => folds_nothing e1
  | ECond c e1 e2 => folds_nothing c && folds_nothing e1 && folds_nothing e2
  | EComma e1 e2 => folds_nothing e1 && folds_nothing e2
  end.

(** Named constants are initialised without shifts and conditionals, constant
    bools are not compared by [!=], and the branches of a conditional contain
    no constant operators. *)
Fixpoint foldable (vt : vref -> vty) (e : expr) : bool :=
  match e with
  | ENum _ | EVar _ | EInc _ _ _ => true
  | EConst _ init => literal init && foldable vt init
  | EBin o e1 e2 =>
      foldable vt e1 && foldable vt e2 &&
      match o, typed vt e1 with
      | OCmp Ne, Some Vb => negb (maybe_constant e1 && maybe_constant e2)
      | _, _ => true
      end
  | EUn _ e1 | EAssign _ e1 | EAssignOp _ _ e1 | ECast _ e1 => foldable vt e1
  | ECond c e1 e2 => foldable vt c && folds_nothing e1 && folds_nothing e2
  | EComma e1 e2 => foldable vt e1 && foldable vt e2
  end.

(** *** Exact arithmetic

    The same expressions over mathematical integers: the value is defined only
    if every intermediate result fits the type the language gives it, every
    division and shift is proper, and no operator mixes an unsigned type with a
    signed type that is not wider. *)

Definition mixes_sign (t1 t2 : ity) : bool := u32_with_signed t1 t2 || u64_with_signed t1 t2.

Definition holdsb (c : cmpop) (x y : Z) : bool :=
  match c with
  | Gt => y <? x
  | Ge => y <=? x
  | Lt => x <? y
  | Le => x <=? y
  | Eq => x =? y
  | Ne => negb (x =? y)
  end.

(** [x op y] for typed integers. *)
Definition exact_op (a : arith) (t1 t2 : ity) (x y : Z) : option Z :=
  let r := lang_result_type t1 t2 in
  let proper :=
    match a with
    | Div | Mod => negb (y =? 0)
    | Shl => (0 <=? x) && (0 <=? y) && (y <? bits (promote t1))
             && in_rangeb (promote t1) (x * 2 ^ y)
    | Shr => (0 <=? y) && (y <? bits (promote t1))
    | _ => true
    end in
  if mixes_sign t1 t2 || negb proper then None
  else if in_rangeb r (math a x y)
          && match a with Mod => in_rangeb r (Z.quot x y) | _ => true end
  then Some (math a x y) else None.

(** Conversion: the value congruent modulo the width; a number is true iff it
    is not 0. *)
Definition convert (t : vty) (v : Z) : Z :=
  match t with Vi i => wrap i v | Vb => if v =? 0 then 0 else 1 end.

Fixpoint exact (vt : vref -> vty) (e : expr) (st : store) : option (Z * store) :=
  match e with
  | ENum (_, v) => Some (v, st)
  | EVar x => Some (st x, st)
  | EConst _ init =>
      match exact vt init st with Some (v, _) => Some (v, st) | None => None end
  | EBin o e1 e2 =>
      match exact vt e1 st with
      | Some (v1, st1) =>
          match exact vt e2 st1 with
          | Some (v2, st2) =>
              match o, typed vt e1, typed vt e2 with
              | OAl a, Some (Vi i), Some (Vi j) =>
                  match exact_op a i j v1 v2 with Some r => Some (r, st2) | None => None end
              | OCmp c, Some (Vi i), Some (Vi j) =>
                  if mixes_sign i j then None else Some (b2z (holdsb c v1 v2), st2)
              | OCmp c, _, _ => Some (b2z (holdsb c v1 v2), st2)
              | OAnd, _, _ => Some (v1 * v2, st2)
              | OOr, _, _ => Some (Z.max v1 v2, st2)
              | _, _, _ => None
              end
          | None => None
          end
      | None => None
      end
  | EUn o e1 =>
      match exact vt e1 st with
      | Some (v, st1) =>
          match o, typed vt e1 with
          | ONot, _ => Some (1 - v, st1)
          | ONeg, Some (Vi i) =>
              if is_signed (promote i) && in_rangeb (promote i) (- v)
              then Some (- v, st1) else None
          | OPos, Some (Vi _) => Some (v, st1)
          | OBNot, Some (Vi i) =>
              Some ((if is_signed (promote i) then -1 - v else tmax i - v), st1)
          | _, _ => None
          end
      | None => None
      end
  | EAssign x e1 =>
      match exact vt e1 st with
      | Some (v, st1) => let w := convert (vt x) v in Some (w, put st1 x w)
      | None => None
      end
  | EAssignOp a x e1 =>
      match exact vt e1 st with
      | Some (v, st1) =>
          match vt x, typed vt e1 with
          | Vi i, Some (Vi j) =>
              match exact_op a i j (st x) v with
              | Some r => let w := convert (vt x) r in Some (w, put st1 x w)
              | None => None
              end
          | _, _ => None
          end
      | None => None
      end
  | EInc post dec x =>
      match vt x with
      | Vi i =>
          let r := if dec then st x - 1 else st x + 1 in
          if in_rangeb i r then Some ((if post then st x else r), put st x r) else None
      | Vb => None
      end
  | ECast t e1 =>
      match exact vt e1 st with
      | Some (v, st1) => Some (convert t v, st1)
      | None => None
      end
  | ECond c e1 e2 =>
      match exact vt c st with
      | Some (v, st1) => exact vt (if v =? 0 then e2 else e1) st1
      | None => None
      end
  | EComma e1 e2 =>
      match exact vt e1 st with
      | Some (_, st1) => exact vt e2 st1
      | None => None
      end
  end.

(** *** Short circuit *)

(** Evaluating [e] can neither change a variable nor go wrong: names, numbers,
    comparisons and logic. *)
Fixpoint harmless (e : expr) : bool :=
  match e with
  | ENum _ | EVar _ => true
  | EBin (OCmp _) e1 e2 | EBin OAnd e1 e2 | EBin OOr e1 e2 => harmless e1 && harmless e2
  | EUn ONot e1 => harmless e1
  | _ => false
  end.

(** Every right operand of [&&] and [||] is harmless. *)
Fixpoint harmless_rights (e : expr) : bool :=
  match e with
  | ENum _ | EVar _ | EInc _ _ _ => true
  | EConst _ init => harmless_rights init
  | EBin o e1 e2 =>
      harmless_rights e1 && harmless_rights e2 &&
      match o with OAnd | OOr => harmless e2 | _ => true end
  | EUn _ e1 | ECast _ e1 | EAssign _ e1 | EAssignOp _ _ e1 => harmless_rights e1
  | ECond c e1 e2 => harmless_rights c && harmless_rights e1 && harmless_rights e2
  | EComma e1 e2 => harmless_rights e1 && harmless_rights e2
  end.
