(** Model of the operator-precedence expression analyser: a pair of stacks with
    deferred reductions.

    Modelled: modules/compile/analyze_stack.cpp 172-450, modules/core/core.cpp
    320-512 (operator table), modules/lang_cs/utils.cpp 45-164 (the C#-specific
    operators and brackets), modules/lang_cs/services.cpp 74-110
    (build_expression).
    Simplified: an operand element (name, literal, call, ...) is one token
    carrying a number; [analyze] recursing into a bracket is written with an
    explicit stack of suspended analysers; invisible tokens are left out. *)

From Coq Require Import List Bool Arith ZArith Lia.
Import ListNotations.

(** *** Operators *)

Inductive op :=
| OPoint                                                    (* . *)
| OMinus | OPositive | OLInc | OLDec | ORInc | ORDec | OLNot | OBNot
| ODiv | OMul | OMod
| OAdd | OSub
| OShl | OShr
| OGt | OGe | OLt | OLe
| OEq | ONe
| OBAnd | OBXor | OBOr | OLAnd | OLOr
| OAs | OIs
| ONullCo                                                   (* ?? *)
| OAssign | OAddA | OSubA | OMulA | ODivA | OModA
| OShlA | OShrA | OBAndA | OBOrA | OBXorA | ONullCoA
| OQMark | OQColon | OComma.

Definition op_eq_dec (a b : op) : {a = b} + {a <> b}.
Proof. decide equality. Defined.

(** Priorities, core.cpp 344-411 and lang_cs/utils.cpp 94-104 (the table stores
    them shifted left by 8 bits, which does not change comparisons); a smaller
    number binds tighter. *)
Definition priority (o : op) : nat :=
  match o with
  | OPoint => 1
  | OMinus | OPositive | OLInc | OLDec | ORInc | ORDec | OLNot | OBNot => 2
  | ODiv | OMul | OMod => 3
  | OAdd | OSub => 4
  | OShl | OShr => 5
  | OGt | OGe | OLt | OLe => 6
  | OEq | ONe => 7
  | OBAnd => 8
  | OBXor => 9
  | OBOr => 10
  | OLAnd => 11
  | OLOr => 12
  | OAs | OIs => 13
  | ONullCo => 14
  | OAssign | OAddA | OSubA | OMulA | ODivA | OModA
  | OShlA | OShrA | OBAndA | OBOrA | OBXorA | ONullCoA => 15
  | OQMark | OQColon => 13
  | OComma => 15
  end.

(** Arity, core.cpp 418-449, lang_cs/utils.cpp 111-114. *)
Definition arity (o : op) : nat :=
  match o with
  | OMinus | OPositive | OBNot | OLNot | OLInc | OLDec | ORInc | ORDec => 1
  | _ => 2
  end.

(** [adhere]: number of operands on the left, core.cpp 456-462, utils.cpp 121-124. *)
Definition adhere (o : op) : nat :=
  match o with
  | OLInc | OLDec | OMinus | OPositive | OBNot | OLNot => 0
  | _ => 1
  end.

(** [direct == right_to_left], core.cpp 469-476, utils.cpp 131-133. *)
Definition right_to_left (o : op) : bool :=
  match o with
  | OAssign | OAddA | OSubA | OMulA | ODivA | OModA
  | OShlA | OShrA | OBAndA | OBOrA | OBXorA | ONullCoA
  | OQMark | OQColon => true
  | _ => false
  end.

(** [parent_op], utils.cpp 140-142; [None] is [operator_t::__default__]. *)
Definition parent_op (o : op) : option op :=
  match o with OQColon => Some OQMark | _ => None end.

(** *** Expressions *)

Inductive expr :=
| EName (n : nat)
| EUn (o : op) (e : expr)
| EBin (o : op) (l r : expr)
| ECond (c a b : expr)                 (* cs_condition_expression_t *)
| ESeq (l : list expr).                (* cs_expressions_t *)

(** Outcome: a value, the analyser's format error, a failed assertion (undefined
    behaviour when assertions are off), or recursion fuel exhausted (an artefact
    of the model, shown not to occur). *)
Inductive res (A : Type) := Ok (a : A) | FormatError | Crash | OutOfFuel.
Arguments Ok {A} a.
Arguments FormatError {A}.
Arguments Crash {A}.
Arguments OutOfFuel {A}.

Definition bind {A B} (r : res A) (f : A -> res B) : res B :=
  match r with
  | Ok a => f a
  | FormatError => FormatError
  | Crash => Crash
  | OutOfFuel => OutOfFuel
  end.
Notation "'do' x <- r ; k" := (bind r (fun x => k)) (at level 200, x pattern, r at level 100, k at level 200).

(** [cs_lang_service_t::build_expression], services.cpp 74-110, and the default
    binary/unary constructors, analyze_stack.cpp 141-167.  For [?] the second
    operand is only asserted to be some binary expression. *)
Definition build2 (o : op) (l r : expr) : res expr :=
  match o with
  | OQMark =>
      match r with
      | EBin _ a b => Ok (ECond l a b)
      | _ => Crash
      end
  | OComma =>
      match l with
      | ESeq es => Ok (ESeq (es ++ [r]))
      | _ => Ok (ESeq [l; r])
      end
  | _ => Ok (EBin o l r)
  end.

(** *** The two stacks *)

(** [__op_stack] and [__exp_stack] (tops first), [__right_placeholder]. *)
Record stacks := mk { ops : list op; exps : list expr; rp : Z }.

(** [__get_right_placeholder], analyze_stack.cpp 388-397. *)
Definition right_places (o : op) : Z := Z.of_nat (arity o) - Z.of_nat (adhere o).

(** [__push_expression], 424-434. *)
Definition push_expression (e : expr) (s : stacks) : res stacks :=
  match ops s with
  | [] => Ok (mk [] (e :: exps s) (rp s - 1))
  | os => if (rp s <=? 0)%Z then FormatError else Ok (mk os (e :: exps s) (rp s - 1))
  end.

(** [__pop_expression], 437-443. *)
Definition pop_expression (s : stacks) : res (expr * stacks) :=
  match exps s with
  | [] => FormatError
  | e :: es => Ok (e, mk (ops s) es (rp s))
  end.

(** [__combine_expression], 371-385: build, then reset [__right_placeholder] from
    the operator now on top. *)
Definition reset_rp (s : stacks) : stacks :=
  match ops s with
  | [] => s
  | o :: _ => mk (ops s) (exps s) (right_places o)
  end.

Definition combine_binary (o : op) (l r : expr) (s : stacks) : res (expr * stacks) :=
  do e <- build2 o l r; Ok (e, reset_rp s).
Definition combine_unary (o : op) (e : expr) (s : stacks) : res (expr * stacks) :=
  Ok (EUn o e, reset_rp s).

(** [__combine_expressions(property, token)], 311-368, for an operator already
    popped from the stack; [combine_loop] is the [for] of 342-353. *)
Fixpoint combine1 (fuel : nat) (o : op) (s : stacks) {struct fuel} : res (expr * stacks) :=
  match fuel with
  | O => OutOfFuel
  | S f =>
      if Nat.ltb (adhere o) (arity o) then
        do (r, s1) <- pop_expression s;
        if Nat.eqb (arity o) 1 then combine_unary o r s1
        else
          match ops s1 with
          | [] => do (l, s2) <- pop_expression s1; combine_binary o l r s2
          | top :: rest =>
              match parent_op o with
              | Some p =>
                  if op_eq_dec p top then
                    do (l, s2) <- pop_expression s1;
                    do (e, s3) <- combine_binary o l r s2;
                    do s4 <- push_expression e s3;
                    combine1 f top (mk rest (exps s4) (rp s4))
                  else
                    do (l, s2) <- combine_loop f p s1;
                    combine_binary o l r s2
              | None =>
                  if negb (Nat.ltb (priority o) (priority top)) && negb (right_to_left top) then
                    do (l, s2) <- combine1 f top (mk rest (exps s1) (rp s1));
                    combine_binary o l r s2
                  else
                    do (l, s2) <- pop_expression s1; combine_binary o l r s2
              end
          end
      else (* postfix operator: its only operand is on the left *)
        match ops s with
        | [] => do (l, s2) <- pop_expression s; combine_unary o l s2
        | top :: rest =>
            if negb (Nat.ltb (priority o) (priority top)) && negb (right_to_left top) then
              do (l, s2) <- combine1 f top (mk rest (exps s) (rp s));
              combine_unary o l s2
            else
              do (l, s2) <- pop_expression s; combine_unary o l s2
        end
  end
with combine_loop (fuel : nat) (p : op) (s : stacks) {struct fuel} : res (expr * stacks) :=
  match fuel with
  | O => OutOfFuel
  | S f =>
      match ops s with
      | [] => Crash
      | top :: rest =>
          do (e, s1) <- combine1 f top (mk rest (exps s) (rp s));
          match ops s1 with
          | [] => FormatError
          | top2 :: _ =>
              if op_eq_dec top2 p then Ok (e, s1)
              else do s2 <- push_expression e s1; combine_loop f p s2
          end
      end
  end.

(** [__combine_expressions(until_priority)], 282-295: reduce while the top binds
    tighter than [until]. *)
Fixpoint combine_until (fuel : nat) (until : nat) (s : stacks) : res stacks :=
  match fuel with
  | O => OutOfFuel
  | S f =>
      match ops s with
      | [] => Ok s
      | top :: rest =>
          if Nat.ltb (priority top) until then
            do (e, s1) <- combine1 f top (mk rest (exps s) (rp s));
            do s2 <- push_expression e s1;
            combine_until f until s2
          else Ok s
      end
  end.

(** Enough recursion depth for a given stack (a model artefact). *)
Definition fuel_of (s : stacks) : nat := S (S (2 * length (ops s))).

(** [__push_operator], 261-279. *)
Definition push_operator (o : op) (s : stacks) : res stacks :=
  if Nat.ltb (arity o) (adhere o) then FormatError
  else if Nat.ltb (length (exps s)) (adhere o) then FormatError
  else if (0 <? rp s)%Z && Nat.ltb 0 (adhere o) then FormatError
  else
    do s1 <- combine_until (fuel_of s) (priority o) s;
    Ok (mk (o :: ops s1) (exps s1) (right_places o)).

(** [__combine_all], 446-450; the limit is 65535, that is 255 in
    the unshifted scale used here, above every operator. *)
Definition combine_all (s : stacks) : res expr :=
  do s1 <- combine_until (fuel_of s) 255 s;
  do (e, _) <- pop_expression s1; Ok e.

(** *** Tokens *)

Inductive bracket := Round | Square.
Definition bracket_eq_dec (a b : bracket) : {a = b} + {a <> b}.
Proof. decide equality. Defined.

Inductive token :=
| TName (n : nat)
| TOp (o : op)
| TLeft (b : bracket)
| TRight (b : bracket).

Definition init : stacks := mk [] [] 0.

(** [analyze], 172-214, with [__push_token] 217-242 and [__push_expression_box]
    410-421: [outer] are the suspended analysers with the bracket each inner one
    ends at. *)
Fixpoint run (ts : list token) (s : stacks) (outer : list (bracket * stacks)) : res expr :=
  match ts with
  | [] => match outer with [] => combine_all s | _ => FormatError end
  | TName n :: ts' => do s1 <- push_expression (EName n) s; run ts' s1 outer
  | TOp o :: ts' => do s1 <- push_operator o s; run ts' s1 outer
  | TLeft b :: ts' => run ts' init ((b, s) :: outer)
  | TRight b :: ts' =>
      match outer with
      | [] => FormatError
      | (b', s') :: outer' =>
          if bracket_eq_dec b b' then
            do e <- combine_all s;
            do s1 <- push_expression e s';
            run ts' s1 outer'
          else FormatError
      end
  end.

Definition parse (ts : list token) : res expr := run ts init [].
