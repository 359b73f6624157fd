(** Concrete expressions for PropertiesExpr.v. *)

From Coq Require Import ZArith List Bool.
From Verif Require Import CppInt ArithModel ArithSpec ExprModel ExprSpec.
Import ListNotations.
Open Scope Z_scope.

(** Locals: [x], [y] int; [w] long; [s] sbyte; [b] bool; [u] uint.
    Parameters: [p] int; [q] bool. *)
Definition x : vref := VLocal 0.
Definition y : vref := VLocal 1.
Definition w : vref := VLocal 2.
Definition s : vref := VLocal 3.
Definition b : vref := VLocal 4.
Definition u : vref := VLocal 5.
Definition p : vref := VParam 0.
Definition q : vref := VParam 1.

Definition types (v : vref) : vty :=
  match v with
  | VLocal 2 => Vi I64
  | VLocal 3 => Vi I8
  | VLocal 4 => Vb
  | VLocal 5 => Vi U32
  | VParam 1 => Vb
  | _ => Vi I32
  end.

Definition values (v : vref) : Z :=
  match v with
  | VLocal 0 => 6
  | VLocal 1 => 0
  | VLocal 2 => 5000000000
  | VLocal 3 => -7
  | VLocal 4 => 0
  | VLocal 5 => 4000000000
  | VParam 0 => 10
  | VParam 1 => 1
  | _ => 0
  end.

Definition num (n : Z) : expr := ENum (Vi I32, n).
Definition add := EBin (OAl Add).
Definition sub := EBin (OAl Sub).
Definition mul := EBin (OAl Mul).

Lemma values_ok : store_ok types values.
Proof.
  intros [[|[|[|[|[|[|n]]]]]]|[|[|n]]]; cbn [types values vrange];
    try (left; reflexivity); try (right; reflexivity); split; discriminate || reflexivity.
Qed.

(** [ (x = y + 3) * 2 - s++ ] *)
Definition ex_value : expr :=
  sub (mul (EAssign x (add (EVar y) (num 3))) (num 2)) (EInc true false s).

(** [ q && w > x ? x + y : p - 1 ] *)
Definition ex_cond : expr :=
  ECond (EBin OAnd (EVar q) (EBin (OCmp Gt) (EVar w) (EVar x)))
    (add (EVar x) (EVar y)) (sub (EVar p) (num 1)).

(** [ x += x * (2 + 3) ] *)
Definition ex_statement : expr := EAssignOp Add x (mul (EVar x) (add (num 2) (num 3))).

(** Final value of variable [v] after running code. *)
Definition final (o : outcome) (v : vref) : option Z :=
  match o with Done _ st => Some (st v) | _ => None end.

Definition top (o : outcome) (t : vty) : option Z :=
  match o with Done (u :: _) _ => read t u | _ => None end.

Definition height (o : outcome) : option nat :=
  match o with Done stk _ => Some (length stk) | _ => None end.

Definition exec (c : cres) : outcome :=
  match c with Code code => run types code 0 [] values | _ => NoCommand end.

Definition outval (m : option (tval * store)) : option tval := option_map fst m.
Definition outvar (m : option (tval * store)) (v : vref) : option Z :=
  option_map (fun r => snd r v) m.
