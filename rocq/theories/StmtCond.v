(** The decidable conditions under which the optimisations of the statement
    compiler keep the meaning of a method.

    They look only at what the analysis reports for the parts of a loop or of a
    switch ([exit_type]): [safe] asks that whenever a loop or a switch is
    reported as not passing through, it is for a reason that is right. *)
From Coq Require Import List Bool Arith ZArith.
From Verif Require Import StmtModel StmtSpec.
Import ListNotations.

Section Cond.
Context {St : Type}.

(** From case [k] on, control can neither leave by break nor run off the end. *)
Fixpoint stops (k : nat) (cs : @cases St) : bool :=
  match cs with
  | CNil => false
  | CCons _ b r =>
    match k with
    | S k' => stops k' r
    | O =>
      let et := case_exit b x_none in
      if x_brk et then false else if unreached et then true else stops 0 r
    end
  end.

(** The last case cannot run off its end. *)
Fixpoint last_stops (cs : @cases St) : bool :=
  match cs with
  | CNil => false
  | CCons _ b CNil => unreached (case_exit b x_none)
  | CCons _ _ r => last_stops r
  end.

Definition always_true (c : option (@cond St)) : bool :=
  match c with None => true | Some (KConst b) => b | Some (KDyn _) => false end.
(* of the until condition *)
Definition never_true (c : option (@cond St)) : bool :=
  match c with None => true | Some (KConst b) => negb b | Some (KDyn _) => false end.

Fixpoint safe (s : @stmt St) : bool :=
  match s with
  | SGroup b => safe_b b
  | SIf _ t e => safe t && safe e
  | SWhile c b | SFor _ c _ b =>
    safe b && (negb (unreached (exit_type s)) ||
               (always_true c && negb (x_brk (exit_type b))))
  | SDo b c =>
    safe b && (negb (unreached (exit_type s)) ||
               (always_true c && negb (x_brk (exit_type b))) ||
               (unreached (exit_type b) && negb (x_brk (exit_type b)) && negb (x_cont (exit_type b))))
  | SUntil b c =>
    safe b && (negb (unreached (exit_type s)) ||
               (never_true c && negb (x_brk (exit_type b))) ||
               (unreached (exit_type b) && negb (x_brk (exit_type b)) && negb (x_cont (exit_type b))))
  | SSwitch e cs =>
    safe_c cs && (default_count cs <=? 1) &&
    (negb (unreached (exit_type s)) ||
     match e with
     | LConst z => match entry z cs with Some k => stops k cs | None => true end
     | LDyn _ => last_stops cs
     end)
  | _ => true
  end
with safe_b (b : block) : bool :=
  match b with BNil => true | BCons s r => safe s && safe_b r end
with safe_c (cs : cases) : bool :=
  match cs with CNil => true | CCons _ b r => safe_b b && safe_c r end.

(** Shapes of a switch with at most one constant for which the translation to an
    if statement is right: one case; a constant case followed by the default
    case (its body must not run into the default one when the selector is a
    constant that is folded); or a default case followed by a constant case when
    neither body runs off its end. *)
Definition if_shape (o : opts) (e : @sel St) (cs : @cases St) : bool :=
  match cs with
  | CNil => true
  | CCons ls _ CNil => match ls with [] => false | _ => true end
  | CCons ls1 b1 (CCons ls2 b2 CNil) =>
    match ls1, ls2 with
    | [], _ | _, [] => false
    | _, _ =>
      (number_of_rows cs =? 1) &&
      ((negb (has_default ls1) && has_default ls2 &&
        (negb (o_remove o) || match e with LDyn _ => true | LConst _ => false end ||
         (safe_b b1 && unreached (case_exit b1 x_none)))) ||
       (has_default ls1 && negb (has_default ls2) &&
        safe_b b1 && unreached (case_exit b1 x_none) &&
        safe_b b2 && unreached (case_exit b2 x_none)))
    end
  | _ => false
  end.

Fixpoint if_shapes (o : opts) (s : @stmt St) : bool :=
  match s with
  | SGroup b => if_shapes_b o b
  | SIf _ t e => if_shapes o t && if_shapes o e
  | SWhile _ b | SFor _ _ _ b | SDo b _ | SUntil b _ => if_shapes o b
  | SSwitch e cs => if_shapes_c o cs && (negb (number_of_rows cs <=? 1) || if_shape o e cs)
  | _ => true
  end
with if_shapes_b (o : opts) (b : block) : bool :=
  match b with BNil => true | BCons s r => if_shapes o s && if_shapes_b o r end
with if_shapes_c (o : opts) (cs : cases) : bool :=
  match cs with CNil => true | CCons _ b r => if_shapes_b o b && if_shapes_c o r end.

End Cond.
