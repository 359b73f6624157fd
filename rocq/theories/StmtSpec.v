(** Reference meaning of structured statements, independent of the compiler:
    what a reader of the C#-like source expects.

    [exec restart n s st] runs [s] from state [st]; [n] bounds the number of
    iterations of each loop and [None] means the bound was reached.  With
    [restart = false] this is the usual meaning.  With [restart = true] a
    [continue] inside do-while or loop-until starts the next iteration without
    evaluating the condition (used only to describe what the compiler really
    does). *)
From Coq Require Import List Bool Arith ZArith.
From Verif Require Import StmtModel.
Import ListNotations.

Section Spec.
Context {St : Type}.

Inductive outcome :=
| Completes (s : St) | Breaks (s : St) | Continues (s : St) | Returns (s : St) | Throws (s : St).

(** A missing condition is true. *)
Definition test (c : option (@cond St)) (s : St) : bool * St :=
  match c with
  | None => (true, s)
  | Some (KConst b) => (b, s)
  | Some (KDyn f) => f s
  end.

Definition opt_act (f : option (St -> St)) (s : St) : St :=
  match f with Some g => g s | None => s end.

(** while (test) { body } with [next] after each iteration, also after continue. *)
Fixpoint while_loop (n : nat) (tst : St -> bool * St) (body : St -> option outcome)
    (next : St -> St) (s : St) : option outcome :=
  match n with
  | O => None
  | S n' =>
    let (b, s1) := tst s in
    if b then
      match body s1 with
      | None => None
      | Some (Completes s2) | Some (Continues s2) => while_loop n' tst body next (next s2)
      | Some (Breaks s2) => Some (Completes s2)
      | Some o => Some o
      end
    else Some (Completes s1)
  end.

(** do { body } while (test). *)
Fixpoint do_loop (restart : bool) (n : nat) (body : St -> option outcome)
    (tst : St -> bool * St) (s : St) : option outcome :=
  match n with
  | O => None
  | S n' =>
    let again s1 := let (b, s2) := tst s1 in
                    if b then do_loop restart n' body tst s2 else Some (Completes s2) in
    match body s with
    | None => None
    | Some (Completes s1) => again s1
    | Some (Continues s1) => if restart then do_loop restart n' body tst s1 else again s1
    | Some (Breaks s1) => Some (Completes s1)
    | Some o => Some o
    end
  end.

Definition select (e : @sel St) (s : St) : Z * St :=
  match e with LConst z => (z, s) | LDyn f => f s end.

(** The first case carrying the label. *)
Definition same_label (a b : option Z) : bool :=
  match a, b with
  | Some x, Some y => Z.eqb x y
  | None, None => true
  | _, _ => false
  end.
Fixpoint first_labelled (l : option Z) (cs : @cases St) : option nat :=
  match cs with
  | CNil => None
  | CCons ls _ r =>
    if existsb (same_label l) ls then Some 0%nat else option_map S (first_labelled l r)
  end.

(** The case where a switch on [z] starts: the one labelled [z], else the one
    labelled default. *)
Definition entry (z : Z) (cs : cases) : option nat :=
  match first_labelled (Some z) cs with Some k => Some k | None => first_labelled None cs end.

Definition negate (r : bool * St) : bool * St := (negb (fst r), snd r).

Fixpoint exec (restart : bool) (n : nat) (s : @stmt St) (st : St) : option outcome :=
  match s with
  | SEmpty => Some (Completes st)
  | SAct f => Some (Completes (f st))
  | SGroup b => exec_block restart n b st
  | SIf c t e =>
    let (b, st1) := test (Some c) st in
    if b then exec restart n t st1 else exec restart n e st1
  | SWhile c b => while_loop n (test c) (exec restart n b) (fun x => x) st
  | SDo b c => do_loop restart n (exec restart n b) (test c) st
  | SUntil b c =>
    do_loop restart n (exec restart n b)
      (match c with None => fun s => (true, s) | Some _ => fun s => negate (test c s) end) st
  | SFor i c inc b => while_loop n (test c) (exec restart n b) (opt_act inc) (opt_act i st)
  | SBreak => Some (Breaks st)
  | SContinue => Some (Continues st)
  | SReturn f => Some (Returns (f st))
  | SThrow f => Some (Throws (f st))
  | SSwitch e cs =>
    let (z, st1) := select e st in
    match entry z cs with
    | None => Some (Completes st1)
    | Some k =>
      match exec_cases restart n k cs st1 with
      | Some (Breaks st2) => Some (Completes st2)
      | o => o
      end
    end
  end
with exec_block (restart : bool) (n : nat) (b : block) (st : St) : option outcome :=
  match b with
  | BNil => Some (Completes st)
  | BCons s r =>
    match exec restart n s st with
    | Some (Completes st1) => exec_block restart n r st1
    | o => o
    end
  end
(* all cases from number [k] on: control falls through *)
with exec_cases (restart : bool) (n : nat) (k : nat) (cs : cases) (st : St) : option outcome :=
  match cs with
  | CNil => Some (Completes st)
  | CCons _ b r =>
    match k with
    | S k' => exec_cases restart n k' r st
    | O =>
      match exec_block restart n b st with
      | Some (Completes st1) => exec_cases restart n 0 r st1
      | o => o
      end
    end
  end.

(** *** What a method does, observed from outside *)

(** Source: the body completes (then the appended [fin] return runs) or returns,
    ends by an uncaught throw, or runs forever. *)
Definition src_returns (restart : bool) (s : stmt) (fin : St -> St) (st st' : St) : Prop :=
  exists n, exec restart n s st = Some (Returns st') \/
            exists st1, exec restart n s st = Some (Completes st1) /\ st' = fin st1.
Definition src_throws (restart : bool) (s : stmt) (st st' : St) : Prop :=
  exists n, exec restart n s st = Some (Throws st').
Definition src_diverges (restart : bool) (s : stmt) (st : St) : Prop :=
  forall n, exec restart n s st = None.

(** Bytecode. *)
Definition vm_returns (p : list cmd) (st st' : St) : Prop := exists k, run p k (start st) = Ret st'.
Definition vm_throws (p : list cmd) (st st' : St) : Prop := exists k, run p k (start st) = Thr st'.
Definition vm_diverges (p : list cmd) (st : St) : Prop :=
  forall k, exists pc stk s, run p k (start st) = Run pc stk s.
Definition vm_crashes (p : list cmd) (st : St) : Prop := exists k, run p k (start st) = Bad.

(** The bytecode behaves as the source. *)
Definition same_behaviour (restart : bool) (s : stmt) (fin : St -> St) (p : list cmd) : Prop :=
  forall st,
    (forall st', vm_returns p st st' <-> src_returns restart s fin st st') /\
    (forall st', vm_throws p st st' <-> src_throws restart s st st') /\
    (vm_diverges p st <-> src_diverges restart s st) /\
    ~ vm_crashes p st.

(** *** Syntactic conditions *)

(** No [continue] that belongs to a do-while or loop-until loop. *)
Fixpoint no_continue (s : stmt) : bool :=     (* no continue bound outside [s] *)
  match s with
  | SContinue => false
  | SGroup b => no_continue_b b
  | SIf _ t e => no_continue t && no_continue e
  | SSwitch _ cs => no_continue_c cs
  | _ => true
  end
with no_continue_b (b : block) : bool :=
  match b with BNil => true | BCons s r => no_continue s && no_continue_b r end
with no_continue_c (cs : @cases St) : bool :=
  match cs with CNil => true | CCons _ b r => no_continue_b b && no_continue_c r end.

Fixpoint do_without_continue (s : stmt) : bool :=
  match s with
  | SGroup b => do_without_continue_b b
  | SIf _ t e => do_without_continue t && do_without_continue e
  | SWhile _ b | SFor _ _ _ b => do_without_continue b
  | SDo b _ | SUntil b _ => no_continue b && do_without_continue b
  | SSwitch _ cs => do_without_continue_c cs
  | _ => true
  end
with do_without_continue_b (b : block) : bool :=
  match b with BNil => true | BCons s r => do_without_continue s && do_without_continue_b r end
with do_without_continue_c (cs : @cases St) : bool :=
  match cs with CNil => true | CCons _ b r => do_without_continue_b b && do_without_continue_c r end.

(** No break bound outside [s]. *)
Fixpoint no_break (s : @stmt St) : bool :=
  match s with
  | SBreak => false
  | SGroup b => no_break_b b
  | SIf _ t e => no_break t && no_break e
  | _ => true
  end
with no_break_b (b : block) : bool :=
  match b with BNil => true | BCons s r => no_break s && no_break_b r end.
Fixpoint no_break_c (cs : @cases St) : bool :=
  match cs with CNil => true | CCons _ b r => no_break_b b && no_break_c r end.

(** The loop has no condition or a constant one that never ends it. *)
Definition forever (c : option (@cond St)) : bool :=
  match c with None => true | Some (KConst b) => b | Some (KDyn _) => false end.
Definition forever_until (c : option (@cond St)) : bool :=
  match c with None => true | Some (KConst b) => negb b | Some (KDyn _) => false end.

(** No return, throw or endless loop anywhere in [s]. *)
Fixpoint calm (s : @stmt St) : bool :=
  match s with
  | SReturn _ | SThrow _ => false
  | SGroup b => calm_b b
  | SIf _ t e => calm t && calm e
  | SWhile c b | SFor _ c _ b | SDo b c => negb (forever c) && calm b
  | SUntil b c => negb (forever_until c) && calm b
  | SSwitch _ cs => calm_c cs
  | _ => true
  end
with calm_b (b : block) : bool :=
  match b with BNil => true | BCons s r => calm s && calm_b r end
with calm_c (cs : @cases St) : bool :=
  match cs with CNil => true | CCons _ b r => calm_b b && calm_c r end.

(** The last statement of the block is an action, break, continue, return or
    throw (resp. break, return or throw). *)
Fixpoint ends_simply (b : @block St) : bool :=
  match b with
  | BNil => false
  | BCons s BNil =>
    match s with SAct _ | SBreak | SContinue | SReturn _ | SThrow _ => true | _ => false end
  | BCons _ r => ends_simply r
  end.
Fixpoint ends_with_jump (b : @block St) : bool :=
  match b with
  | BNil => false
  | BCons s BNil => match s with SBreak | SReturn _ | SThrow _ => true | _ => false end
  | BCons _ r => ends_with_jump r
  end.
Fixpoint last_ends_simply (cs : @cases St) : bool :=
  match cs with
  | CNil => false
  | CCons _ b CNil => ends_simply b
  | CCons _ _ r => last_ends_simply r
  end.

(** Plain statements: a loop that can end by its condition holds no return, throw
    or endless loop; an endless loop holds none either, or no break of its own; a
    switch with a default ends its last case with a simple statement, and a
    switch on a constant mixes no breaks with other jumps. *)
Fixpoint plain (s : @stmt St) : bool :=
  match s with
  | SGroup b => plain_b b
  | SIf _ t e => plain t && plain e
  | SWhile c b | SFor _ c _ b | SDo b c => plain b && (calm b || (forever c && no_break b))
  | SUntil b c => plain b && (calm b || (forever_until c && no_break b))
  | SSwitch (LDyn _) cs =>
    plain_c cs && (default_count cs <=? 1)%nat &&
    ((default_count cs =? 0)%nat || last_ends_simply cs)
  | SSwitch (LConst _) cs =>
    plain_c cs && (default_count cs <=? 1)%nat &&
    ((calm_c cs && no_continue_c cs) || (no_break_c cs && last_ends_simply cs))
  | _ => true
  end
with plain_b (b : block) : bool :=
  match b with BNil => true | BCons s r => plain s && plain_b r end
with plain_c (cs : @cases St) : bool :=
  match cs with CNil => true | CCons _ b r => plain_b b && plain_c r end.

(** A switch with at most one constant is: one case; or a constant case followed
    by the default, the first ending with a jump if the selector is constant; or
    two such cases in any order, both ending with a jump. *)
Definition simple_shape (e : @sel St) (cs : @cases St) : bool :=
  match cs with
  | CNil => true
  | CCons [] _ _ => false
  | CCons _ _ CNil => true
  | CCons _ _ (CCons [] _ _) => false
  | CCons ls1 b1 (CCons ls2 b2 CNil) =>
    (number_of_rows cs =? 1)%nat &&
    ((negb (has_default ls1) && has_default ls2 &&
      (match e with LDyn _ => true | LConst _ => false end || ends_with_jump b1)) ||
     (has_default ls1 && negb (has_default ls2) && ends_with_jump b1 && ends_with_jump b2))
  | _ => false
  end.
Fixpoint simple_shapes (s : @stmt St) : bool :=
  match s with
  | SGroup b => simple_shapes_b b
  | SIf _ t e => simple_shapes t && simple_shapes e
  | SWhile _ b | SFor _ _ _ b | SDo b _ | SUntil b _ => simple_shapes b
  | SSwitch e cs => simple_shapes_c cs && (negb (number_of_rows cs <=? 1)%nat || simple_shape e cs)
  | _ => true
  end
with simple_shapes_b (b : block) : bool :=
  match b with BNil => true | BCons s r => simple_shapes s && simple_shapes_b r end
with simple_shapes_c (cs : @cases St) : bool :=
  match cs with CNil => true | CCons _ b r => simple_shapes_b b && simple_shapes_c r end.

(** A well-formed statement: break is inside a loop or switch ([b]), continue
    inside a loop ([c]), and no switch repeats a constant or the default. *)
Fixpoint all_labels (cs : @cases St) : list (option Z) :=
  match cs with CNil => [] | CCons ls _ r => ls ++ all_labels r end.
Fixpoint well_formed (b c : bool) (s : @stmt St) : Prop :=
  match s with
  | SGroup l => well_formed_b b c l
  | SIf _ t e => well_formed b c t /\ well_formed b c e
  | SWhile _ l | SFor _ _ _ l | SDo l _ | SUntil l _ => well_formed true true l
  | SSwitch _ cs => NoDup (all_labels cs) /\ well_formed_c true c cs
  | SBreak => b = true
  | SContinue => c = true
  | _ => True
  end
with well_formed_b (b c : bool) (l : block) : Prop :=
  match l with BNil => True | BCons s r => well_formed b c s /\ well_formed_b b c r end
with well_formed_c (b c : bool) (cs : cases) : Prop :=
  match cs with CNil => True | CCons _ l r => well_formed_b b c l /\ well_formed_c b c r end.

End Spec.
