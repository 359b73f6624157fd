(** Reference semantics of try/catch/finally, calls and jumps: a big-step
    relation on the source statements, with no code, blocks, queues or frames. *)

From Coq Require Import List Bool Arith.
Import ListNotations.
From Verif Require Import ExcModel.

(** [t] is the class [c], or one of its base types is. *)
Inductive derives : rtype -> nat -> Prop :=
| der_here t : derives t (rt_id t)
| der_base i b c : derives b c -> derives (RSub i b) c.

Section ExcSpec.
Context {St : Type}.

Inductive outcome :=
| ONormal | OBreak | OContinue | OReturn | OExc (e : exn).

(** The first catch clause whose type is the exception's type or a base of it. *)
Inductive selects (e : exn)
  : @catches St -> (exn -> St -> St) -> @stmt St -> Prop :=
| sel_here ty bind b r : derives (x_type e) ty -> selects e (CCons ty bind b r) bind b
| sel_next ty bind b r bind' b' :
    ~ derives (x_type e) ty -> selects e r bind' b' -> selects e (CCons ty bind b r) bind' b'.

Inductive unhandled (e : exn) : @catches St -> Prop :=
| un_nil : unhandled e CNil
| un_cons ty bind b r :
    ~ derives (x_type e) ty -> unhandled e r -> unhandled e (CCons ty bind b r).

Definition is_exc (o : outcome) : Prop := match o with OExc _ => True | _ => False end.

(** [exec body s st o st' q]: from [st], statement [s] ends with outcome [o] in
    [st']; [q] is true when no exception was thrown on the way.  A finally part
    must end normally, and when it runs because of an exception it must not throw
    even internally: the behaviour outside these limits is in the refutations. *)
Inductive exec (body : nat -> @stmt St) : @stmt St -> St -> outcome -> St -> bool -> Prop :=
| E_empty st : exec body SEmpty st ONormal st true
| E_act f st : exec body (SAct f) st ONormal (f st) true
| E_seq a b st st1 o st2 q1 q2 :
    exec body a st ONormal st1 q1 -> exec body b st1 o st2 q2 ->
    exec body (SSeq a b) st o st2 (q1 && q2)
| E_seq_abrupt a b st o st1 q :
    exec body a st o st1 q -> o <> ONormal -> exec body (SSeq a b) st o st1 q
| E_if c t e st (v : bool) st1 o st2 q :
    c st = (v, st1) -> exec body (if v then t else e) st1 o st2 q ->
    exec body (SIf c t e) st o st2 q
| E_while_end c b st st1 :
    c st = (false, st1) -> exec body (SWhile c b) st ONormal st1 true
| E_while_next c b st st1 o1 st2 q1 o2 st3 q2 :
    c st = (true, st1) -> exec body b st1 o1 st2 q1 ->
    o1 = ONormal \/ o1 = OContinue ->
    exec body (SWhile c b) st2 o2 st3 q2 ->
    exec body (SWhile c b) st o2 st3 (q1 && q2)
| E_while_break c b st st1 st2 q :
    c st = (true, st1) -> exec body b st1 OBreak st2 q ->
    exec body (SWhile c b) st ONormal st2 q
| E_while_abrupt c b st st1 o st2 q :
    c st = (true, st1) -> exec body b st1 o st2 q ->
    o = OReturn \/ is_exc o ->
    exec body (SWhile c b) st o st2 q
| E_break st : exec body SBreak st OBreak st true
| E_continue st : exec body SContinue st OContinue st true
| E_return f st :
    exec body (SReturn f) st OReturn (match f with Some g => g st | None => st end) true
| E_throw f st e st1 :
    f st = (e, st1) -> exec body (SThrow f) st (OExc e) st1 false
| E_call m st o st1 q :
    exec body (body m) st o st1 q -> o = ONormal \/ o = OReturn ->
    exec body (SCall m) st ONormal st1 q
| E_call_exc m st e st1 q :
    exec body (body m) st (OExc e) st1 q -> exec body (SCall m) st (OExc e) st1 q
(* the body ends without an exception, or with one that no catch clause takes *)
| E_try b cs f st o st1 q1 st2 q2 :
    exec body b st o st1 q1 ->
    (forall e, o = OExc e -> unhandled e cs) ->
    exec body f st1 ONormal st2 q2 ->
    (is_exc o -> q2 = true) ->
    exec body (STry b cs f) st o st2 (q1 && q2)
(* a catch clause takes the exception *)
| E_try_catch b cs f st e st1 q1 bind cb o st2 q2 st3 q3 :
    exec body b st (OExc e) st1 q1 ->
    selects e cs bind cb ->
    exec body cb (bind e st1) o st2 q2 ->
    exec body f st2 ONormal st3 q3 ->
    (is_exc o -> q3 = true) ->
    exec body (STry b cs f) st o st3 (q1 && q2 && q3).

(** What the caller of a whole program sees. *)
Inductive result := RDone (s : St) | RUncaught (e : exn) (s : St).

Inductive exec_method (body : nat -> @stmt St) (m : nat) (st : St) : result -> Prop :=
| EM_done o st' q :
    exec body (body m) st o st' q -> o = ONormal \/ o = OReturn ->
    exec_method body m st (RDone st')
| EM_uncaught e st' q :
    exec body (body m) st (OExc e) st' q -> exec_method body m st (RUncaught e st').

(** *** The unrestricted meaning *)

(** A finally part that ends abruptly replaces the pending outcome. *)
Definition after_finally (o of : outcome) : outcome :=
  match of with ONormal => o | _ => of end.

(** The same language with no restriction on what a finally part does. *)
Inductive xexec (body : nat -> @stmt St) : @stmt St -> St -> outcome -> St -> Prop :=
| X_empty st : xexec body SEmpty st ONormal st
| X_act f st : xexec body (SAct f) st ONormal (f st)
| X_seq a b st st1 o st2 :
    xexec body a st ONormal st1 -> xexec body b st1 o st2 -> xexec body (SSeq a b) st o st2
| X_seq_abrupt a b st o st1 :
    xexec body a st o st1 -> o <> ONormal -> xexec body (SSeq a b) st o st1
| X_if c t e st (v : bool) st1 o st2 :
    c st = (v, st1) -> xexec body (if v then t else e) st1 o st2 ->
    xexec body (SIf c t e) st o st2
| X_while_end c b st st1 :
    c st = (false, st1) -> xexec body (SWhile c b) st ONormal st1
| X_while_next c b st st1 o1 st2 o2 st3 :
    c st = (true, st1) -> xexec body b st1 o1 st2 ->
    o1 = ONormal \/ o1 = OContinue ->
    xexec body (SWhile c b) st2 o2 st3 -> xexec body (SWhile c b) st o2 st3
| X_while_break c b st st1 st2 :
    c st = (true, st1) -> xexec body b st1 OBreak st2 -> xexec body (SWhile c b) st ONormal st2
| X_while_abrupt c b st st1 o st2 :
    c st = (true, st1) -> xexec body b st1 o st2 -> o = OReturn \/ is_exc o ->
    xexec body (SWhile c b) st o st2
| X_break st : xexec body SBreak st OBreak st
| X_continue st : xexec body SContinue st OContinue st
| X_return f st :
    xexec body (SReturn f) st OReturn (match f with Some g => g st | None => st end)
| X_throw f st e st1 : f st = (e, st1) -> xexec body (SThrow f) st (OExc e) st1
| X_call m st o st1 :
    xexec body (body m) st o st1 -> o = ONormal \/ o = OReturn ->
    xexec body (SCall m) st ONormal st1
| X_call_exc m st e st1 :
    xexec body (body m) st (OExc e) st1 -> xexec body (SCall m) st (OExc e) st1
| X_try b cs f st o st1 of st2 :
    xexec body b st o st1 -> (forall e, o = OExc e -> unhandled e cs) ->
    xexec body f st1 of st2 -> xexec body (STry b cs f) st (after_finally o of) st2
| X_try_catch b cs f st e st1 bind cb o st2 of st3 :
    xexec body b st (OExc e) st1 -> selects e cs bind cb ->
    xexec body cb (bind e st1) o st2 -> xexec body f st2 of st3 ->
    xexec body (STry b cs f) st (after_finally o of) st3.

Inductive xexec_method (body : nat -> @stmt St) (m : nat) (st : St) : result -> Prop :=
| XM_done o st' :
    xexec body (body m) st o st' -> o = ONormal \/ o = OReturn ->
    xexec_method body m st (RDone st')
| XM_uncaught e st' :
    xexec body (body m) st (OExc e) st' -> xexec_method body m st (RUncaught e st').

(** *** The statements the theorems speak about *)

(** Control can reach the end of the statement. *)
Fixpoint may_end (s : @stmt St) : bool :=
  match s with
  | SEmpty | SAct _ | SCall _ | SWhile _ _ => true
  | SSeq a b => may_end a && may_end b
  | SIf _ t e => may_end t || may_end e
  | SBreak | SContinue | SReturn _ | SThrow _ => false
  | STry b cs f => (may_end b || may_end_catches cs) && may_end f
  end
with may_end_catches (cs : @catches St) : bool :=
  match cs with
  | CNil => false
  | CCons _ _ b r => may_end b || may_end_catches r
  end.

(** No break, continue or return anywhere in the statement. *)
Fixpoint no_jump (s : @stmt St) : Prop :=
  match s with
  | SEmpty | SAct _ | SCall _ | SThrow _ => True
  | SSeq a b => no_jump a /\ no_jump b
  | SIf _ t e => no_jump t /\ no_jump e
  | SWhile _ b => no_jump b
  | SBreak | SContinue | SReturn _ => False
  | STry b cs f => no_jump b /\ no_jump_catches cs /\ no_jump f
  end
with no_jump_catches (cs : @catches St) : Prop :=
  match cs with CNil => True | CCons _ _ b r => no_jump b /\ no_jump_catches r end.

Fixpoint catches_exception (cs : @catches St) : Prop :=
  match cs with
  | CNil => False
  | CCons ty _ _ r => ty = exc_root \/ catches_exception r
  end.

(** [tame prot s]: in [s] (inside a try statement when [prot])
    - a loop body can reach its end;
    - a return inside a try statement has no value;
    - when a catch body can reach its end, so can the try body, or else the try
      body leaves only by exceptions and some clause catches the root type. *)
Fixpoint tame (prot : bool) (s : @stmt St) : Prop :=
  match s with
  | SEmpty | SAct _ | SCall _ | SBreak | SContinue | SThrow _ => True
  | SSeq a b => tame prot a /\ tame prot b
  | SIf _ t e => tame prot t /\ tame prot e
  | SWhile _ b => may_end b = true /\ tame prot b
  | SReturn f => prot = true -> f = None
  | STry b cs f =>
    tame true b /\ tame_catches cs /\ tame true f
    /\ (may_end_catches cs = true ->
        may_end b = true \/ (no_jump b /\ catches_exception cs))
  end
with tame_catches (cs : @catches St) : Prop :=
  match cs with CNil => True | CCons _ _ b r => tame true b /\ tame_catches r end.

Definition tame_prog (body : nat -> @stmt St) : Prop := forall m, tame false (body m).

End ExcSpec.
