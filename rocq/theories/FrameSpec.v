(** What "calling a method and returning from it" ranges over: every execution of
    the callee, with all its nested calls, that keeps to its own frame. *)

From Coq Require Import List Bool ZArith.
Import ListNotations.
From Verif Require Import FrameModel.
Open Scope Z_scope.

(** Operands and variables the command may use in the current frame: operands lie
    above the locals, variables are named by their unit numbers. *)
Definition operands (P : program) (s : vm) : Z :=
  v_top s - (v_lp s + me_locals (P (v_meth s))).

Definition in_frame (P : program) (c : cmd) (s : vm) : Prop :=
  match c with
  | CConst _ | CJmp _ | CRet => True
  | CLoadL i => 0 <= i < me_locals (P (v_meth s))
  | CLoadA i => 0 <= i < me_args (P (v_meth s))
  | CStoreL i => 0 <= i < me_locals (P (v_meth s)) /\ 1 <= operands P s
  | CStoreA i => 0 <= i < me_args (P (v_meth s)) /\ 1 <= operands P s
  | CPop | CJz _ => 1 <= operands P s
  | CBin _ => 2 <= operands P s
  | CCall m =>
    me_args (P m) + (match me_ret (P m) with RStruct => 1 | _ => 0 end) <= operands P s
  end.

(** The units a method leaves on its operand stack when it returns. *)
Definition ret_units (k : rkind) : Z := match k with ROne => 1 | _ => 0 end.

(** At a ret command with the method's result, and nothing else, on the operand
    stack. *)
Definition at_ret (P : program) (s : vm) : Prop :=
  fetch P s = Some CRet /\ operands P s = ret_units (me_ret (P (v_meth s))).

(** [running P s s']: from [s] the current method comes to [s'] in the same frame.
    Calls made on the way have returned, or were abandoned by an exception; the
    exception is then caught here (it is pushed and control moves to [pc]) or is
    still on its way ([s2] itself). *)
Inductive running (P : program) : vm -> vm -> Prop :=
| rn_refl s : running P s s
| rn_local s c s1 s' :
    fetch P s = Some c -> in_frame P c s ->
    local_cmd P c (advance s) = Some s1 ->
    running P s1 s' -> running P s s'
| rn_call s m s1 s2 s' :
    fetch P s = Some (CCall m) -> in_frame P (CCall m) s ->
    running P (push_calling P m (advance s)) s1 ->
    at_ret P s1 -> do_ret P (advance s1) = Some s2 ->
    running P s2 s' -> running P s s'
| rn_caught s m s1 s2 u pc s' :
    fetch P s = Some (CCall m) -> in_frame P (CCall m) s ->
    running P (push_calling P m (advance s)) s1 ->
    unwind_frame P s1 = Some s2 ->
    running P (with_pc (push s2 u) pc) s' -> running P s s'
| rn_thrown s m s1 s2 :
    fetch P s = Some (CCall m) -> in_frame P (CCall m) s ->
    running P (push_calling P m (advance s)) s1 ->
    unwind_frame P s1 = Some s2 -> running P s s2.

(** Unit counts are not negative. *)
Definition sane (P : program) : Prop :=
  forall m, 0 <= me_args (P m) /\ 0 <= me_locals (P m).

(** ** Expressions on the operand stack *)

Inductive ex :=
| XConst (z : Z)
| XLocal (i : Z)
| XArg (i : Z)
| XBin (f : Z -> Z -> Z) (a b : ex).

(** The commands of an expression: the operands, left to right, then the operator. *)
Fixpoint ex_code (e : ex) : list cmd :=
  match e with
  | XConst z => [CConst z]
  | XLocal i => [CLoadL i]
  | XArg i => [CLoadA i]
  | XBin f a b => ex_code a ++ ex_code b ++ [CBin f]
  end.

(** Its value where the locals and the arguments hold these values. *)
Fixpoint ex_value (loc arg : Z -> Z) (e : ex) : Z :=
  match e with
  | XConst z => z
  | XLocal i => loc i
  | XArg i => arg i
  | XBin f a b => f (ex_value loc arg a) (ex_value loc arg b)
  end.

(** The variables it names are the method's. *)
Fixpoint ex_names (me : meth) (e : ex) : Prop :=
  match e with
  | XConst _ => True
  | XLocal i => 0 <= i < me_locals me
  | XArg i => 0 <= i < me_args me
  | XBin _ a b => ex_names me a /\ ex_names me b
  end.

(** Assignments to locals and arguments, one after another. *)
Inductive target := TLocal (i : Z) | TArg (i : Z).

Definition set_code (a : target * ex) : list cmd :=
  ex_code (snd a) ++ [match fst a with TLocal i => CStoreL i | TArg i => CStoreA i end].

Definition set_names (me : meth) (a : target * ex) : Prop :=
  match fst a with
  | TLocal i => 0 <= i < me_locals me
  | TArg i => 0 <= i < me_args me
  end /\ ex_names me (snd a).

Definition put (v : Z -> Z) (i z : Z) : Z -> Z := fun j => if j =? i then z else v j.

Fixpoint sets_value (loc arg : Z -> Z) (l : list (target * ex)) : (Z -> Z) * (Z -> Z) :=
  match l with
  | [] => (loc, arg)
  | (TLocal i, e) :: l' => sets_value (put loc i (ex_value loc arg e)) arg l'
  | (TArg i, e) :: l' => sets_value loc (put arg i (ex_value loc arg e)) l'
  end.
