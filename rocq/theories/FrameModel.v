(** Model of call frames on the executor's stack: include/modules/exec.h 77-274
    (executor_stack_t), 963-1028 (push_calling, pop_calling, restore_stack) and
    modules/exec/commands.cpp 4080-4110 (call), 5537-5616 (ret), 5829-5837
    (__pop_calling).

    The stack is an array of units.  A unit holds a value, or one of the three words
    of a calling stub (exec.h 930-935).  A code pointer is a method and an index into
    its commands. *)

From Coq Require Import List Bool ZArith Lia.
Import ListNotations.
Open Scope Z_scope.

Inductive unit_ :=
| UVal (z : Z)
| ULp (a : Z)                          (* stub word: the caller's local pointer *)
| UCur (m : nat) (pc : nat)            (* stub word: the caller's next command *)
| UMeth (m : nat).                     (* stub word: the method *)

(** Commands: a constant, loads and stores of locals and arguments, an operation on
    the two top units, jumps, calls and return. *)
Inductive cmd :=
| CConst (z : Z)
| CLoadL (i : Z) | CStoreL (i : Z)
| CLoadA (i : Z) | CStoreA (i : Z)
| CPop
| CBin (f : Z -> Z -> Z)
| CJmp (pc : nat)
| CJz (pc : nat)                       (* pops; jumps when zero *)
| CCall (m : nat)
| CRet.

(** The three ret commands, commands.cpp 5524-5531 and 5657-5699. *)
Inductive rkind := RNone | ROne | RStruct.

Record meth := Meth {
  me_args : Z;                         (* params_layout.unit_size() *)
  me_locals : Z;                       (* locals_layout.unit_size() *)
  me_ret : rkind;
  me_code : list cmd }.

Definition program := nat -> meth.

Record vm := Vm { v_mem : Z -> unit_; v_top : Z; v_lp : Z; v_meth : nat; v_pc : nat }.

Definition upd (mem : Z -> unit_) (a : Z) (u : unit_) : Z -> unit_ :=
  fun b => if b =? a then u else mem b.

(** push_calling, exec.h 963-971.  The argument of [ctx.current] here is the command
    after the call (the main loop fetches [*ctx.current++]). *)
Definition push_calling (P : program) (m : nat) (s : vm) : vm :=
  let t := v_top s in
  Vm (upd (upd (upd (v_mem s) t (ULp (v_lp s))) (t + 1) (UCur (v_meth s) (v_pc s)))
          (t + 2) (UMeth m))
     (t + 3 + me_locals (P m)) (t + 3) m 0%nat.

(** The stub of the current frame, exec.h 992-995; [None] when the units below the
    local pointer are not a stub. *)
Definition stub (s : vm) : option (Z * (nat * nat)) :=
  match v_mem s (v_lp s - 3), v_mem s (v_lp s - 2) with
  | ULp a, UCur m pc => Some (a, (m, pc))
  | _, _ => None
  end.

(** ret, commands.cpp 5554-5563 (0 or 1 unit) and 5597-5605 (struct): pop
    [param + 3 + local] units, restore [current] and [lp] from the stub, then copy
    the top unit to just below the new top, or pop the struct's address. *)
Definition do_ret (P : program) (s : vm) : option vm :=
  match stub s with
  | None => None
  | Some (lp, (m, pc)) =>
    let me := P (v_meth s) in
    let total := me_args me + 3 + me_locals me in
    let p := v_top s - total in
    match me_ret me with
    | RNone => Some (Vm (v_mem s) p lp m pc)
    | ROne => Some (Vm (upd (v_mem s) (p - 1) (v_mem s (p + (total - 1)))) p lp m pc)
    | RStruct => Some (Vm (v_mem s) (p - 1) lp m pc)
    end
  end.

(** __pop_calling, commands.cpp 5829-5837: remove the frame during exception
    handling (pop_calling, exec.h 981-989) and empty the caller's operand stack
    (restore_stack, 1025-1028). *)
Definition unwind_frame (P : program) (s : vm) : option vm :=
  match stub s with
  | None => None
  | Some (lp, (m, pc)) => Some (Vm (v_mem s) (lp + me_locals (P m)) lp m pc)
  end.

Definition push (s : vm) (u : unit_) : vm :=
  Vm (upd (v_mem s) (v_top s) u) (v_top s + 1) (v_lp s) (v_meth s) (v_pc s).
Definition with_pc (s : vm) (pc : nat) : vm := Vm (v_mem s) (v_top s) (v_lp s) (v_meth s) pc.

(** The address of argument unit [i] of the current method: the arguments lie just
    below the stub. *)
Definition arg_addr (P : program) (s : vm) (i : Z) : Z :=
  v_lp s - 3 - me_args (P (v_meth s)) + i.

(** Commands that stay in the frame; [v_pc] already points at the next command. *)
Definition local_cmd (P : program) (c : cmd) (s : vm) : option vm :=
  match c with
  | CConst z => Some (push s (UVal z))
  | CLoadL i => Some (push s (v_mem s (v_lp s + i)))
  | CLoadA i => Some (push s (v_mem s (arg_addr P s i)))
  | CStoreL i =>
    Some (Vm (upd (v_mem s) (v_lp s + i) (v_mem s (v_top s - 1))) (v_top s - 1)
             (v_lp s) (v_meth s) (v_pc s))
  | CStoreA i =>
    Some (Vm (upd (v_mem s) (arg_addr P s i) (v_mem s (v_top s - 1))) (v_top s - 1)
             (v_lp s) (v_meth s) (v_pc s))
  | CPop => Some (Vm (v_mem s) (v_top s - 1) (v_lp s) (v_meth s) (v_pc s))
  | CBin f =>
    match v_mem s (v_top s - 2), v_mem s (v_top s - 1) with
    | UVal a, UVal b =>
      Some (Vm (upd (v_mem s) (v_top s - 2) (UVal (f a b))) (v_top s - 1)
               (v_lp s) (v_meth s) (v_pc s))
    | _, _ => None
    end
  | CJmp pc => Some (with_pc s pc)
  | CJz pc =>
    match v_mem s (v_top s - 1) with
    | UVal z => Some (Vm (v_mem s) (v_top s - 1) (v_lp s) (v_meth s)
                         (if z =? 0 then pc else v_pc s))
    | _ => None
    end
  | CCall _ | CRet => None
  end.

(** Fetch: the command at [current], which is advanced. *)
Definition fetch (P : program) (s : vm) : option cmd :=
  nth_error (me_code (P (v_meth s))) (v_pc s).
Definition advance (s : vm) : vm := with_pc s (S (v_pc s)).
