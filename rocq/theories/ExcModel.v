(** Model of try/catch/finally: the code and block table that the statement
    compiler writes, the block table the VM builds from it, and the VM's
    exception stack, block queue and call frames.

    Modelled: modules/compile/statements.cpp 282-314, 559-662, 1500-1681;
    modules/core/core.cpp 8208-8265 (xilx_block_manager_t);
    modules/exec/parser.cpp 238-296; include/modules/exec.h 385-529, 535-618,
    642-859, 963-1070; modules/exec/commands.cpp 5750-6073, 6196-6267.
    Simplified: labels are resolved to absolute command indices (the relative
    encoding is the subject of StmtModel.v); only dynamic conditions, [while]
    loops and two-way sequences are kept; a condition and the jump on it are one
    command, and so are a throw and the code of its expression; expressions are
    opaque functions on the program state [St]. *)

From Coq Require Import List Bool Arith Lia.
Import ListNotations.

(** *** Runtime types and exceptions *)

(** rt_type_t and its base type; a base-type chain is finite. *)
Inductive rtype := RRoot (id : nat) | RSub (id : nat) (base : rtype).
Definition rt_id (t : rtype) : nat := match t with RRoot i => i | RSub i _ => i end.

(** [__is_base_type], commands.cpp 5750-5761. *)
Fixpoint is_base_type (t : rtype) (base : nat) : bool :=
  if Nat.eqb (rt_id t) base then true
  else match t with RRoot _ => false | RSub _ b => is_base_type b base end.

(** An exception object: its dynamic type and its identity. *)
Record exn := Exn { x_type : rtype; x_val : nat }.

(** [__XPool.get_exception_type()]: the id of the root exception type. *)
Definition exc_root : nat := 0.

Section Exc.
Context {St : Type}.

(** *** Statements *)

Inductive stmt :=
| SEmpty
| SAct (f : St -> St)
| SSeq (a b : stmt)                              (* a statement group of two *)
| SIf (c : St -> bool * St) (t e : stmt)
| SWhile (c : St -> bool * St) (b : stmt)
| SBreak
| SContinue
| SReturn (f : option (St -> St))                (* [None]: return without a value *)
| SThrow (f : St -> exn * St)
| SCall (m : nat)
| STry (b : stmt) (cs : catches) (f : stmt)      (* [f] = SEmpty: no finally *)
(** catch (type variable) body; [bind] stores the exception in the variable. *)
with catches := CNil | CCons (ty : nat) (bind : exn -> St -> St) (b : stmt) (r : catches).

(** [is_empty], statements.cpp 359-368, 1715-1718, __statements.h 23. *)
Fixpoint is_empty (s : stmt) : bool :=
  match s with
  | SEmpty => true
  | SSeq a b => is_empty a && is_empty b
  | _ => false
  end.

Definition no_catch (cs : catches) : bool := match cs with CNil => true | _ => false end.

(** *** Exit types *)

(** The flags of statement_exit_type_t that occur here. *)
Record ety := Ety { x_pass : bool; x_ret : bool; x_brk : bool; x_cont : bool; x_thr : bool }.
Definition x_none := Ety false false false false false.
Definition x_or a b :=
  Ety (x_pass a || x_pass b) (x_ret a || x_ret b) (x_brk a || x_brk b)
      (x_cont a || x_cont b) (x_thr a || x_thr b).
Definition x_is_none a := negb (x_pass a || x_ret a || x_brk a || x_cont a || x_thr a).
Definition x_add_pass a := Ety true (x_ret a) (x_brk a) (x_cont a) (x_thr a).
Definition x_del_pass a := Ety false (x_ret a) (x_brk a) (x_cont a) (x_thr a).
Definition x_del_loop a := Ety (x_pass a) (x_ret a) false false (x_thr a).
Definition x_del_thr a := Ety (x_pass a) (x_ret a) (x_brk a) (x_cont a) false.
Definition unreached (a : ety) : bool := negb (x_is_none a) && negb (x_pass a).

(** The test [to_type(c->type_name) == exception_type], statements.cpp 1673-1677. *)
Fixpoint catches_root (cs : catches) : bool :=
  match cs with
  | CNil => false
  | CCons ty _ _ r => Nat.eqb ty exc_root || catches_root r
  end.

(** exit_type: statements.cpp 541, 568-571, 590-593, 617-620, 665-668, 851-872,
    1062-1082, 1663-1681; __statements.h 649-673 for a group of two. *)
Fixpoint exit_type (s : stmt) : ety :=
  match s with
  | SEmpty => x_none
  | SAct _ | SCall _ => Ety true false false false false
  | SSeq a b =>
    let ea := exit_type a in
    if unreached ea then x_del_pass ea
    else let eb := exit_type b in
         let acc := x_or ea eb in
         if unreached eb then x_del_pass acc else acc
  | SIf _ t e =>
    let a := exit_type t in let b := exit_type e in
    let u := x_or a b in
    if (x_is_none a || x_is_none b) && negb (x_is_none u) then x_add_pass u else u
  | SWhile _ b => x_del_loop (exit_type b)
  | SBreak => Ety false false true false false
  | SContinue => Ety false false false true false
  | SReturn _ => Ety false true false false false
  | SThrow _ => Ety false false false false true
  | STry b cs f =>
    let ef := exit_type f in
    if unreached ef then ef
    else let et := exit_type b in
         if negb (x_thr et) then et
         else if catches_root cs then x_del_thr et else et
  end.

(** [__statement_pass], statements.cpp 169-173. *)
Definition pass (s : stmt) : bool :=
  let e := exit_type s in x_is_none e || x_pass e.

(** *** Code *)

Inductive instr :=
| IAct (f : St -> St)
| IJmp (t : nat)
| IJmpF (c : St -> bool * St) (t : nat)          (* condition; jmp if false *)
| ILeave (t : nat)
| ILeaveRet
| IRet (f : option (St -> St))
| IThrow (f : St -> exn * St)
| IPop (bind : exn -> St -> St)                  (* pop_variable at a catch entry *)
| IEndFin
| ICall (m : nat).

(** What the enclosing regions decide: the break and continue points, and
    whether [__need_leave] holds for them and for a return (statements.cpp
    282-314: the search for a break or continue stops at the loop, the one for a
    return at the method). *)
Record cctx := Cctx { c_brk : nat; c_cont : nat; c_leave : bool; c_lret : bool }.

Definition b2n (b : bool) : nat := if b then 1 else 0.

(** Number of commands written for a statement. *)
Fixpoint size (rm lv lr : bool) (s : stmt) : nat :=
  match s with
  | SEmpty => 0
  | SAct _ | SThrow _ | SCall _ => 1
  | SSeq a b =>
    size rm lv lr a + (if rm && unreached (exit_type a) then 0 else size rm lv lr b)
  | SIf _ t e => 1 + size rm lv lr t + 1 + size rm lv lr e
  | SWhile _ b => 1 + size rm false lr b + 1
  | SBreak | SContinue => b2n lv + 1
  | SReturn _ => b2n lr + 1
  | STry b cs f =>
    if rm && is_empty b then size rm lv lr f
    else if rm && is_empty f && no_catch cs then size rm lv lr b
    else
      let hf := negb (is_empty f) in
      let lv' := lv || hf || negb (no_catch cs) in
      let lr' := lr || hf || negb (no_catch cs) in
      size rm lv' lr' b + b2n (pass b) + csizes rm (lv || hf) (lr || hf) cs
      + (if hf then size rm lv lr f + b2n (pass f) else 0)
  end
with csizes (rm lv lr : bool) (cs : catches) : nat :=
  match cs with
  | CNil => 0
  | CCons _ _ b r => 1 + size rm lv lr b + b2n (pass b) + csizes rm lv lr r
  end.

(** The jump written after a try or catch body that can be passed. *)
Definition exit_jump (b : stmt) (hf : bool) (t : nat) : list instr :=
  if pass b then [if hf then ILeave t else IJmp t] else [].

(** [comp rm c p s]: the commands of [s] when its first command has index [p].
    [rm] is remove_unreached_codes. *)
Fixpoint comp (rm : bool) (c : cctx) (p : nat) (s : stmt) : list instr :=
  match s with
  | SEmpty => []
  | SAct f => [IAct f]
  | SThrow f => [IThrow f]                                     (* 603-614 *)
  | SCall m => [ICall m]
  | SSeq a b =>                                                (* 327-350 *)
    comp rm c p a
    ++ (if rm && unreached (exit_type a) then []
        else comp rm c (p + size rm (c_leave c) (c_lret c) a) b)
  | SIf f t e =>                                               (* 1017-1059 *)
    let n := size rm (c_leave c) (c_lret c) t in
    let m := size rm (c_leave c) (c_lret c) e in
    IJmpF f (p + 1 + n + 1) :: comp rm c (p + 1) t
    ++ IJmp (p + 1 + n + 1 + m) :: comp rm c (p + 1 + n + 1) e
  | SWhile f b =>                                              (* 824-848 *)
    let n := size rm false (c_lret c) b in
    IJmpF f (p + 1 + n + 1)
    :: comp rm (Cctx (p + 1 + n + 1) p false (c_lret c)) (p + 1) b ++ [IJmp p]
  | SBreak =>                                                  (* 559-565 *)
    (if c_leave c then [ILeave (c_brk c)] else []) ++ [IJmp (c_brk c)]
  | SContinue =>                                               (* 581-587 *)
    (if c_leave c then [ILeave (c_cont c)] else []) ++ [IJmp (c_cont c)]
  | SReturn f =>                                               (* 649-662 *)
    (if c_lret c then [ILeaveRet] else []) ++ [IRet f]
  | STry b cs f =>                                             (* 1561-1660 *)
    if rm && is_empty b then comp rm c p f
    else if rm && is_empty f && no_catch cs then comp rm c p b
    else
      let hf := negb (is_empty f) in
      let lv' := c_leave c || hf || negb (no_catch cs) in
      let lr' := c_lret c || hf || negb (no_catch cs) in
      let n1 := size rm lv' lr' b + b2n (pass b) in
      let n2 := csizes rm (c_leave c || hf) (c_lret c || hf) cs in
      let n3 := if hf then size rm (c_leave c) (c_lret c) f + b2n (pass f) else 0 in
      let t := p + n1 + n2 + n3 in
      comp rm (Cctx (c_brk c) (c_cont c) lv' lr') p b ++ exit_jump b hf t
      ++ ccomps rm (Cctx (c_brk c) (c_cont c) (c_leave c || hf) (c_lret c || hf)) hf t
                (p + n1) cs
      ++ (if hf then comp rm c (p + n1 + n2) f ++ (if pass f then [IEndFin] else []) else [])
  end
with ccomps (rm : bool) (c : cctx) (hf : bool) (t : nat) (p : nat) (cs : catches)
  : list instr :=
  match cs with
  | CNil => []
  | CCons _ bind b r =>
    IPop bind :: comp rm c (p + 1) b ++ exit_jump b hf t
    ++ ccomps rm c hf t (p + 1 + size rm (c_leave c) (c_lret c) b + b2n (pass b)) r
  end.

(** *** Block tables *)

Inductive bkind := BCatch (ty : nat) | BFinally.

(** exec_method_block_t without its parent, exec.h 535-578. *)
Record blk := Blk { b_start : nat; b_end : nat; b_entry : nat; b_kind : bkind }.

Definition covers (b : blk) (pt : nat) : bool := (b_start b <=? pt) && (pt <? b_end b).
(** include(block), exec.h 568-571. *)
Definition includes (b b' : blk) : bool :=
  (b_start b <=? b_start b') && (b_end b' <=? b_end b).
Definition is_finally (b : blk) : bool :=
  match b_kind b with BFinally => true | _ => false end.

(** The blocks in the order in which the regions are written, statements.cpp
    1533-1543: a catch or finally region appends its block and then writes what
    it contains. *)
Fixpoint blocks (rm lv lr : bool) (p : nat) (s : stmt) : list blk :=
  match s with
  | SSeq a b =>
    blocks rm lv lr p a
    ++ (if rm && unreached (exit_type a) then []
        else blocks rm lv lr (p + size rm lv lr a) b)
  | SIf _ t e =>
    let n := size rm lv lr t in
    blocks rm lv lr (p + 1) t ++ blocks rm lv lr (p + 1 + n + 1) e
  | SWhile _ b => blocks rm false lr (p + 1) b
  | STry b cs f =>
    if rm && is_empty b then blocks rm lv lr p f
    else if rm && is_empty f && no_catch cs then blocks rm lv lr p b
    else
      let hf := negb (is_empty f) in
      let lv' := lv || hf || negb (no_catch cs) in
      let lr' := lr || hf || negb (no_catch cs) in
      let nb := size rm lv' lr' b in
      let n1 := nb + b2n (pass b) in
      let n2 := csizes rm (lv || hf) (lr || hf) cs in
      blocks rm lv' lr' p b
      ++ cblocks rm (lv || hf) (lr || hf) p (p + nb) (p + n1) cs
      ++ (if hf then Blk p (p + n1 + n2) (p + n1 + n2) BFinally
                     :: blocks rm lv lr (p + n1 + n2) f
          else [])
  | _ => []
  end
with cblocks (rm lv lr : bool) (ps pe : nat) (p : nat) (cs : catches) : list blk :=
  match cs with
  | CNil => []
  | CCons ty _ b r =>
    Blk ps pe p (BCatch ty) :: blocks rm lv lr (p + 1) b
    ++ cblocks rm lv lr ps pe (p + 1 + size rm lv lr b + b2n (pass b)) r
  end.

(** The parent of block [i]: the first later block that includes it, parser.cpp
    279-293. *)
Fixpoint first_from (f : blk -> bool) (i : nat) (t : list blk) : option nat :=
  match t with
  | [] => None
  | b :: r => if f b then Some i else first_from f (S i) r
  end.
Definition parent (t : list blk) (i : nat) : option nat :=
  match nth_error t i with
  | None => None
  | Some b => first_from (fun b' => includes b' b) (S i) (skipn (S i) t)
  end.

(** [while ((block = block->parent) != nullptr)], exec.h 610-614: the blocks
    above block [i].  A parent is a later block, so [length t] steps suffice. *)
Fixpoint ancestors (fuel : nat) (t : list blk) (i : nat) : list blk :=
  match fuel with
  | O => []
  | S fuel' =>
    match parent t i with
    | None => []
    | Some j => match nth_error t j with
                | None => []
                | Some b => b :: ancestors fuel' t j
                end
    end
  end.

(** find_block, exec.h 593-618 and 891-898: the blocks handed to the callback,
    in order, when the callback never stops.  When no block covers the point the
    code reads the parent of the block one past the end of the table; [past_null]
    says whether that word happens to be null, and [None] is the undefined read.
    A method without blocks has no table at all. *)
Definition find_block (past_null : bool) (t : list blk) (want : blk -> bool) (pt : nat)
  : option (list blk) :=
  match t with
  | [] => Some []
  | _ =>
    match first_from (fun b => want b && covers b pt) 0 t with
    | None => if past_null then Some [] else None
    | Some i => match nth_error t i with
                | None => None
                | Some b => Some (b :: filter want (ancestors (length t) t i))
                end
    end
  end.

(** *** VM state *)

(** block_node_finally_action_t, exec.h 622-636. *)
Inductive action := ADefault | AJump (t : nat) | AReturn.

(** block_node_t, exec.h 642-699; the exception node is an index into the pool of
    exception nodes. *)
Record node := Node { n_lp : nat; n_blk : blk; n_exn : option nat; n_act : action }.

(** A call frame: the method, [current] (the next command), the local pointer,
    and the exception references on its operand stack. *)
Record frame := Frame { f_meth : nat; f_pc : nat; f_lp : nat; f_ops : list exn }.

(** exception_stack_t and its node pool (exec.h 385-529): the stack of nodes, the
    contents of every node, the queue of released nodes (reused first in, first
    out; a released node keeps its contents until it is reused), and the number
    of nodes allocated so far. *)
Record xmem := Xmem { xs : list nat; xh : nat -> exn; xfree : list nat; xnew : nat }.

Record mst := Mst {
  m_cur : frame;
  m_callers : list frame;
  m_q : list node;                   (* block queue *)
  m_ex : list node;                  (* executing finally nodes *)
  m_x : xmem;
  m_st : St }.

(** [Bad] is undefined behaviour or an internal error. *)
Inductive mres :=
| Running (m : mst)
| Done (s : St)
| Uncaught (e : exn) (s : St)
| Bad.

Definition set_pc (f : frame) (pc : nat) := Frame (f_meth f) pc (f_lp f) (f_ops f).
Definition set_ops (f : frame) (l : list exn) := Frame (f_meth f) (f_pc f) (f_lp f) l.

(** Pushing an exception, exec.h 503-510 with __acquire_node 441-456. *)
Definition x_push (e : exn) (x : xmem) : xmem :=
  match xfree x with
  | n :: r => Xmem (n :: xs x) (fun k => if Nat.eqb k n then e else xh x k) r (xnew x)
  | [] => Xmem (xnew x :: xs x) (fun k => if Nat.eqb k (xnew x) then e else xh x k) []
               (S (xnew x))
  end.
(** Popping: the node is released and keeps its contents. *)
Definition x_pop (x : xmem) : xmem :=
  match xs x with
  | [] => x
  | n :: r => Xmem r (xh x) (xfree x ++ [n]) (xnew x)
  end.

(** __process_block_nodes, commands.cpp 5803-5826. *)
Inductive pres := PEmpty | PCurEmpty | POk (m : mst).
Definition process_nodes (m : mst) : pres :=
  match m_q m with
  | [] => PEmpty
  | n :: r =>
    if negb (Nat.eqb (n_lp n) (f_lp (m_cur m))) then PCurEmpty
    else match n_exn n with
         | Some x =>
           POk (Mst (set_ops (set_pc (m_cur m) (b_entry (n_blk n)))
                             (xh (m_x m) x :: f_ops (m_cur m)))
                    (m_callers m) r (m_ex m) (m_x m) (m_st m))
         | None =>
           POk (Mst (set_pc (m_cur m) (b_entry (n_blk n)))
                    (m_callers m) r (n :: m_ex m) (m_x m) (m_st m))
         end
  end.

(** The loop of end_group, exec.h 728-741: drop the old nodes of the same frame
    whose block the last new block includes. *)
Fixpoint drop_old (lp : nat) (b : blk) (old : list node) : list node :=
  match old with
  | [] => []
  | n :: r => if Nat.eqb (n_lp n) lp && includes b (n_blk n) then drop_old lp b r else old
  end.

Definition last_blk (g : list node) : option blk :=
  match rev g with [] => None | n :: _ => Some (n_blk n) end.

(** begin_group .. end_group: the new queue and whether old nodes were dropped. *)
Definition regroup (lp : nat) (g old : list node) : list node * bool :=
  match last_blk g with
  | None => (old, false)
  | Some b =>
    let old' := drop_old lp b old in
    (g ++ old', negb (Nat.eqb (length old') (length old)))
  end.

(** The callback of __process_exception, commands.cpp 5856-5879: the nodes to
    queue, and whether a catch block was found. *)
Fixpoint handlers (lp : nat) (ty : rtype) (x : nat) (bs : list blk) : list node * bool :=
  match bs with
  | [] => ([], false)
  | b :: r =>
    match b_kind b with
    | BCatch c =>
      if is_base_type ty c then ([Node lp b (Some x) ADefault], true)
      else handlers lp ty x r
    | BFinally =>
      let (g, c) := handlers lp ty x r in (Node lp b None ADefault :: g, c)
    end
  end.

(** [last_node->set_next_command] and [set_following_command]. *)
Fixpoint set_last (a : action) (g : list node) : list node :=
  match g with
  | [] => []
  | [n] => [Node (n_lp n) (n_blk n) (n_exn n) a]
  | n :: r => n :: set_last a r
  end.

(** The callback of __process_finally, commands.cpp 5902-5911. *)
Fixpoint leaving (lp : nat) (t : nat) (bs : list blk) : list node :=
  match bs with
  | [] => []
  | b :: r => if covers b t then [] else Node lp b None ADefault :: leaving lp t r
  end.

(** A program: method bodies, the stack units of their locals, and of their
    arguments. *)
Record prog := Prog { p_body : nat -> stmt; p_locals : nat -> nat; p_args : nat -> nat }.

Definition ctx0 : cctx := Cctx 0 0 false false.

(** The commands of a method; the return that ast.cpp 2152-2180 appends. *)
Definition mcode (rm : bool) (P : prog) (m : nat) : list instr :=
  comp rm ctx0 0 (p_body P m) ++ (if pass (p_body P m) then [IRet None] else []).
Definition mtable (rm : bool) (P : prog) (m : nat) : list blk :=
  blocks rm false false 0 (p_body P m).

(** __process_exception, commands.cpp 5840-5894, from the current frame upwards
    (the [goto __continue_find__] loop is the recursion on the callers).  Each
    removed frame is __pop_calling (5829-5837): when no caller is left the VM ends
    with [terminal]; otherwise the caller's operand stack is emptied. *)
Fixpoint raise (rm pn : bool) (P : prog) (cur : frame) (callers : list frame)
    (q ex : list node) (x : xmem) (s : St) {struct callers} : mres :=
  match xs x with
  | [] => Bad
  | nid :: _ =>
    let e := xh x nid in
    match find_block pn (mtable rm P (f_meth cur)) (fun _ => true) (f_pc cur - 1) with
    | None => Bad
    | Some bs =>
      let (g, caught) := handlers (f_lp cur) (x_type e) nid bs in
      let x' := if caught then x_pop x else x in
      let (q', dropped) := regroup (f_lp cur) g q in
      match (if dropped then match ex with [] => None | _ :: r => Some r end else Some ex) with
      | None => Bad                              (* pop_executing of an empty stack *)
      | Some ex' =>
        match g with
        | [] =>
          match callers with
          | [] => Uncaught e s
          | c :: r => raise rm pn P (set_ops c []) r q' ex' x' s
          end
        | _ =>
          let m := Mst cur callers q' ex' x' s in
          match process_nodes m with POk m' => Running m' | _ => Running m end
        end
      end
    end
  end.

(** ret, commands.cpp 5537-5576: back to the caller ([Done] at the bottom). *)
Definition do_ret (m : mst) : mres :=
  match m_callers m with
  | [] => Done (m_st m)
  | c :: r => Running (Mst c r (m_q m) (m_ex m) (m_x m) (m_st m))
  end.

(** Running queued finally blocks after a leave; [other] is what happens when
    there are none. *)
Definition start_group (m : mst) (g : list node) (other : mres) : mres :=
  match g with
  | [] => other
  | _ =>
    let (q', _) := regroup (f_lp (m_cur m)) g (m_q m) in
    let m' := Mst (m_cur m) (m_callers m) q' (m_ex m) (m_x m) (m_st m) in
    match process_nodes m' with POk m2 => Running m2 | _ => Running m' end
  end.

(** One command; [m_cur] already points at the next one when it executes. *)
Definition exec_instr (rm pn : bool) (P : prog) (i : instr) (m : mst) : mres :=
  let cur := m_cur m in
  let t := mtable rm P (f_meth cur) in
  let go f s := Running (Mst f (m_callers m) (m_q m) (m_ex m) (m_x m) s) in
  match i with
  | IAct f => go cur (f (m_st m))
  | IJmp k => go (set_pc cur k) (m_st m)
  | IJmpF c k =>
    let (b, s') := c (m_st m) in go (if b then cur else set_pc cur k) s'
  | ILeave k =>                                  (* 5897-5922, 6196-6220 *)
    match find_block pn t is_finally (f_pc cur - 1) with
    | None => Bad
    | Some bs => start_group m (set_last (AJump k) (leaving (f_lp cur) k bs)) (Running m)
    end
  | ILeaveRet =>                                 (* 5925-5947, 6237-6267 *)
    match find_block pn t is_finally (f_pc cur - 1) with
    | None => Bad
    | Some bs =>
      start_group m
        (set_last AReturn (map (fun b => Node (f_lp cur) b None ADefault) bs)) (do_ret m)
    end
  | IRet f =>
    do_ret (Mst cur (m_callers m) (m_q m) (m_ex m) (m_x m)
                (match f with Some g => g (m_st m) | None => m_st m end))
  | IThrow f =>                                  (* 5954-5967 *)
    let (e, s') := f (m_st m) in
    raise rm pn P (set_ops cur []) (m_callers m) (m_q m) (m_ex m) (x_push e (m_x m)) s'
  | IPop bind =>
    match f_ops cur with
    | [] => Bad
    | e :: r => go (set_ops cur r) (bind e (m_st m))
    end
  | IEndFin =>                                   (* 6008-6073 *)
    match m_ex m with
    | [] => Bad
    | n :: r =>
      let m' := Mst cur (m_callers m) (m_q m) r (m_x m) (m_st m) in
      match n_act n with
      | AJump k => Running (Mst (set_pc cur k) (m_callers m) (m_q m) r (m_x m) (m_st m))
      | AReturn => do_ret m'
      | ADefault =>
        match process_nodes m' with
        | POk m2 => Running m2
        | _ =>
          match m_callers m with
          | [] => match xs (m_x m) with
                  | [] => Bad
                  | nid :: _ => Uncaught (xh (m_x m) nid) (m_st m)
                  end
          | c :: cr => raise rm pn P (set_ops c []) cr (m_q m) r (m_x m) (m_st m)
          end
        end
      end
    end
  | ICall k =>                                   (* push_calling, exec.h 963-971 *)
    Running (Mst (Frame k 0 (f_lp cur + p_locals P (f_meth cur) + p_args P k + 3) [])
                 (cur :: m_callers m) (m_q m) (m_ex m) (m_x m) (m_st m))
  end.

(** The main loop: fetch [*ctx.current++] and execute. *)
Definition step (rm pn : bool) (P : prog) (m : mst) : mres :=
  match nth_error (mcode rm P (f_meth (m_cur m))) (f_pc (m_cur m)) with
  | None => Bad
  | Some i =>
    exec_instr rm pn P i
      (Mst (set_pc (m_cur m) (S (f_pc (m_cur m)))) (m_callers m) (m_q m) (m_ex m)
           (m_x m) (m_st m))
  end.

Fixpoint run (rm pn : bool) (P : prog) (k : nat) (r : mres) : mres :=
  match k with
  | O => r
  | S k' => match r with Running m => run rm pn P k' (step rm pn P m) | _ => r end
  end.

(** The entry method called with empty queues. *)
Definition start (m : nat) (s : St) : mres :=
  Running (Mst (Frame m 0 3 []) [] [] [] (Xmem [] (fun _ => Exn (RRoot 0) 0) [] 0) s).

End Exc.
