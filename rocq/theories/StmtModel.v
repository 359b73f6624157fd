(** Model of the statement compiler: structured statements to labelled jumps,
    label resolution to relative steps, switch tables, and the part of the VM
    that executes jumps.

    Modelled: modules/compile/statements.cpp 126-350, 559-662, 684-1489;
    modules/compile/__statements.h 633-673; modules/compile/xilx.cpp 549-602;
    modules/core/core.cpp 1591-1626 (switch_manager_t), 1772-1806
    (method_t::compile), 8334-8350, 8437-8550 (xil_pool_t::commit, jmp_manager_t);
    modules/compile/ast.cpp 2152-2180 (the appended return);
    modules/exec/commands.cpp 6117-6190, 6285-6378 (jmp and switch commands).
    Simplified: expressions are opaque total functions on the program state
    [St]; a condition or selector is either a literal constant (what
    [execute_expression] can evaluate) or opaque.  try/catch, goto and foreach
    are left out of this file (goto writes no code, foreach is X_UNEXPECTED). *)

From Coq Require Import List Bool Arith ZArith Lia.
Import ListNotations.

Section Stmt.
Context {St : Type}.

(** *** Syntax *)

(** A condition: a constant, or code that pushes a bool and may change the state. *)
Inductive cond :=
| KConst (b : bool)
| KDyn (f : St -> bool * St).

(** A switch selector. *)
Inductive sel :=
| LConst (z : Z)
| LDyn (f : St -> Z * St).

(** Statements.  A null [statement_t *] is [SEmpty] (compile_statement,
    statements.cpp 126-130, and the empty statement both write nothing and have
    exit type none).  A null condition is [None]. *)
Inductive stmt :=
| SEmpty
| SAct (f : St -> St)                      (* expression or definition statement *)
| SGroup (b : block)                       (* statement_group_t *)
| SIf (c : cond) (t e : stmt)
| SWhile (c : option cond) (b : stmt)
| SDo (b : stmt) (c : option cond)         (* do ... while *)
| SUntil (b : stmt) (c : option cond)      (* loop ... until *)
| SFor (i : option (St -> St)) (c : option cond) (inc : option (St -> St)) (b : stmt)
| SBreak
| SContinue
| SReturn (f : St -> St)                   (* evaluates the result into the state *)
| SThrow (f : St -> St)
| SSwitch (e : sel) (cs : cases)
with block := BNil | BCons (s : stmt) (b : block)
(** [case_t]: its constants ([None] is "default") and its statements. *)
with cases := CNil | CCons (ls : list (option Z)) (b : block) (r : cases).

(** *** Exit types *)

(** statement_exit_type_t, include/modules/core.h 1766-1792, as a set of flags
    (goto left out). *)
Record ety := Ety { x_pass : bool; x_ret : bool; x_brk : bool; x_cont : bool;
                    x_thr : bool; x_dead : bool }.

Definition x_none := Ety false false false false false false.
Definition x_or a b :=
  Ety (x_pass a || x_pass b) (x_ret a || x_ret b) (x_brk a || x_brk b)
      (x_cont a || x_cont b) (x_thr a || x_thr b) (x_dead a || x_dead b).
Definition x_is_none a :=
  negb (x_pass a || x_ret a || x_brk a || x_cont a || x_thr a || x_dead a).
Definition x_add_pass a := Ety true (x_ret a) (x_brk a) (x_cont a) (x_thr a) (x_dead a).
Definition x_del_pass a := Ety false (x_ret a) (x_brk a) (x_cont a) (x_thr a) (x_dead a).
Definition x_del_brk a := Ety (x_pass a) (x_ret a) false (x_cont a) (x_thr a) (x_dead a).
Definition x_del_loop a := Ety (x_pass a) (x_ret a) false false (x_thr a) (x_dead a).

(** [unreached], __statements.h 634-645: non-empty and without pass. *)
Definition unreached (a : ety) : bool := negb (x_is_none a) && negb (x_pass a).

(** The [until] set of switch cases, statements.cpp 1403-1412: like [unreached]
    but continue does not count. *)
Definition case_until (a : ety) : bool :=
  negb (x_is_none a) && negb (x_pass a) && negb (x_cont a).

(** [__FreeExitFlags], statements.cpp 21-23. *)
Definition x_free (a : ety) : bool := x_brk a || x_ret a || x_thr a.

(** [execute_expression] of a condition, core.h 6739-6745: null is nan. *)
Definition const_of (c : option cond) : option bool :=
  match c with Some (KConst b) => Some b | _ => None end.

Definition is_null (c : option cond) : bool := match c with None => true | _ => false end.

(** exit_type of a loop that cannot end by its condition, statements.cpp 718-726,
    786-794, 860-868, 953-961. *)
Definition forever_exit (body : ety) : ety :=
  if negb (x_free body) then Ety false false false false false true
  else x_del_pass (x_del_loop body).

Definition has_value (z : Z) (ls : list (option Z)) : bool :=
  existsb (fun l => match l with Some v => Z.eqb v z | None => false end) ls.
Definition has_default (ls : list (option Z)) : bool :=
  existsb (fun l => match l with None => true | _ => false end) ls.

Fixpoint any_default (cs : cases) : bool :=
  match cs with CNil => false | CCons ls _ r => has_default ls || any_default r end.

(** Index of the first case with the value; [__find_case], statements.cpp
    1377-1393. *)
Fixpoint find_value (z : Z) (cs : cases) : option nat :=
  match cs with
  | CNil => None
  | CCons ls _ r => if has_value z ls then Some 0%nat else option_map S (find_value z r)
  end.
(** The default iterator of [__find_case]: the last case containing default (the
    scan overwrites it). *)
Fixpoint find_default (cs : cases) : option nat :=
  match cs with
  | CNil => None
  | CCons ls _ r =>
    match find_default r with
    | Some k => Some (S k)
    | None => if has_default ls then Some 0%nat else None
    end
  end.

(** exit_type of each statement kind: statements.cpp 541 (expression), 568-571,
    590-593, 617-620, 665-668, 713-730, 781-802, 851-872, 944-965, 1062-1082,
    1396-1489; [exit_type_of] of a group: __statements.h 649-673. *)
Fixpoint exit_type (s : stmt) : ety :=
  match s with
  | SEmpty => x_none
  | SAct _ => Ety true false false false false false
  | SGroup b => group_exit b x_none
  | SIf c t e =>
    match c with
    | KConst true => exit_type t
    | KConst false => exit_type e
    | KDyn _ =>
      let a := exit_type t in let b := exit_type e in
      let u := x_or a b in
      if (x_is_none a || x_is_none b) && negb (x_is_none u) then x_add_pass u else u
    end
  | SWhile c b =>
    match const_of c with
    | Some false => x_none
    | Some true => forever_exit (exit_type b)
    | None => if is_null c then forever_exit (exit_type b) else x_del_loop (exit_type b)
    end
  | SDo b c =>
    match const_of c with
    | Some true => forever_exit (exit_type b)
    | Some false => x_del_loop (exit_type b)
    | None => if is_null c then forever_exit (exit_type b) else x_del_loop (exit_type b)
    end
  | SUntil b c =>
    match const_of c with
    | Some false => forever_exit (exit_type b)
    | Some true => x_none
    | None => if is_null c then forever_exit (exit_type b) else x_del_loop (exit_type b)
    end
  | SFor _ c _ b =>
    match const_of c with
    | Some false => x_none
    | Some true => forever_exit (exit_type b)
    | None => if is_null c then forever_exit (exit_type b) else x_del_loop (exit_type b)
    end
  | SBreak => Ety false false true false false false
  | SContinue => Ety false false false true false false
  | SReturn _ => Ety false true false false false false
  | SThrow _ => Ety false false false false true false
  | SSwitch (LConst z) cs =>
    match match find_value z cs with Some k => Some k | None => find_default cs end with
    | None => x_none
    | Some k => x_del_brk (const_cases_exit k cs x_none)
    end
  | SSwitch (LDyn _) cs =>
    let u := cases_exit cs x_none in
    x_del_brk (if any_default cs then u else x_add_pass u)
  end
(* the loop of exit_type_of, with the accumulated type *)
with group_exit (b : block) (acc : ety) : ety :=
  match b with
  | BNil => acc
  | BCons s r =>
    let et := exit_type s in
    let acc' := x_or acc et in
    if unreached et then x_del_pass acc' else group_exit r acc'
  end
(* the loop of switch_statement_t::__exit_type_of, statements.cpp 1396-1420 *)
with case_exit (b : block) (acc : ety) : ety :=
  match b with
  | BNil => acc
  | BCons s r =>
    let et := exit_type s in
    let acc' := x_or acc et in
    if case_until et then x_del_pass acc' else case_exit r acc'
  end
(* the loop over all cases, statements.cpp 1465-1478 *)
with cases_exit (cs : cases) (acc : ety) : ety :=
  match cs with
  | CNil => acc
  | CCons _ b r =>
    let et := case_exit b x_none in
    let acc' := x_or acc et in
    cases_exit r (if x_brk et then x_add_pass acc' else acc')
  end
(* the loop from the selected case, statements.cpp 1444-1460; [k] cases are
   skipped first *)
with const_cases_exit (k : nat) (cs : cases) (acc : ety) : ety :=
  match cs with
  | CNil => acc
  | CCons _ b r =>
    match k with
    | S k' => const_cases_exit k' r acc
    | O =>
      let et := case_exit b x_none in
      let acc' := x_or acc et in
      if case_until et
      then (if x_brk et then x_add_pass acc' else x_del_pass acc')
      else const_cases_exit 0 r acc'
    end
  end.

(** *** Labelled code *)

Inductive jmodel := JAlways | JTrue | JFalse.

Inductive instr :=
| IAct (f : St -> St)                        (* code of an expression statement *)
| ICond (f : St -> bool * St)                (* code that pushes a bool *)
| ISel (f : St -> Z * St)                    (* code that pushes an int32 *)
| IJmp (m : jmodel) (l : nat)                (* xilx.cpp 569-585 *)
| ILabel (l : nat)                           (* xilx.cpp 560-564 *)
| ISwitch (rows : list (Z * nat)) (d : nat)  (* xilx.cpp 598-602 and its table *)
| IRet (f : St -> St)
| IThrow (f : St -> St).

Definition code := list instr.

(** [append_expression] of a condition or selector. *)
Definition eval_cond (c : cond) : St -> bool * St :=
  match c with KConst b => fun s => (b, s) | KDyn f => f end.
Definition eval_sel (e : sel) : St -> Z * St :=
  match e with LConst z => fun s => (z, s) | LDyn f => f end.

(** *** Compiling statements *)

(** The two optimisation switches that change control flow:
    remove_unreached_codes (statements.cpp 177-180) and
    convert_switch_to_if_statement (1145). *)
Record opts := Opts { o_remove : bool; o_switch_if : bool }.

(** [__remove_unreached_codes(ctx)? execute_expression(condition) : nan]. *)
Definition folded (o : opts) (c : option cond) : option bool :=
  if o_remove o then const_of c else None.

Definition number_of_rows (cs : cases) : nat :=
  (fix go cs := match cs with
                | CNil => 0
                | CCons ls _ r =>
                  length (filter (fun l => match l with Some _ => true | None => false end) ls)
                  + go r
                end)%nat cs.

(** All case constants, in order; statements.cpp 1182-1202. *)
Fixpoint case_values (cs : cases) : list Z :=
  match cs with
  | CNil => []
  | CCons ls _ r =>
    flat_map (fun l => match l with Some v => [v] | None => [] end) ls ++ case_values r
  end.
Fixpoint default_count (cs : cases) : nat :=
  match cs with
  | CNil => 0
  | CCons ls _ r =>
    (length (filter (fun l => match l with None => true | _ => false end) ls)
     + default_count r)%nat
  end.
Fixpoint distinct (vs : list Z) : bool :=
  match vs with
  | [] => true
  | v :: r => negb (existsb (Z.eqb v) r) && distinct r
  end.

(** [std::sort] of the rows by value, statements.cpp 1218-1220. *)
Fixpoint insert_row (r : Z * nat) (rows : list (Z * nat)) : list (Z * nat) :=
  match rows with
  | [] => [r]
  | h :: t => if Z.ltb (fst r) (fst h) then r :: h :: t else h :: insert_row r t
  end.
Definition sort_rows (rows : list (Z * nat)) : list (Z * nat) :=
  fold_right insert_row [] rows.

(** The case that [__compile_as_if] takes as the "if" (resp. "else") part: the
    last one holding a constant (resp. default), statements.cpp 1316-1330. *)
Fixpoint last_value (cs : cases) : option (nat * Z) :=
  match cs with
  | CNil => None
  | CCons ls _ r =>
    match last_value r with
    | Some (k, v) => Some (S k, v)
    | None =>
      match rev (flat_map (fun l => match l with Some v => [v] | None => [] end) ls) with
      | v :: _ => Some (0%nat, v)
      | [] => None
      end
    end
  end.

(** The statements pointer of case [k] is null (an empty list is treated as
    null: neither writes code). *)
Fixpoint null_body (k : option nat) (cs : cases) : bool :=
  match k, cs with
  | None, _ => true
  | Some _, CNil => true
  | Some O, CCons _ b _ => match b with BNil => true | _ => false end
  | Some (S k'), CCons _ _ r => null_body (Some k') r
  end.

(** [if_statements == else_statements] as pointers, statements.cpp 1336. *)
Definition same_body (a b : option nat) (cs : cases) : bool :=
  (null_body a cs && null_body b cs)
  || match a, b with Some x, Some y => Nat.eqb x y | _, _ => false end.

(** [expression == constant], statements.cpp 1343-1348. *)
Definition sel_equals (e : sel) (v : Z) : cond :=
  match e with
  | LConst z => KConst (Z.eqb z v)
  | LDyn f => KDyn (fun s => let (z, s') := f s in (Z.eqb z v, s'))
  end.

Notation "'do' x <- e ; k" :=
  (match e with Some x => k | None => None end) (at level 200, x pattern, k at level 200).

(** [compile o s bk ct n]: code of [s] and the next free label.  [bk]/[ct] are
    the labels of the enclosing break and continue points (statement regions,
    statements.cpp 217-276: a region that does not support the point asks its
    parent); [None] when there is none, and then compiling a break fails ("jmp
    point not found").  Labels come from [next_local_label].  Simplified: the
    label of a point is allocated when its region begins instead of when the
    point is set, and nothing depends on the numbers beyond their being
    different. *)
Fixpoint compile (o : opts) (s : stmt) (bk ct : option nat) (n : nat)
  : option (code * nat) :=
  match s with
  | SEmpty => Some ([], n)
  | SAct f => Some ([IAct f], n)
  | SGroup b => compile_block o (o_remove o) b bk ct n   (* 327-350 *)
  | SIf c t e =>                                          (* 1017-1059 *)
    match folded o (Some c) with
    | Some true => compile o t bk ct n
    | Some false => compile o e bk ct n
    | None =>
      do (a, n1) <- compile o t bk ct (S (S n));
      do (b, n2) <- compile o e bk ct n1;
      Some (ICond (eval_cond c) :: IJmp JFalse n :: a
            ++ IJmp JAlways (S n) :: ILabel n :: b ++ [ILabel (S n)], n2)
    end
  | SWhile c b =>                                         (* 824-848 *)
    match folded o c with
    | Some false => Some ([], n)
    | fc =>
      let lc := n in let lb := S n in
      do (a, n1) <- compile o b (Some lb) (Some lc) (S (S n));
      Some (ILabel lc
            :: match fc, c with
               | None, Some c' => [ICond (eval_cond c'); IJmp JFalse lb]
               | _, _ => []
               end
            ++ a ++ [IJmp JAlways lc; ILabel lb], n1)
    end
  | SDo b c =>                                            (* 684-710 *)
    let lc := n in let lb := S n in
    do (a, n1) <- compile o b (Some lb) (Some lc) (S (S n));
    Some (ILabel lc :: a
          ++ match folded o c, c with
             | Some true, _ | _, None => [IJmp JAlways lc]
             | Some false, _ => []
             | None, Some c' => [ICond (eval_cond c'); IJmp JTrue lc]
             end
          ++ [ILabel lb], n1)
  | SUntil b c =>                                         (* 752-778 *)
    let lc := n in let lb := S n in
    do (a, n1) <- compile o b (Some lb) (Some lc) (S (S n));
    Some (ILabel lc :: a
          ++ match folded o c, c with
             | Some false, _ | _, None => [IJmp JAlways lc]
             | Some true, _ => []
             | None, Some c' => [ICond (eval_cond c'); IJmp JFalse lc]
             end
          ++ [ILabel lb], n1)
  | SFor i c inc b =>                                     (* 894-941 *)
    let ini := match i with Some f => [IAct f] | None => [] end in
    match folded o c with
    | Some false => Some (ini, n)
    | fc =>
      let lc := n in let lb := S n in let lcond := S (S n) in
      do (a, n1) <- compile o b (Some lb) (Some lc) (S (S (S n)));
      Some (ini
            ++ match inc with Some _ => [IJmp JAlways lcond] | None => [] end
            ++ [ILabel lc]
            ++ match inc with Some f => [IAct f] | None => [] end
            ++ [ILabel lcond]
            ++ match fc, c with
               | None, Some c' => [ICond (eval_cond c'); IJmp JFalse lb]
               | _, _ => []
               end
            ++ a ++ [IJmp JAlways lc; ILabel lb], n1)
    end
  | SBreak => do l <- bk; Some ([IJmp JAlways l], n)      (* 559-565 *)
  | SContinue => do l <- ct; Some ([IJmp JAlways l], n)   (* 581-587 *)
  | SReturn f => Some ([IRet f], n)                       (* 649-662 *)
  | SThrow f => Some ([IThrow f], n)                      (* 603-614 *)
  | SSwitch e cs =>                                       (* 1138-1166 *)
    match o_switch_if o, number_of_rows cs with
    | true, O =>                                          (* as statement, 1291-1308 *)
      do (a, n1) <- compile_nth o (Some 0%nat) cs (Some n) ct (S n);
      Some (IAct (fun s => snd (eval_sel e s)) :: a ++ [ILabel n], n1)
    | true, S O =>                                        (* as if, 1311-1374 *)
      let ki := option_map fst (last_value cs) in
      let ke := find_default cs in
      let v := match last_value cs with Some (_, v) => v | None => 0%Z end in
      if same_body ki ke cs then
        do (a, n1) <- compile_nth o ki cs (Some n) ct (S n);
        Some (IAct (fun s => snd (eval_sel e s)) :: a ++ [ILabel n], n1)
      else
        match folded o (Some (sel_equals e v)) with
        | Some true =>
          do (a, n1) <- compile_nth o ki cs (Some n) ct (S n); Some (a ++ [ILabel n], n1)
        | Some false =>
          do (a, n1) <- compile_nth o ke cs (Some n) ct (S n); Some (a ++ [ILabel n], n1)
        | None =>
          do (a, n1) <- compile_nth o ki cs (Some n) ct (S (S n));
          do (b, n2) <- compile_nth o ke cs (Some n) ct n1;
          Some (ICond (eval_cond (sel_equals e v)) :: IJmp JFalse (S n) :: a
                ++ ILabel (S n) :: b ++ [ILabel n], n2)
        end
    | _, _ =>                                             (* as switch, 1169-1223 *)
      if distinct (case_values cs) && (default_count cs <=? 1)%nat then
        do (a, rows, d, n1) <- compile_cases o cs (Some n) ct (S (S n));
        Some (ISel (eval_sel e)
              :: ISwitch (sort_rows rows) (match d with Some l => l | None => S n end)
              :: a ++ ILabel n :: match d with Some _ => [] | None => [ILabel (S n)] end, n1)
      else None                                           (* duplicate case *)
    end
  end
with compile_block (o : opts) (stop : bool) (b : block) (bk ct : option nat) (n : nat)
  : option (code * nat) :=
  match b with
  | BNil => Some ([], n)
  | BCons s r =>
    do (a, n1) <- compile o s bk ct n;
    if stop && unreached (exit_type s) then Some (a, n1)
    else do (c, n2) <- compile_block o stop r bk ct n1; Some (a ++ c, n2)
  end
(* the case loop of __compile_as_switch: the code, the rows, the default label *)
with compile_cases (o : opts) (cs : cases) (bk ct : option nat) (n : nat)
  : option (code * list (Z * nat) * option nat * nat) :=
  match cs with
  | CNil => Some ([], [], None, n)
  | CCons ls b r =>
    do (a, n1) <- compile_block o false b bk ct (S n);
    do (c, rows, d, n2) <- compile_cases o r bk ct n1;
    Some (ILabel n :: a ++ c,
          flat_map (fun l => match l with Some v => [(v, n)] | None => [] end) ls ++ rows,
          (if has_default ls then Some n else d), n2)
  end
(* the statements of case [k]; nothing when there is no such case *)
with compile_nth (o : opts) (k : option nat) (cs : cases) (bk ct : option nat) (n : nat)
  : option (code * nat) :=
  match cs with
  | CNil => Some ([], n)
  | CCons _ b r =>
    match k with
    | None => Some ([], n)
    | Some O => compile_block o false b bk ct n
    | Some (S k') => compile_nth o (Some k') r bk ct n
    end
  end.

(** The body of a method: the statements, and a return when control can reach
    the end (ast.cpp 2152-2180; the model appends it always, which adds only
    unreachable code otherwise).  [fin] is what the appended return evaluates.
    Method statements are compiled one by one without pruning, core.cpp 1775-1778
    (the body itself is one statement group). *)
Definition compile_method (o : opts) (s : stmt) (fin : St -> St) : option code :=
  do (a, n) <- compile o s None None 0%nat;
  Some (a ++ [IRet fin]).

(** *** Label resolution *)

Definition is_label (i : instr) : bool := match i with ILabel _ => true | _ => false end.

(** Number of instructions that remain when labels are dropped: the index that
    xil_pool_t::commit (core.cpp 8437-8470) gives to the next instruction. *)
Definition size_of (c : code) : nat := length (filter (fun i => negb (is_label i)) c).

(** [index_of (label_xil label)]; a later set_point overwrites an earlier one
    (core.cpp 8499-8504). *)
Fixpoint label_index (c : code) (l : nat) : option nat :=
  match c with
  | [] => None
  | i :: r =>
    match label_index r l with
    | Some k => Some (if is_label i then k else S k)
    | None => match i with
              | ILabel l' => if Nat.eqb l l' then Some 0%nat else None
              | _ => None
              end
    end
  end.

(** VM commands: relative steps. *)
Inductive cmd :=
| CAct (f : St -> St)
| CCond (f : St -> bool * St)
| CSel (f : St -> Z * St)
| CJmp (m : jmodel) (step : Z)
| CSwitch (rows : list (Z * Z)) (d : Z)
| CRet (f : St -> St)
| CThrow (f : St -> St).

(** jmp_manager_t::commit (core.cpp 8531-8548), switch_manager_t::commit
    (1611-1626); [None] is label_not_found.  The 24-bit width of a step is
    the subject of C03 and not modelled here. *)
Fixpoint resolve_rows (p : code) (at_ : nat) (rows : list (Z * nat)) : option (list (Z * Z)) :=
  match rows with
  | [] => Some []
  | (v, l) :: r =>
    do k <- label_index p l;
    do r' <- resolve_rows p at_ r;
    Some ((v, Z.of_nat k - Z.of_nat at_)%Z :: r')
  end.
Definition resolve (p : code) (at_ : nat) (i : instr) : option cmd :=
  match i with
  | IAct f => Some (CAct f)
  | ICond f => Some (CCond f)
  | ISel f => Some (CSel f)
  | IJmp m l => do k <- label_index p l; Some (CJmp m (Z.of_nat k - Z.of_nat at_)%Z)
  | ILabel _ => None
  | ISwitch rows d =>
    do rows' <- resolve_rows p at_ rows;
    do k <- label_index p d;
    Some (CSwitch rows' (Z.of_nat k - Z.of_nat at_)%Z)
  | IRet f => Some (CRet f)
  | IThrow f => Some (CThrow f)
  end.
Fixpoint commit_from (p : code) (at_ : nat) (c : code) : option (list cmd) :=
  match c with
  | [] => Some []
  | i :: r =>
    if is_label i then commit_from p at_ r
    else do x <- resolve p at_ i; do r' <- commit_from p (S at_) r; Some (x :: r')
  end.
Definition commit (p : code) : option (list cmd) := commit_from p 0 p.

(** *** The VM *)

(** [__binary_search], commands.cpp 6317-6331, on the rows [lo, lo + len). *)
Fixpoint binary_search (fuel : nat) (rows : list (Z * Z)) (lo len : nat) (v : Z)
  : option (option Z) :=
  match fuel with
  | O => None
  | S fuel' =>
    if Nat.eqb len 0 then Some None
    else
      let m := (lo + len / 2)%nat in
      match nth_error rows m with
      | None => None                                     (* read outside the table *)
      | Some (x, st) =>
        if Z.ltb v x then binary_search fuel' rows lo (len / 2) v
        else if Z.ltb x v then binary_search fuel' rows (S m) (len - len / 2 - 1) v
        else Some (Some st)
      end
  end.

(** Values on the evaluation stack. *)
Inductive sval := VBool (b : bool) | VInt (z : Z).

(** [Bad]: the VM reads outside the code, or pops a value that is not there. *)
Inductive vm :=
| Run (pc : nat) (stk : list sval) (s : St)
| Ret (s : St)
| Thr (s : St)
| Bad.

(** [ctx.current++] and then [ctx.current += step - 1], commands.cpp 6171-6176,
    6301-6304, 6351. *)
Definition jump (pc : nat) (step : Z) (stk : list sval) (s : St) : vm :=
  let t := (Z.of_nat pc + 1 + (step - 1))%Z in
  if Z.ltb t 0 then Bad else Run (Z.to_nat t) stk s.

Definition vstep (p : list cmd) (x : vm) : vm :=
  match x with
  | Run pc stk s =>
    match nth_error p pc with
    | None => Bad
    | Some (CAct f) => Run (S pc) stk (f s)
    | Some (CCond f) => let (b, s') := f s in Run (S pc) (VBool b :: stk) s'
    | Some (CSel f) => let (z, s') := f s in Run (S pc) (VInt z :: stk) s'
    | Some (CJmp JAlways st) => jump pc st stk s
    | Some (CJmp JTrue st) =>
      match stk with
      | VBool b :: k => if b then jump pc st k s else Run (S pc) k s
      | _ => Bad
      end
    | Some (CJmp JFalse st) =>
      match stk with
      | VBool b :: k => if b then Run (S pc) k s else jump pc st k s
      | _ => Bad
      end
    | Some (CSwitch rows d) =>
      match stk with
      | VInt z :: k =>
        match binary_search (S (length rows)) rows 0 (length rows) z with
        | None => Bad
        | Some None => jump pc d k s
        | Some (Some st) => jump pc st k s
        end
      | _ => Bad
      end
    | Some (CRet f) => Ret (f s)
    | Some (CThrow f) => Thr (f s)
    end
  | _ => x
  end.

Fixpoint run (p : list cmd) (k : nat) (x : vm) : vm :=
  match k with O => x | S k' => run p k' (vstep p x) end.

(** Executing a method from its first command with an empty evaluation stack. *)
Definition start (s : St) : vm := Run 0 [] s.

End Stmt.
