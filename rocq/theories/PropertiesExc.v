(** C28-C31: leaving try blocks, exceptions, returns inside try, call frames.

    Throughout, a program is a table of method bodies over an arbitrary state type;
    [run rm pn P k (start m s)] runs [k] commands of the compiled program from method
    [m]: [rm] is the remove-unreached-code option, and [pn] says whether the word read
    past the end of a method's block table is null (see find_block in ExcModel). *)

From Coq Require Import List Bool Arith ZArith Lia.
Import ListNotations.
From Verif Require Import ExcModel ExcSpec ExcProofs ExcSim ExcTop ExcExamples.
From Verif Require FrameModel FrameSpec FrameProofs.

(** *** C28 *)

(** The whole claim for C28 and C29: whatever the reference meaning says a method
    does, the compiled program does.  Missing from the full statement: finally parts
    that end abruptly, or that throw while an exception is pending ([exec] leaves
    these out, [xexec] has them); the limits in [tame]; and a block table followed by
    a null word.  The refutations below show each limit is needed. *)
Theorem C29_program_runs_as_meant_partial :
  forall St rm (P : @prog St) m s r,
    tame_prog (p_body P) ->
    exec_method (p_body P) m s r ->
    exists k, run rm true P k (start m s)
              = match r with RDone s' => Done s' | RUncaught e s' => Uncaught e s' end.
Proof. intros St rm P m s r T H. exact (exec_method_runs rm P T m s r H). Qed.
Print Assumptions C29_program_runs_as_meant_partial.

(** [exec] only says what the unrestricted meaning says. *)
Theorem C29_meaning_is_restriction :
  forall St body m (s : St) r, exec_method body m s r -> xexec_method body m s r.
Proof. exact exec_method_xexec. Qed.
Print Assumptions C29_meaning_is_restriction.

(** A break out of [length fs] try/finally statements inside a loop that is itself
    inside a try/finally: the inner finally parts run once each, innermost first, the
    statement after the loop follows, and only then the enclosing finally part. *)
Theorem C28_break_runs_finally_partial :
  forall St rm (P : @prog St) m fs after outer s,
    tame_prog (p_body P) -> p_body P m = break_prog fs after outer ->
    exists k, run rm true P k (start m s) = Done (outer (after (fold_left (fun s f => f s) fs s))).
Proof.
  intros St rm P m fs after outer s T E.
  apply (exec_method_runs rm P T m s (RDone _)).
  eapply EM_done; [|left; reflexivity]. rewrite E. apply break_exec.
Qed.
Print Assumptions C28_break_runs_finally_partial.

(** The same for continue: the loop condition [c] is then evaluated again. *)
Theorem C28_continue_runs_finally_partial :
  forall St rm (P : @prog St) m c fs after outer s s1 s2,
    tame_prog (p_body P) -> p_body P m = continue_prog c fs after outer ->
    c s = (true, s1) -> c (fold_left (fun s f => f s) fs s1) = (false, s2) ->
    exists k, run rm true P k (start m s) = Done (outer (after s2)).
Proof.
  intros St rm P m c fs after outer s s1 s2 T E C1 C2.
  apply (exec_method_runs rm P T m s (RDone _)).
  eapply EM_done; [|left; reflexivity]. rewrite E. eapply continue_exec; eauto.
Qed.
Print Assumptions C28_continue_runs_finally_partial.

(** The same for return: what follows in the method never runs. *)
Theorem C28_return_runs_finally_partial :
  forall St rm (P : @prog St) m fs never s,
    tame_prog (p_body P) -> p_body P m = return_prog fs never ->
    exists k, run rm true P k (start m s) = Done (fold_left (fun s f => f s) fs s).
Proof.
  intros St rm P m fs never s T E.
  apply (exec_method_runs rm P T m s (RDone _)).
  eapply EM_done; [|right; reflexivity]. rewrite E. apply return_exec.
Qed.
Print Assumptions C28_return_runs_finally_partial.

(** A finally part that throws while others are pending, the exception being caught
    before those: the code then pops an empty stack. *)
Theorem C28_throw_from_finally_refuted :
  exists (P : @prog (list nat)) s r,
    xexec_method (p_body P) 0 s (RDone r) /\
    forall rm pn, ~ exists k, run rm pn P k (start 0 s) = Done r.
Proof.
  exists (one throw_from_finally), [], [5; 20; 3; 2; 10; 1].
  split; [exact throw_from_finally_means|].
  intros rm pn. apply (never_ends_as _ rm pn _ 100 0 _ _ Bad);
    [destruct rm, pn; vm_compute; reflexivity|exact I|exact I|discriminate].
Qed.
Print Assumptions C28_throw_from_finally_refuted.

(** A break inside a try/catch without finally, in a method whose block table is not
    followed by a null word. *)
Theorem C28_break_without_finally_refuted :
  exists (P : @prog (list nat)) s r,
    tame_prog (p_body P) /\ exec_method (p_body P) 0 s (RDone r) /\
    forall rm, ~ exists k, run rm false P k (start 0 s) = Done r.
Proof.
  exists (one break_in_try_catch), [], []. split; [|split].
  - intro m. cbn. repeat split; auto.
  - eapply EM_done; [|left; reflexivity]. cbn [one p_body].
    eapply E_while_break; [reflexivity|].
    apply E_seq_abrupt; [|discriminate]. apply (E_if _ _ _ _ [] true []); [reflexivity|].
    eapply (E_try _ _ _ _ _ OBreak); [|discriminate|constructor|reflexivity].
    apply (E_if _ _ _ _ [] true []); [reflexivity|constructor].
  - intros rm. apply (never_ends_as _ rm false _ 100 0 _ _ Bad);
      [destruct rm; vm_compute; reflexivity|exact I|exact I|discriminate].
Qed.
Print Assumptions C28_break_without_finally_refuted.

(** *** C29 *)

(** An exception thrown [n + 1] calls deep, through try/finally statements in every
    method, is caught by the caller at the top, whose clause names the exception's
    type or a base of it: the finally parts run innermost first, from the deepest
    method up, then the clause with the exception, then its own finally part. *)
Theorem C29_throw_reaches_handler_partial :
  forall St rm n fs e ty bind handler last never (s : St) locals args,
    derives (x_type e) ty ->
    exists k,
      run rm true (Prog (throw_chain n fs e ty bind handler last never) locals args) k (start 0 s)
      = Done (last (handler (bind e (unwound n fs s)))).
Proof.
  intros St rm n fs e ty bind handler last never s locals args D.
  apply (exec_method_runs rm (Prog (throw_chain n fs e ty bind handler last never) locals args)
           (chain_tame n fs e ty bind handler last never) 0 s (RDone _)).
  apply chain_method. exact D.
Qed.
Print Assumptions C29_throw_reaches_handler_partial.

(** If the clause names an unrelated type, the exception leaves the program, after
    all the finally parts. *)
Theorem C29_throw_uncaught_partial :
  forall St rm n fs e ty bind handler last never (s : St) locals args,
    ~ derives (x_type e) ty ->
    exists k,
      run rm true (Prog (throw_chain n fs e ty bind handler last never) locals args) k (start 0 s)
      = Uncaught e (last (unwound n fs s)).
Proof.
  intros St rm n fs e ty bind handler last never s locals args D.
  apply (exec_method_runs rm (Prog (throw_chain n fs e ty bind handler last never) locals args)
           (chain_tame n fs e ty bind handler last never) 0 s (RUncaught _ _)).
  apply chain_uncaught. exact D.
Qed.
Print Assumptions C29_throw_uncaught_partial.

(** A finally part that itself throws and catches while an exception is pending: the
    outer clause is given the inner exception object (20 instead of 10). *)
Theorem C29_wrong_exception_refuted :
  exists (P : @prog (list nat)) s r r',
    r <> r' /\ xexec_method (p_body P) 0 s (RDone r) /\
    forall rm pn, exists k, run rm pn P k (start 0 s) = Done r'.
Proof.
  exists (one throw_in_finally), [], [4; 10; 3; 20], [4; 20; 3; 20].
  split; [discriminate|]. split; [exact throw_in_finally_means|].
  intros rm pn. exists 100. destruct rm, pn; vm_compute; reflexivity.
Qed.
Print Assumptions C29_wrong_exception_refuted.

(** A catch body that can reach its end below a try body that cannot, where no clause
    names the root exception type: the jump over the enclosing finally part is
    missing, and control falls into it. *)
Theorem C29_catch_falls_through_refuted :
  exists (P : @prog (list nat)) s r,
    exec_method (p_body P) 0 s (RDone r) /\
    forall rm pn, ~ exists k, run rm pn P k (start 0 s) = Done r.
Proof.
  exists (one catch_that_passes), [], [2; 1; 10]. split.
  - eapply EM_done; [|left; reflexivity]. cbn [one p_body].
    eapply (E_try _ _ _ _ _ ONormal [1; 10]); [|discriminate|apply (E_act _ (cons 2))|reflexivity].
    eapply (E_try_catch _ _ _ _ _ e1 [] _ _ _ ONormal [1; 10]);
      [apply E_throw; reflexivity|apply sel_here; der|apply (E_act _ (cons 1))|constructor|reflexivity].
  - intros rm pn. apply (never_ends_as _ rm pn _ 100 0 _ _ Bad);
      [destruct rm, pn; vm_compute; reflexivity|exact I|exact I|discriminate].
Qed.
Print Assumptions C29_catch_falls_through_refuted.

(** A throw outside the try statements of a method that has some, when the block
    table is not followed by a null word. *)
Theorem C29_throw_outside_try_refuted :
  exists (P : @prog (list nat)) s e r,
    tame_prog (p_body P) /\ exec_method (p_body P) 0 s (RUncaught e r) /\
    forall rm, ~ exists k, run rm false P k (start 0 s) = Uncaught e r.
Proof.
  exists (one throw_outside_try), [], e1, [1]. split; [|split].
  - intro m. cbn. repeat split; auto.
  - eapply EM_uncaught. cbn [one p_body].
    eapply E_seq; [|apply (E_if _ _ _ _ [1] true [1]); [reflexivity|apply E_throw; reflexivity]].
    eapply (E_try _ _ _ _ _ ONormal); [apply (E_act _ (cons 1))|discriminate|constructor|reflexivity].
  - intros rm. apply (never_ends_as _ rm false _ 100 0 _ _ Bad);
      [destruct rm; vm_compute; reflexivity|exact I|exact I|discriminate].
Qed.
Print Assumptions C29_throw_outside_try_refuted.

(** *** C30 *)

(** The return value of a return inside a try/finally is never computed. *)
Theorem C30_return_value_refuted :
  exists (P : @prog (list nat)) s r r',
    r <> r' /\ exec_method (p_body P) 0 s (RDone r) /\
    forall rm pn, exists k, run rm pn P k (start 0 s) = Done r'.
Proof.
  exists (one return_in_try), [], [1; 42], [1]. split; [discriminate|]. split.
  - eapply EM_done; [|right; reflexivity]. cbn [one p_body].
    eapply (E_try _ _ _ _ _ OReturn [42]);
      [apply (E_return _ (Some (cons 42)))|discriminate|apply (E_act _ (cons 1))|reflexivity].
  - intros rm pn. exists 100. destruct rm, pn; vm_compute; reflexivity.
Qed.
Print Assumptions C30_return_value_refuted.

(** The ret command that then runs finds no value: it overwrites the caller's unit
    below the arguments and leaves no result. *)
Theorem C30_return_without_value_corrupts_refuted :
  forall (P : FrameModel.program) s s',
    FrameModel.me_ret (P (FrameModel.v_meth s)) = FrameModel.ROne ->
    FrameSpec.operands P s = 0%Z ->
    FrameModel.do_ret P (FrameModel.advance s) = Some s' ->
    let base := (FrameModel.v_lp s - 3 - FrameModel.me_args (P (FrameModel.v_meth s)))%Z in
    FrameModel.v_top s' = base
    /\ FrameModel.v_mem s' (base - 1)%Z = FrameModel.v_mem s (FrameModel.v_top s - 1)%Z.
Proof. exact FrameProofs.empty_return_corrupts. Qed.
Print Assumptions C30_return_without_value_corrupts_refuted.

(** What holds: a return without value (C28), and a value return outside try. *)
Theorem C30_return_value_partial :
  forall St rm (P : @prog St) m f s,
    tame_prog (p_body P) -> p_body P m = SReturn (Some f) ->
    exists k, run rm true P k (start m s) = Done (f s).
Proof.
  intros St rm P m f s T E. apply (exec_method_runs rm P T m s (RDone _)).
  eapply EM_done; [|right; reflexivity]. rewrite E. apply (E_return _ (Some f)).
Qed.
Print Assumptions C30_return_value_partial.

(** *** C31 *)

Import FrameModel FrameSpec.
Open Scope Z_scope.

(** From a call command until the callee's ret, over every execution of the callee:
    frame pointer, instruction pointer and method are the caller's again, the
    arguments are replaced by the result, and every unit below them is as before. *)
Theorem C31_call_and_return :
  forall (P : program) s m s1 s',
    sane P ->
    running P (push_calling P m (advance s)) s1 ->
    at_ret P s1 -> do_ret P (advance s1) = Some s' ->
    v_lp s' = v_lp s /\ v_meth s' = v_meth s /\ v_pc s' = S (v_pc s)
    /\ v_top s' = v_top s - me_args (P m)
                  + match me_ret (P m) with RNone => 0 | ROne => 1 | RStruct => -1 end
    /\ (me_ret (P m) = ROne -> v_mem s' (v_top s - me_args (P m)) = v_mem s1 (v_top s1 - 1))
    /\ (forall a, a < v_top s - me_args (P m) -> v_mem s' a = v_mem s a).
Proof. intros P s m s1 s' H. exact (FrameProofs.call_restores P H s m s1 s'). Qed.
Print Assumptions C31_call_and_return.

(** The return is always defined. *)
Theorem C31_return_defined :
  forall (P : program) s m s1,
    sane P -> running P (push_calling P m (advance s)) s1 -> at_ret P s1 ->
    exists s', do_ret P (advance s1) = Some s'.
Proof. intros P s m s1 H. exact (FrameProofs.call_returns P H s m s1). Qed.
Print Assumptions C31_return_defined.

(** A call abandoned by an exception: the caller's frame is back, with an empty
    operand stack and its variables unchanged. *)
Theorem C31_call_and_unwind :
  forall (P : program) s m s1 s',
    sane P ->
    running P (push_calling P m (advance s)) s1 ->
    unwind_frame P s1 = Some s' ->
    v_lp s' = v_lp s /\ v_meth s' = v_meth s /\ v_pc s' = S (v_pc s)
    /\ operands P s' = 0
    /\ (forall a, a < v_top s - me_args (P m) -> v_mem s' a = v_mem s a).
Proof. intros P s m s1 s' H. exact (FrameProofs.unwind_restores P H s m s1 s'). Qed.
Print Assumptions C31_call_and_unwind.

(** The commands of an expression leave its value on the operand stack and everything below as it
    was. *)
Theorem C31_expression_value : forall P loc arg e s pre post,
  sane P -> 0 <= operands P s ->
  me_code (P (v_meth s)) = pre ++ ex_code e ++ post -> v_pc s = length pre ->
  ex_names (P (v_meth s)) e ->
  (forall i, 0 <= i < me_locals (P (v_meth s)) -> v_mem s (v_lp s + i) = UVal (loc i)) ->
  (forall i, 0 <= i < me_args (P (v_meth s)) -> v_mem s (arg_addr P s i) = UVal (arg i)) ->
  exists s', running P s s' /\ v_lp s' = v_lp s /\ v_meth s' = v_meth s /\
    v_pc s' = (length pre + length (ex_code e))%nat /\ v_top s' = v_top s + 1 /\
    v_mem s' (v_top s) = UVal (ex_value loc arg e) /\
    (forall a, a < v_top s -> v_mem s' a = v_mem s a).
Proof. exact FrameProofs.expression_value. Qed.
Print Assumptions C31_expression_value.

(** So a call of a method that returns an expression of its arguments leaves the value of that
    expression for the pushed arguments. *)
Theorem C31_expression_method : forall P m e s arg,
  sane P -> me_locals (P m) = 0 -> me_ret (P m) = ROne -> me_code (P m) = ex_code e ++ [CRet] ->
  ex_names (P m) e ->
  (forall i, 0 <= i < me_args (P m) -> v_mem s (v_top s - me_args (P m) + i) = UVal (arg i)) ->
  exists s1 s', running P (push_calling P m (advance s)) s1 /\ at_ret P s1 /\
    do_ret P (advance s1) = Some s' /\
    v_mem s' (v_top s' - 1) = UVal (ex_value (fun _ => 0) arg e).
Proof. exact FrameProofs.expression_method. Qed.
Print Assumptions C31_expression_method.

(** Assignments to locals and arguments act one after another on the values of the frame, and on
    nothing else. *)
Theorem C31_assignments : forall P l loc arg s pre post,
  sane P -> 0 <= operands P s ->
  me_code (P (v_meth s)) = pre ++ concat (map set_code l) ++ post -> v_pc s = length pre ->
  Forall (set_names (P (v_meth s))) l ->
  (forall i, 0 <= i < me_locals (P (v_meth s)) -> v_mem s (v_lp s + i) = UVal (loc i)) ->
  (forall i, 0 <= i < me_args (P (v_meth s)) -> v_mem s (arg_addr P s i) = UVal (arg i)) ->
  exists s', running P s s' /\ v_top s' = v_top s /\
    (forall i, 0 <= i < me_locals (P (v_meth s)) ->
       v_mem s' (v_lp s + i) = UVal (fst (sets_value loc arg l) i)) /\
    (forall i, 0 <= i < me_args (P (v_meth s)) ->
       v_mem s' (arg_addr P s i) = UVal (snd (sets_value loc arg l) i)) /\
    (forall a, a < v_lp s - 3 - me_args (P (v_meth s)) -> v_mem s' a = v_mem s a).
Proof. exact FrameProofs.assignments_run. Qed.
Print Assumptions C31_assignments.

(** f(a, b) = (a - b) * 10, and a method with two locals and an argument. *)
Example C31_expression_case :
  let e := XBin Z.mul (XBin Z.sub (XArg 0) (XArg 1)) (XConst 10) in
  let P := fun _ : nat => Meth 2 0 ROne (ex_code e ++ [CRet]) in
  sane P /\ ex_names (P 0%nat) e /\ ex_value (fun _ => 0) (fun i => 7 - i) e = 10.
Proof. cbn. repeat split; intros; cbn; lia. Qed.

Example C31_assignments_case :
  let l := [(TLocal 0, XArg 0); (TLocal 1, XBin Z.add (XLocal 0) (XLocal 0)); (TArg 0, XLocal 1)] in
  Forall (set_names (Meth 1 2 RNone (concat (map set_code l) ++ [CRet]))) l /\
  snd (sets_value (fun _ => 0) (fun _ => 21) l) 0 = 42.
Proof. cbn. split; [repeat constructor; cbn; lia | reflexivity]. Qed.

(** *** Cases that meet the hypotheses *)

Section Cases.
Local Open Scope nat_scope.

Definition demo_break : @prog (list nat) :=
  Prog (fun _ => break_prog [cons 1; cons 2] (cons 3) (cons 4)) (fun _ => 0) (fun _ => 0).

Example C28_break_case :
  tame_prog (p_body demo_break) /\
  p_body demo_break 0 = break_prog [cons 1; cons 2] (cons 3) (cons 4).
Proof. split; [intro m; apply break_tame|reflexivity]. Qed.

Example C28_break_case_runs :
  run true true demo_break 100 (start 0 []) = Done [4; 3; 2; 1].
Proof. vm_compute. reflexivity. Qed.

Definition demo_return : @prog (list nat) :=
  Prog (fun _ => return_prog [cons 1; cons 2] (cons 9)) (fun _ => 0) (fun _ => 0).
Example C28_return_case : tame_prog (p_body demo_return).
Proof. intro m. apply return_tame. Qed.
Example C28_return_case_runs :
  run false true demo_return 100 (start 0 []) = Done [2; 1].
Proof. vm_compute. reflexivity. Qed.

Definition demo_continue : @prog (list nat) :=
  Prog (fun _ => continue_prog (fun s => (match s with [] => true | _ => false end, s))
                               [cons 1; cons 2] (cons 3) (cons 4)) (fun _ => 0) (fun _ => 0).
Example C28_continue_case : tame_prog (p_body demo_continue).
Proof. intro m. apply continue_tame. Qed.
Example C28_continue_case_runs :
  run true true demo_continue 100 (start 0 []) = Done [4; 3; 2; 1].
Proof. vm_compute. reflexivity. Qed.

Example C29_chain_case : derives (x_type e1) 0 /\ ~ derives (x_type e1) 2.
Proof.
  split; [der|]. intro H. apply is_base_type_spec in H. discriminate.
Qed.
Example C29_chain_case_runs :
  run true true
    (Prog (throw_chain 2 (fun i => [cons i; cons (i + 10)]) e1 0 (fun e s => x_val e :: s)
                       (cons 98) (cons 99) (cons 0)) (fun _ => 1) (fun _ => 2)) 200 (start 0 [])
  = Done [99; 98; 10; 11; 1; 12; 2; 13; 3].
Proof. vm_compute. reflexivity. Qed.

Example C29_meaning_case :
  exec_method (throw_chain 2 (fun i => [cons i; cons (i + 10)]) e1 0 (fun e s => x_val e :: s)
                       (cons 98) (cons 99) (cons 0)) 0 []
              (RDone [99; 98; 10; 11; 1; 12; 2; 13; 3]).
Proof. apply (chain_method 2 (fun i => [cons i; cons (i + 10)])). der. Qed.

Example C30_return_case : tame_prog (p_body (one (SReturn (Some (cons 42))))).
Proof. intro m. cbn. discriminate. Qed.
End Cases.

(** Method 0 calls method 1 with two arguments; method 1 calls method 2 with one. *)
Definition demo_frames : program := fun m =>
  match m with
  | 0%nat => Meth 0 1 RNone [CConst 7; CConst 1; CConst 2; CCall 1; CRet]
  | 1%nat => Meth 2 1 ROne [CConst 5; CStoreL 0; CLoadA 0; CLoadA 1; CCall 2; CBin Z.add; CRet]
  | _ => Meth 1 0 ROne [CLoadA 0; CConst 100; CBin Z.mul; CRet]
  end.
Definition demo_caller : vm :=
  Vm (upd (upd (upd (fun _ => UVal 0) 4 (UVal 7)) 5 (UVal 1)) 6 (UVal 2)) 7 3 0 3.

(** One local command of the demo program. *)
Definition demo_next (s : vm) : vm :=
  match fetch demo_frames s with
  | Some c => match local_cmd demo_frames c (advance s) with Some s' => s' | None => s end
  | None => s
  end.
Definition demo_1 : vm := Eval vm_compute in push_calling demo_frames 1 (advance demo_caller).
Definition demo_2 : vm := Eval vm_compute in demo_next demo_1.
Definition demo_3 : vm := Eval vm_compute in demo_next demo_2.
Definition demo_4 : vm := Eval vm_compute in demo_next demo_3.
Definition demo_5 : vm := Eval vm_compute in demo_next demo_4.
Definition demo_6 : vm := Eval vm_compute in push_calling demo_frames 2 (advance demo_5).
Definition demo_7 : vm := Eval vm_compute in demo_next demo_6.
Definition demo_8 : vm := Eval vm_compute in demo_next demo_7.
Definition demo_9 : vm := Eval vm_compute in demo_next demo_8.
Definition demo_10 : vm := Eval vm_compute in
  match do_ret demo_frames (advance demo_9) with Some s => s | None => demo_9 end.
Definition demo_11 : vm := Eval vm_compute in demo_next demo_10.
Definition demo_12 : vm := Eval vm_compute in
  match do_ret demo_frames (advance demo_11) with Some s => s | None => demo_11 end.

Ltac demo_step nxt :=
  eapply (rn_local _ _ _ nxt);
  [vm_compute; reflexivity
  |vm_compute; repeat split; congruence
  |vm_compute; reflexivity|].

Example C31_case :
  sane demo_frames /\
  exists s1 s',
    running demo_frames (push_calling demo_frames 1 (advance demo_caller)) s1
    /\ at_ret demo_frames s1 /\ do_ret demo_frames (advance s1) = Some s'
    /\ v_mem s' 5 = UVal 201 /\ v_mem s' 4 = UVal 7 /\ v_top s' = 6.
Proof.
  split; [intros [|[|m]]; cbn; lia|].
  exists demo_11, demo_12. split; [|split; [|split]].
  - change (running demo_frames demo_1 demo_11).
    demo_step demo_2. demo_step demo_3. demo_step demo_4. demo_step demo_5.
    apply (rn_call _ demo_5 2 demo_9 demo_10);
      [vm_compute; reflexivity|vm_compute; congruence| | |vm_compute; reflexivity|].
    + change (running demo_frames demo_6 demo_9).
      demo_step demo_7. demo_step demo_8. demo_step demo_9. apply rn_refl.
    + split; vm_compute; reflexivity.
    + demo_step demo_11. apply rn_refl.
  - split; vm_compute; reflexivity.
  - vm_compute; reflexivity.
  - repeat split.
Qed.

Example C30_corrupt_case :
  exists s', do_ret demo_frames
    (advance (Vm (upd (upd (fun _ => UVal 0) 7 (ULp 3)) 8 (UCur 0 4)) 11 10 1 6)) = Some s'
  /\ operands demo_frames (Vm (upd (upd (fun _ => UVal 0) 7 (ULp 3)) 8 (UCur 0 4)) 11 10 1 6) = 0.
Proof. eexists. split; reflexivity. Qed.
