(** Consequences of the simulation for families of programs, and programs on which
    the code differs from the unrestricted meaning. *)

From Coq Require Import List Bool Arith Lia.
Import ListNotations.
From Verif Require Import ExcModel ExcSpec ExcProofs ExcSim ExcTop.

(** The restricted meaning is part of the unrestricted one. *)
Lemma exec_xexec St body (s : @stmt St) st o st' q :
  exec body s st o st' q -> xexec body s st o st'.
Proof.
  induction 1; try (econstructor; eauto; fail).
  - exact (X_try _ _ _ _ _ _ _ ONormal _ IHexec1 H0 IHexec2).
  - exact (X_try_catch _ _ _ _ _ _ _ _ _ _ _ ONormal _ IHexec1 H0 IHexec2 IHexec3).
Qed.

Lemma exec_method_xexec St body m (st : St) r :
  exec_method body m st r -> xexec_method body m st r.
Proof. intros []; econstructor; eauto using exec_xexec. Qed.

Definition final St (r : @mres St) : Prop := match r with Running _ => False | _ => True end.

Lemma run_final St rm pn P k j (r : @mres St) :
  final _ (run rm pn P k r) -> run rm pn P (k + j) r = run rm pn P k r.
Proof.
  revert r. induction k as [|k IH]; intros r F.
  - cbn [Nat.add run] in *. destruct r; try contradiction; destruct j; reflexivity.
  - cbn [Nat.add run] in *. destruct r; auto.
Qed.

Lemma run_unique St rm pn P k j (r : @mres St) :
  final _ (run rm pn P k r) -> final _ (run rm pn P j r) -> run rm pn P k r = run rm pn P j r.
Proof.
  intros A B. rewrite <- (run_final _ _ _ _ _ j _ A), <- (run_final _ _ _ _ _ k _ B).
  f_equal. lia.
Qed.

(** *** Nested try/finally *)

Section Nest.
Context {St : Type}.

(** [inner] inside one try/finally per action, the first action innermost. *)
Fixpoint nest (fs : list (St -> St)) (inner : @stmt St) : @stmt St :=
  match fs with
  | [] => inner
  | f :: r => nest r (STry inner CNil (SAct f))
  end.

Definition run_all (fs : list (St -> St)) (s : St) : St := fold_left (fun s f => f s) fs s.

Lemma nest_exec body fs inner s o s1 q :
  exec body inner s o s1 q -> exec body (nest fs inner) s o (run_all fs s1) q.
Proof.
  revert inner s1 q. induction fs as [|f fs IH]; intros inner s1 q H; [exact H|].
  cbn [nest]. change (run_all (f :: fs) s1) with (run_all fs (f s1)).
  apply IH. rewrite <- (andb_true_r q).
  apply (E_try body inner CNil (SAct f) s o s1 q (f s1) true); auto.
  - constructor.
  - constructor.
Qed.

Lemma nest_tame fs : forall inner, tame true inner -> tame true (nest fs inner).
Proof.
  induction fs as [|f fs IH]; intros inner H; [exact H|]. cbn [nest]. apply IH.
  cbn. repeat split; auto. discriminate.
Qed.

Lemma nest_tame_ne f fs prot inner : tame true inner -> tame prot (nest (f :: fs) inner).
Proof.
  revert f inner. induction fs as [|g fs IH]; intros f inner H.
  - cbn. repeat split; auto. discriminate.
  - change (nest (f :: g :: fs) inner) with (nest (g :: fs) (STry inner CNil (SAct f))).
    apply IH. cbn. repeat split; auto. discriminate.
Qed.

Lemma nest_may_end fs : forall inner, may_end (nest fs inner) = may_end inner.
Proof.
  induction fs as [|f fs IH]; intro inner; [reflexivity|]. cbn [nest]. rewrite IH.
  cbn. rewrite orb_false_r, andb_true_r. reflexivity.
Qed.

Definition yes : St -> bool * St := fun s => (true, s).

(** try { while (true) { if (true) { try { .. try { break } finally { f1 } .. }
    finally { fn } } }  after } finally { outer } *)
Definition break_prog (fs : list (St -> St)) (after outer : St -> St) : @stmt St :=
  STry (SSeq (SWhile yes (SIf yes (nest fs SBreak) SEmpty)) (SAct after)) CNil (SAct outer).

(** A loop whose first turn ends by continue inside the try statements; [c] is
    the loop condition. *)
Definition continue_prog (c : St -> bool * St) (fs : list (St -> St)) (after outer : St -> St)
  : @stmt St :=
  STry (SSeq (SWhile c (SIf yes (nest fs SContinue) SEmpty)) (SAct after)) CNil (SAct outer).

(** try { .. try { return } finally { f1 } .. } finally { fn }; never *)
Definition return_prog (fs : list (St -> St)) (never : St -> St) : @stmt St :=
  SSeq (SIf yes (nest fs (SReturn None)) SEmpty) (SAct never).

Lemma break_exec body fs after outer s :
  exec body (break_prog fs after outer) s ONormal (outer (after (run_all fs s))) true.
Proof.
  apply (E_try body _ _ _ s ONormal (after (run_all fs s)) true _ true).
  - apply (E_seq body _ _ s (run_all fs s) _ _ true true); [|constructor].
    apply (E_while_break body _ _ s s); [reflexivity|].
    apply (E_if body _ _ _ s true s); [reflexivity|].
    apply nest_exec. constructor.
  - discriminate.
  - constructor.
  - reflexivity.
Qed.

Lemma break_tame prot fs after outer : tame prot (break_prog fs after outer).
Proof.
  cbn. repeat split; auto; try discriminate.
  - rewrite orb_true_r. reflexivity.
  - apply nest_tame. exact I.
Qed.

Lemma return_exec body fs never s :
  exec body (return_prog fs never) s OReturn (run_all fs s) true.
Proof.
  apply E_seq_abrupt; [|discriminate].
  apply (E_if body _ _ _ s true s); [reflexivity|].
  apply nest_exec. apply (E_return body None).
Qed.

Lemma return_tame f fs never : tame false (return_prog (f :: fs) never).
Proof.
  cbn [return_prog tame]. split; [split|exact I]; [|exact I].
  apply nest_tame_ne. cbn. auto.
Qed.

End Nest.

Section Chains.
Context {St : Type}.

Lemma continue_exec body c fs after outer (s s1 s2 : St) :
  c s = (true, s1) -> c (run_all fs s1) = (false, s2) ->
  exec body (continue_prog c fs after outer) s ONormal (outer (after s2)) true.
Proof.
  intros C1 C2.
  apply (E_try body _ _ _ s ONormal (after s2) true _ true).
  - apply (E_seq body _ _ s s2 _ _ true true); [|constructor].
    apply (E_while_next body _ _ s s1 OContinue (run_all fs s1) true _ _ true); auto.
    + apply (E_if body _ _ _ s1 true s1); [reflexivity|]. apply nest_exec. constructor.
    + apply E_while_end. exact C2.
  - discriminate.
  - constructor.
  - reflexivity.
Qed.

Lemma continue_tame prot (c : St -> bool * St) fs after outer :
  tame prot (continue_prog c fs after outer).
Proof.
  cbn. repeat split; auto; try discriminate.
  - rewrite orb_true_r. reflexivity.
  - apply nest_tame. exact I.
Qed.

(** Method 0 is
      try { call 1 } catch (ty x) { bind; handler } finally { last }
    method i (1 <= i <= n) is
      try { .. try { call i+1 } finally .. } finally ..; never
    and method n+1 throws [e] inside its own try/finally statements. *)
Definition throw_chain (n : nat) (fs : nat -> list (St -> St)) (e : exn)
    (ty : nat) (bind : exn -> St -> St) (handler last never : St -> St) (m : nat) : @stmt St :=
  if m =? 0 then STry (SCall 1) (CCons ty bind (SAct handler) CNil) (SAct last)
  else if m <=? n then SSeq (nest (fs m) (SCall (S m))) (SAct never)
  else nest (fs m) (SIf yes (SThrow (fun s => (e, s))) SEmpty).

(** The finally parts of methods n+1, n, .., 1, in this order. *)
Definition unwound (n : nat) (fs : nat -> list (St -> St)) (s : St) : St :=
  fold_left (fun s i => run_all (fs i) s) (rev (seq 1 (S n))) s.

Lemma chain_exec n fs e ty bind handler last never s k :
  k <= n ->
  exec (throw_chain n fs e ty bind handler last never)
       (throw_chain n fs e ty bind handler last never (S n - k)) s (OExc e)
       (fold_left (fun s i => run_all (fs i) s) (rev (seq (S n - k) (S k))) s) false.
Proof.
  induction k as [|k IH]; intro L.
  - rewrite Nat.sub_0_r. cbn [seq rev app fold_left].
    unfold throw_chain at 2.
    replace (S n =? 0) with false by reflexivity.
    replace (S n <=? n) with false by (symmetry; apply Nat.leb_gt; lia).
    apply nest_exec. apply (E_if _ _ _ _ s true s); [reflexivity|].
    apply E_throw. reflexivity.
  - replace (S n - S k) with (n - k) by lia.
    assert (NZ : (n - k =? 0) = false) by (apply Nat.eqb_neq; lia).
    assert (LE : (n - k <=? n) = true) by (apply Nat.leb_le; lia).
    unfold throw_chain at 2. rewrite NZ, LE.
    replace (S (n - k)) with (S n - k) by lia.
    change (seq (n - k) (S (S k))) with ((n - k) :: seq (S (n - k)) (S k)).
    replace (S (n - k)) with (S n - k) by lia. cbn [rev]. rewrite fold_left_app. cbn [fold_left].
    apply E_seq_abrupt; [|discriminate]. apply nest_exec. apply E_call_exc. apply IH. lia.
Qed.

Lemma chain_method n fs e ty bind handler last never s :
  derives (x_type e) ty ->
  exec_method (throw_chain n fs e ty bind handler last never) 0 s
              (RDone (last (handler (bind e (unwound n fs s))))).
Proof.
  intro D.
  eapply EM_done; [|left; reflexivity].
  change (throw_chain n fs e ty bind handler last never 0)
    with (STry (SCall 1) (CCons ty bind (SAct handler) CNil) (SAct last)).
  apply (E_try_catch _ _ _ _ s e (unwound n fs s) false bind (SAct handler) ONormal
           (handler (bind e (unwound n fs s))) true _ true).
  - apply E_call_exc. pose proof (chain_exec n fs e ty bind handler last never s n (le_n n)) as H.
    replace (S n - n) with 1 in H by lia. exact H.
  - apply sel_here. exact D.
  - constructor.
  - constructor.
  - reflexivity.
Qed.

Lemma chain_uncaught n fs e ty bind handler last never s :
  ~ derives (x_type e) ty ->
  exec_method (throw_chain n fs e ty bind handler last never) 0 s
              (RUncaught e (last (unwound n fs s))).
Proof.
  intro D.
  eapply EM_uncaught.
  change (throw_chain n fs e ty bind handler last never 0)
    with (STry (SCall 1) (CCons ty bind (SAct handler) CNil) (SAct last)).
  apply (E_try _ _ _ _ s (OExc e) (unwound n fs s) false _ true).
  - apply E_call_exc. pose proof (chain_exec n fs e ty bind handler last never s n (le_n n)) as H.
    replace (S n - n) with 1 in H by lia. exact H.
  - intros e0 E0. injection E0 as <-. apply un_cons; [exact D|constructor].
  - constructor.
  - reflexivity.
Qed.

Lemma chain_tame n fs e ty bind handler last never :
  tame_prog (throw_chain n fs e ty bind handler last never).
Proof.
  assert (A : forall inner : @stmt St, (forall prot, tame prot inner) ->
              forall l, tame false (nest l inner)).
  { intros inner TI [|f l]; [apply TI|]. apply nest_tame_ne, TI. }
  intro m. unfold throw_chain. destruct (m =? 0).
  - cbn. repeat split; auto.
  - destruct (m <=? n).
    + split; [|exact I]. apply A. intro; exact I.
    + apply A. intro prot. cbn. auto.
Qed.

End Chains.

(** *** Programs on which the code differs *)

Definition log (n : nat) : @stmt (list nat) := SAct (cons n).
Definition e1 := Exn (RSub 1 (RRoot 0)) 10.
Definition e2 := Exn (RSub 2 (RRoot 0)) 20.
(* if (true) throw e; *)
Definition throwing (e : exn) : @stmt (list nat) := SIf yes (SThrow (fun s => (e, s))) SEmpty.
(* a clause that logs the value of its exception, then runs [b] *)
Definition catching (ty : nat) (b : @stmt (list nat)) :=
  CCons ty (fun e s => x_val e :: s) b CNil.
Definition one (b : @stmt (list nat)) : prog := Prog (fun _ => b) (fun _ => 0) (fun _ => 0).

(* while (true) { if (true) { try { if (true) break; } catch (Exception) { } } log 1 } *)
Definition break_in_try_catch : @stmt (list nat) :=
  SWhile yes (SSeq (SIf yes (STry (SIf yes SBreak SEmpty) (catching 0 SEmpty) SEmpty) SEmpty)
                   (log 1)).
(* try { log 1 } catch (Exception) { log 2 }  throw e1 *)
Definition throw_outside_try : @stmt (list nat) :=
  SSeq (STry (log 1) (catching 0 (log 2)) SEmpty) (throwing e1).
(* try { return 42 } finally { log 1 }: the value is the head of the state *)
Definition return_in_try : @stmt (list nat) := STry (SReturn (Some (cons 42))) CNil (log 1).
(* try { try { throw e1 } finally { try { throw e2 } catch (2) { log 3 } } }
   catch (Exception) { log 4 } *)
Definition throw_in_finally : @stmt (list nat) :=
  STry (STry (throwing e1) CNil (STry (throwing e2) (catching 2 (log 3)) SEmpty))
       (catching 0 (log 4)) SEmpty.
(* try { while (true) { try {
       try { try { try { break } finally { throw e1 } } finally { log 1 } } catch (1) { log 2 }
       throw e2
   } finally { log 3 } } } catch (2) { log 5 } *)
Definition throw_from_finally : @stmt (list nat) :=
  STry (SWhile yes
    (STry (SSeq (STry (STry (STry (SIf yes SBreak SEmpty) CNil (throwing e1)) CNil (log 1))
                      (catching 1 (log 2)) SEmpty)
                (throwing e2))
          CNil (log 3)))
    (catching 2 (log 5)) SEmpty.
(* try { try { throw e1 } catch (1) { log 1 } } finally { log 2 } *)
Definition catch_that_passes : @stmt (list nat) :=
  STry (STry (SThrow (fun s => (e1, s))) (catching 1 (log 1)) SEmpty) CNil (log 2).

Lemma x_yes St body (t e : @stmt St) s o s' :
  xexec body t s o s' -> xexec body (SIf yes t e) s o s'.
Proof. intro H. apply (X_if body _ _ _ s true s); [reflexivity|exact H]. Qed.

Lemma x_fin St body (b : @stmt St) f s o s1 of s2 :
  xexec body b s o s1 -> xexec body f s1 of s2 ->
  xexec body (STry b CNil f) s (after_finally o of) s2.
Proof. intros A B. eapply X_try; eauto. intros. constructor. Qed.

Lemma x_throwing body e s : xexec body (throwing e) s (OExc e) s.
Proof. apply x_yes. apply X_throw. reflexivity. Qed.

Ltac der := first [apply der_here | apply der_base; der].

Lemma break_in_try_catch_means :
  xexec_method (p_body (one break_in_try_catch)) 0 [] (RDone []).
Proof.
  eapply XM_done; [|left; reflexivity]. cbn [one p_body].
  eapply X_while_break; [reflexivity|].
  apply X_seq_abrupt; [|discriminate]. apply x_yes.
  eapply (X_try _ _ _ _ _ OBreak _ ONormal); [apply x_yes; constructor|discriminate|constructor].
Qed.

Lemma throw_outside_try_means :
  xexec_method (p_body (one throw_outside_try)) 0 [] (RUncaught e1 [1]).
Proof.
  eapply XM_uncaught. cbn [one p_body].
  eapply X_seq; [|apply x_throwing].
  eapply (X_try _ _ _ _ _ ONormal _ ONormal); [apply X_act|discriminate|constructor].
Qed.

Lemma return_in_try_means :
  xexec_method (p_body (one return_in_try)) 0 [] (RDone [1; 42]).
Proof.
  eapply XM_done; [|right; reflexivity]. cbn [one p_body].
  apply (x_fin _ _ _ _ _ OReturn [42] ONormal); [apply (X_return _ (Some (cons 42)))|apply X_act].
Qed.

Lemma throw_in_finally_means :
  xexec_method (p_body (one throw_in_finally)) 0 [] (RDone [4; 10; 3; 20]).
Proof.
  eapply XM_done; [|left; reflexivity]. cbn [one p_body].
  apply (X_try_catch _ _ _ _ _ e1 [3; 20] (fun e s => x_val e :: s) (log 4) ONormal
           [4; 10; 3; 20] ONormal).
  - apply (x_fin _ _ _ _ _ (OExc e1) [] ONormal); [apply x_throwing|].
    apply (X_try_catch _ _ _ _ _ e2 [] (fun e s => x_val e :: s) (log 3) ONormal [3; 20] ONormal);
      [apply x_throwing|apply sel_here; der|apply X_act|constructor].
  - apply sel_here; der.
  - apply X_act.
  - constructor.
Qed.

Lemma throw_from_finally_means :
  xexec_method (p_body (one throw_from_finally)) 0 [] (RDone [5; 20; 3; 2; 10; 1]).
Proof.
  eapply XM_done; [|left; reflexivity]. cbn [one p_body].
  apply (X_try_catch _ _ _ _ _ e2 [3; 2; 10; 1] (fun e s => x_val e :: s) (log 5) ONormal
           [5; 20; 3; 2; 10; 1] ONormal);
    [|apply sel_here; der|apply X_act|constructor].
  eapply X_while_abrupt; [reflexivity| |right; exact I].
  apply (x_fin _ _ _ _ _ (OExc e2) [2; 10; 1] ONormal); [|apply X_act].
  eapply X_seq; [|apply x_throwing].
  apply (X_try_catch _ _ _ _ _ e1 [1] (fun e s => x_val e :: s) (log 2) ONormal
           [2; 10; 1] ONormal);
    [|apply sel_here; der|apply X_act|constructor].
  apply (x_fin _ _ _ _ _ (OExc e1) [] ONormal); [|apply X_act].
  apply (x_fin _ _ _ _ _ OBreak [] (OExc e1)); [|apply x_throwing].
  apply x_yes. constructor.
Qed.

Lemma catch_that_passes_means :
  xexec_method (p_body (one catch_that_passes)) 0 [] (RDone [2; 1; 10]).
Proof.
  eapply XM_done; [|left; reflexivity]. cbn [one p_body].
  apply (x_fin _ _ _ _ _ ONormal [1; 10] ONormal); [|apply X_act].
  apply (X_try_catch _ _ _ _ _ e1 [] (fun e s => x_val e :: s) (log 1) ONormal
           [1; 10] ONormal);
    [apply X_throw; reflexivity|apply sel_here; der|apply X_act|constructor].
Qed.

(** If some run ends differently, no run ends as meant. *)
Lemma never_ends_as St rm pn P k m (s : St) r r' :
  run rm pn P k (start m s) = r' -> final _ r' -> final _ r -> r <> r' ->
  ~ exists k', run rm pn P k' (start m s) = r.
Proof.
  intros A F F' NE (k' & B). apply NE. rewrite <- A, <- B.
  apply run_unique; [rewrite B|rewrite A]; assumption.
Qed.
