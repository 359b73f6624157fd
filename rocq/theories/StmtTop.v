(** From the simulation to the behaviour of methods, and soundness of the exit
    types under [safe]. *)
From Coq Require Import List Bool Arith ZArith Lia Permutation Sorted.
From Verif Require Import StmtModel StmtSpec StmtCond StmtProofs StmtSim StmtSim2.
Import ListNotations.

Notation "'do' x <- e ; k" :=
  (match e with Some x => k | None => None end) (at level 200, x pattern, k at level 200).

Section Top.
Context {St : Type}.
Notation stmt := (@stmt St).
Notation block := (@block St).
Notation cases := (@cases St).
Notation code := (@code St).
Notation outcome := (@outcome St).
Notation vm := (@vm St).

(** *** Runs *)

Definition halted (x : vm) : Prop := match x with Run _ _ _ => False | _ => True end.

Lemma run_halted C k (x : vm) : halted x -> run C k x = x.
Proof. intro H. induction k; [reflexivity|]. cbn [run]. destruct x; try contradiction; exact IHk. Qed.

Lemma halts_once C (x : vm) a b y z :
  run C a x = y -> run C b x = z -> halted y -> halted z -> y = z.
Proof.
  intros Ha Hb Hy Hz. destruct (Nat.le_ge_cases a b) as [L|L].
  - replace b with (a + (b - a)) in Hb by lia. rewrite run_add, Ha, run_halted in Hb; auto.
  - replace a with (b + (a - b)) in Ha by lia. rewrite run_add, Hb, run_halted in Ha; auto.
Qed.
Lemma halts_late C (x : vm) a b y pc stk s :
  run C a x = y -> halted y -> a <= b -> run C b x = Run pc stk s -> False.
Proof.
  intros Ha Hy L Hb. replace b with (a + (b - a)) in Hb by lia.
  rewrite run_add, Ha, run_halted in Hb by auto. subst y. rewrite Hb in Hy. exact Hy.
Qed.

Theorem method_behaviour o (s : stmt) (fin : St -> St) (c : code) :
  ok o s -> compile_method o s fin = Some c ->
  exists p, commit c = Some p /\ same_behaviour true s fin p.
Proof.
  intros K H. unfold compile_method in H.
  destruct (compile o s None None 0) as [[a n]|] eqn:E; [|discriminate].
  injection H as <-.
  destruct (proj1 (compile_labels o) _ _ _ _ _ _ E) as [[_ F] Cl].
  assert (U : forall l, cnt l (a ++ [IRet fin]) <= 1).
  { intro l. rewrite cnt_app. cbn [cnt lab]. specialize (F l).
    destruct (ind_spec 0 n l) as [[_ I]|[_ I]]; rewrite I in F; lia. }
  destruct (commit_from_exists (a ++ [IRet fin]) (a ++ [IRet fin]) 0) as [p Hp].
  { intros l Ul. apply uses_app in Ul as [Ul|Ul].
    - destruct (Cl l Ul) as [|[|]]; try discriminate. rewrite cnt_app. lia.
    - apply uses_cons in Ul as [[]|Ul]. apply uses_nil in Ul as []. }
  exists p. split; [exact Hp|].
  assert (S0 : forall fuel st, match exec true fuel s st with
    | Some (Completes st1) => exists k, run p k (start st) = Ret (fin st1)
    | Some (Returns st1) => exists k, run p k (start st) = Ret st1
    | Some (Throws st1) => exists k, run p k (start st) = Thr st1
    | Some _ => False
    | None => exists k pc stk s', fuel <= k /\ run p k (start st) = Run pc stk s'
    end).
  { intros fuel st. unfold start.
    assert (X := proj1 (simulation o _ _ Hp U) s K None None 0 a n [] [IRet fin] E eq_refl fuel [] st).
    change (size_of (@nil instr)) with 0 in X. cbn [app] in X.
    destruct (exec true fuel s st) as [[st1|st1|st1|st1|st1]|]; cbn [sim] in X; auto.
    - destruct X as [k Hk]. exists (k + 1). rewrite run_add, Hk.
      exact (do_ret _ _ Hp a fin [] [] st1 eq_refl).
    - destruct X as (l & t & k & A & _). discriminate.
    - destruct X as (l & t & k & A & _). discriminate. }
  intro st. split; [|split; [|split]].
  - intro st'. split.
    + intros [k Hk]. exists k. assert (X := S0 k st).
      destruct (exec true k s st) as [[st1|st1|st1|st1|st1]|]; try contradiction.
      * right. exists st1. split; auto. destruct X as [k' Hk'].
        assert (Y := halts_once p _ _ _ _ _ Hk Hk' I I). congruence.
      * left. destruct X as [k' Hk'].
        assert (Y := halts_once p _ _ _ _ _ Hk Hk' I I). congruence.
      * destruct X as [k' Hk']. assert (Y := halts_once p _ _ _ _ _ Hk Hk' I I). discriminate.
      * destruct X as (k' & pc & stk & s' & L & Hk'). destruct (halts_late p _ _ _ _ _ _ _ Hk I L Hk').
    + intros [m Hm]. assert (X := S0 m st). destruct Hm as [Hm|(st1 & Hm & ->)]; rewrite Hm in X; exact X.
  - intro st'. split.
    + intros [k Hk]. exists k. assert (X := S0 k st).
      destruct (exec true k s st) as [[st1|st1|st1|st1|st1]|]; try contradiction.
      * destruct X as [k' Hk']. assert (Y := halts_once p _ _ _ _ _ Hk Hk' I I). discriminate.
      * destruct X as [k' Hk']. assert (Y := halts_once p _ _ _ _ _ Hk Hk' I I). discriminate.
      * destruct X as [k' Hk']. assert (Y := halts_once p _ _ _ _ _ Hk Hk' I I). congruence.
      * destruct X as (k' & pc & stk & s' & L & Hk'). destruct (halts_late p _ _ _ _ _ _ _ Hk I L Hk').
    + intros [m Hm]. assert (X := S0 m st). rewrite Hm in X. exact X.
  - split.
    + intros D m. assert (X := S0 m st).
      destruct (exec true m s st) as [[st1|st1|st1|st1|st1]|]; try contradiction; auto;
        destruct X as [k Hk]; destruct (D k) as (pc & stk & s' & Hd); congruence.
    + intros D k. assert (X := S0 k st). rewrite (D k) in X.
      destruct X as (k' & pc & stk & s' & L & Hk').
      destruct (run p k (start st)) as [pc1 stk1 s1|s1|s1|] eqn:R; [eauto| | |];
        exfalso; eapply (halts_late p _ _ _ _ _ _ _ R); eauto; exact I.
  - intros [k Hk]. assert (X := S0 k st).
    destruct (exec true k s st) as [[st1|st1|st1|st1|st1]|]; try contradiction;
      try (destruct X as [k' Hk']; assert (Y := halts_once p _ _ _ _ _ Hk Hk' I I); discriminate).
    destruct X as (k' & pc & stk & s' & L & Hk'). destruct (halts_late p _ _ _ _ _ _ _ Hk I L Hk').
Qed.

(** *** continue in do loops *)

Definition no_cont (r : option outcome) : Prop := forall s, r <> Some (Continues s).

Lemma while_no_cont n tst (body : St -> option outcome) next st :
  no_cont (while_loop n tst body next st).
Proof.
  revert st. induction n as [|n IH]; intros st s; cbn [while_loop]; [discriminate|].
  destruct (tst st) as [[] s1]; [|discriminate].
  destruct (body s1) as [[]|]; try discriminate; apply IH.
Qed.
Lemma do_no_cont q n (body : St -> option outcome) tst st : no_cont (do_loop q n body tst st).
Proof.
  revert st. induction n as [|n IH]; intros st s; cbn [do_loop]; [discriminate|].
  destruct (body st) as [[s1|s1|s1|s1|s1]|]; try discriminate.
  - destruct (tst s1) as [[] s2]; [apply IH|discriminate].
  - destruct q; [apply IH|]. destruct (tst s1) as [[] s2]; [apply IH|discriminate].
Qed.
Lemma no_cont_then r (k : St -> option outcome) :
  no_cont r -> (forall s, no_cont (k s)) -> no_cont (sim_then r k).
Proof.
  intros A B s. destruct r as [[x|x|x|x|x]|]; cbn [sim_then]; try discriminate; [apply B|].
  intro E. apply (A x). reflexivity.
Qed.

Lemma no_continue_exec q n :
  (forall (s : stmt), no_continue s = true -> forall st, no_cont (exec q n s st)) /\
  (forall (b : block), no_continue_b b = true -> forall st, no_cont (exec_block q n b st)) /\
  (forall (cs : cases), no_continue_c cs = true -> forall k st, no_cont (exec_cases q n k cs st)).
Proof.
  apply stmt_mutind; try (intros; intros ?; discriminate).
  - intros b IH H st. rewrite exec_group. apply IH. exact H.
  - intros c t IHt e IHe H st. change (no_continue t && no_continue e = true) in H.
    apply andb_prop in H as [H1 H2]. intro s. cbn [exec].
    destruct (test (Some c) st) as [[] s1]; [apply IHt|apply IHe]; auto.
  - intros c b _ _ st. cbn [exec]. apply while_no_cont.
  - intros b _ c _ st. cbn [exec]. apply do_no_cont.
  - intros b _ c _ st. cbn [exec]. apply do_no_cont.
  - intros i c inc b _ _ st. cbn [exec]. apply while_no_cont.
  - intros e cs IH H st s. rewrite exec_switch. destruct (select e st) as [z s1].
    destruct (entry z cs) as [k|]; [|discriminate]. intro X.
    destruct (exec_cases q n k cs s1) as [[x|x|x|x|x]|] eqn:Er; cbn [absorb] in X; try discriminate.
    exact (IH H k s1 x Er).
  - intros s IHs b IHb H st. change (no_continue s && no_continue_b b = true) in H.
    apply andb_prop in H as [H1 H2]. rewrite exec_bcons. apply no_cont_then; auto.
  - intros ls b IHb r IHr H k st. change (no_continue_b b && no_continue_c r = true) in H.
    apply andb_prop in H as [H1 H2]. rewrite exec_ccons. destruct k; [|auto].
    apply no_cont_then; auto.
Qed.

Lemma while_loop_ext n tst (b1 b2 : St -> option outcome) next :
  (forall s, b1 s = b2 s) -> forall st, while_loop n tst b1 next st = while_loop n tst b2 next st.
Proof.
  intro E. induction n as [|n IH]; intro st; cbn [while_loop]; [reflexivity|].
  destruct (tst st) as [[] s1]; [|reflexivity]. rewrite E. destruct (b2 s1) as [[]|]; auto.
Qed.
Lemma do_loop_ext n tst (b1 b2 : St -> option outcome) :
  (forall s, b1 s = b2 s) -> (forall s, no_cont (b1 s)) ->
  forall st, do_loop true n b1 tst st = do_loop false n b2 tst st.
Proof.
  intros E N. induction n as [|n IH]; intro st; cbn [do_loop]; [reflexivity|].
  assert (M := N st). rewrite <- E. destruct (b1 st) as [[s1|s1|s1|s1|s1]|]; auto.
  - destruct (tst s1) as [[] s2]; auto.
  - exfalso. apply (M s1). reflexivity.
Qed.

Lemma do_without_continue_exec n :
  (forall (s : stmt), do_without_continue s = true -> forall st, exec true n s st = exec false n s st) /\
  (forall (b : block), do_without_continue_b b = true ->
     forall st, exec_block true n b st = exec_block false n b st) /\
  (forall (cs : cases), do_without_continue_c cs = true ->
     forall k st, exec_cases true n k cs st = exec_cases false n k cs st).
Proof.
  assert (TE : forall r (k1 k2 : St -> option outcome), (forall s, k1 s = k2 s) ->
    sim_then r k1 = sim_then r k2).
  { intros r k1 k2 E. destruct r as [[]|]; cbn [sim_then]; auto. }
  apply stmt_mutind; try (intros; reflexivity).
  - intros b IH H st. rewrite !exec_group. apply IH. exact H.
  - intros c t IHt e IHe H st. change (do_without_continue t && do_without_continue e = true) in H.
    apply andb_prop in H as [H1 H2]. cbn [exec].
    destruct (test (Some c) st) as [[] s1]; [apply IHt|apply IHe]; auto.
  - intros c b IH H st. cbn [exec]. apply while_loop_ext. intro s. apply IH. exact H.
  - intros b IH c H st. change (no_continue b && do_without_continue b = true) in H.
    apply andb_prop in H as [H1 H2]. cbn [exec]. apply do_loop_ext; [intro s; apply IH; auto|].
    intro s. apply no_continue_exec; auto.
  - intros b IH c H st. change (no_continue b && do_without_continue b = true) in H.
    apply andb_prop in H as [H1 H2]. cbn [exec]. apply do_loop_ext; [intro s; apply IH; auto|].
    intro s. apply no_continue_exec; auto.
  - intros i c inc b IH H st. cbn [exec]. apply while_loop_ext. intro s. apply IH. exact H.
  - intros e cs IH H st. rewrite !exec_switch. destruct (select e st) as [z s1].
    destruct (entry z cs) as [k|]; [|reflexivity]. rewrite IH; auto.
  - intros s IHs b IHb H st. change (do_without_continue s && do_without_continue_b b = true) in H.
    apply andb_prop in H as [H1 H2]. rewrite !exec_bcons, IHs by auto. apply TE. auto.
  - intros ls b IHb r IHr H k st.
    change (do_without_continue_b b && do_without_continue_c r = true) in H.
    apply andb_prop in H as [H1 H2]. rewrite !exec_ccons. destruct k; [|auto].
    rewrite IHb by auto. apply TE. auto.
Qed.

Lemma behaviour_false (s : stmt) fin (p : list cmd) :
  do_without_continue s = true -> same_behaviour true s fin p -> same_behaviour false s fin p.
Proof.
  intros D H st. destruct (H st) as (A & B & C & N).
  assert (E : forall n, exec true n s st = exec false n s st)
    by (intro n; apply do_without_continue_exec; auto).
  split; [|split; [|split; auto]].
  - intro st'. rewrite (A st'). unfold src_returns. split; intros [n Hn]; exists n;
      [rewrite <- E|rewrite E]; exact Hn.
  - intro st'. rewrite (B st'). unfold src_throws. split; intros [n Hn]; exists n;
      [rewrite <- E|rewrite E]; exact Hn.
  - rewrite C. unfold src_diverges. split; intros Hn n; [rewrite <- E|rewrite E]; apply Hn.
Qed.

(** *** Exit types *)

Definition sound (e : ety) (r : option outcome) : Prop :=
  match r with
  | Some (Completes _) => unreached e = false
  | Some (Breaks _) => x_brk e = true
  | Some (Continues _) => x_cont e = true
  | _ => True
  end.

Lemma group_exit_cons s (r : block) acc :
  group_exit (BCons s r) acc =
  if unreached (exit_type s) then x_del_pass (x_or acc (exit_type s))
  else group_exit r (x_or acc (exit_type s)).
Proof. reflexivity. Qed.
Lemma case_exit_cons s (r : block) acc :
  case_exit (BCons s r) acc =
  if case_until (exit_type s) then x_del_pass (x_or acc (exit_type s))
  else case_exit r (x_or acc (exit_type s)).
Proof. reflexivity. Qed.
Lemma cases_exit_cons ls b (r : cases) acc :
  cases_exit (CCons ls b r) acc =
  cases_exit r (if x_brk (case_exit b x_none) then x_add_pass (x_or acc (case_exit b x_none))
                else x_or acc (case_exit b x_none)).
Proof. reflexivity. Qed.
Lemma const_cases_exit_cons k ls b (r : cases) acc :
  const_cases_exit k (CCons ls b r) acc =
  match k with
  | S k' => const_cases_exit k' r acc
  | O => let et := case_exit b x_none in
      let acc' := x_or acc et in
      if case_until et
      then (if x_brk et then x_add_pass acc' else x_del_pass acc')
      else const_cases_exit 0 r acc'
  end.
Proof. reflexivity. Qed.

Definition le_ety (a b : ety) : Prop :=
  (x_brk a = true -> x_brk b = true) /\ (x_cont a = true -> x_cont b = true).
Lemma le_refl a : le_ety a a. Proof. split; auto. Qed.
Lemma le_trans a b c : le_ety a b -> le_ety b c -> le_ety a c.
Proof. intros [A B] [C D]. split; auto. Qed.
Lemma le_or_l a b : le_ety a (x_or a b).
Proof. split; cbn; intros ->; reflexivity. Qed.
Lemma le_or_r a b : le_ety b (x_or a b).
Proof. split; cbn; intros ->; apply orb_true_r. Qed.
Lemma le_del_pass a : le_ety a (x_del_pass a).
Proof. split; auto. Qed.
Lemma le_add_pass a : le_ety a (x_add_pass a).
Proof. split; auto. Qed.

Lemma group_exit_le (b : block) acc : le_ety acc (group_exit b acc).
Proof.
  revert acc. induction b as [|s r IH]; intro acc; [apply le_refl|].
  rewrite group_exit_cons. destruct (unreached (exit_type s)).
  - eapply le_trans; [apply le_or_l|apply le_del_pass].
  - eapply le_trans; [apply le_or_l|apply IH].
Qed.
Lemma case_exit_le (b : block) acc : le_ety acc (case_exit b acc).
Proof.
  revert acc. induction b as [|s r IH]; intro acc; [apply le_refl|].
  rewrite case_exit_cons. destruct (case_until (exit_type s)).
  - eapply le_trans; [apply le_or_l|apply le_del_pass].
  - eapply le_trans; [apply le_or_l|apply IH].
Qed.
Lemma cases_exit_le (cs : cases) acc : le_ety acc (cases_exit cs acc).
Proof.
  revert acc. induction cs as [|ls b r IH]; intro acc; [apply le_refl|].
  rewrite cases_exit_cons. eapply le_trans; [|apply IH].
  destruct (x_brk (case_exit b x_none)); [eapply le_trans; [|apply le_add_pass]|]; apply le_or_l.
Qed.
Lemma cases_exit_pass (cs : cases) acc : x_pass acc = true -> x_pass (cases_exit cs acc) = true.
Proof.
  revert acc. induction cs as [|ls b r IH]; intros acc H; [exact H|].
  rewrite cases_exit_cons. apply IH. destruct (x_brk (case_exit b x_none)); cbn; [reflexivity|].
  rewrite H. reflexivity.
Qed.
Lemma const_cases_exit_le (cs : cases) k acc : le_ety acc (const_cases_exit k cs acc).
Proof.
  revert k acc. induction cs as [|ls b r IH]; intros k acc; [destruct k; apply le_refl|].
  rewrite const_cases_exit_cons. destruct k; [|apply IH]. cbv zeta.
  destruct (case_until (case_exit b x_none)); [destruct (x_brk (case_exit b x_none))|];
    (eapply le_trans; [apply le_or_l|]); [apply le_add_pass|apply le_del_pass|apply IH].
Qed.

Lemma pass_reached e : x_pass e = true -> unreached e = false.
Proof. unfold unreached. intros ->. apply andb_false_r. Qed.
Lemma none_reached e : x_is_none e = true -> unreached e = false.
Proof. unfold unreached. intros ->. reflexivity. Qed.
Lemma reached_or a b : unreached a = false -> unreached b = false -> unreached (x_or a b) = false.
Proof.
  destruct a as [[] [] [] [] [] []], b as [[] [] [] [] [] []]; unfold unreached; cbn; auto.
Qed.

Lemma sound_le a b r : le_ety a b -> (forall s, r <> Some (Completes s)) -> sound a r -> sound b r.
Proof.
  intros [A B] N. destruct r as [[s|s|s|s|s]|]; cbn [sound]; auto. exfalso. apply (N s). reflexivity.
Qed.

Lemma sound_never a r : unreached a = true -> sound a r -> forall s, r <> Some (Completes s).
Proof. intros U S s E. subst r. cbn [sound] in S. congruence. Qed.

Lemma until_unreached e : case_until e = true -> unreached e = true.
Proof.
  unfold case_until, unreached. intro H. apply andb_prop in H as [H _]. exact H.
Qed.

(* loops *)
Lemma while_outcome n tst (body : St -> option outcome) next st s :
  while_loop n tst body next st = Some (Completes s) ->
  (exists s1, fst (tst s1) = false) \/ exists s1 s2, body s1 = Some (Breaks s2).
Proof.
  revert st. induction n as [|n IH]; intro st; cbn [while_loop]; [discriminate|].
  destruct (tst st) as [[] s1] eqn:T; [|intros _; left; exists st; rewrite T; reflexivity].
  destruct (body s1) as [[x|x|x|x|x]|] eqn:B; try discriminate; eauto.
Qed.
Lemma while_no_break n tst (body : St -> option outcome) next st s :
  while_loop n tst body next st <> Some (Breaks s).
Proof.
  revert st. induction n as [|n IH]; intro st; cbn [while_loop]; [discriminate|].
  destruct (tst st) as [[] s1]; [|discriminate].
  destruct (body s1) as [[]|]; try discriminate; apply IH.
Qed.
Lemma do_no_break q n (body : St -> option outcome) tst st s :
  do_loop q n body tst st <> Some (Breaks s).
Proof.
  revert st. induction n as [|n IH]; intro st; cbn [do_loop]; [discriminate|].
  destruct (body st) as [[s1|s1|s1|s1|s1]|]; try discriminate.
  - destruct (tst s1) as [[] s2]; [apply IH|discriminate].
  - destruct q; [apply IH|]. destruct (tst s1) as [[] s2]; [apply IH|discriminate].
Qed.
Lemma do_outcome q n (body : St -> option outcome) tst st s :
  do_loop q n body tst st = Some (Completes s) ->
  ((exists s1, fst (tst s1) = false) /\
   exists s1 s2, body s1 = Some (Completes s2) \/ body s1 = Some (Continues s2)) \/
  exists s1 s2, body s1 = Some (Breaks s2).
Proof.
  revert st. induction n as [|n IH]; intro st; cbn [do_loop]; [discriminate|].
  destruct (body st) as [[x|x|x|x|x]|] eqn:B; try discriminate; eauto.
  - destruct (tst x) as [[] s1] eqn:T; [apply IH|].
    intros _. left. split; [exists x; rewrite T; reflexivity|eauto].
  - destruct q; [apply IH|]. destruct (tst x) as [[] s1] eqn:T; [apply IH|].
    intros _. left. split; [exists x; rewrite T; reflexivity|eauto].
Qed.

Lemma always_true_test c : always_true c = true -> forall s : St, fst (test c s) = true.
Proof. destruct c as [[b|f]|]; cbn; intros H s; auto; discriminate. Qed.

(* cases *)
Fixpoint ncases (cs : cases) : nat := match cs with CNil => 0 | CCons _ _ r => S (ncases r) end.
Lemma first_labelled_lt l (cs : cases) k : first_labelled l cs = Some k -> k < ncases cs.
Proof.
  revert k. induction cs as [|ls b r IH]; intros k H; cbn [first_labelled] in H; [discriminate|].
  cbn [ncases]. destruct (existsb (same_label l) ls); [injection H as <-; lia|].
  destruct (first_labelled l r) as [j|]; [|discriminate]. injection H as <-.
  specialize (IH j eq_refl). lia.
Qed.
Lemma entry_lt z (cs : cases) k : entry z cs = Some k -> k < ncases cs.
Proof.
  unfold entry. destruct (first_labelled (Some z) cs) eqn:E.
  - intro H; injection H as <-. eapply first_labelled_lt; eauto.
  - apply first_labelled_lt.
Qed.

Lemma find_value_first z (cs : cases) : find_value z cs = first_labelled (Some z) cs.
Proof.
  induction cs as [|ls b r IH]; cbn [find_value first_labelled]; [reflexivity|]. rewrite IH.
  replace (has_value z ls) with (existsb (same_label (Some z)) ls); [reflexivity|].
  unfold has_value. induction ls as [|[v|] ls IHl]; cbn [existsb same_label]; auto.
  - rewrite IHl, Z.eqb_sym. reflexivity.
Qed.
Lemma default_count_cons ls b (r : cases) :
  default_count (CCons ls b r) =
  length (filter (fun l => match l with None => true | _ => false end) ls) + default_count r.
Proof. reflexivity. Qed.
Lemma no_default_label ls :
  length (filter (fun l : option Z => match l with None => true | _ => false end) ls) = 0 <->
  has_default ls = false.
Proof.
  induction ls as [|[v|] ls IH]; cbn [filter length has_default existsb]; [tauto|exact IH|].
  split; intro; [lia|discriminate].
Qed.
Lemma find_default_none (cs : cases) : default_count cs = 0 -> find_default cs = None.
Proof.
  induction cs as [|ls b r IH]; [reflexivity|]. rewrite default_count_cons. intro H.
  cbn [find_default]. rewrite IH by lia.
  destruct (no_default_label ls) as [N _]. rewrite N by lia. reflexivity.
Qed.
Lemma first_default_none (cs : cases) : default_count cs = 0 -> first_labelled None cs = None.
Proof.
  induction cs as [|ls b r IH]; [reflexivity|]. rewrite default_count_cons. intro H.
  cbn [first_labelled]. rewrite IH by lia. change (existsb (same_label None) ls) with (has_default ls).
  destruct (no_default_label ls) as [N _]. rewrite N by lia. reflexivity.
Qed.
Lemma find_default_first (cs : cases) :
  default_count cs <= 1 -> find_default cs = first_labelled None cs.
Proof.
  induction cs as [|ls b r IH]; [reflexivity|]. rewrite default_count_cons. intro H.
  cbn [find_default first_labelled]. change (existsb (same_label None) ls) with (has_default ls).
  destruct (has_default ls) eqn:D.
  - assert (length (filter (fun l : option Z => match l with None => true | _ => false end) ls) <> 0).
    { intro E. apply no_default_label in E. congruence. }
    rewrite find_default_none by lia. reflexivity.
  - rewrite IH by lia. destruct (first_labelled None r); reflexivity.
Qed.
Lemma any_default_first (cs : cases) : first_labelled None cs = None -> any_default cs = false.
Proof.
  induction cs as [|ls b r IH]; [reflexivity|]. cbn [first_labelled any_default].
  change (existsb (same_label None) ls) with (has_default ls). destruct (has_default ls); [discriminate|].
  destruct (first_labelled None r); [discriminate|]. intros _. apply IH. reflexivity.
Qed.

Lemma last_stops_cons ls b (r : cases) :
  last_stops (CCons ls b r) =
  match r with CNil => unreached (case_exit b x_none) | _ => last_stops r end.
Proof. reflexivity. Qed.

Lemma exit_sound q n :
  (forall (s : stmt), safe s = true -> forall st, sound (exit_type s) (exec q n s st)) /\
  (forall (b : block), safe_b b = true -> forall acc st,
     (unreached acc = false -> sound (group_exit b acc) (exec_block q n b st)) /\
     (unreached acc = false -> sound (case_exit b acc) (exec_block q n b st))) /\
  (forall (cs : cases), safe_c cs = true -> forall k st,
     match exec_cases q n k cs st with
     | Some (Completes _) => stops k cs = false /\ (k < ncases cs -> last_stops cs = false)
     | Some (Breaks _) => stops k cs = false /\ (forall acc, x_pass (cases_exit cs acc) = true)
     | Some (Continues _) => forall acc, x_cont (cases_exit cs acc) = true /\
         x_cont (const_cases_exit k cs acc) = true
     | _ => True
     end).
Proof.
  apply stmt_mutind; try (intros; exact I); try (intros; reflexivity).
  - (* group *)
    intros b IH H st. rewrite exec_group. apply (IH H x_none st). reflexivity.
  - (* if *)
    intros c t IHt e IHe H st. change (safe t && safe e = true) in H.
    apply andb_prop in H as [H1 H2]. specialize (IHt H1). specialize (IHe H2). cbn [exec].
    destruct c as [[]|f]; cbn [test exit_type]; [apply IHt|apply IHe|].
    destruct (f st) as [v s1].
    assert (X : sound (exit_type (if v then t else e)) (if v then exec q n t s1 else exec q n e s1))
      by (destruct v; auto).
    cbv zeta. set (a := exit_type t) in *. set (b := exit_type e) in *.
    set (u := x_or a b). set (r := if v then exec q n t s1 else exec q n e s1) in *.
    assert (L : le_ety (exit_type (if v then t else e)) u)
      by (destruct v; [apply le_or_l|apply le_or_r]).
    assert (R : unreached (exit_type (if v then t else e)) = false ->
      unreached (if (x_is_none a || x_is_none b) && negb (x_is_none u) then x_add_pass u else u) = false).
    { intro W. assert (W' : unreached a = false \/ unreached b = false) by (destruct v; auto).
      clear - W'. clearbody a b. subst u.
      destruct a as [[] [] [] [] [] []], b as [[] [] [] [] [] []]; cbn in *; auto;
        destruct W' as [W|W]; discriminate. }
    assert (L' : le_ety (exit_type (if v then t else e))
      (if (x_is_none a || x_is_none b) && negb (x_is_none u) then x_add_pass u else u)).
    { eapply le_trans; [exact L|]. destruct ((x_is_none a || x_is_none b) && negb (x_is_none u));
        [apply le_add_pass|apply le_refl]. }
    destruct r as [[x|x|x|x|x]|]; cbn [sound] in *; auto; apply L'; exact X.
  - (* while *)
    intros c b IH H st.
    change (safe b && (negb (unreached (exit_type (SWhile c b))) ||
               (always_true c && negb (x_brk (exit_type b)))) = true) in H.
    apply andb_prop in H as [H1 H2]. specialize (IH H1).
    change (exec q n (SWhile c b) st) with (while_loop n (test c) (exec q n b) (fun x => x) st).
    set (r := while_loop n (test c) (exec q n b) (fun x => x) st).
    assert (N1 : forall s, r <> Some (Breaks s)) by (intro s; apply while_no_break).
    assert (N2 : forall s, r <> Some (Continues s)) by (apply while_no_cont).
    destruct r as [[s|s|s|s|s]|] eqn:Er; subst r; cbn [sound]; auto;
      try (exfalso; eapply N1; reflexivity); try (exfalso; eapply N2; reflexivity).
    apply orb_prop in H2 as [H2|H2]; [apply negb_true_iff in H2; exact H2|].
    apply andb_prop in H2 as [Ht Hb]. apply negb_true_iff in Hb. exfalso.
    apply while_outcome in Er as [[s1 E]|(s1 & s2 & E)].
    + rewrite always_true_test in E by auto. discriminate.
    + specialize (IH s1). rewrite E in IH. cbn [sound] in IH. congruence.
  - (* do *)
    intros b IH c H st.
    change (safe b && (negb (unreached (exit_type (SDo b c))) ||
               (always_true c && negb (x_brk (exit_type b))) ||
               (unreached (exit_type b) && negb (x_brk (exit_type b)) && negb (x_cont (exit_type b)))) = true) in H.
    apply andb_prop in H as [H1 H2]. specialize (IH H1).
    change (exec q n (SDo b c) st) with (do_loop q n (exec q n b) (test c) st).
    set (r := do_loop q n (exec q n b) (test c) st).
    assert (N1 : forall s, r <> Some (Breaks s)) by (intro s; apply do_no_break).
    assert (N2 : forall s, r <> Some (Continues s)) by (apply do_no_cont).
    destruct r as [[s|s|s|s|s]|] eqn:Er; subst r; cbn [sound]; auto;
      try (exfalso; eapply N1; reflexivity); try (exfalso; eapply N2; reflexivity).
    apply orb_prop in H2 as [H2|H2]; [apply orb_prop in H2 as [H2|H2]|].
    + apply negb_true_iff in H2; exact H2.
    + apply andb_prop in H2 as [Ht Hb]. apply negb_true_iff in Hb. exfalso.
      apply do_outcome in Er as [[[s1 E] _]|(s1 & s2 & E)].
      * rewrite always_true_test in E by auto. discriminate.
      * specialize (IH s1). rewrite E in IH. cbn [sound] in IH. congruence.
    + apply andb_prop in H2 as [H2 Hc]. apply andb_prop in H2 as [Hu Hb].
      apply negb_true_iff in Hb, Hc. exfalso.
      apply do_outcome in Er as [(_ & s1 & s2 & [E|E])|(s1 & s2 & E)];
        specialize (IH s1); rewrite E in IH; cbn [sound] in IH; congruence.
  - (* until *)
    intros b IH c H st.
    change (safe b && (negb (unreached (exit_type (SUntil b c))) ||
               (never_true c && negb (x_brk (exit_type b))) ||
               (unreached (exit_type b) && negb (x_brk (exit_type b)) && negb (x_cont (exit_type b)))) = true) in H.
    apply andb_prop in H as [H1 H2]. specialize (IH H1).
    set (tst := match c with None => fun s => (true, s) | Some _ => fun s => negate (test c s) end).
    change (exec q n (SUntil b c) st) with (do_loop q n (exec q n b) tst st).
    set (r := do_loop q n (exec q n b) tst st).
    assert (N1 : forall s, r <> Some (Breaks s)) by (intro s; apply do_no_break).
    assert (N2 : forall s, r <> Some (Continues s)) by (apply do_no_cont).
    destruct r as [[s|s|s|s|s]|] eqn:Er; subst r; cbn [sound]; auto;
      try (exfalso; eapply N1; reflexivity); try (exfalso; eapply N2; reflexivity).
    apply orb_prop in H2 as [H2|H2]; [apply orb_prop in H2 as [H2|H2]|].
    + apply negb_true_iff in H2; exact H2.
    + apply andb_prop in H2 as [Ht Hb]. apply negb_true_iff in Hb. exfalso.
      apply do_outcome in Er as [[[s1 E] _]|(s1 & s2 & E)].
      * subst tst. destruct c as [[[]|]|]; cbn in *; discriminate.
      * specialize (IH s1). rewrite E in IH. cbn [sound] in IH. congruence.
    + apply andb_prop in H2 as [H2 Hc]. apply andb_prop in H2 as [Hu Hb].
      apply negb_true_iff in Hb, Hc. exfalso.
      apply do_outcome in Er as [(_ & s1 & s2 & [E|E])|(s1 & s2 & E)];
        specialize (IH s1); rewrite E in IH; cbn [sound] in IH; congruence.
  - (* for *)
    intros i c inc b IH H st.
    change (safe b && (negb (unreached (exit_type (SFor i c inc b))) ||
               (always_true c && negb (x_brk (exit_type b)))) = true) in H.
    apply andb_prop in H as [H1 H2]. specialize (IH H1).
    change (exec q n (SFor i c inc b) st)
      with (while_loop n (test c) (exec q n b) (opt_act inc) (opt_act i st)).
    set (r := while_loop n (test c) (exec q n b) (opt_act inc) (opt_act i st)).
    assert (N1 : forall s, r <> Some (Breaks s)) by (intro s; apply while_no_break).
    assert (N2 : forall s, r <> Some (Continues s)) by (apply while_no_cont).
    destruct r as [[s|s|s|s|s]|] eqn:Er; subst r; cbn [sound]; auto;
      try (exfalso; eapply N1; reflexivity); try (exfalso; eapply N2; reflexivity).
    apply orb_prop in H2 as [H2|H2]; [apply negb_true_iff in H2; exact H2|].
    apply andb_prop in H2 as [Ht Hb]. apply negb_true_iff in Hb. exfalso.
    apply while_outcome in Er as [[s1 E]|(s1 & s2 & E)].
    + rewrite always_true_test in E by auto. discriminate.
    + specialize (IH s1). rewrite E in IH. cbn [sound] in IH. congruence.
  - (* switch *)
    intros e cs IH H st.
    change (safe_c cs && (default_count cs <=? 1) &&
      (negb (unreached (exit_type (SSwitch e cs))) ||
       match e with
       | LConst z => match entry z cs with Some k => stops k cs | None => true end
       | LDyn _ => last_stops cs
       end) = true) in H.
    apply andb_prop in H as [H H2]. apply andb_prop in H as [H1 Hd]. specialize (IH H1).
    apply Nat.leb_le in Hd. rewrite exec_switch.
    destruct e as [z|f]; cbn [select].
    + assert (Ee : match find_value z cs with Some k => Some k | None => find_default cs end = entry z cs)
        by (rewrite find_value_first, find_default_first by auto; reflexivity).
      change (exit_type (SSwitch (LConst z) cs)) with
        (match match find_value z cs with Some k => Some k | None => find_default cs end with
         | None => x_none
         | Some k => x_del_brk (const_cases_exit k cs x_none)
         end) in *.
      rewrite Ee in *. destruct (entry z cs) as [k|] eqn:Ek; [|reflexivity].
      specialize (IH k st). destruct (exec_cases q n k cs st) as [[s|s|s|s|s]|]; cbn [absorb sound]; auto.
      * destruct IH as [IH _]. rewrite IH, orb_false_r in H2. apply negb_true_iff in H2. exact H2.
      * destruct IH as [IH _]. rewrite IH, orb_false_r in H2. apply negb_true_iff in H2. exact H2.
      * apply (IH x_none).
    + change (exit_type (SSwitch (LDyn f) cs)) with
        (x_del_brk (if any_default cs then cases_exit cs x_none else x_add_pass (cases_exit cs x_none))) in *.
      destruct (f st) as [z s1].
      destruct (entry z cs) as [k|] eqn:Ek.
      * assert (Lk := entry_lt _ _ _ Ek). specialize (IH k s1).
        destruct (exec_cases q n k cs s1) as [[s|s|s|s|s]|]; cbn [absorb sound]; auto.
        -- destruct IH as [_ IH]. rewrite IH, orb_false_r in H2 by auto.
           apply negb_true_iff in H2. exact H2.
        -- destruct IH as [_ IH]. apply pass_reached.
           destruct (any_default cs); [apply (IH x_none)|reflexivity].
        -- destruct (IH x_none) as [IH' _]. destruct (any_default cs); exact IH'.
      * cbn [sound]. apply pass_reached. unfold entry in Ek.
        destruct (first_labelled (Some z) cs); [discriminate|].
        rewrite any_default_first by exact Ek. reflexivity.
  - (* nil *)
    intros _ acc st. split; intro H; exact H.
  - (* cons *)
    intros s IHs b IHb H acc st. change (safe s && safe_b b = true) in H.
    apply andb_prop in H as [H1 H2]. specialize (IHs H1). specialize (IHb H2).
    rewrite exec_bcons, group_exit_cons, case_exit_cons.
    assert (IHs' := IHs st). destruct (unreached (exit_type s)) eqn:U.
    + (* the rest is not reached *)
      assert (N := sound_never _ _ U IHs'). rewrite sim_then_never by exact N. split; intro A.
      * eapply sound_le; [|exact N|exact IHs'].
        eapply le_trans; [apply le_or_r|apply le_del_pass].
      * eapply sound_le; [|exact N|exact IHs'].
        destruct (case_until (exit_type s)); (eapply le_trans; [apply le_or_r|]);
          [apply le_del_pass|apply case_exit_le].
    + replace (case_until (exit_type s)) with false
        by (symmetry; apply not_true_is_false; intro X; apply until_unreached in X; congruence).
      split; intro A; destruct (IHb (x_or acc (exit_type s)) st) as [_ _];
        (destruct (exec q n s st) as [[x|x|x|x|x]|]; cbn [sim_then];
        [apply (IHb (x_or acc (exit_type s)) x); apply reached_or; auto | | | exact I | exact I | exact I]).
      * cbn [sound] in *. apply (proj1 (group_exit_le b _)), (proj1 (le_or_r acc _)), IHs'.
      * cbn [sound] in *. apply (proj2 (group_exit_le b _)), (proj2 (le_or_r acc _)), IHs'.
      * cbn [sound] in *. apply (proj1 (case_exit_le b _)), (proj1 (le_or_r acc _)), IHs'.
      * cbn [sound] in *. apply (proj2 (case_exit_le b _)), (proj2 (le_or_r acc _)), IHs'.
  - (* no case *)
    intros _ k st. cbn [exec_cases]. split; [reflexivity|]. cbn [ncases]. lia.
  - (* case *)
    intros ls b IHb r IHr H k st. change (safe_b b && safe_c r = true) in H.
    apply andb_prop in H as [H1 H2]. specialize (IHb H1). specialize (IHr H2).
    rewrite exec_ccons.
    destruct k as [|k].
    + assert (B := proj2 (IHb x_none st) eq_refl).
      set (et := case_exit b x_none) in *.
      assert (Es : stops 0 (CCons ls b r) = if x_brk et then false else if unreached et then true else stops 0 r)
        by reflexivity.
      destruct (exec_block q n b st) as [[s|s|s|s|s]|]; cbn [sim_then sound] in *; auto.
      * specialize (IHr 0 s). destruct (exec_cases q n 0 r s) as [[x|x|x|x|x]|]; auto.
        -- destruct IHr as [A1 A2]. split.
           ++ rewrite Es, B. destruct (x_brk et); auto.
           ++ intros _. rewrite last_stops_cons. destruct r; [exact B|].
              apply A2. cbn [ncases]. lia.
        -- destruct IHr as [A1 A2]. split.
           ++ rewrite Es, B. destruct (x_brk et); auto.
           ++ intro acc. rewrite cases_exit_cons. apply A2.
        -- intro acc. rewrite cases_exit_cons, const_cases_exit_cons. cbv zeta. fold et.
           replace (case_until et) with false
             by (symmetry; apply not_true_is_false; intro X; apply until_unreached in X; congruence).
           split; [apply IHr|apply IHr].
      * split; [rewrite Es, B; reflexivity|]. intro acc. rewrite cases_exit_cons. fold et.
        rewrite B. apply cases_exit_pass. reflexivity.
      * intro acc. rewrite cases_exit_cons, const_cases_exit_cons. cbv zeta. fold et. split.
        -- apply (proj2 (cases_exit_le r _)).
           destruct (x_brk et); [apply (proj2 (le_add_pass _))|];
             apply (proj2 (le_or_r acc et)); exact B.
        -- destruct (case_until et); [destruct (x_brk et)|].
           ++ apply (proj2 (le_add_pass _)), (proj2 (le_or_r acc et)), B.
           ++ apply (proj2 (le_del_pass _)), (proj2 (le_or_r acc et)), B.
           ++ apply (proj2 (const_cases_exit_le r 0 _)), (proj2 (le_or_r acc et)), B.
    + specialize (IHr k st).
      destruct (exec_cases q n k r st) as [[x|x|x|x|x]|]; auto.
      * destruct IHr as [A1 A2]. split; [exact A1|]. cbn [ncases]. intro L.
        rewrite last_stops_cons. destruct r; [cbn [ncases] in L; lia|]. apply A2. lia.
      * destruct IHr as [A1 A2]. split; [exact A1|]. intro acc. rewrite cases_exit_cons. apply A2.
      * intro acc. rewrite cases_exit_cons, const_cases_exit_cons.
        split; [apply (IHr _)|apply (IHr acc)].
Qed.

Lemma safe_never (s : stmt) : safe s = true -> unreached (exit_type s) = true -> never_completes s.
Proof.
  intros H U n st st' E. assert (X := proj1 (exit_sound true n) s H st). rewrite E in X.
  cbn [sound] in X. congruence.
Qed.
Lemma safe_never_b (b : block) :
  safe_b b = true -> unreached (case_exit b x_none) = true -> never_completes_b b.
Proof.
  intros H U n st st' E.
  assert (X := proj2 (proj1 (proj2 (exit_sound true n)) b H x_none st) eq_refl). rewrite E in X.
  cbn [sound] in X. congruence.
Qed.

(** *** Well-formed statements compile *)

Lemma all_labels_default (cs : cases) :
  NoDup (all_labels cs) -> default_count cs <= 1.
Proof.
  intro N. assert (E : default_count cs
    = length (filter (fun l => match l with None => true | _ => false end) (all_labels cs))).
  { clear N. induction cs as [|ls b r IH]; [reflexivity|].
    rewrite default_count_cons. cbn [all_labels]. rewrite filter_app, app_length, IH. reflexivity. }
  rewrite E. clear E. induction (all_labels cs) as [|[v|] l IH]; cbn [filter length]; [lia| |].
  - apply IH. inversion N; auto.
  - inversion N as [|x y Hn Hd]; subst.
    assert (Z0 : length (filter (fun l : option Z => match l with None => true | _ => false end) l) = 0).
    { clear - Hn. induction l as [|[v|] l IH]; cbn [filter length]; [reflexivity| |].
      - apply IH. intro H. apply Hn. right. exact H.
      - exfalso. apply Hn. left. reflexivity. }
    lia.
Qed.
Lemma all_labels_values (cs : cases) :
  NoDup (all_labels cs) -> distinct (case_values cs) = true.
Proof.
  intro N. assert (E : case_values cs
    = flat_map (fun l => match l with Some v => [v] | None => [] end) (all_labels cs)).
  { clear N. induction cs as [|ls b r IH]; [reflexivity|].
    rewrite case_values_cons. cbn [all_labels]. rewrite flat_map_app, IH. reflexivity. }
  rewrite E. clear E. induction (all_labels cs) as [|[v|] l IH]; cbn [flat_map app distinct]; auto.
  - inversion N as [|x y Hn Hd]; subst. rewrite IH by auto. rewrite andb_true_r.
    apply negb_true_iff, not_true_is_false. intro H. apply existsb_exists in H as (w & Hw & Ew).
    apply Z.eqb_eq in Ew. subst w. apply Hn. apply in_flat_map in Hw as ([w|] & Hw & Hi);
      [|destruct Hi]. destruct Hi as [<-|[]]. exact Hw.
  - inversion N; auto.
Qed.

Lemma well_formed_compiles o :
  (forall (s : stmt) b c, well_formed b c s -> forall bk ct n,
     (b = true -> bk <> None) -> (c = true -> ct <> None) -> compile o s bk ct n <> None) /\
  (forall (l : block) b c, well_formed_b b c l -> forall stop bk ct n,
     (b = true -> bk <> None) -> (c = true -> ct <> None) -> compile_block o stop l bk ct n <> None) /\
  (forall (cs : cases) b c, well_formed_c b c cs -> forall bk ct n,
     (b = true -> bk <> None) -> (c = true -> ct <> None) ->
     compile_cases o cs bk ct n <> None /\ forall k, compile_nth o k cs bk ct n <> None).
Proof.
  assert (SN : forall (T : Type) (x : T), Some x <> None) by discriminate.
  assert (TT : forall (T : Type) (x : T), true = true -> Some x <> None) by discriminate.
  apply stmt_mutind.
  - intros b c _ bk ct n _ _. discriminate.
  - intros f b c _ bk ct n _ _. discriminate.
  - intros l IH b c W bk ct n B C. rewrite compile_group. eapply IH; eauto.
  - intros cd t IHt e IHe b c [W1 W2] bk ct n B C. cbn [compile].
    destruct (folded o (Some cd)) as [[]|]; [eapply IHt; eauto|eapply IHe; eauto|].
    destruct (compile o t bk ct (S (S n))) as [[a n1]|] eqn:E1;
      [|exfalso; eapply IHt; [exact W1| | |exact E1]; auto].
    destruct (compile o e bk ct n1) as [[a2 n2]|] eqn:E2; [discriminate|].
    exfalso; eapply IHe; [exact W2| | |exact E2]; auto.
  - intros cd l IH b c W bk ct n B C. cbn [compile].
    assert (X := IH true true W (Some (S n)) (Some n) (S (S n)) (TT _ _) (TT _ _)).
    destruct (compile o l (Some (S n)) (Some n) (S (S n))) as [[a n1]|]; [|congruence].
    destruct (folded o cd) as [[]|]; discriminate.
  - intros l IH cd b c W bk ct n B C. cbn [compile].
    assert (X := IH true true W (Some (S n)) (Some n) (S (S n)) (TT _ _) (TT _ _)).
    destruct (compile o l (Some (S n)) (Some n) (S (S n))) as [[a n1]|]; [|congruence]. discriminate.
  - intros l IH cd b c W bk ct n B C. cbn [compile].
    assert (X := IH true true W (Some (S n)) (Some n) (S (S n)) (TT _ _) (TT _ _)).
    destruct (compile o l (Some (S n)) (Some n) (S (S n))) as [[a n1]|]; [|congruence]. discriminate.
  - intros i cd inc l IH b c W bk ct n B C. cbn [compile].
    assert (X := IH true true W (Some (S n)) (Some n) (S (S (S n))) (TT _ _) (TT _ _)).
    destruct (compile o l (Some (S n)) (Some n) (S (S (S n)))) as [[a n1]|]; [|congruence].
    destruct (folded o cd) as [[]|]; discriminate.
  - intros b c W bk ct n B C. cbn [well_formed] in W. cbn [compile].
    destruct bk; [discriminate|]. exfalso. apply (B W). reflexivity.
  - intros b c W bk ct n B C. cbn [well_formed] in W. cbn [compile].
    destruct ct; [discriminate|]. exfalso. apply (C W). reflexivity.
  - intros f b c _ bk ct n _ _. discriminate.
  - intros f b c _ bk ct n _ _. discriminate.
  - intros e cs IH b c [W1 W2] bk ct n B C. rewrite compile_switch.
    assert (Y := fun m => IH true c W2 (Some n) ct m (TT _ _) C). clear IH.
    assert (D : (if distinct (case_values cs) && (default_count cs <=? 1)%nat then
        do (a, rows, d, n1) <- compile_cases o cs (Some n) ct (S (S n));
        Some (ISel (eval_sel e)
              :: ISwitch (sort_rows rows) (match d with Some l => l | None => S n end)
              :: a ++ ILabel n :: match d with Some _ => [] | None => [ILabel (S n)] end, n1)
      else None) <> None).
    { rewrite all_labels_values by auto.
      replace (default_count cs <=? 1) with true
        by (symmetry; apply Nat.leb_le, all_labels_default, W1).
      cbn [andb]. destruct (Y (S (S n))) as [Y1 _].
      destruct (compile_cases o cs (Some n) ct (S (S n))) as [[[[a rows] d] n1]|]; [discriminate|congruence]. }
    destruct (o_switch_if o); [|exact D]. destruct (number_of_rows cs) as [|[|]]; [| |exact D].
    + destruct (Y (S n)) as [_ Y2]. specialize (Y2 (Some 0)).
      destruct (compile_nth o (Some 0) cs (Some n) ct (S n)) as [[a n1]|]; [discriminate|congruence].
    + cbv zeta. set (ki := option_map fst (last_value cs)). set (ke := find_default cs).
      assert (Y2 := fun m => proj2 (Y m)).
      destruct (same_body ki ke cs).
      { specialize (Y2 (S n) ki).
        destruct (compile_nth o ki cs (Some n) ct (S n)) as [[a n1]|]; [discriminate|congruence]. }
      destruct (folded o (Some (sel_equals e (match last_value cs with Some (_, v) => v | None => 0%Z end)))) as [[]|].
      * specialize (Y2 (S n) ki).
        destruct (compile_nth o ki cs (Some n) ct (S n)) as [[a n1]|]; [discriminate|congruence].
      * specialize (Y2 (S n) ke).
        destruct (compile_nth o ke cs (Some n) ct (S n)) as [[a n1]|]; [discriminate|congruence].
      * assert (Y3 := Y2 (S (S n)) ki).
        destruct (compile_nth o ki cs (Some n) ct (S (S n))) as [[a n1]|]; [|congruence].
        specialize (Y2 n1 ke).
        destruct (compile_nth o ke cs (Some n) ct n1) as [[a2 n2]|]; [discriminate|congruence].
  - intros b c _ stop bk ct n _ _. discriminate.
  - intros s IHs l IHl b c [W1 W2] stop bk ct n B C. rewrite compile_bcons.
    assert (X := IHs b c W1 bk ct n B C). destruct (compile o s bk ct n) as [[a n1]|]; [|congruence].
    destruct (stop && unreached (exit_type s)); [discriminate|].
    assert (X2 := IHl b c W2 stop bk ct n1 B C).
    destruct (compile_block o stop l bk ct n1) as [[a2 n2]|]; [discriminate|congruence].
  - intros b c _ bk ct n _ _. split; [discriminate|]. intro k. destruct k; discriminate.
  - intros ls l IHl r IHr b c [W1 W2] bk ct n B C. split.
    + rewrite compile_ccons. assert (X := IHl b c W1 false bk ct (S n) B C).
      destruct (compile_block o false l bk ct (S n)) as [[a n1]|]; [|congruence].
      destruct (IHr b c W2 bk ct n1 B C) as [X2 _].
      destruct (compile_cases o r bk ct n1) as [[[[a2 rows] d] n2]|]; [discriminate|congruence].
    + intro k. rewrite compile_nth_cons. destruct k as [[|k]|]; [|apply IHr with (b := b) (c := c); auto|discriminate].
      apply (IHl b c W1 false bk ct n B C).
Qed.

Lemma well_formed_method o (s : stmt) fin :
  well_formed false false s -> exists c, compile_method o s fin = Some c.
Proof.
  intro W. unfold compile_method.
  assert (X := proj1 (well_formed_compiles o) s false false W None None 0).
  destruct (compile o s None None 0) as [[a n]|]; [eauto|]. exfalso. apply X; congruence.
Qed.

Lemma if_shape_ok o e (cs : cases) : if_shape o e cs = true -> switch_if_ok o e cs.
Proof.
  destruct cs as [|ls1 b1 [|ls2 b2 [|]]]; cbn [if_shape switch_if_ok]; auto; try discriminate.
  - destruct ls1; congruence.
  - destruct ls1 as [|l1 r1], ls2 as [|l2 r2]; try discriminate. intro H.
    apply andb_prop in H as [Hn H]. apply Nat.eqb_eq in Hn.
    split; [exact Hn|split; [discriminate|split; [discriminate|]]].
    apply orb_prop in H as [H|H].
    + apply andb_prop in H as [H Hf]. apply andb_prop in H as [D1 D2]. apply negb_true_iff in D1.
      left. split; [exact D1|split; [exact D2|]]. intros R [z E]. subst e. rewrite R in Hf.
      cbn [negb orb] in Hf. apply andb_prop in Hf as [Hs Hu]. apply safe_never_b; auto.
    + apply andb_prop in H as [H U2]. apply andb_prop in H as [H S2].
      apply andb_prop in H as [H U1]. apply andb_prop in H as [H S1].
      apply andb_prop in H as [D1 D2]. apply negb_true_iff in D2.
      right. split; [exact D1|split; [exact D2|split; apply safe_never_b; auto]].
Qed.

Lemma conditions_ok o :
  (forall (s : stmt), (o_remove o = true -> safe s = true) ->
     (o_switch_if o = true -> if_shapes o s = true) -> ok o s) /\
  (forall (b : block), (o_remove o = true -> safe_b b = true) ->
     (o_switch_if o = true -> if_shapes_b o b = true) ->
     ok_block o (o_remove o) b /\ ok_block o false b) /\
  (forall (cs : cases), (o_remove o = true -> safe_c cs = true) ->
     (o_switch_if o = true -> if_shapes_c o cs = true) -> ok_cases o cs).
Proof.
  assert (A : forall x a b, (x = true -> a && b = true) -> (x = true -> a = true) /\ (x = true -> b = true)).
  { intros x a b H. split; intro X; specialize (H X); apply andb_prop in H as [? ?]; auto. }
  apply stmt_mutind; try (intros; exact I).
  - intros b IH S F. apply (IH S F).
  - intros c t IHt e IHe S F. apply A in S as [? ?]. apply A in F as [? ?]. split; [apply IHt|apply IHe]; assumption.
  - intros c b IH S F. apply A in S as [? ?]. apply IH; assumption.
  - intros b IH c S F. apply A in S as [? ?]. apply IH; assumption.
  - intros b IH c S F. apply A in S as [? ?]. apply IH; assumption.
  - intros i c inc b IH S F. apply A in S as [? ?]. apply IH; assumption.
  - intros e cs IH S F. apply A in S as [S _]. apply A in S as [S _].
    apply A in F as [F1 F2]. split; [apply IH; assumption|]. intros O N. specialize (F2 O).
    apply if_shape_ok. apply Nat.leb_le in N. rewrite N in F2. exact F2.
  - intros _ _. split; exact I.
  - intros s IHs b IHb S F. assert (S' := S). apply A in S as [S1 S2]. apply A in F as [F1 F2].
    destruct (IHb S2 F2) as [B1 B2]. split; (split; [apply IHs; assumption|split; [assumption|]]).
    + intros R U. apply safe_never; [apply S1; exact R|exact U].
    + discriminate.
  - intros ls b IHb r IHr S F. apply A in S as [S1 S2]. apply A in F as [F1 F2].
    split; [apply IHb; assumption|apply IHr; assumption].
Qed.

(** *** Methods *)

Theorem plain_method (s : stmt) fin c :
  compile_method (Opts false false) s fin = Some c ->
  exists p, commit c = Some p /\ same_behaviour true s fin p.
Proof.
  intro H. eapply method_behaviour; [|exact H]. apply conditions_ok; discriminate.
Qed.
Theorem optimised_method o (s : stmt) fin c :
  (o_remove o = true -> safe s = true) -> (o_switch_if o = true -> if_shapes o s = true) ->
  do_without_continue s = true ->
  compile_method o s fin = Some c ->
  exists p, commit c = Some p /\ same_behaviour false s fin p.
Proof.
  intros S F D H. destruct (method_behaviour o s fin c) as (p & Hp & B); auto.
  - apply conditions_ok; auto.
  - exists p. split; [exact Hp|]. apply behaviour_false; auto.
Qed.

Theorem dispatch (c pre post : code) p rows d z stk (st : St) :
  c = pre ++ ISwitch (sort_rows rows) d :: post -> commit c = Some p ->
  NoDup (map fst rows) ->
  exists t, vstep p (Run (size_of pre) (VInt z :: stk) st) = Run t stk st /\
    ((exists l, In (z, l) rows /\ label_index c l = Some t) \/
     (~ In z (map fst rows) /\ label_index c d = Some t)).
Proof.
  intros E HC N. destruct (fetch c p HC pre _ _ E eq_refl) as (y & Hy & Hm).
  cbn [resolve] in Hy.
  destruct (resolve_rows c (size_of pre) (sort_rows rows)) as [rows'|] eqn:Er; [|discriminate].
  destruct (label_index c d) as [kd|] eqn:Ed; [|discriminate].
  injection Hy as <-.
  destruct (resolve_rows_spec _ _ _ _ Er) as [Hk Ha].
  cbn [vstep]. rewrite Hm. rewrite binary_search_assoc.
  2:{ eapply sorted_keys; [symmetry; exact Hk|]. apply sort_sorted, N. }
  rewrite Ha.
  assert (Np : NoDup (keys (sort_rows rows))).
  { eapply Permutation_NoDup; [apply Permutation_map, Permutation_sym, sort_rows_perm|exact N]. }
  rewrite (assoc_perm z _ _ Np (sort_rows_perm rows)).
  destruct (assoc z rows) as [l|] eqn:El.
  - assert (Hin : In (z, l) rows).
    { clear - El. induction rows as [|[x y] r IH]; cbn [assoc] in El; [discriminate|].
      destruct (Z.eqb_spec z x); [injection El as <-; subst; left; reflexivity|right; auto]. }
    assert (Hl : exists k, label_index c l = Some k).
    { clear - Er Hin. assert (Hi : In (z, l) (sort_rows rows)).
      { eapply Permutation_in; [apply Permutation_sym, sort_rows_perm|exact Hin]. }
      revert rows' Er Hi. generalize (sort_rows rows) as rs.
      induction rs as [|[x y] r IH]; intros rows' Er Hi; [destruct Hi|].
      cbn [resolve_rows] in Er. destruct (label_index c y) as [k|] eqn:Ey; [|discriminate].
      destruct (resolve_rows c (size_of pre) r) as [r'|] eqn:E2; [|discriminate].
      destruct Hi as [Hi|Hi]; [injection Hi as -> ->; eauto|eauto]. }
    destruct Hl as [k Hk2]. rewrite Hk2. exists k. split; [apply jump_to|]. left. eauto.
  - exists kd. split; [apply jump_to|]. right. split; [|reflexivity].
    clear - El. induction rows as [|[x y] r IH]; cbn [map fst In]; [tauto|].
    cbn [assoc] in El. destruct (Z.eqb_spec z x); [discriminate|].
    intros [X|X]; [congruence|]. apply IH; auto.
Qed.

End Top.

(** *** Witnesses *)

Open Scope nat_scope.
Definition less (k : nat) : @cond nat := KDyn (fun s => (s <? k, s)).
Definition upd (f : nat -> nat) : @stmt nat := SAct f.
Definition seq2 (a b : @stmt nat) : @stmt nat := SGroup (BCons a (BCons b BNil)).
Definition id_nat (n : nat) : nat := n.
Definition sel_self : @sel nat := LDyn (fun s => (Z.of_nat s, s)).

(* do { x++; continue; } while (x < 3) *)
Definition w_continue : @stmt nat := SDo (seq2 (upd S) SContinue) (Some (less 3)).

Lemma w_continue_diverges st : src_diverges true w_continue st.
Proof.
  intro n. change (do_loop true n (exec true n (seq2 (upd S) SContinue)) (test (Some (less 3))) st = None).
  assert (X : forall m s, do_loop true m (exec true n (seq2 (upd S) SContinue)) (test (Some (less 3))) s = None).
  { induction m as [|m IH]; intro s; [reflexivity|]. cbn [do_loop]. apply IH. }
  apply X.
Qed.

Theorem continue_refuted :
  exists (s : @stmt nat) c p,
    compile_method (Opts false false) s id_nat = Some c /\ commit c = Some p /\
    src_returns false s id_nat 0 3 /\ vm_diverges p 0.
Proof.
  exists w_continue. destruct (compile_method (Opts false false) w_continue id_nat) as [c|] eqn:E; [|discriminate].
  exists c. destruct (plain_method _ _ _ E) as (p & Hp & B). exists p.
  split; [reflexivity|split; [exact Hp|split]].
  - exists 5. right. exists 3. split; reflexivity.
  - apply (B 0). apply w_continue_diverges.
Qed.

(** A compiled method that returns something else than its source. *)
Definition differs (o : opts) (s : @stmt nat) (st st1 st2 : nat) : Prop :=
  st1 <> st2 /\
  exists c p, compile_method o s id_nat = Some c /\ commit c = Some p /\
    src_returns false s id_nat st st1 /\ vm_returns p st st2.

Ltac witness n k :=
  split; [discriminate|]; eexists; eexists; split; [reflexivity|split; [reflexivity|split]];
  [exists n; first [left; reflexivity|right; eexists; split; reflexivity]
  |exists k; reflexivity].

(* while (x < 0) return;  x++ *)
Definition w_while := seq2 (SWhile (Some (less 0)) (SReturn id_nat)) (upd S).
Theorem while_refuted : differs (Opts true false) w_while 0 1 0.
Proof. witness 2 9. Qed.
(* while (true) { if (x < 3) break; return; }  x++ *)
Definition w_break := seq2 (SWhile None (seq2 (SIf (less 3) SBreak SEmpty) (SReturn id_nat))) (upd S).
Theorem break_refuted : differs (Opts true false) w_break 0 1 0.
Proof. witness 2 9. Qed.
(* do { if (x < 3) break; return; } while (x < 5);  x++ *)
Definition w_do := seq2 (SDo (seq2 (SIf (less 3) SBreak SEmpty) (SReturn id_nat)) (Some (less 5))) (upd S).
Theorem do_refuted : differs (Opts true false) w_do 0 1 0.
Proof. witness 2 9. Qed.
(* while (x < 0) while (true) ;  x++ *)
Definition w_dead := seq2 (SWhile (Some (less 0)) (SWhile None SEmpty)) (upd S).
Theorem dead_refuted : differs (Opts true false) w_dead 0 1 0.
Proof. witness 2 9. Qed.
(* switch (x) { case 1: return; default: ; }  x++ *)
Definition w_switch := seq2 (SSwitch sel_self
  (CCons [Some 1%Z] (BCons (SReturn id_nat) BNil) (CCons [None] (BCons SEmpty BNil) CNil))) (upd S).
Theorem switch_refuted : differs (Opts true false) w_switch 0 1 0.
Proof. witness 2 9. Qed.
(* switch (1) { case 1: if (x < 3) break; case 2: return; }  x++ *)
Definition w_const := seq2 (SSwitch (LConst 1%Z)
  (CCons [Some 1%Z] (BCons (SIf (less 3) SBreak SEmpty) BNil)
  (CCons [Some 2%Z] (BCons (SReturn id_nat) BNil) CNil))) (upd S).
Theorem const_switch_refuted : differs (Opts true false) w_const 0 1 0.
Proof. witness 2 9. Qed.

(* switch (x) { default: x = 10 * x; case 1: x++; } *)
Definition w_default_first := SSwitch sel_self
  (CCons [None] (BCons (upd (fun s => 10 * s)) BNil) (CCons [Some 1%Z] (BCons (upd S) BNil) CNil)).
Theorem default_first_refuted :
  differs (Opts false true) w_default_first 1 2 20 /\ differs (Opts false true) w_default_first 2 21 20.
Proof. split; witness 2 12. Qed.
(* switch (1) { case 1: x++; default: x = 10 * x; } *)
Definition w_fall := SSwitch (LConst 1%Z)
  (CCons [Some 1%Z] (BCons (upd S) BNil) (CCons [None] (BCons (upd (fun s => 10 * s)) BNil) CNil)).
Theorem fall_refuted : differs (Opts true true) w_fall 1 20 2.
Proof. witness 2 12. Qed.

(** Programs that meet the conditions. *)
(* for (;x < 9;) { if (x < 5) x = x + 3 else break; }
   switch (x) { case 8: x = 1; break; case 2: case 3: return; default: x = 2; }
   while (true) { if (x < 10) x = 10 * x else return; }  *)
Definition w_good : @stmt nat :=
  SGroup (BCons (SFor None (Some (less 9)) None (SIf (less 5) (upd (fun s => s + 3)) SBreak))
         (BCons (SSwitch sel_self
            (CCons [Some 8%Z] (BCons (upd (fun _ => 1)) (BCons SBreak BNil))
            (CCons [Some 2%Z; Some 3%Z] (BCons (SReturn id_nat) BNil)
            (CCons [None] (BCons (upd (fun _ => 2)) BNil) CNil))))
         (BCons (SWhile None (SIf (less 10) (upd (fun s => 10 * s)) (SReturn id_nat)))
         (BCons (upd (fun s => s + 7)) BNil)))).
(* do x++ while (x < 4); switch (x) { case 4: x = x + 10; default: x = 10 * x; } *)
Definition w_good2 : @stmt nat :=
  seq2 (SDo (upd S) (Some (less 4)))
    (SSwitch sel_self (CCons [Some 4%Z] (BCons (upd (fun s => s + 10)) BNil)
       (CCons [None] (BCons (upd (fun s => 10 * s)) BNil) CNil))).
