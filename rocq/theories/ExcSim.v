(** Simulation of the reference semantics by the VM. *)

From Coq Require Import List Bool Arith Lia.
Import ListNotations.
From Verif Require Import ExcModel ExcSpec ExcProofs.

Section Sim.
Context {St : Type} (rm : bool) (P : @prog St).
Implicit Types (s : St) (cs : @catches St).

Notation T := (mtable rm P).
Notation mstate := (@mst St).

Inductive star : @mres St -> @mres St -> Prop :=
| star_refl r : star r r
| star_step m r : star (step rm true P m) r -> star (Running m) r.

Lemma star_trans a b c : star a b -> star b c -> star a c.
Proof. induction 1; auto. intro H1. apply star_step. auto. Qed.

Lemma star_one m r : step rm true P m = r -> star (Running m) r.
Proof. intros <-. apply star_step, star_refl. Qed.

Lemma star_run a b : star a b -> exists k, run rm true P k a = b.
Proof.
  induction 1 as [r|m r H [k IH]]; [exists 0; reflexivity|]. exists (S k). exact IH.
Qed.

(** *** Code and blocks of a statement inside a method *)

Definition code_at (m p : nat) (l : list instr) : Prop :=
  forall k i, nth_error l k = Some i -> nth_error (mcode rm P m) (p + k) = Some i.

Lemma code_at_app m p l l' :
  code_at m p (l ++ l') -> code_at m p l /\ code_at m (p + length l) l'.
Proof.
  intro H. split; intros k i E.
  - apply H. rewrite nth_error_app1; auto. apply nth_error_Some. congruence.
  - rewrite <- Nat.add_assoc. apply H. rewrite nth_error_app2 by lia.
    replace (length l + k - length l) with k by lia. exact E.
Qed.
Lemma code_at_cons m p i l :
  code_at m p (i :: l) -> nth_error (mcode rm P m) p = Some i /\ code_at m (p + 1) l.
Proof.
  intro H. split.
  - specialize (H 0 i eq_refl). rewrite Nat.add_0_r in H. exact H.
  - intros k j E. specialize (H (S k) j E). rewrite <- H. f_equal. lia.
Qed.

Definition cov (t : list blk) (pc : nat) : list blk := filter (fun b => covers b pc) t.

Lemma cov_app t u pc : cov (t ++ u) pc = cov t pc ++ cov u pc.
Proof. apply filter_app. Qed.

Lemma cov_outside p n t pc : Forall (inside p n) t -> pc < p \/ p + n <= pc -> cov t pc = [].
Proof.
  induction 1 as [|b t I F IH]; intro O; cbn; auto.
  destruct (covers b pc) eqn:C; [|apply IH; exact O].
  pose proof (inside_covers _ _ _ _ I C). lia.
Qed.

Definition covat (m p n : nat) (bs oc : list blk) : Prop :=
  forall pc, p <= pc < p + n -> cov (T m) pc = cov bs pc ++ oc.

Definition encl (p pe : nat) (b : blk) : Prop := b_start b <= p /\ pe <= b_end b.

Lemma cov_Forall t pc : Forall (fun b => covers b pc = true) (cov t pc).
Proof. apply Forall_forall. intros b H. apply filter_In in H. tauto. Qed.

Lemma covat_covers m p n bs oc pc :
  covat m p n bs oc -> p <= pc < p + n -> Forall (fun b => covers b pc = true) oc.
Proof.
  intros H R. pose proof (cov_Forall (T m) pc) as F. rewrite (H pc R) in F.
  apply Forall_app in F. tauto.
Qed.

Lemma covat_encl m p n bs oc :
  covat m p n bs oc -> 1 <= n -> Forall (encl p (p + n)) oc.
Proof.
  intros H R.
  pose proof (covat_covers _ _ _ _ _ p H ltac:(lia)) as F1.
  pose proof (covat_covers _ _ _ _ _ (p + n - 1) H ltac:(lia)) as F2.
  rewrite Forall_forall in *. intros b I. specialize (F1 b I). specialize (F2 b I).
  cbv beta in *. rewrite covers_iff in *. unfold encl. lia.
Qed.

Lemma ordered_T m : ordered (T m).
Proof. apply ordered_blocks. Qed.

Lemma find_T m want pt : find_block true (T m) want pt = Some (filter want (cov (T m) pt)).
Proof. apply find_block_spec, ordered_T. Qed.

(** *** Queues *)

Definition foreign (lp : nat) (Q : list node) : Prop :=
  match Q with [] => True | n :: _ => n_lp n <> lp end.
Definition headok (lp p pe : nat) (Q : list node) : Prop :=
  match Q with [] => True | n :: _ => n_lp n = lp -> encl p pe (n_blk n) end.
Definition safe (lp : nat) (g Q : list node) : Prop :=
  forall b, last_blk g = Some b -> drop_old lp b Q = Q.

Lemma foreign_drop lp b Q : foreign lp Q -> drop_old lp b Q = Q.
Proof.
  destruct Q as [|n r]; cbn; auto. intro H. apply Nat.eqb_neq in H. rewrite H. reflexivity.
Qed.

Lemma inside_drop lp p n b Q : inside p n b -> headok lp p (p + n) Q -> drop_old lp b Q = Q.
Proof.
  intros I H. destruct Q as [|k r]; cbn in *; auto.
  destruct (Nat.eqb_spec (n_lp k) lp) as [E|E]; [|reflexivity]. cbn [andb].
  specialize (H E). destruct (includes b (n_blk k)) eqn:D; [|reflexivity].
  apply includes_iff in D. unfold inside, encl in *. lia.
Qed.

Lemma headok_mono lp p pe p' pe' Q : headok lp p pe Q -> p <= p' -> pe' <= pe -> headok lp p' pe' Q.
Proof.
  destruct Q as [|n r]; cbn; auto. unfold encl. intros H A B E. specialize (H E). lia.
Qed.

Lemma foreign_headok lp p pe Q : foreign lp Q -> headok lp p pe Q.
Proof. destruct Q as [|n r]; cbn; auto. intros H E. contradiction. Qed.

Lemma last_blk_app g n : last_blk (g ++ [n]) = Some (n_blk n).
Proof. unfold last_blk. rewrite rev_app_distr. reflexivity. Qed.

Lemma last_blk_cons n g : g <> [] -> last_blk (n :: g) = last_blk g.
Proof.
  intro H. unfold last_blk. cbn [rev]. destruct (rev g) as [|k r] eqn:E.
  - exfalso. apply H. rewrite <- (rev_involutive g), E. reflexivity.
  - reflexivity.
Qed.

Lemma set_last_nil a g : set_last a g = [] <-> g = [].
Proof. destruct g as [|n [|k r]]; cbn; split; congruence. Qed.

Lemma set_last_cons a n g : g <> [] -> set_last a (n :: g) = n :: set_last a g.
Proof. destruct g; [congruence|reflexivity]. Qed.

Lemma last_blk_set_last a g : last_blk (set_last a g) = last_blk g.
Proof.
  induction g as [|n g IH]; [reflexivity|].
  destruct g as [|k r]; [reflexivity|].
  rewrite set_last_cons by congruence.
  rewrite last_blk_cons by (rewrite set_last_nil; congruence).
  rewrite IH. symmetry. apply last_blk_cons. congruence.
Qed.

Lemma regroup_safe lp g Q : g <> [] -> safe lp g Q -> regroup lp g Q = (g ++ Q, false).
Proof.
  intros NE S. unfold regroup. destruct (last_blk g) as [b|] eqn:L.
  - rewrite (S b L), Nat.eqb_refl. reflexivity.
  - exfalso. apply NE. unfold last_blk in L. destruct (rev g) as [|n r] eqn:R; [|discriminate].
    rewrite <- (rev_involutive g), R. reflexivity.
Qed.

(** *** Nodes for the finally blocks being left *)

Definition fins (oc : list blk) : list blk := filter is_finally oc.
Definition mkn (lp : nat) (b : blk) : node := Node lp b None ADefault.
Definition N (lp t : nat) (oc : list blk) : list node := leaving lp t (fins oc).

Definition finode (lp : nat) (bs : list blk) (n : node) : Prop :=
  n_lp n = lp /\ n_exn n = None /\ In (n_blk n) bs.

Lemma leaving_nodes lp t bs : Forall (finode lp bs) (leaving lp t bs).
Proof.
  induction bs as [|b bs IH]; cbn; auto. destruct (covers b t); auto. constructor.
  - repeat split. left. reflexivity.
  - eapply Forall_impl; [|exact IH]. unfold finode. intros n (A & B & C). repeat split; auto.
    right. exact C.
Qed.

Lemma map_nodes lp bs : Forall (finode lp bs) (map (mkn lp) bs).
Proof.
  apply Forall_forall. intros n I. apply in_map_iff in I as (b & <- & I). repeat split. exact I.
Qed.

Lemma set_last_nodes lp bs a g : Forall (finode lp bs) g -> Forall (finode lp bs) (set_last a g).
Proof.
  induction 1 as [|n g F G IH]; [constructor|].
  destruct g as [|k r].
  - constructor; [exact F|constructor].
  - rewrite set_last_cons by congruence. constructor; assumption.
Qed.

Lemma fins_in oc b : In b (fins oc) -> In b oc.
Proof. intro H. apply filter_In in H. tauto. Qed.

Lemma N_covered lp t oc : Forall (fun b => covers b t = true) oc -> N lp t oc = [].
Proof.
  intro F. unfold N. destruct (fins oc) as [|b r] eqn:E; [reflexivity|]. cbn.
  assert (I : In b oc) by (apply fins_in; rewrite E; left; reflexivity).
  rewrite Forall_forall in F. rewrite (F b I). reflexivity.
Qed.

(** *** States *)

Definition K m lp C pc s Q E x : mstate := Mst (Frame m pc lp []) C Q E x s.

(** Entering the first block of a group of finally nodes. *)
Definition enter m lp C (g : list node) s Q E x (other : @mres St) : @mres St :=
  match g with
  | [] => other
  | n :: r => Running (Mst (Frame m (b_entry (n_blk n)) lp []) C (r ++ Q) (n :: E) x s)
  end.

Definition leave_res m lp C oc t s Q E x : @mres St :=
  enter m lp C (set_last (AJump t) (N lp t oc)) s Q E x (Running (K m lp C t s Q E x)).

Definition ret_to (C : list frame) s Q E x : @mres St :=
  match C with [] => Done s | c :: r => Running (Mst c r Q E x s) end.

Definition ret_res m lp C oc s Q E x : @mres St :=
  enter m lp C (set_last AReturn (map (mkn lp) (fins oc))) s Q E x (ret_to C s Q E x).

Definition unwind (C : list frame) e s Q E x : @mres St :=
  match C with
  | [] => Uncaught e s
  | c :: r => raise rm true P (set_ops c []) r Q E x s
  end.

Definition exc_res m lp C oc nid e s Q E x : @mres St :=
  match fst (handlers lp (x_type e) nid oc) with
  | [] => unwind C e s Q E x
  | n :: r =>
    match n_exn n with
    | Some k => Running (Mst (Frame m (b_entry (n_blk n)) lp [xh x k]) C (r ++ Q) E x s)
    | None => Running (Mst (Frame m (b_entry (n_blk n)) lp []) C (r ++ Q) (n :: E) x s)
    end
  end.

Definition caught lp e nid oc : bool := snd (handlers lp (x_type e) nid oc).

Definition safeX lp e nid oc Q : Prop :=
  if caught lp e nid oc then safe lp (fst (handlers lp (x_type e) nid oc)) Q
  else foreign lp Q.

Lemma handlers_lp lp ty nid bs :
  Forall (fun n => n_lp n = lp /\ In (n_blk n) bs) (fst (handlers lp ty nid bs)).
Proof.
  induction bs as [|b bs IH]; cbn; auto.
  assert (W : Forall (fun n => n_lp n = lp /\ (b = n_blk n \/ In (n_blk n) bs))
                     (fst (handlers lp ty nid bs))).
  { eapply Forall_impl; [|exact IH]. intros n [A B]; auto. }
  destruct (b_kind b).
  - destruct (is_base_type ty ty0); cbn.
    + constructor; [cbn; auto|constructor].
    + exact W.
  - destruct (handlers lp ty nid bs) as [g c]. cbn in *. constructor; [cbn; auto|exact W].
Qed.

Lemma raise_res m lp C oc pt Q E x s nid l e :
  cov (T m) pt = oc -> xs x = nid :: l -> xh x nid = e -> safeX lp e nid oc Q ->
  raise rm true P (Frame m (S pt) lp []) C Q E x s =
  exc_res m lp C oc nid e s Q E (if caught lp e nid oc then x_pop x else x).
Proof.
  intros HC HX HE HS.
  assert (R : raise rm true P (Frame m (S pt) lp []) C Q E x s =
    let (g, cg) := handlers lp (x_type e) nid oc in
    let x' := if cg then x_pop x else x in
    let (q', dropped) := regroup lp g Q in
    match (if dropped then match E with [] => None | _ :: r => Some r end else Some E) with
    | None => Bad
    | Some ex' =>
      match g with
      | [] => match C with
              | [] => Uncaught e s
              | c :: r => raise rm true P (set_ops c []) r q' ex' x' s
              end
      | _ => let mm := Mst (Frame m (S pt) lp []) C q' ex' x' s in
             match process_nodes mm with POk m' => Running m' | _ => Running mm end
      end
    end).
  { destruct C; cbn [raise f_meth f_lp f_pc]; rewrite HX; cbv zeta;
      rewrite HE, find_T; replace (S pt - 1) with pt by lia;
      rewrite HC;
      replace (filter (fun _ => true) oc) with oc
        by (clear; induction oc as [|z oc IH]; cbn; [reflexivity|f_equal; exact IH]);
      reflexivity. }
  rewrite R. clear R. unfold exc_res, safeX, caught in *.
  pose proof (handlers_lp lp (x_type e) nid oc) as F.
  destruct (handlers lp (x_type e) nid oc) as [g cg] eqn:HH. cbn [fst snd] in *.
  destruct g as [|n r].
  - cbn [regroup last_blk rev]. destruct cg; [|reflexivity].
    exfalso. clear -HH. revert HH. induction oc as [|b oc IH]; cbn; [discriminate|].
    destruct (b_kind b); [destruct (is_base_type _ _); [discriminate|auto]|].
    destruct (handlers lp (x_type e) nid oc). discriminate.
  - rewrite regroup_safe; [|congruence|].
    2:{ destruct cg; [exact HS|]. intros b _. apply foreign_drop. exact HS. }
    inversion F as [|? ? [F1 F2] F3]; subst.
    cbv zeta. unfold process_nodes. cbn [m_q app m_cur f_lp n_lp].
    rewrite Nat.eqb_refl. cbn [negb]. destruct (n_exn n); reflexivity.
Qed.

(** *** What running a statement leads to *)

Definition xrel (q : bool) (x x' : xmem) : Prop := xs x' = xs x /\ (q = true -> x' = x).

Lemma xrel_refl x : xrel true x x.
Proof. split; auto. Qed.
Lemma xrel_trans q q' x y z : xrel q x y -> xrel q' y z -> xrel (q && q') x z.
Proof.
  intros [A B] [D F]. split; [congruence|]. intro H. apply andb_true_iff in H as [H1 H2].
  rewrite (F H2). auto.
Qed.

Definition reachL m lp C oc (lv : bool) (p pe t : nat) Q E x q s M0 : Prop :=
  (lv = false -> N lp t oc = []) -> (t < p \/ pe <= t) -> safe lp (N lp t oc) Q ->
  exists x', xrel q x x' /\ star M0 (leave_res m lp C oc t s Q E x').

Definition reach m lp C oc (c : cctx) (p pe : nat) (o : outcome) Q E x q s M0 : Prop :=
  match o with
  | ONormal => N lp pe oc = [] ->
      exists x', xrel q x x' /\ star M0 (Running (K m lp C pe s Q E x'))
  | OBreak => reachL m lp C oc (c_leave c) p pe (c_brk c) Q E x q s M0
  | OContinue => reachL m lp C oc (c_leave c) p pe (c_cont c) Q E x q s M0
  | OReturn => foreign lp Q ->
      exists x', xrel q x x' /\ star M0 (ret_res m lp C oc s Q E x')
  | OExc e =>
      exists nid, safeX lp e nid oc Q ->
        exists x', xh x' nid = e
        /\ xs x' = (if caught lp e nid oc then xs x else nid :: xs x)
        /\ star M0 (exc_res m lp C oc nid e s Q E x')
  end.

(** *** Steps *)

Lemma step_at m lp C pc Q E x s i ops :
  nth_error (mcode rm P m) pc = Some i ->
  step rm true P (Mst (Frame m pc lp ops) C Q E x s)
  = exec_instr rm true P i (Mst (Frame m (S pc) lp ops) C Q E x s).
Proof. intro H. unfold step. cbn [m_cur f_meth f_pc]. rewrite H. reflexivity. Qed.

Lemma enter_nodes m lp C g s Q E x other pc :
  g <> [] -> Forall (fun n => n_lp n = lp /\ n_exn n = None) g ->
  process_nodes (K m lp C pc s (g ++ Q) E x)
  = match enter m lp C g s Q E x other with Running mm => POk mm | _ => PEmpty end.
Proof.
  intros NE F. destruct g as [|n r]; [congruence|]. inversion F as [|? ? [A B] G]; subst.
  unfold process_nodes, K. cbn [m_q app m_cur f_lp]. rewrite Nat.eqb_refl, B. reflexivity.
Qed.

Lemma start_group_enter m lp C g s Q E x other pc :
  Forall (fun n => n_lp n = lp /\ n_exn n = None) g -> safe lp g Q ->
  start_group (K m lp C pc s Q E x) g other = enter m lp C g s Q E x other.
Proof.
  intros F S. destruct g as [|n r]; [reflexivity|].
  unfold start_group. cbn [m_cur K f_lp m_q]. rewrite regroup_safe by (congruence || assumption).
  change (Mst (Frame m pc lp []) (m_callers (K m lp C pc s Q E x)) ((n :: r) ++ Q)
              (m_ex (K m lp C pc s Q E x)) (m_x (K m lp C pc s Q E x)) (m_st (K m lp C pc s Q E x)))
    with (K m lp C pc s ((n :: r) ++ Q) E x).
  rewrite (enter_nodes m lp C (n :: r) s Q E x other) by (congruence || assumption).
  reflexivity.
Qed.

Lemma finode_weak lp bs g :
  Forall (finode lp bs) g -> Forall (fun n => n_lp n = lp /\ n_exn n = None) g.
Proof. apply Forall_impl. unfold finode. tauto. Qed.

Lemma step_leave m lp C pc s Q E x t oc :
  nth_error (mcode rm P m) pc = Some (ILeave t) ->
  cov (T m) pc = oc -> safe lp (N lp t oc) Q ->
  step rm true P (K m lp C pc s Q E x)
  = enter m lp C (set_last (AJump t) (N lp t oc)) s Q E x (Running (K m lp C (S pc) s Q E x)).
Proof.
  intros H HC HS. unfold K at 1. rewrite (step_at _ _ _ _ _ _ _ _ _ _ H).
  unfold exec_instr. cbn [m_cur f_meth f_pc f_lp]. rewrite find_T.
  replace (S pc - 1) with pc by lia. rewrite HC. fold (fins oc). fold (N lp t oc).
  apply start_group_enter.
  - eapply finode_weak, set_last_nodes, leaving_nodes.
  - intros b L. rewrite last_blk_set_last in L. auto.
Qed.

Lemma step_leave_ret m lp C pc s Q E x oc :
  nth_error (mcode rm P m) pc = Some ILeaveRet ->
  cov (T m) pc = oc -> foreign lp Q ->
  step rm true P (K m lp C pc s Q E x) = ret_res m lp C oc s Q E x.
Proof.
  intros H HC HS. unfold K at 1. rewrite (step_at _ _ _ _ _ _ _ _ _ _ H).
  unfold exec_instr. cbn [m_cur f_meth f_pc f_lp]. rewrite find_T.
  replace (S pc - 1) with pc by lia. rewrite HC. fold (fins oc).
  rewrite (start_group_enter m lp C _ s Q E x _ (S pc)).
  - reflexivity.
  - eapply finode_weak, set_last_nodes, map_nodes.
  - intros b L. apply foreign_drop. exact HS.
Qed.

(** *** Finally parts *)

(** The finally body at [pf], run with other nodes queued, comes to its
    end-of-block command at [pe']. *)
Definition fin_runs m lp C (p pe pf pe' : nat) s s' q : Prop :=
  nth_error (mcode rm P m) pe' = Some IEndFin /\
  forall Q E x, headok lp p pe Q -> Forall (fun n => n_lp n <= lp) Q ->
    exists x', xrel q x x' /\
      star (Running (K m lp C pf s Q E x)) (Running (K m lp C pe' s' Q E x')).

Lemma headok_nodes lp p pe oc g Q :
  Forall (encl p pe) oc -> Forall (finode lp (fins oc)) g -> headok lp p pe Q ->
  headok lp p pe (g ++ Q).
Proof.
  intros F G H. destruct g as [|n r]; [exact H|]. cbn. intros _.
  inversion G as [|? ? (A & B & D) ?]; subst. rewrite Forall_forall in F. apply F, fins_in, D.
Qed.

Lemma le_nodes lp bs g Q :
  Forall (finode lp bs) g -> Forall (fun n => n_lp n <= lp) Q ->
  Forall (fun n => n_lp n <= lp) (g ++ Q).
Proof.
  intros G H. apply Forall_app. split; auto. eapply Forall_impl; [|exact G].
  intros n (A & _). lia.
Qed.

Lemma end_fin_jump m lp C pc s Q E x n t :
  nth_error (mcode rm P m) pc = Some IEndFin -> n_act n = AJump t ->
  step rm true P (K m lp C pc s Q (n :: E) x) = Running (K m lp C t s Q E x).
Proof.
  intros H A. unfold K at 1. rewrite (step_at _ _ _ _ _ _ _ _ _ _ H).
  unfold exec_instr. cbn [m_ex]. rewrite A. reflexivity.
Qed.

Lemma end_fin_ret m lp C pc s Q E x n :
  nth_error (mcode rm P m) pc = Some IEndFin -> n_act n = AReturn ->
  step rm true P (K m lp C pc s Q (n :: E) x) = ret_to C s Q E x.
Proof.
  intros H A. unfold K at 1. rewrite (step_at _ _ _ _ _ _ _ _ _ _ H).
  unfold exec_instr. cbn [m_ex]. rewrite A. reflexivity.
Qed.

Lemma end_fin_next m lp C pc s Q E x n g other :
  nth_error (mcode rm P m) pc = Some IEndFin -> n_act n = ADefault ->
  g <> [] -> Forall (fun n => n_lp n = lp /\ n_exn n = None) g ->
  step rm true P (K m lp C pc s (g ++ Q) (n :: E) x) = enter m lp C g s Q E x other.
Proof.
  intros H A NE F. unfold K at 1. rewrite (step_at _ _ _ _ _ _ _ _ _ _ H).
  unfold exec_instr. cbn [m_ex m_cur m_callers m_q m_x m_st]. rewrite A. cbv zeta.
  change (Mst (Frame m (S pc) lp []) C (g ++ Q) E x s) with (K m lp C (S pc) s (g ++ Q) E x).
  rewrite (enter_nodes m lp C g s Q E x other) by assumption.
  destruct g; [congruence|]. reflexivity.
Qed.

Section AfterFin.
Variables (m lp : nat) (C : list frame) (oc : list blk) (p pe pf pe' : nat).
Variables (s s' : St) (q3 : bool).
Let FB := Blk p pf pf BFinally.
Hypothesis (HFB : inside p (pe - p) FB) (Hpe : p <= pe) (HO : Forall (encl p pe) oc).
Hypothesis (HR : fin_runs m lp C p pe pf pe' s s' q3).

Lemma FB_drop Q : headok lp p pe Q -> drop_old lp FB Q = Q.
Proof. intro H. apply (inside_drop lp p (pe - p)); auto. replace (p + (pe - p)) with pe by lia. exact H. Qed.

Lemma FB_out t : t < p \/ pe <= t -> covers FB t = false.
Proof.
  intro H. destruct (covers FB t) eqn:Cv; auto. apply covers_iff in Cv.
  unfold FB, inside in *. cbn [b_start b_end] in *. lia.
Qed.

Lemma N_FB t : t < p \/ pe <= t -> N lp t (FB :: oc) = mkn lp FB :: N lp t oc.
Proof. intro H. unfold N. cbn [fins filter is_finally FB b_kind leaving]. fold FB. rewrite FB_out by assumption. reflexivity. Qed.

Lemma after_leave t lv p1 pe1 Q E x q M0 :
  p <= p1 -> pe1 <= pe ->
  headok lp p pe Q -> Forall (fun n => n_lp n <= lp) Q ->
  reachL m lp C (FB :: oc) true p1 pe1 t Q E x q s M0 ->
  reachL m lp C oc lv p pe t Q E x (q && q3) s' M0.
Proof.
  intros L1 L2 HQ HL H A B S.
  pose proof (N_FB t B) as NE.
  assert (S' : safe lp (N lp t (FB :: oc)) Q).
  { rewrite NE. destruct (N lp t oc) as [|n r] eqn:EN.
    - intros b Hb. cbn in Hb. injection Hb as <-. apply FB_drop. exact HQ.
    - intros b Hb. rewrite last_blk_cons in Hb by congruence. auto. }
  destruct (H ltac:(discriminate) ltac:(lia) S') as (x1 & X1 & S1).
  unfold leave_res in S1. rewrite NE in S1. destruct HR as [HEnd HRun].
  pose proof (set_last_nodes lp (fins oc) (AJump t) _ (leaving_nodes lp t (fins oc))) as FN.
  fold (N lp t oc) in FN.
  unfold leave_res. destruct (N lp t oc) as [|n r] eqn:EN.
  - cbn [set_last enter app] in S1 |- *.
    destruct (HRun Q (Node lp FB None (AJump t) :: E) x1 HQ HL) as (x2 & X2 & S2).
    exists x2. split; [eapply xrel_trans; eauto|].
    eapply star_trans; [exact S1|]. eapply star_trans; [exact S2|].
    apply star_one. apply end_fin_jump; auto.
  - rewrite set_last_cons in S1 by congruence. cbn [enter] in S1.
    set (g := set_last (AJump t) (n :: r)) in *.
    destruct (HRun (g ++ Q) (mkn lp FB :: E) x1) as (x2 & X2 & S2).
    { eapply headok_nodes; eauto. }
    { eapply le_nodes; eauto. }
    exists x2. split; [eapply xrel_trans; eauto|].
    eapply star_trans; [exact S1|]. eapply star_trans; [exact S2|].
    apply star_one. apply end_fin_next; auto.
    + unfold g. rewrite set_last_nil. congruence.
    + eapply finode_weak. exact FN.
Qed.

Lemma after_ret Q E x q M0 :
  headok lp p pe Q -> Forall (fun n => n_lp n <= lp) Q ->
  (foreign lp Q -> exists x', xrel q x x' /\ star M0 (ret_res m lp C (FB :: oc) s Q E x')) ->
  foreign lp Q -> exists x', xrel (q && q3) x x' /\ star M0 (ret_res m lp C oc s' Q E x').
Proof.
  intros HQ HL H F. destruct (H F) as (x1 & X1 & S1). destruct HR as [HEnd HRun].
  unfold ret_res in *. cbn [fins filter is_finally FB b_kind map] in S1. fold FB in S1.
  fold (fins oc) in S1.
  pose proof (set_last_nodes lp (fins oc) AReturn _ (map_nodes lp (fins oc))) as FN.
  destruct (map (mkn lp) (fins oc)) as [|n r] eqn:EN.
  - cbn [set_last enter app] in S1 |- *.
    destruct (HRun Q (Node lp FB None AReturn :: E) x1 HQ HL) as (x2 & X2 & S2).
    exists x2. split; [eapply xrel_trans; eauto|].
    eapply star_trans; [exact S1|]. eapply star_trans; [exact S2|].
    apply star_one. apply end_fin_ret; auto.
  - rewrite set_last_cons in S1 by congruence. cbn [enter] in S1.
    set (g := set_last AReturn (n :: r)) in *.
    destruct (HRun (g ++ Q) (mkn lp FB :: E) x1) as (x2 & X2 & S2).
    { eapply headok_nodes; eauto. }
    { eapply le_nodes; eauto. }
    exists x2. split; [eapply xrel_trans; eauto|].
    eapply star_trans; [exact S1|]. eapply star_trans; [exact S2|].
    apply star_one. apply end_fin_next; auto.
    + unfold g. rewrite set_last_nil. congruence.
    + eapply finode_weak. exact FN.
Qed.

Lemma handlers_FB ty nid :
  handlers lp ty nid (FB :: oc)
  = (mkn lp FB :: fst (handlers lp ty nid oc), snd (handlers lp ty nid oc)).
Proof. cbn. destruct (handlers lp ty nid oc). reflexivity. Qed.

Lemma handlers_uncaught ty nid bs : fst (handlers lp ty nid bs) = [] -> snd (handlers lp ty nid bs) = false.
Proof.
  induction bs as [|b bs IH]; cbn; auto. destruct (b_kind b).
  - destruct (is_base_type _ _); [discriminate|auto].
  - destruct (handlers lp ty nid bs). discriminate.
Qed.

Lemma after_exc e Q E x M0 :
  q3 = true ->
  headok lp p pe Q -> Forall (fun n => n_lp n <= lp) Q ->
  (exists nid, safeX lp e nid (FB :: oc) Q ->
     exists x', xh x' nid = e
     /\ xs x' = (if caught lp e nid (FB :: oc) then xs x else nid :: xs x)
     /\ star M0 (exc_res m lp C (FB :: oc) nid e s Q E x')) ->
  exists nid, safeX lp e nid oc Q ->
    exists x', xh x' nid = e
    /\ xs x' = (if caught lp e nid oc then xs x else nid :: xs x)
    /\ star M0 (exc_res m lp C oc nid e s' Q E x').
Proof.
  intros Q3 HQ HL (nid & H). exists nid. intro SX.
  unfold safeX, caught, exc_res in *. rewrite handlers_FB in H. cbn [fst snd] in H.
  pose proof (handlers_lp lp (x_type e) nid oc) as HN.
  pose proof (handlers_uncaught (x_type e) nid oc) as HU.
  destruct (handlers lp (x_type e) nid oc) as [g cg]. cbn [fst snd] in *.
  assert (SX' : if cg then safe lp (mkn lp FB :: g) Q else foreign lp Q).
  { destruct cg; [|exact SX]. intros b Hb. destruct g as [|n r].
    - specialize (HU eq_refl). discriminate.
    - rewrite last_blk_cons in Hb by congruence. auto. }
  destruct (H SX') as (x1 & XE & XS & S1). clear H SX'. cbn [n_exn mkn n_blk FB b_entry] in S1.
  destruct HR as [HEnd HRun].
  destruct (HRun (g ++ Q) (mkn lp FB :: E) x1) as (x2 & X2 & S2).
  { destruct g as [|n r]; [exact HQ|]. cbn. intros _. inversion HN as [|? ? [_ I] ?]; subst.
    rewrite Forall_forall in HO. apply HO. exact I. }
  { apply Forall_app. split; [|exact HL]. eapply Forall_impl; [|exact HN].
    intros n [A _]. lia. }
  destruct X2 as [_ X2]. specialize (X2 Q3). subst x2.
  exists x1. split; [exact XE|]. split; [exact XS|].
  eapply star_trans; [exact S1|]. eapply star_trans; [exact S2|].
  apply star_one. unfold K at 1. rewrite (step_at _ _ _ _ _ _ _ _ _ _ HEnd).
  unfold exec_instr. cbn [m_ex m_cur m_callers m_q m_x m_st n_act mkn]. cbv zeta.
  destruct g as [|n r].
  - rewrite (HU eq_refl) in *. cbn [app].
    assert (PN : forall pc, match process_nodes (Mst (Frame m pc lp []) C Q E x1 s') with
                 | POk _ => False | _ => True end).
    { intro pc. unfold process_nodes. cbn [m_q m_cur f_lp]. destruct Q as [|k Q']; auto.
      cbn in SX. apply Nat.eqb_neq in SX. rewrite SX. cbn. auto. }
    specialize (PN (S pe')). destruct (process_nodes _); try contradiction.
    + unfold unwind. destruct C; [|reflexivity]. rewrite XS, XE. reflexivity.
    + unfold unwind. destruct C; [|reflexivity]. rewrite XS, XE. reflexivity.
  - inversion HN as [|? ? [A I] ?]; subst. unfold process_nodes. cbn [m_q app m_cur f_lp].
    rewrite Nat.eqb_refl. cbn [negb]. destruct (n_exn n); reflexivity.
Qed.

End AfterFin.

End Sim.
