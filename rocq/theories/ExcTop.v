(** The simulation theorem for whole programs. *)

From Coq Require Import List Bool Arith Lia.
Import ListNotations.
From Verif Require Import ExcModel ExcSpec ExcProofs ExcSim.

Section Top.
Context {St : Type} (rm : bool) (P : @prog St).
Notation T := (mtable rm P).
Notation star := (@star St rm P).
Notation code_at := (@code_at St rm P).
Notation covat := (@covat St rm P).
Notation reach := (@reach St rm P).
Notation reachL := (@reachL St rm P).
Notation fin_runs := (@fin_runs St rm P).

(** *** Catch clauses *)

Fixpoint cheads (lv lr : bool) (ps pe p : nat) (cs : @catches St) : list blk :=
  match cs with
  | CNil => []
  | CCons ty _ b r =>
    Blk ps pe p (BCatch ty) :: cheads lv lr ps pe (p + 1 + size rm lv lr b + b2n (pass b)) r
  end.

Lemma cov_cblocks_body lv lr ps pe (cs : @catches St) p pc :
  pe <= p -> ps <= pc < pe ->
  cov (cblocks rm lv lr ps pe p cs) pc = cheads lv lr ps pe p cs.
Proof.
  revert p. induction cs as [|ty bi b r IH]; intros p L R; [reflexivity|].
  rewrite cblocks_cons. cbn [cheads]. unfold cov. cbn [filter].
  assert (CV : covers (Blk ps pe p (BCatch ty)) pc = true) by (apply covers_iff; exact R).
  rewrite CV. f_equal. rewrite filter_app.
  fold (cov (blocks rm lv lr (p + 1) b) pc).
  rewrite (cov_outside (p + 1) (size rm lv lr b)); [|apply blocks_inside|lia].
  cbn [app]. apply IH; lia.
Qed.

Lemma cov_cblocks_out lv lr ps pe (cs : @catches St) p pc :
  pe <= pc -> pc < p -> cov (cblocks rm lv lr ps pe p cs) pc = [].
Proof.
  intros A B. pose proof (cblocks_inside cs rm lv lr ps pe p) as F.
  induction F as [|b t I F IH]; [reflexivity|].
  unfold cov in *. cbn [filter]. destruct (covers b pc) eqn:Cv; [|exact IH].
  exfalso. destruct I as [[E1 E2]|I].
  - apply covers_iff in Cv. lia.
  - pose proof (inside_covers _ _ _ _ I Cv). lia.
Qed.

Lemma cov_cblocks_past lv lr ps pe (cs : @catches St) p pc :
  pe <= pc -> p + csizes rm lv lr cs <= pc -> cov (cblocks rm lv lr ps pe p cs) pc = [].
Proof.
  intros A B. pose proof (cblocks_inside cs rm lv lr ps pe p) as F.
  induction F as [|b t I F IH]; [reflexivity|].
  unfold cov in *. cbn [filter]. destruct (covers b pc) eqn:Cv; [|exact IH].
  exfalso. destruct I as [[E1 E2]|I].
  - apply covers_iff in Cv. lia.
  - pose proof (inside_covers _ _ _ _ I Cv). lia.
Qed.

Lemma fins_cheads lv lr ps pe (cs : @catches St) p rest :
  fins (cheads lv lr ps pe p cs ++ rest) = fins rest.
Proof. revert p. induction cs as [|ty bi b r IH]; intro p; [reflexivity|]. apply IH. Qed.

Lemma handlers_unhandled e lv lr ps pe cs p lp nid rest :
  unhandled e cs ->
  handlers lp (x_type e) nid (cheads lv lr ps pe p cs ++ rest) = handlers lp (x_type e) nid rest.
Proof.
  intro U. revert p. induction U as [|ty bi b r ND U IH]; intro p; [reflexivity|].
  cbn [cheads app handlers b_kind]. apply is_base_type_false in ND. rewrite ND. apply IH.
Qed.

Lemma select_at e cs bind cb :
  selects e cs bind cb ->
  forall m c hf t p, code_at m p (ccomps rm c hf t p cs) ->
  exists ty pk,
    p <= pk
    /\ pk + 1 + size rm (c_leave c) (c_lret c) cb + b2n (pass cb)
       <= p + csizes rm (c_leave c) (c_lret c) cs
    /\ code_at m pk (IPop bind :: comp rm c (pk + 1) cb ++ exit_jump cb hf t)
    /\ (forall lp nid rest ps pe,
          handlers lp (x_type e) nid (cheads (c_leave c) (c_lret c) ps pe p cs ++ rest)
          = ([Node lp (Blk ps pe pk (BCatch ty)) (Some nid) ADefault], true))
    /\ (forall ps pe pc, pe <= p ->
          pk + 1 <= pc < pk + 1 + size rm (c_leave c) (c_lret c) cb + b2n (pass cb) ->
          cov (cblocks rm (c_leave c) (c_lret c) ps pe p cs) pc
          = cov (blocks rm (c_leave c) (c_lret c) (pk + 1) cb) pc).
Proof.
  intro S. induction S as [ty bi b r D | ty bi b r bi' b' ND S IH]; intros m c hf t p CA.
  - exists ty, p. rewrite csizes_cons. split; [lia|]. split; [lia|]. split; [|split].
    + rewrite ccomps_cons in CA. rewrite app_assoc in CA.
      change (code_at m p ((IPop bi :: comp rm c (p + 1) b ++ exit_jump b hf t) ++
         ccomps rm c hf t (p + 1 + size rm (c_leave c) (c_lret c) b + b2n (pass b)) r)) in CA.
      apply code_at_app in CA. tauto.
    + intros. cbn [cheads app handlers b_kind]. apply is_base_type_spec in D. rewrite D. reflexivity.
    + intros ps pe pc L R. rewrite cblocks_cons. unfold cov. cbn [filter].
      assert (CV : covers (Blk ps pe p (BCatch ty)) pc = false).
      { destruct (covers _ _) eqn:Cv; auto. apply covers_iff in Cv. cbn in Cv. lia. }
      rewrite CV, filter_app. fold (cov (blocks rm (c_leave c) (c_lret c) (p + 1) b) pc).
      fold (cov (cblocks rm (c_leave c) (c_lret c) ps pe
        (p + 1 + size rm (c_leave c) (c_lret c) b + b2n (pass b)) r) pc).
      rewrite cov_cblocks_out by lia. apply app_nil_r.
  - rewrite ccomps_cons in CA.
    apply code_at_cons in CA as [_ CA]. apply code_at_app in CA as [_ CA].
    apply code_at_app in CA as [_ CA]. rewrite length_comp, len_exit_jump in CA.
    destruct (IH m c hf t _ CA) as (ty' & pk & L1 & L2 & CA' & HH & HC).
    exists ty', pk. rewrite csizes_cons. split; [lia|]. split; [lia|]. split; [exact CA'|]. split.
    + intros. cbn [cheads app handlers b_kind]. apply is_base_type_false in ND. rewrite ND. apply HH.
    + intros ps pe pc L R. rewrite cblocks_cons. unfold cov. cbn [filter].
      assert (CV : covers (Blk ps pe p (BCatch ty)) pc = false).
      { destruct (covers _ _) eqn:Cv; auto. apply covers_iff in Cv. cbn in Cv. lia. }
      rewrite CV, filter_app. fold (cov (blocks rm (c_leave c) (c_lret c) (p + 1) b) pc).
      rewrite (cov_outside (p + 1) (size rm (c_leave c) (c_lret c) b)); [|apply blocks_inside|lia].
      cbn [app]. apply HC; lia.
Qed.

Lemma exec_empty body (s : @stmt St) st o st' q :
  exec body s st o st' q -> is_empty s = true -> o = ONormal /\ st' = st /\ q = true.
Proof.
  induction 1; cbn [is_empty]; intro EM; try discriminate; auto.
  - apply andb_true_iff in EM as [EA EB].
    destruct (IHexec1 EA) as (_ & -> & ->). destruct (IHexec2 EB) as (-> & -> & ->). auto.
  - apply andb_true_iff in EM as [EA EB]. destruct (IHexec EA) as (-> & _ & _). congruence.
Qed.

(** A statement without code ends normally. *)
Lemma exec_size body (s : @stmt St) st o st' q :
  exec body s st o st' q ->
  forall prot lv lr, tame prot s -> size rm lv lr s = 0 -> o = ONormal.
Proof.
  induction 1; intros prot lv lr TM SZ; auto; try (cbn [size] in SZ; lia).
  - destruct TM as [TA TB]. cbn [size] in SZ.
    assert (U : unreached (exit_type a) = false).
    { pose proof (exec_pass _ _ _ _ _ _ H TA) as PA. rewrite pass_unreached in PA.
      apply negb_true_iff in PA. exact PA. }
    rewrite U, andb_false_r in SZ. apply (IHexec2 prot lv lr TB). lia.
  - destruct TM as [TA TB]. cbn [size] in SZ. apply (IHexec prot lv lr TA). lia.
  - destruct TM as (TB & TC & TF & HT).
    destruct (try_cases rm b cs f) as [D|[[D1 D2]|D]].
    + apply andb_true_iff in D as [_ D]. destruct (exec_empty _ _ _ _ _ _ H D). assumption.
    + rewrite size_try2 in SZ by assumption. eauto.
    + rewrite size_try3' in SZ by assumption. unfold n1_, nb_ in SZ.
      pose proof (size_pass rm (lvb lv cs f) (lvb lr cs f) b). lia.
  - destruct (try_cases rm b cs f) as [D|[[D1 D2]|D]].
    + apply andb_true_iff in D as [_ D]. destruct (exec_empty _ _ _ _ _ _ H D). discriminate.
    + apply andb_true_iff in D2 as [_ D2]. destruct cs; [|discriminate]. inversion H0.
    + rewrite size_try3' in SZ by assumption. unfold n1_, nb_ in SZ.
      pose proof (size_pass rm (lvb lv cs f) (lvb lr cs f) b). lia.
Qed.

(** *** Finally *)

Definition fbl (f : @stmt St) (p pf : nat) : list blk :=
  if hf_ f then [Blk p pf pf BFinally] else [].

(** After an abrupt try or catch body, the finally part (if any) runs. *)
Lemma after_any m lp C oc c cc p pe pf p1 pe1 f o Q E x q q3 s s' M0 :
  o <> ONormal ->
  p <= pf -> p < pe -> (hf_ f = true -> pf < pe) ->
  Forall (encl p pe) oc ->
  (hf_ f = true -> exists pe', fin_runs m lp C p pe pf pe' s s' q3) ->
  (hf_ f = false -> s' = s /\ q3 = true) ->
  (is_exc o -> q3 = true) ->
  p <= p1 -> pe1 <= pe ->
  headok lp p pe Q -> Forall (fun n => n_lp n <= lp) Q ->
  c_brk cc = c_brk c -> c_cont cc = c_cont c ->
  (hf_ f = true -> c_leave cc = true) ->
  (c_leave cc = false -> c_leave c = false) ->
  reach m lp C (fbl f p pf ++ oc) cc p1 pe1 o Q E x q s M0 ->
  reach m lp C oc c p pe o Q E x (q && q3) s' M0.
Proof.
  intros NO L1 L2 L3 HO HF NF Q3 LP LE HQ HL EB EC LV LV' H.
  unfold fbl in H. destruct (hf_ f) eqn:EF.
  - destruct (HF eq_refl) as (pe' & HR). specialize (LV eq_refl). specialize (L3 eq_refl).
    assert (HFB : inside p (pe - p) (Blk p pf pf BFinally)).
    { unfold inside. cbn. lia. }
    cbn [app] in H.
    destruct o; cbn [ExcSim.reach] in H |- *; try congruence.
    + rewrite LV, EB in H. eapply after_leave; eauto. lia.
    + rewrite LV, EC in H. eapply after_leave; eauto. lia.
    + eapply after_ret; eauto.
    + exact (after_exc rm P m lp C oc p pe pf pe' s s' q3 ltac:(lia) HO HR e Q E x M0 (Q3 I) HQ HL H).
  - destruct (NF eq_refl) as [-> ->]. rewrite andb_true_r. cbn [app] in H.
    destruct o; cbn [ExcSim.reach] in H |- *; try congruence; auto.
    + rewrite EB in H. intros A B D. apply H; auto; lia.
    + rewrite EC in H. intros A B D. apply H; auto; lia.
Qed.

(** The jump after a try or catch body that ended normally. *)
Lemma exit_leave m lp C oc p pe pf pc f (b : @stmt St) Q E x q3 s s' :
  pass b = true ->
  code_at m pc (exit_jump b (hf_ f) pe) ->
  p <= pf -> (hf_ f = true -> pf < pe) -> cov (T m) pc = fbl f p pf ++ oc ->
  N lp pe oc = [] ->
  (hf_ f = true -> exists pe', fin_runs m lp C p pe pf pe' s s' q3) ->
  (hf_ f = false -> s' = s /\ q3 = true) ->
  headok lp p pe Q -> Forall (fun n => n_lp n <= lp) Q ->
  exists x', xrel q3 x x'
    /\ star (Running (K m lp C pc s Q E x)) (Running (K m lp C pe s' Q E x')).
Proof.
  intros PB CA L1 L2 CV NE HF NF HQ HL. unfold exit_jump in CA. rewrite PB in CA.
  apply code_at_cons in CA as [CA _]. unfold fbl in CV. destruct (hf_ f) eqn:EF.
  - destruct (HF eq_refl) as (pe' & HEnd & HRun). specialize (L2 eq_refl).
    assert (HFB : inside p (pe - p) (Blk p pf pf BFinally)).
    { unfold inside. cbn. lia. }
    cbn [app] in CV.
    assert (NN : N lp pe (Blk p pf pf BFinally :: oc) = [mkn lp (Blk p pf pf BFinally)]).
    { rewrite (N_FB lp oc p pe pf HFB) by lia. rewrite NE. reflexivity. }
    assert (SF : safe lp (N lp pe (Blk p pf pf BFinally :: oc)) Q).
    { rewrite NN. intros b0 Hb. cbn in Hb. injection Hb as <-.
      apply (FB_drop lp p pe pf HFB ltac:(lia)). exact HQ. }
    pose proof (step_leave rm P m lp C pc s Q E x pe _ CA CV SF) as ST.
    rewrite NN in ST. cbn [set_last enter app mkn n_lp n_blk n_exn b_entry] in ST.
    destruct (HRun Q (Node lp (Blk p pf pf BFinally) None (AJump pe) :: E) x HQ HL)
      as (x2 & X2 & S2).
    exists x2. split; [exact X2|].
    eapply star_trans; [apply star_one; exact ST|].
    eapply star_trans; [exact S2|].
    apply star_one. apply end_fin_jump; auto.
  - destruct (NF eq_refl) as [-> ->]. exists x. split; [apply xrel_refl|].
    apply star_one. unfold K at 1. rewrite (step_at rm P _ _ _ _ _ _ _ _ _ _ CA). reflexivity.
Qed.

(** *** The theorem *)

Definition sim_at (s : @stmt St) st o st' q : Prop :=
  forall prot m lp C c p oc Q E x,
    tame prot s -> (c_lret c = true -> prot = true) ->
    code_at m p (comp rm c p s) ->
    covat m p (size rm (c_leave c) (c_lret c) s)
          (blocks rm (c_leave c) (c_lret c) p s) oc ->
    (c_lret c = false -> fins oc = []) ->
    headok lp p (p + size rm (c_leave c) (c_lret c) s) Q ->
    Forall (fun n => n_lp n <= lp) Q ->
    reach m lp C oc c p (p + size rm (c_leave c) (c_lret c) s) o Q E x q st'
          (Running (K m lp C p st Q E x)).

Lemma covat_sub m p n bs oc p' n' bs' :
  covat m p n bs oc -> p <= p' -> p' + n' <= p + n ->
  (forall pc, p' <= pc < p' + n' -> cov bs pc = cov bs' pc) ->
  covat m p' n' bs' oc.
Proof. intros H A B D pc R. rewrite H by lia. rewrite D by lia. reflexivity. Qed.

Lemma cov_blocks_out (s : @stmt St) lv lr p pc :
  pc < p \/ p + size rm lv lr s <= pc -> cov (blocks rm lv lr p s) pc = [].
Proof. intro H. eapply cov_outside; [apply blocks_inside|exact H]. Qed.

Lemma callee_code m : code_at m 0 (comp rm ctx0 0 (p_body P m)).
Proof.
  intros k i Hk. cbn [Nat.add]. unfold mcode. rewrite nth_error_app1; [exact Hk|].
  apply nth_error_Some. congruence.
Qed.

(** Prefixing steps and moving the end of the statement. *)
Lemma reach_prefix m lp C oc c p pe o Q E x q s M0 M1 :
  star M0 M1 -> reach m lp C oc c p pe o Q E x q s M1 -> reach m lp C oc c p pe o Q E x q s M0.
Proof.
  intros S H. destruct o; cbn [ExcSim.reach] in *.
  - intro A. destruct (H A) as (x' & X & S'). exists x'. split; auto. eapply star_trans; eauto.
  - intros A B D. destruct (H A B D) as (x' & X & S'). exists x'. split; auto.
    eapply star_trans; eauto.
  - intros A B D. destruct (H A B D) as (x' & X & S'). exists x'. split; auto.
    eapply star_trans; eauto.
  - intro A. destruct (H A) as (x' & X & S'). exists x'. split; auto. eapply star_trans; eauto.
  - destruct H as (nid & H). exists nid. intro A. destruct (H A) as (x' & X1 & X2 & S').
    exists x'. repeat split; auto. eapply star_trans; eauto.
Qed.

(* the same from another exception memory reached on the way *)
Lemma reach_xrel m lp C oc c p pe o Q E x x1 q q1 s M0 :
  xrel q1 x x1 -> reach m lp C oc c p pe o Q E x1 q s M0 ->
  reach m lp C oc c p pe o Q E x (q1 && q) s M0.
Proof.
  intros X H. destruct o; cbn [ExcSim.reach] in *.
  - intro A. destruct (H A) as (x' & X' & S'). exists x'. split; auto. eapply xrel_trans; eauto.
  - intros A B D. destruct (H A B D) as (x' & X' & S'). exists x'. split; auto.
    eapply xrel_trans; eauto.
  - intros A B D. destruct (H A B D) as (x' & X' & S'). exists x'. split; auto.
    eapply xrel_trans; eauto.
  - intro A. destruct (H A) as (x' & X' & S'). exists x'. split; auto. eapply xrel_trans; eauto.
  - destruct H as (nid & H). exists nid. intro A. destruct (H A) as (x' & X1 & X2 & S').
    exists x'. destruct X as [X _]. rewrite X in X2. repeat split; auto.
Qed.

(* a part of a statement: abrupt ends are those of the whole *)
Lemma reach_abrupt m lp C oc c p pe p1 pe1 o Q E x q s M0 :
  o <> ONormal -> p <= p1 -> pe1 <= pe ->
  reach m lp C oc c p1 pe1 o Q E x q s M0 -> reach m lp C oc c p pe o Q E x q s M0.
Proof.
  intros NO A B H. destruct o; cbn [ExcSim.reach] in *; auto; try congruence.
  - intros X Y Z. apply H; auto; lia.
  - intros X Y Z. apply H; auto; lia.
Qed.

Lemma pass_false_unreached (s : @stmt St) : pass s = true -> unreached (exit_type s) = false.
Proof. rewrite pass_unreached. apply negb_true_iff. Qed.

Hypothesis HT : tame_prog (p_body P).

(** Throwing at [pt]. *)
Lemma raise_reach m lp C oc c p pe pt Q E x x1 s q nid e :
  cov (T m) pt = oc -> xs x1 = nid :: xs x -> xh x1 nid = e ->
  reach m lp C oc c p pe (OExc e) Q E x q s
        (raise rm true P (Frame m (S pt) lp []) C Q E x1 s).
Proof.
  intros HC HX HE. exists nid. intro SX.
  rewrite (raise_res rm P m lp C oc pt Q E x1 s nid (xs x) e HC HX HE SX).
  exists (if caught lp e nid oc then x_pop x1 else x1).
  split; [|split; [|apply star_refl]].
  - destruct (caught lp e nid oc); [|exact HE]. unfold x_pop. rewrite HX. exact HE.
  - destruct (caught lp e nid oc); [|exact HX]. unfold x_pop. rewrite HX. reflexivity.
Qed.

Lemma x_push_spec e x : exists nid, xs (x_push e x) = nid :: xs x /\ xh (x_push e x) nid = e.
Proof.
  unfold x_push. destruct (xfree x) as [|n r]; cbn.
  - exists (xnew x). rewrite Nat.eqb_refl. auto.
  - exists n. rewrite Nat.eqb_refl. auto.
Qed.

Lemma jump_leave m lp C pc t oc lv Q E x s p pe :
  (lv = true -> nth_error (mcode rm P m) pc = Some (ILeave t)) ->
  nth_error (mcode rm P m) (pc + b2n lv) = Some (IJmp t) ->
  cov (T m) pc = oc ->
  reachL m lp C oc lv p pe t Q E x true s (Running (K m lp C pc s Q E x)).
Proof.
  intros A B HC H1 _ H3. exists x. split; [apply xrel_refl|]. destruct lv.
  - specialize (A eq_refl).
    eapply star_trans; [apply star_one; apply (step_leave rm P m lp C pc s Q E x t oc A HC H3)|].
    unfold leave_res. destruct (set_last (AJump t) (N lp t oc)) as [|n g] eqn:EN.
    + cbn [enter]. apply star_one. unfold K at 1. cbn [b2n] in B.
      replace (S pc) with (pc + 1) by lia.
      rewrite (step_at rm P _ _ _ _ _ _ _ _ _ _ B). reflexivity.
    + apply star_refl.
  - unfold leave_res. rewrite (H1 eq_refl). cbn [set_last enter].
    cbn [b2n] in B. rewrite Nat.add_0_r in B.
    apply star_one. unfold K at 1. rewrite (step_at rm P _ _ _ _ _ _ _ _ _ _ B). reflexivity.
Qed.

Section TryBig.
Variables (m lp : nat) (C : list (frame)) (c : cctx) (p : nat) (oc : list blk).
Variables (b : @stmt St) (cs : @catches St) (f : @stmt St).
Let lv := c_leave c.
Let lr := c_lret c.
Let n1 := n1_ rm lv lr b cs f.
Let n2 := n2_ rm lv lr cs f.
Let n3 := n3_ rm lv lr f.
Let nb := nb_ rm lv lr b cs f.
Let pf := p + n1 + n2.
Let pe := p + n1 + n2 + n3.
Let cb := Cctx (c_brk c) (c_cont c) (lvb lv cs f) (lvb lr cs f).
Let cc := Cctx (c_brk c) (c_cont c) (lv || hf_ f) (lr || hf_ f).
Hypothesis HB : bigt rm b cs f.
Hypothesis CA : code_at m p (comp rm c p (STry b cs f)).
Hypothesis CV : covat m p (size rm lv lr (STry b cs f)) (blocks rm lv lr p (STry b cs f)) oc.
Hypothesis LR : lr = false -> fins oc = [].

Lemma try_size : size rm lv lr (STry b cs f) = n1 + n2 + n3.
Proof. apply size_try3'. exact HB. Qed.

Lemma n1_pos : 1 <= n1.
Proof. unfold n1, n1_, nb_. apply size_pass. Qed.

Lemma try_code :
  code_at m p (comp rm cb p b) /\
  code_at m (p + nb) (exit_jump b (hf_ f) pe) /\
  code_at m (p + n1) (ccomps rm cc (hf_ f) pe (p + n1) cs) /\
  (hf_ f = true -> code_at m pf (comp rm c pf f) /\
     (pass f = true -> nth_error (mcode rm P m) (pf + size rm lv lr f) = Some IEndFin)).
Proof.
  pose proof CA as H. rewrite comp_try3 in H by exact HB. cbv zeta in H.
  fold lv lr in H. fold n1 n2 n3 in H. fold cb cc in H. fold pe in H. fold pf in H.
  apply code_at_app in H as [H1 H]. rewrite length_comp in H. cbn [cb c_leave c_lret] in H.
  change (size rm (lvb lv cs f) (lvb lr cs f) b) with nb in H.
  apply code_at_app in H as [H2 H]. rewrite len_exit_jump in H.
  replace (p + nb + b2n (pass b)) with (p + n1) in H by (unfold n1, n1_; fold nb; lia).
  apply code_at_app in H as [H3 H]. rewrite length_ccomps in H. cbn [cc c_leave c_lret] in H.
  change (csizes rm (lv || hf_ f) (lr || hf_ f) cs) with n2 in H. fold pf in H.
  repeat split; auto.
  - rewrite H0 in H. apply code_at_app in H. tauto.
  - intro PF. rewrite H0 in H. apply code_at_app in H as [_ H]. rewrite length_comp in H.
    rewrite PF in H. apply code_at_cons in H as [H _]. exact H.
Qed.

Lemma try_encl : Forall (encl p pe) oc.
Proof.
  pose proof (covat_encl rm P _ _ _ _ _ CV) as F. rewrite try_size in F.
  pose proof n1_pos. replace pe with (p + (n1 + n2 + n3)) by (unfold pe; lia). apply F. lia.
Qed.

Lemma hf_n3 : hf_ f = true -> n3 = size rm lv lr f + b2n (pass f) /\ 1 <= n3.
Proof.
  intro H. unfold n3, n3_. rewrite H. split; [reflexivity|]. apply size_pass.
Qed.

(* the blocks above the finally body *)
Lemma cov_fin_part pc :
  cov (if hf_ f then Blk p pf pf BFinally :: blocks rm lv lr pf f else []) pc
  = (if (p <=? pc) && (pc <? pf) then fbl f p pf else [])
    ++ cov (if hf_ f then blocks rm lv lr pf f else []) pc.
Proof.
  unfold fbl. destruct (hf_ f); [|destruct (_ && _); reflexivity].
  unfold cov. cbn [filter]. unfold covers at 1. cbn [b_start b_end].
  destruct (_ && _); reflexivity.
Qed.

Lemma try_cov_body pc :
  p <= pc < p + nb ->
  cov (T m) pc = cov (blocks rm (lvb lv cs f) (lvb lr cs f) p b) pc
    ++ (cheads (lv || hf_ f) (lr || hf_ f) p (p + nb) (p + n1) cs ++ fbl f p pf ++ oc).
Proof.
  intro R. assert (NN : nb <= n1) by (unfold n1, n1_; fold nb; lia).
  rewrite CV by (rewrite try_size; lia). rewrite blocks_try3 by exact HB. cbv zeta.
  fold lv lr. fold n1 n2 nb. fold pf.
  rewrite !cov_app, cov_cblocks_body by lia. rewrite cov_fin_part.
  replace ((p <=? pc) && (pc <? pf)) with true
    by (symmetry; rewrite andb_true_iff, Nat.leb_le, Nat.ltb_lt; unfold pf; lia).
  replace (cov (if hf_ f then blocks rm lv lr pf f else []) pc) with (@nil blk).
  2:{ destruct (hf_ f); [|reflexivity]. symmetry.
      apply (cov_outside pf (size rm lv lr f)); [apply blocks_inside|unfold pf; lia]. }
  rewrite app_nil_r, <- !app_assoc. reflexivity.
Qed.

Lemma try_cov_mid pc :
  p + nb <= pc < pf ->
  cov (T m) pc = cov (cblocks rm (lv || hf_ f) (lr || hf_ f) p (p + nb) (p + n1) cs) pc
    ++ (fbl f p pf ++ oc).
Proof.
  intro R. assert (NN : nb <= n1) by (unfold n1, n1_; fold nb; lia).
  rewrite CV by (rewrite try_size; unfold pf in R; lia). rewrite blocks_try3 by exact HB. cbv zeta.
  fold lv lr. fold n1 n2 nb. fold pf.
  rewrite !cov_app.
  rewrite (cov_outside p nb) by (apply blocks_inside || lia). cbn [app].
  rewrite cov_fin_part.
  replace ((p <=? pc) && (pc <? pf)) with true
    by (symmetry; rewrite andb_true_iff, Nat.leb_le, Nat.ltb_lt; lia).
  replace (cov (if hf_ f then blocks rm lv lr pf f else []) pc) with (@nil blk).
  2:{ destruct (hf_ f); [|reflexivity]. symmetry.
      apply (cov_outside pf (size rm lv lr f)); [apply blocks_inside|lia]. }
  rewrite app_nil_r, <- !app_assoc. reflexivity.
Qed.

Lemma try_cov_fin : hf_ f = true -> covat m pf (size rm lv lr f) (blocks rm lv lr pf f) oc.
Proof.
  intros HF pc R. assert (NN : nb <= n1) by (unfold n1, n1_; fold nb; lia).
  destruct (hf_n3 HF) as [E3 _].
  rewrite CV by (rewrite try_size; unfold pf in R; lia). rewrite blocks_try3 by exact HB. cbv zeta.
  fold lv lr. fold n1 n2 nb. fold pf.
  rewrite !cov_app.
  rewrite (cov_outside p nb) by (apply blocks_inside || (unfold pf in R; lia)).
  rewrite cov_cblocks_past; [|unfold pf in R; lia|].
  2:{ change (csizes rm (lv || hf_ f) (lr || hf_ f) cs) with n2. unfold pf in R. lia. }
  rewrite cov_fin_part. cbn [app].
  replace ((p <=? pc) && (pc <? pf)) with false
    by (symmetry; apply andb_false_iff; right; apply Nat.ltb_ge; lia).
  rewrite HF. reflexivity.
Qed.

Lemma try_fin_runs s s' q :
  hf_ f = true -> exec (p_body P) f s ONormal s' q -> tame true f ->
  sim_at f s ONormal s' q ->
  exists pe', fin_runs m lp C p pe pf pe' s s' q.
Proof.
  intros HF EX TF IH. exists (pf + size rm lv lr f).
  destruct try_code as (_ & _ & _ & H). destruct (H HF) as [CF EF].
  pose proof (exec_pass _ _ _ _ _ _ EX TF) as PF.
  destruct (hf_n3 HF) as [E3 _]. rewrite PF in E3. cbn [b2n] in E3.
  split; [apply EF; exact PF|].
  intros Q E x HQ HL.
  specialize (IH true m lp C c pf oc Q E x TF (fun _ => eq_refl) CF (try_cov_fin HF) LR).
  cbn [ExcSim.reach] in IH. fold lv lr in IH. apply IH.
  - eapply headok_mono; [exact HQ| |]; unfold pf, pe; lia.
  - exact HL.
  - apply N_covered. apply (covat_covers rm P _ _ _ _ _ (pf + size rm lv lr f) CV).
    rewrite try_size. unfold pf. lia.
Qed.

End TryBig.

Lemma N_cheads lp t lv lr ps pe p cs rest :
  N lp t (cheads lv lr ps pe p cs ++ rest) = N lp t rest.
Proof. unfold N. rewrite fins_cheads. reflexivity. Qed.

Lemma reach_cheads m lp C lv lr ps pse p0 (cs : @catches St) r c p pe o Q E x q s M0 :
  o <> ONormal -> (forall e, o = OExc e -> unhandled e cs) ->
  reach m lp C (cheads lv lr ps pse p0 cs ++ r) c p pe o Q E x q s M0 ->
  reach m lp C r c p pe o Q E x q s M0.
Proof.
  intros NO U H. destruct o; cbn [ExcSim.reach] in *; try congruence.
  - unfold ExcSim.reachL, leave_res in *. rewrite N_cheads in H. exact H.
  - unfold ExcSim.reachL, leave_res in *. rewrite N_cheads in H. exact H.
  - unfold ret_res in *. rewrite fins_cheads in H. exact H.
  - destruct H as (nid & H). exists nid. unfold safeX, caught, exc_res in *.
    rewrite handlers_unhandled in H by auto. exact H.
Qed.

Lemma exec_exc_q body (s : @stmt St) st o st' q :
  exec body s st o st' q -> is_exc o -> q = false.
Proof.
  induction 1; cbn [is_exc]; intro IO; try contradiction; auto.
  - rewrite (IHexec2 IO). apply andb_false_r.
  - rewrite (IHexec2 IO). apply andb_false_r.
  - rewrite (IHexec1 IO). reflexivity.
  - rewrite (IHexec1 I). reflexivity.
Qed.

Theorem sim s st o st' q : exec (p_body P) s st o st' q -> sim_at s st o st' q.
Proof.
  induction 1; intros prot mm lp C c0 p oc Q E x TM PR CA CV LR HQ HL.
  - (* empty *)
    intro A. exists x. split; [apply xrel_refl|]. cbn [size]. rewrite Nat.add_0_r. apply star_refl.
  - (* act *)
    intro A. exists x. split; [apply xrel_refl|]. cbn [comp] in CA.
    apply code_at_cons in CA as [CA _]. apply star_one. unfold K at 1.
    rewrite (step_at rm P _ _ _ _ _ _ _ _ _ _ CA). cbn [size]. unfold K.
    replace (p + 1) with (S p) by lia. reflexivity.
  - (* seq *)
    destruct TM as [TA TB].
    pose proof (pass_false_unreached _ (exec_pass _ _ _ _ _ _ H TA)) as U.
    cbn [comp] in CA. cbn [size blocks] in *. rewrite U, andb_false_r in *.
    apply code_at_app in CA as [CA1 CA2]. rewrite length_comp in CA2.
    set (na := size rm (c_leave c0) (c_lret c0) a) in *.
    set (nb := size rm (c_leave c0) (c_lret c0) b) in *.
    assert (CVA : covat mm p na (blocks rm (c_leave c0) (c_lret c0) p a) oc).
    { eapply covat_sub; [exact CV| | |]; [lia|lia|]. intros pc R. rewrite cov_app.
      rewrite (cov_blocks_out b) by lia. apply app_nil_r. }
    assert (CVB : covat mm (p + na) nb (blocks rm (c_leave c0) (c_lret c0) (p + na) b) oc).
    { eapply covat_sub; [exact CV| | |]; [lia|lia|]. intros pc R. rewrite cov_app.
      rewrite (cov_blocks_out a) by lia. reflexivity. }
    pose proof (IHexec1 prot mm lp C c0 p oc Q E x TA PR CA1 CVA LR) as I1.
    fold na in I1. cbn [ExcSim.reach] in I1.
    assert (HQ1 : headok lp p (p + na) Q) by (eapply headok_mono; [exact HQ| |]; lia).
    assert (HQ2 : headok lp (p + na) (p + na + nb) Q) by (eapply headok_mono; [exact HQ| |]; lia).
    specialize (I1 HQ1 HL).
    assert (NA : N lp (p + (na + nb)) oc = [] \/ o <> ONormal -> N lp (p + na) oc = []).
    { intro D. destruct (Nat.eq_dec nb 0) as [Z|Z].
      - destruct D as [D|D]; [rewrite Z in D; rewrite Nat.add_0_r in D; exact D|].
        exfalso. apply D. eapply exec_size; eauto.
      - apply N_covered. apply (covat_covers rm P _ _ _ _ _ _ CVB). lia. }
    assert (AB : o <> ONormal -> reach mm lp C oc c0 p (p + (na + nb)) o Q E x (q1 && q2) st2
                                   (Running (K mm lp C p st Q E x))).
    { intro NO. destruct (I1 (NA (or_intror NO))) as (x1 & X1 & S1).
      pose proof (IHexec2 prot mm lp C c0 (p + na) oc Q E x1 TB PR CA2 CVB LR HQ2 HL) as I2.
      fold nb in I2. eapply reach_xrel; [exact X1|]. eapply reach_prefix; [exact S1|].
      eapply (reach_abrupt mm lp C oc c0 p (p + (na + nb)) (p + na) (p + na + nb));
        [exact NO|lia|lia|exact I2]. }
    destruct o; try (apply AB; discriminate).
    intro A. destruct (I1 (NA (or_introl A))) as (x1 & X1 & S1).
    pose proof (IHexec2 prot mm lp C c0 (p + na) oc Q E x1 TB PR CA2 CVB LR HQ2 HL) as I2.
    fold nb in I2. cbn [ExcSim.reach] in I2. replace (p + na + nb) with (p + (na + nb)) in I2 by lia.
    destruct (I2 A) as (x2 & X2 & S2). exists x2. split; [eapply xrel_trans; eauto|].
    eapply star_trans; eauto.
  - (* seq, abrupt *)
    destruct TM as [TA TB].
    cbn [comp] in CA. cbn [size blocks] in *.
    apply code_at_app in CA as [CA1 _].
    set (na := size rm (c_leave c0) (c_lret c0) a) in *.
    assert (CVA : covat mm p na (blocks rm (c_leave c0) (c_lret c0) p a) oc).
    { eapply covat_sub; [exact CV| | |]; [lia|lia|]. intros pc R. rewrite cov_app.
      destruct (rm && _); [apply app_nil_r|].
      rewrite (cov_blocks_out b) by lia. apply app_nil_r. }
    assert (HQ1 : headok lp p (p + na) Q) by (eapply headok_mono; [exact HQ| |]; lia).
    pose proof (IHexec prot mm lp C c0 p oc Q E x TA PR CA1 CVA LR HQ1 HL) as I1. fold na in I1.
    eapply (reach_abrupt mm lp C oc c0 p _ p (p + na)); [exact H0|lia|lia|exact I1].
  - (* if *)
    destruct TM as [TA TB]. cbn [comp] in CA. cbn [size blocks] in *.
    set (na := size rm (c_leave c0) (c_lret c0) t) in *.
    set (nb := size rm (c_leave c0) (c_lret c0) e) in *.
    apply code_at_cons in CA as [C0 CA]. apply code_at_app in CA as [CA1 CA].
    rewrite length_comp in CA. fold na in CA. apply code_at_cons in CA as [C1 CA2].
    replace (S (S p + na)) with (p + 1 + na + 1) in CA2 by lia.
    replace (S p + na) with (p + 1 + na) in C1 by lia.
    replace (S p) with (p + 1) in CA1 by lia.
    assert (CVA : covat mm (p + 1) na (blocks rm (c_leave c0) (c_lret c0) (p + 1) t) oc).
    { eapply covat_sub; [exact CV| | |]; [lia|lia|]. intros pc R. rewrite cov_app.
      rewrite (cov_blocks_out e) by lia. apply app_nil_r. }
    assert (CVB : covat mm (p + 1 + na + 1) nb (blocks rm (c_leave c0) (c_lret c0) (p + 1 + na + 1) e) oc).
    { eapply covat_sub; [exact CV| | |]; [lia|lia|]. intros pc R. rewrite cov_app.
      rewrite (cov_blocks_out t) by lia. reflexivity. }
    assert (S0 : star (Running (K mm lp C p st Q E x))
                      (Running (K mm lp C (if v then p + 1 else p + 1 + na + 1) st1 Q E x))).
    { apply star_one. unfold K at 1. rewrite (step_at rm P _ _ _ _ _ _ _ _ _ _ C0).
      cbn [exec_instr m_st]. rewrite H. destruct v; unfold K; [|reflexivity].
      replace (p + 1) with (S p) by lia. reflexivity. }
    eapply reach_prefix; [exact S0|]. clear S0. destruct v.
    + pose proof (IHexec prot mm lp C c0 (p + 1) oc Q E x TA PR CA1 CVA LR) as I1. fold na in I1.
      assert (HQ1 : headok lp (p + 1) (p + 1 + na) Q) by (eapply headok_mono; [exact HQ| |]; lia).
      specialize (I1 HQ1 HL).
      assert (AB : o <> ONormal -> reach mm lp C oc c0 p (p + (1 + na + 1 + nb)) o Q E x q st2
                                     (Running (K mm lp C (p + 1) st1 Q E x))).
      { intro NO. eapply (reach_abrupt mm lp C oc c0 p _ (p + 1) (p + 1 + na));
          [exact NO|lia|lia|exact I1]. }
      destruct o; try (apply AB; discriminate). clear AB.
      intro A. cbn [ExcSim.reach] in I1. destruct I1 as (x1 & X1 & S1).
      { apply N_covered. apply (covat_covers rm P _ _ _ _ _ _ CV). lia. }
      exists x1. split; [exact X1|]. eapply star_trans; [exact S1|]. apply star_one.
      unfold K at 1. rewrite (step_at rm P _ _ _ _ _ _ _ _ _ _ C1). unfold K.
      replace (p + (1 + na + 1 + nb)) with (p + 1 + na + 1 + nb) by lia. reflexivity.
    + pose proof (IHexec prot mm lp C c0 _ oc Q E x TB PR CA2 CVB LR) as I1. fold nb in I1.
      assert (HQ1 : headok lp (p + 1 + na + 1) (p + 1 + na + 1 + nb) Q)
        by (eapply headok_mono; [exact HQ| |]; lia).
      specialize (I1 HQ1 HL).
      assert (AB : o <> ONormal -> reach mm lp C oc c0 p (p + (1 + na + 1 + nb)) o Q E x q st2
                                     (Running (K mm lp C (p + 1 + na + 1) st1 Q E x))).
      { intro NO. eapply (reach_abrupt mm lp C oc c0 p _ (p + 1 + na + 1) (p + 1 + na + 1 + nb));
          [exact NO|lia|lia|exact I1]. }
      destruct o; try (apply AB; discriminate). clear AB.
      replace (p + (1 + na + 1 + nb)) with (p + 1 + na + 1 + nb) by lia. exact I1.
  - (* while, done *)
    cbn [comp] in CA. apply code_at_cons in CA as [C0 _].
    intro A. exists x. split; [apply xrel_refl|]. apply star_one. unfold K at 1.
    rewrite (step_at rm P _ _ _ _ _ _ _ _ _ _ C0). cbn [exec_instr m_st]. rewrite H.
    cbn [size]. unfold K.
    replace (p + (1 + size rm false (c_lret c0) b + 1)) with
            (p + 1 + size rm false (c_lret c0) b + 1) by lia. reflexivity.
  - (* while, again *)
    assert (TM' := TM). destruct TM as [ME TB].
    pose proof (IHexec2 prot mm lp C c0 p oc Q E) as I2.
    assert (SW : exists x1, xrel q1 x x1 /\
               star (Running (K mm lp C p st Q E x)) (Running (K mm lp C p st2 Q E x1))).
    2:{ destruct SW as (x1 & X1 & S1).
        eapply reach_xrel; [exact X1|]. eapply reach_prefix; [exact S1|]. apply I2; auto. }
    clear I2. pose proof CA as CA0. cbn [comp] in CA. cbn [size blocks] in *.
    set (nb := size rm false (c_lret c0) b) in *.
    apply code_at_cons in CA as [C0 CA]. apply code_at_app in CA as [CA1 CA].
    rewrite length_comp in CA. cbn [c_leave c_lret] in CA. fold nb in CA.
    apply code_at_cons in CA as [C1 _].
    replace (S p) with (p + 1) in C1, CA1 by lia.
    set (c0' := Cctx (p + 1 + nb + 1) p false (c_lret c0)) in *.
    assert (CVB : covat mm (p + 1) nb (blocks rm false (c_lret c0) (p + 1) b) oc).
    { eapply covat_sub; [exact CV| | |]; [lia|lia|]. reflexivity. }
    assert (HQ1 : headok lp (p + 1) (p + 1 + nb) Q) by (eapply headok_mono; [exact HQ| |]; lia).
    pose proof (IHexec1 prot mm lp C c0' (p + 1) oc Q E x TB PR CA1 CVB LR HQ1 HL) as I1.
    cbn [c_leave c_lret c0'] in I1. fold nb in I1.
    assert (S0 : star (Running (K mm lp C p st Q E x)) (Running (K mm lp C (p + 1) st1 Q E x))).
    { apply star_one. unfold K at 1. rewrite (step_at rm P _ _ _ _ _ _ _ _ _ _ C0).
      cbn [exec_instr m_st]. rewrite H. unfold K. replace (p + 1) with (S p) by lia. reflexivity. }
    destruct H1 as [-> | ->]; cbn [ExcSim.reach] in I1.
    + destruct I1 as (x1 & X1 & S1).
      { apply N_covered. apply (covat_covers rm P _ _ _ _ _ _ CV). lia. }
      exists x1. split; [exact X1|]. eapply star_trans; [exact S0|]. eapply star_trans; [exact S1|].
      apply star_one. unfold K at 1. rewrite (step_at rm P _ _ _ _ _ _ _ _ _ _ C1). reflexivity.
    + assert (NN : N lp p oc = []).
      { apply N_covered. apply (covat_covers rm P _ _ _ _ _ _ CV). lia. }
      unfold ExcSim.reachL in I1. cbn [c_cont c_leave c0'] in I1.
      destruct I1 as (x1 & X1 & S1); [auto|lia|rewrite NN; intros bb Hb; discriminate|].
      exists x1. split; [exact X1|]. eapply star_trans; [exact S0|].
      unfold leave_res in S1. rewrite NN in S1. exact S1.
  - (* while, break *)
    destruct TM as [ME TB]. cbn [comp] in CA. cbn [size blocks] in *.
    set (nb := size rm false (c_lret c0) b) in *.
    apply code_at_cons in CA as [C0 CA]. apply code_at_app in CA as [CA1 CA].
    replace (S p) with (p + 1) in CA1 by lia.
    set (c0' := Cctx (p + 1 + nb + 1) p false (c_lret c0)) in *.
    assert (CVB : covat mm (p + 1) nb (blocks rm false (c_lret c0) (p + 1) b) oc).
    { eapply covat_sub; [exact CV| | |]; [lia|lia|]. reflexivity. }
    assert (HQ1 : headok lp (p + 1) (p + 1 + nb) Q) by (eapply headok_mono; [exact HQ| |]; lia).
    pose proof (IHexec prot mm lp C c0' (p + 1) oc Q E x TB PR CA1 CVB LR HQ1 HL) as I1.
    cbn [c_leave c_lret c0'] in I1. fold nb in I1.
    cbn [ExcSim.reach] in I1. unfold ExcSim.reachL in I1. cbn [c_brk c_leave c0'] in I1.
    intro NN. replace (p + (1 + nb + 1)) with (p + 1 + nb + 1) in * by lia.
    destruct I1 as (x1 & X1 & S1); [auto|lia|rewrite NN; intros bb Hb; discriminate|].
    exists x1. split; [exact X1|].
    assert (S0 : star (Running (K mm lp C p st Q E x)) (Running (K mm lp C (p + 1) st1 Q E x))).
    { apply star_one. unfold K at 1. rewrite (step_at rm P _ _ _ _ _ _ _ _ _ _ C0).
      cbn [exec_instr m_st]. rewrite H. unfold K. replace (p + 1) with (S p) by lia. reflexivity. }
    eapply star_trans; [exact S0|].
    unfold leave_res in S1. rewrite NN in S1. exact S1.
  - (* while, abrupt *)
    destruct TM as [ME TB]. cbn [comp] in CA. cbn [size blocks] in *.
    set (nb := size rm false (c_lret c0) b) in *.
    apply code_at_cons in CA as [C0 CA]. apply code_at_app in CA as [CA1 CA].
    replace (S p) with (p + 1) in CA1 by lia.
    set (c0' := Cctx (p + 1 + nb + 1) p false (c_lret c0)) in *.
    assert (CVB : covat mm (p + 1) nb (blocks rm false (c_lret c0) (p + 1) b) oc).
    { eapply covat_sub; [exact CV| | |]; [lia|lia|]. reflexivity. }
    assert (HQ1 : headok lp (p + 1) (p + 1 + nb) Q) by (eapply headok_mono; [exact HQ| |]; lia).
    pose proof (IHexec prot mm lp C c0' (p + 1) oc Q E x TB PR CA1 CVB LR HQ1 HL) as I1.
    assert (S0 : star (Running (K mm lp C p st Q E x)) (Running (K mm lp C (p + 1) st1 Q E x))).
    { apply star_one. unfold K at 1. rewrite (step_at rm P _ _ _ _ _ _ _ _ _ _ C0).
      cbn [exec_instr m_st]. rewrite H. unfold K. replace (p + 1) with (S p) by lia. reflexivity. }
    eapply reach_prefix; [exact S0|].
    destruct H1 as [-> | EX]; [exact I1|]. destruct o; try contradiction. exact I1.
  - (* break *)
    cbn [comp] in CA. cbn [size] in *.
    assert (CC : cov (T mm) p = oc).
    { rewrite (CV p) by (destruct (c_leave c0); cbn; lia). reflexivity. }
    apply jump_leave; [| |exact CC]; destruct (c_leave c0); try discriminate; intros;
      cbn [app] in CA; apply code_at_cons in CA as [C0 CA]; try exact C0; cbn [b2n].
    + apply code_at_cons in CA as [C1 _]. exact C1.
    + rewrite Nat.add_0_r. exact C0.
  - (* continue *)
    cbn [comp] in CA. cbn [size] in *.
    assert (CC : cov (T mm) p = oc).
    { rewrite (CV p) by (destruct (c_leave c0); cbn; lia). reflexivity. }
    apply jump_leave; [| |exact CC]; destruct (c_leave c0); try discriminate; intros;
      cbn [app] in CA; apply code_at_cons in CA as [C0 CA]; try exact C0; cbn [b2n].
    + apply code_at_cons in CA as [C1 _]. exact C1.
    + rewrite Nat.add_0_r. exact C0.
  - (* return *)
    cbn [comp] in CA. cbn [size] in *. intro FQ. exists x. split; [apply xrel_refl|].
    destruct (c_lret c0) eqn:EL; cbn [app] in CA; apply code_at_cons in CA as [C0 CA].
    + rewrite (TM (PR eq_refl)) in *. apply star_one. apply step_leave_ret; auto.
      rewrite (CV p) by (cbn; lia). reflexivity.
    + unfold ret_res. rewrite (LR eq_refl). cbn [map set_last enter].
      apply star_one. unfold K at 1. rewrite (step_at rm P _ _ _ _ _ _ _ _ _ _ C0). reflexivity.
  - (* throw *)
    cbn [comp] in CA. apply code_at_cons in CA as [C0 _].
    assert (CC : cov (T mm) p = oc) by (rewrite (CV p) by (cbn; lia); reflexivity).
    destruct (x_push_spec e x) as (nid & XS & XE).
    eapply reach_prefix; [|eapply (raise_reach mm lp C oc c0 p _ p Q E x (x_push e x)); eauto].
    apply star_one. unfold K at 1. rewrite (step_at rm P _ _ _ _ _ _ _ _ _ _ C0).
    cbn [exec_instr m_st]. rewrite H. reflexivity.
  - (* call *)
    cbn [comp] in CA. apply code_at_cons in CA as [C0 _].
    set (lp' := lp + p_locals P mm + p_args P m + 3).
    set (fr := Frame mm (S p) lp []).
    assert (CM : code_at m 0 (comp rm ctx0 0 (p_body P m))).
    { apply callee_code. }
    assert (CVM : covat m 0 (size rm false false (p_body P m))
                       (blocks rm false false 0 (p_body P m)) []).
    { intros pc R. rewrite app_nil_r. reflexivity. }
    assert (FQ : foreign lp' Q).
    { destruct Q as [|n Q']; [exact I|]. cbn. inversion HL; subst. unfold lp'. lia. }
    assert (HL' : Forall (fun n => n_lp n <= lp') Q).
    { eapply Forall_impl; [|exact HL]. intros n A. cbn in A. unfold lp'. lia. }
    pose proof (IHexec false m lp' (fr :: C) ctx0 0 [] Q E x (HT m)
      ltac:(discriminate) CM CVM (fun _ => eq_refl) (foreign_headok lp' _ _ Q FQ) HL') as I1.
    intro A.
    assert (S0 : star (Running (K mm lp C p st Q E x))
                      (Running (K m lp' (fr :: C) 0 st Q E x))).
    { apply star_one. unfold K at 1. rewrite (step_at rm P _ _ _ _ _ _ _ _ _ _ C0). reflexivity. }
    destruct H0 as [-> | ->]; cbn [ExcSim.reach] in I1.
    + destruct (I1 eq_refl) as (x1 & X1 & S1). exists x1. split; [exact X1|].
      eapply star_trans; [exact S0|]. eapply star_trans; [exact S1|].
      apply star_one. unfold K at 1.
      pose proof (exec_pass _ _ _ _ _ _ H (HT m)) as PM.
      assert (CR : nth_error (mcode rm P m) (0 + size rm false false (p_body P m)) = Some (IRet None)).
      { unfold mcode. rewrite nth_error_app2; rewrite length_comp; [|cbn; lia].
        cbn [ctx0 c_leave c_lret Nat.add]. rewrite Nat.sub_diag, PM. reflexivity. }
      cbn [ctx0 c_leave c_lret].
      rewrite (step_at rm P _ _ _ _ _ _ _ _ _ _ CR). cbn [exec_instr do_ret m_callers m_q m_ex m_x m_st].
      cbn [size]. replace (p + 1) with (S p) by lia. reflexivity.
    + destruct (I1 FQ) as (x1 & X1 & S1). exists x1. split; [exact X1|].
      eapply star_trans; [exact S0|]. eapply star_trans; [exact S1|].
      cbn [size]. replace (p + 1) with (S p) by lia. apply star_refl.
  - (* call, exception *)
    cbn [comp] in CA. apply code_at_cons in CA as [C0 _].
    set (lp' := lp + p_locals P mm + p_args P m + 3).
    set (fr := Frame mm (S p) lp []).
    assert (CM : code_at m 0 (comp rm ctx0 0 (p_body P m))).
    { apply callee_code. }
    assert (CVM : covat m 0 (size rm false false (p_body P m))
                       (blocks rm false false 0 (p_body P m)) []).
    { intros pc R. rewrite app_nil_r. reflexivity. }
    assert (FQ : foreign lp' Q).
    { destruct Q as [|n Q']; [exact I|]. cbn. inversion HL; subst. unfold lp'. lia. }
    assert (HL' : Forall (fun n => n_lp n <= lp') Q).
    { eapply Forall_impl; [|exact HL]. intros n A. cbn in A. unfold lp'. lia. }
    pose proof (IHexec false m lp' (fr :: C) ctx0 0 [] Q E x (HT m)
      ltac:(discriminate) CM CVM (fun _ => eq_refl) (foreign_headok lp' _ _ Q FQ) HL') as I1.
    assert (S0 : star (Running (K mm lp C p st Q E x))
                      (Running (K m lp' (fr :: C) 0 st Q E x))).
    { apply star_one. unfold K at 1. rewrite (step_at rm P _ _ _ _ _ _ _ _ _ _ C0). reflexivity. }
    cbn [ExcSim.reach] in I1. destruct I1 as (nid & I1).
    unfold safeX, caught, exc_res in I1. cbn [handlers fst snd] in I1.
    destruct (I1 FQ) as (x1 & XE & XS & S1).
    assert (CC : cov (T mm) p = oc) by (rewrite (CV p) by (cbn; lia); reflexivity).
    eapply reach_prefix; [exact S0|]. eapply reach_prefix; [exact S1|].
    cbn [unwind]. unfold fr. cbn [set_ops f_meth f_pc f_lp].
    eapply raise_reach; eauto.
  - (* try *)
    destruct TM as (TB & TC & TF & TX).
    destruct (try_cases rm b cs f) as [D|[[D1 D2]|D]].
    + rewrite comp_try1 in CA by assumption. rewrite size_try1 in * by assumption.
      rewrite blocks_try1 in CV by assumption.
      apply andb_true_iff in D as [_ D]. destruct (exec_empty _ _ _ _ _ _ H D) as (-> & -> & ->).
      cbn [andb]. apply (IHexec2 true); auto.
    + rewrite comp_try2 in CA by assumption. rewrite size_try2 in * by assumption.
      rewrite blocks_try2 in CV by assumption.
      apply andb_true_iff in D2 as [D2 _]. apply andb_true_iff in D2 as [_ D2].
      destruct (exec_empty _ _ _ _ _ _ H1 D2) as (_ & -> & ->).
      rewrite andb_true_r. apply (IHexec1 true); auto.
    + set (lv := c_leave c0) in *. set (lr := c_lret c0) in *.
      pose proof (try_code mm c0 p b cs f D CA) as (CB & CX & _ & _).
      fold lv lr in CB, CX.
      pose proof (try_encl mm c0 p oc b cs f D CV) as ENC. fold lv lr in ENC.
      pose proof (n1_pos c0 b cs f) as N1. fold lv lr in N1.
      set (n1 := n1_ rm lv lr b cs f) in *. set (n2 := n2_ rm lv lr cs f) in *.
      set (n3 := n3_ rm lv lr f) in *. set (nb := nb_ rm lv lr b cs f) in *.
      assert (N1' : n1 = nb + b2n (pass b)) by reflexivity.
      assert (SZ : size rm lv lr (STry b cs f) = n1 + n2 + n3) by (apply size_try3'; exact D).
      rewrite SZ in HQ |- *.
      replace (p + (n1 + n2 + n3)) with (p + n1 + n2 + n3) in HQ |- * by lia.
      set (pf := p + n1 + n2) in *. set (pe := pf + n3) in *.
      set (cb := Cctx (c_brk c0) (c_cont c0) (lvb lv cs f) (lvb lr cs f)) in *.
      set (ch := cheads (lv || hf_ f) (lr || hf_ f) p (p + nb) (p + n1) cs).
      assert (L3 : hf_ f = true -> pf < pe).
      { intro HF. pose proof (hf_n3 c0 f HF) as [_ A]. fold lv lr n3 in A. unfold pe. lia. }
      assert (CVB : covat mm p nb (blocks rm (lvb lv cs f) (lvb lr cs f) p b) (ch ++ fbl f p pf ++ oc)).
      { intros pc R. apply (try_cov_body mm c0 p oc b cs f D CV pc R). }
      assert (LRB : c_lret cb = false -> fins (ch ++ fbl f p pf ++ oc) = []).
      { cbn [c_lret cb]. unfold lvb. intro E0. apply orb_false_iff in E0 as [E0 _].
        apply orb_false_iff in E0 as [E0 E1]. unfold ch. rewrite fins_cheads. unfold fbl.
        rewrite E1. apply LR. exact E0. }
      assert (HQ1 : headok lp p (p + nb) Q).
      { eapply headok_mono; [exact HQ| |]; unfold pe, pf; lia. }
      pose proof (IHexec1 true mm lp C cb p _ Q E x TB (fun _ => eq_refl) CB CVB LRB HQ1 HL) as I1.
      cbn [c_leave c_lret cb] in I1. change (size rm (lvb lv cs f) (lvb lr cs f) b) with nb in I1.
      assert (FR : hf_ f = true -> exists pe', fin_runs mm lp C p pe pf pe' st1 st2 q2).
      { intro HF. apply (try_fin_runs mm lp C c0 p oc b cs f D CA CV LR); auto. }
      assert (NF : hf_ f = false -> st2 = st1 /\ q2 = true).
      { intro HF. unfold hf_ in HF. apply negb_false_iff in HF.
        destruct (exec_empty _ _ _ _ _ _ H1 HF) as (_ & A & B). auto. }
      assert (AB : o <> ONormal ->
        reach mm lp C oc c0 p pe o Q E x (q1 && q2) st2 (Running (K mm lp C p st Q E x))).
      { intro NO.
        apply (after_any mm lp C oc c0 cb p pe pf p (p + nb) f o Q E x q1 q2 st1 st2);
          auto; try (unfold pe, pf; lia).
        - cbn [c_leave cb]. unfold lvb. intro HF. rewrite HF. rewrite orb_true_r. reflexivity.
        - cbn [c_leave cb]. unfold lvb. intro E0. apply orb_false_iff in E0 as [E0 _].
          apply orb_false_iff in E0 as [E0 E1]. exact E0.
        - apply (reach_cheads _ _ _ _ _ _ _ _ _ _ _ _ _ _ _ _ _ _ _ _ NO H0 I1). }
      destruct o; try (apply AB; discriminate). clear AB.
      pose proof (exec_pass _ _ _ _ _ _ H TB) as PB. rewrite PB in N1'. cbn [b2n] in N1'.
      assert (CVX : cov (T mm) (p + nb) = fbl f p pf ++ oc).
      { rewrite (try_cov_mid mm c0 p oc b cs f D CV (p + nb));
          fold lv lr n1 n2 nb pf; [|unfold pf; lia].
        rewrite cov_cblocks_out by lia. reflexivity. }
      intro NE. cbn [ExcSim.reach] in I1. destruct I1 as (x1 & X1 & S1).
      { unfold ch. rewrite N_cheads. apply N_covered. rewrite <- CVX. apply cov_Forall. }
      destruct (exit_leave mm lp C oc p pe pf (p + nb) f b Q E x1 q2 st1 st2 PB CX
                  ltac:(unfold pf; lia) L3 CVX NE FR NF HQ HL) as (x2 & X2 & S2).
      exists x2. split; [eapply xrel_trans; eauto|]. eapply star_trans; eauto.
  - (* try, caught *)
    destruct TM as (TB & TC & TF & TX).
    destruct (try_cases rm b cs f) as [D|[[D1 D2]|D]].
    + apply andb_true_iff in D as [_ D]. destruct (exec_empty _ _ _ _ _ _ H D). discriminate.
    + apply andb_true_iff in D2 as [_ D2]. destruct cs; [inversion H0|discriminate].
    + set (lv := c_leave c0) in *. set (lr := c_lret c0) in *.
      pose proof (try_code mm c0 p b cs f D CA) as (CB & _ & CCs & _).
      fold lv lr in CB, CCs.
      pose proof (try_encl mm c0 p oc b cs f D CV) as ENC. fold lv lr in ENC.
      pose proof (n1_pos c0 b cs f) as N1. fold lv lr in N1.
      set (n1 := n1_ rm lv lr b cs f) in *. set (n2 := n2_ rm lv lr cs f) in *.
      set (n3 := n3_ rm lv lr f) in *. set (nb := nb_ rm lv lr b cs f) in *.
      assert (N1' : n1 = nb + b2n (pass b)) by reflexivity.
      assert (SZ : size rm lv lr (STry b cs f) = n1 + n2 + n3) by (apply size_try3'; exact D).
      rewrite SZ in HQ |- *.
      replace (p + (n1 + n2 + n3)) with (p + n1 + n2 + n3) in HQ |- * by lia.
      set (pf := p + n1 + n2) in *. set (pe := pf + n3) in *.
      set (cb0 := Cctx (c_brk c0) (c_cont c0) (lvb lv cs f) (lvb lr cs f)) in *.
      set (cc := Cctx (c_brk c0) (c_cont c0) (lv || hf_ f) (lr || hf_ f)) in *.
      set (ch := cheads (lv || hf_ f) (lr || hf_ f) p (p + nb) (p + n1) cs).
      assert (L3 : hf_ f = true -> pf < pe).
      { intro HF. pose proof (hf_n3 c0 f HF) as [_ A]. fold lv lr n3 in A. unfold pe. lia. }
      assert (CVB : covat mm p nb (blocks rm (lvb lv cs f) (lvb lr cs f) p b) (ch ++ fbl f p pf ++ oc)).
      { intros pc R. apply (try_cov_body mm c0 p oc b cs f D CV pc R). }
      assert (LRF : lr || hf_ f = false -> fins (fbl f p pf ++ oc) = []).
      { intro E0. apply orb_false_iff in E0 as [E0 E1]. unfold fbl.
        rewrite E1. apply LR. exact E0. }
      assert (LRB : c_lret cb0 = false -> fins (ch ++ fbl f p pf ++ oc) = []).
      { cbn [c_lret cb0]. unfold lvb. intro E0. apply orb_false_iff in E0 as [E0 _].
        unfold ch. rewrite fins_cheads. auto. }
      assert (HQ1 : headok lp p (p + nb) Q).
      { eapply headok_mono; [exact HQ| |]; unfold pe, pf; lia. }
      pose proof (IHexec1 true mm lp C cb0 p _ Q E x TB (fun _ => eq_refl) CB CVB LRB HQ1 HL) as I1.
      cbn [ExcSim.reach] in I1. destruct I1 as (nid & I1).
      destruct (select_at _ _ _ _ H0 mm cc (hf_ f) pe (p + n1) CCs)
        as (ty & pk & K1 & K2 & KC & KH & KV).
      cbn [c_leave c_lret cc] in K2, KH, KV. change (csizes rm (lv || hf_ f) (lr || hf_ f) cs) with n2 in K2.
      fold pf in K2. set (nc := size rm (lv || hf_ f) (lr || hf_ f) cb) in *.
      unfold safeX, caught, exc_res, ch in I1. rewrite KH in I1. cbn [fst snd] in I1.
      destruct I1 as (x1 & XE & XS & S1).
      { intros bb Hb. cbn in Hb. injection Hb as <-.
        apply (inside_drop lp p (n1 + n2 + n3));
          [|replace (p + (n1 + n2 + n3)) with pe by (unfold pe, pf; lia); exact HQ].
        unfold inside. cbn [b_start b_end]. split; [lia|]. split; [lia|].
        assert (1 <= n2) by (apply csizes_pos; destruct cs; [inversion H0|reflexivity]). lia. }
      cbn [n_exn n_blk b_entry app] in S1. rewrite XE in S1.
      apply code_at_cons in KC as [KP KC]. apply code_at_app in KC as [KB KX].
      rewrite length_comp in KX. cbn [c_leave c_lret cc] in KX. fold nc in KX.
      assert (S2 : star (Running (K mm lp C p st Q E x))
                        (Running (K mm lp C (pk + 1) (bind e st1) Q E x1))).
      { eapply star_trans; [exact S1|]. apply star_one.
        rewrite (step_at rm P _ _ _ _ _ _ _ _ _ _ KP). unfold K.
        replace (pk + 1) with (S pk) by lia. reflexivity. }
      assert (X1 : xrel q1 x x1).
      { split; [exact XS|]. intro Q1. rewrite (exec_exc_q _ _ _ _ _ _ H I) in Q1. discriminate. }
      assert (CVM : forall pc, pk + 1 <= pc < pk + 1 + nc + b2n (pass cb) ->
                    cov (T mm) pc = cov (blocks rm (lv || hf_ f) (lr || hf_ f) (pk + 1) cb) pc
                                    ++ fbl f p pf ++ oc).
      { intros pc R. rewrite (try_cov_mid mm c0 p oc b cs f D CV pc);
          fold lv lr n1 n2 nb pf; [|unfold pf in *; lia].
        rewrite KV by lia. reflexivity. }
      assert (CVC : covat mm (pk + 1) nc (blocks rm (lv || hf_ f) (lr || hf_ f) (pk + 1) cb)
                         (fbl f p pf ++ oc)).
      { intros pc R. apply CVM. lia. }
      assert (HQ2 : headok lp (pk + 1) (pk + 1 + nc) Q).
      { eapply headok_mono; [exact HQ| |]; unfold pe, pf in *; lia. }
      pose proof (selects_tame _ _ _ _ H0 TC) as TCB.
      pose proof (IHexec2 true mm lp C cc (pk + 1) _ Q E x1 TCB (fun _ => eq_refl) KB CVC LRF HQ2 HL) as I2.
      cbn [c_leave c_lret cc] in I2. fold nc in I2.
      assert (FR : hf_ f = true -> exists pe', fin_runs mm lp C p pe pf pe' st2 st3 q3).
      { intro HF. apply (try_fin_runs mm lp C c0 p oc b cs f D CA CV LR); auto. }
      assert (NF : hf_ f = false -> st3 = st2 /\ q3 = true).
      { intro HF. unfold hf_ in HF. apply negb_false_iff in HF.
        destruct (exec_empty _ _ _ _ _ _ H2 HF) as (_ & A & B). auto. }
      rewrite <- andb_assoc.
      eapply reach_xrel; [exact X1|]. eapply reach_prefix; [exact S2|].
      assert (AB : o <> ONormal ->
        reach mm lp C oc c0 p pe o Q E x1 (q2 && q3) st3
              (Running (K mm lp C (pk + 1) (bind e st1) Q E x1))).
      { intro NO.
        apply (after_any mm lp C oc c0 cc p pe pf (pk + 1) (pk + 1 + nc) f o Q E x1 q2 q3 st2 st3);
          auto; try (unfold pe, pf in *; lia).
        - cbn [c_leave cc]. intro HF. rewrite HF. apply orb_true_r.
        - cbn [c_leave cc]. intro E0. apply orb_false_iff in E0 as [E0 _]. exact E0. }
      destruct o; try (apply AB; discriminate). clear AB.
      pose proof (exec_pass _ _ _ _ _ _ H1 TCB) as PB. rewrite PB in K2, CVM. cbn [b2n] in K2, CVM.
      assert (CVX : cov (T mm) (pk + 1 + nc) = fbl f p pf ++ oc).
      { rewrite CVM by lia. rewrite cov_blocks_out by (fold nc; lia). reflexivity. }
      intro NE. cbn [ExcSim.reach] in I2. destruct I2 as (x2 & X2 & S3).
      { apply N_covered. rewrite <- CVX. apply cov_Forall. }
      destruct (exit_leave mm lp C oc p pe pf (pk + 1 + nc) f cb Q E x2 q3 st2 st3 PB KX
                  ltac:(unfold pf; lia) L3 CVX NE FR NF HQ HL) as (x3 & X3 & S4).
      exists x3. split; [eapply xrel_trans; eauto|]. eapply star_trans; eauto.
Qed.

(** *** Whole programs *)

Theorem exec_method_runs m st r :
  exec_method (p_body P) m st r ->
  exists k, run rm true P k (start m st)
            = match r with RDone s => Done s | RUncaught e s => Uncaught e s end.
Proof.
  intro EM. apply star_run.
  set (x0 := Xmem [] (fun _ => Exn (RRoot 0) 0) [] 0).
  change (@start St m st) with (Running (K m 3 [] 0 st [] [] x0)).
  assert (CVM : covat m 0 (size rm false false (p_body P m))
                     (blocks rm false false 0 (p_body P m)) []).
  { intros pc R. rewrite app_nil_r. reflexivity. }
  assert (SI : forall o st' q, exec (p_body P) (p_body P m) st o st' q ->
     reach m 3 [] [] ctx0 0 (0 + size rm false false (p_body P m)) o [] [] x0 q st'
           (Running (K m 3 [] 0 st [] [] x0))).
  { intros o st' q H.
    apply (sim _ _ _ _ _ H false m 3 [] ctx0 0 [] [] [] x0 (HT m));
      auto; try discriminate; try exact I.
    apply callee_code. }
  inversion EM as [o st' q H Ho | e st' q H]; subst.
  - pose proof (SI _ _ _ H) as I1. destruct Ho as [-> | ->]; cbn [ExcSim.reach] in I1.
    + destruct (I1 eq_refl) as (x1 & X1 & S1).
      eapply star_trans; [exact S1|]. apply star_one. unfold K at 1.
      pose proof (exec_pass _ _ _ _ _ _ H (HT m)) as PM.
      assert (CR : nth_error (mcode rm P m) (0 + size rm false false (p_body P m)) = Some (IRet None)).
      { unfold mcode. rewrite nth_error_app2; rewrite length_comp; [|cbn; lia].
        cbn [ctx0 c_leave c_lret Nat.add]. rewrite Nat.sub_diag, PM. reflexivity. }
      rewrite (step_at rm P _ _ _ _ _ _ _ _ _ _ CR). reflexivity.
    + destruct (I1 I) as (x1 & X1 & S1). exact S1.
  - pose proof (SI _ _ _ H) as I1. cbn [ExcSim.reach] in I1. destruct I1 as (nid & I1).
    unfold safeX, caught, exc_res in I1. cbn [handlers fst snd] in I1.
    destruct (I1 I) as (x1 & XE & XS & S1). exact S1.
Qed.

End Top.
