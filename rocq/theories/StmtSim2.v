(** The compiled code simulates the source statement. *)
From Coq Require Import List Bool Arith ZArith Lia Permutation Sorted.
From Verif Require Import StmtModel StmtSpec StmtProofs StmtSim.
Import ListNotations.

Notation "'do' x <- e ; k" :=
  (match e with Some x => k | None => None end) (at level 200, x pattern, k at level 200).

Section Sim2.
Context {St : Type}.
Notation stmt := (@stmt St).
Notation block := (@block St).
Notation cases := (@cases St).
Notation code := (@code St).
Notation instr := (@instr St).
Notation outcome := (@outcome St).
Notation vm := (@vm St).

(** *** Labels of cases *)

Definition vals (ls : list (option Z)) : list Z :=
  flat_map (fun l => match l with Some v => [v] | None => [] end) ls.

Lemma case_values_cons ls b (r : cases) : case_values (CCons ls b r) = vals ls ++ case_values r.
Proof. reflexivity. Qed.

Lemma rows_cons ls b (r : cases) :
  number_of_rows (CCons ls b r) = length (vals ls) + number_of_rows r.
Proof.
  unfold number_of_rows. f_equal. unfold vals.
  induction ls as [|[v|] ls IH]; cbn [filter flat_map app length]; auto.
Qed.

Lemma existsb_vals z ls : existsb (same_label (Some z)) ls = existsb (Z.eqb z) (vals ls).
Proof.
  induction ls as [|[v|] ls IH]; [reflexivity| |];
    unfold vals; cbn [existsb same_label flat_map app]; fold (vals ls); rewrite IH; reflexivity.
Qed.
Lemma existsb_default ls : existsb (same_label None) ls = has_default ls.
Proof. induction ls as [|[v|] ls IH]; cbn [existsb same_label has_default]; auto. Qed.

Lemma no_vals_default ls : ls <> [] -> vals ls = [] -> has_default ls = true.
Proof.
  destruct ls as [|[v|] ls]; intros H E; [congruence| |reflexivity].
  unfold vals in E. cbn [flat_map app] in E. discriminate.
Qed.

Lemma distinct_nodup vs : distinct vs = true -> NoDup vs.
Proof.
  induction vs as [|v r IH]; cbn [distinct]; intro H; constructor.
  - apply andb_prop in H as [H _]. intro Hi.
    assert (E : existsb (Z.eqb v) r = true).
    { apply existsb_exists. exists v. split; auto. apply Z.eqb_refl. }
    rewrite E in H. discriminate.
  - apply andb_prop in H as [_ H]. auto.
Qed.

Lemma keys_of_ls ls (n : nat) :
  keys (flat_map (fun l => match l with Some v => [(v, n)] | None => [] end) ls) = vals ls.
Proof.
  unfold keys, vals. induction ls as [|[v|] ls IH]; cbn [flat_map map app fst]; congruence.
Qed.

Lemma compile_cases_keys o (cs : cases) : forall bk ct n c rows d n',
  compile_cases o cs bk ct n = Some (c, rows, d, n') -> keys rows = case_values cs.
Proof.
  induction cs as [|ls b r IH]; intros bk ct n c rows d n' H.
  - cbn [compile_cases] in H. injection H as <- <- <- <-. reflexivity.
  - rewrite compile_ccons in H.
    destruct (compile_block o false b bk ct (S n)) as [[a n1]|]; [|discriminate].
    destruct (compile_cases o r bk ct n1) as [[[[c1 rows1] d1] n2]|] eqn:E; [|discriminate].
    injection H as <- <- <- <-. unfold keys. rewrite map_app. fold (keys rows1).
    rewrite (IH _ _ _ _ _ _ _ E), case_values_cons. f_equal. apply keys_of_ls.
Qed.

Lemma assoc_app {B} v (a b : list (Z * B)) :
  assoc v (a ++ b) = match assoc v a with Some x => Some x | None => assoc v b end.
Proof.
  induction a as [|[x y] a IH]; cbn [app assoc]; [reflexivity|]. destruct (Z.eqb v x); auto.
Qed.
Lemma assoc_ls z ls (n : nat) :
  assoc z (flat_map (fun l => match l with Some v => [(v, n)] | None => [] end) ls)
  = if existsb (Z.eqb z) (vals ls) then Some n else None.
Proof.
  unfold vals.
  induction ls as [|[v|] ls IH]; cbn [flat_map app existsb assoc]; auto.
  destruct (Z.eqb z v); auto.
Qed.

Fixpoint nth_block (k : option nat) (cs : cases) : block :=
  match k, cs with
  | None, _ => BNil
  | Some _, CNil => BNil
  | Some O, CCons _ b _ => b
  | Some (S k'), CCons _ _ r => nth_block (Some k') r
  end.

Lemma null_body_nth k cs : null_body k cs = true -> nth_block k cs = BNil.
Proof.
  destruct k as [k|]; [|destruct cs; reflexivity]. revert k.
  induction cs as [|ls b r IH]; intros [|k]; cbn [null_body nth_block]; auto.
  - destruct b; [reflexivity|discriminate].
Qed.

(** Equations of the semantics. *)
Lemma exec_group q n b (st : St) : exec q n (SGroup b) st = exec_block q n b st.
Proof. reflexivity. Qed.
Lemma exec_bcons q n s b (st : St) :
  exec_block q n (BCons s b) st = sim_then (exec q n s st) (exec_block q n b).
Proof.
  change (match exec q n s st with Some (Completes st1) => exec_block q n b st1 | o => o end
          = sim_then (exec q n s st) (exec_block q n b)).
  destruct (exec q n s st) as [[]|]; reflexivity.
Qed.
Lemma exec_ccons q n k ls b r (st : St) :
  exec_cases q n k (CCons ls b r) st =
  match k with
  | S k' => exec_cases q n k' r st
  | O => sim_then (exec_block q n b st) (exec_cases q n 0 r)
  end.
Proof.
  destruct k; [|reflexivity].
  change (match exec_block q n b st with Some (Completes st1) => exec_cases q n 0 r st1 | o => o end
          = sim_then (exec_block q n b st) (exec_cases q n 0 r)).
  destruct (exec_block q n b st) as [[]|]; reflexivity.
Qed.
Definition absorb (r : option outcome) : option outcome :=
  match r with Some (Breaks s) => Some (Completes s) | x => x end.
Lemma exec_switch q n e cs (st : St) :
  exec q n (SSwitch e cs) st =
    let (z, st1) := select e st in
    match entry z cs with
    | None => Some (Completes st1)
    | Some k =>
      absorb (exec_cases q n k cs st1)
    end.
Proof.
  change (exec q n (SSwitch e cs) st) with (let (z, st1) := select e st in
    match entry z cs with
    | None => Some (Completes st1)
    | Some k =>
      match exec_cases q n k cs st1 with
      | Some (Breaks st2) => Some (Completes st2)
      | o => o
      end
    end).
  destruct (select e st) as [z st1]. destruct (entry z cs) as [k|]; [|reflexivity].
  destruct (exec_cases q n k cs st1) as [[]|]; reflexivity.
Qed.

Lemma sim_then_never (r : option outcome) next :
  (forall s, r <> Some (Completes s)) -> sim_then r next = r.
Proof. intro H. destruct r as [[]|]; cbn [sim_then]; auto. exfalso. apply (H s). reflexivity. Qed.
Lemma sim_then_id (r : option outcome) : sim_then r (fun s => Some (Completes s)) = r.
Proof. destruct r as [[]|]; reflexivity. Qed.

Lemma last_value_cons ls b (r : cases) :
  last_value (CCons ls b r) =
    match last_value r with
    | Some (k, v) => Some (S k, v)
    | None => match rev (vals ls) with v :: _ => Some (0, v) | [] => None end
    end.
Proof. reflexivity. Qed.

(** The source meaning of a one-row switch of an accepted shape. *)
Lemma one_row_exec o e (cs : cases) :
  number_of_rows cs = 1 -> switch_if_ok o e cs ->
  exists ki v, last_value cs = Some (ki, v) /\
  forall fuel z st1,
  let src := match entry z cs with
             | None => Some (Completes st1)
             | Some k => absorb (exec_cases true fuel k cs st1)
             end in
  let bi := nth_block (Some ki) cs in
  let be := nth_block (find_default cs) cs in
  if same_body (Some ki) (find_default cs) cs then src = absorb (exec_block true fuel bi st1)
  else if Z.eqb z v
  then src = absorb (sim_then (exec_block true fuel bi st1) (exec_block true fuel be)) /\
       (o_remove o = true -> (exists x, e = LConst x) -> src = absorb (exec_block true fuel bi st1))
  else src = absorb (exec_block true fuel be st1).
Proof.
  intros Hr Hok. destruct cs as [|ls b [|ls2 b2 [|]]]; try contradiction; [discriminate| |].
  - (* a single case *)
    rewrite rows_cons in Hr. cbn [switch_if_ok] in Hok.
    destruct (vals ls) as [|v [|]] eqn:Ev; try (cbn in Hr; lia).
    exists 0, v. split; [rewrite last_value_cons, Ev; reflexivity|].
    intros fuel z st1. cbv zeta. unfold entry. cbn [first_labelled find_default].
    rewrite existsb_vals. change (existsb (same_label None) ls) with (has_default ls).
    rewrite Ev. cbn [existsb]. rewrite orb_false_r.
    destruct (has_default ls) eqn:Ed.
    + replace (same_body (Some 0) (Some 0) (CCons ls b CNil)) with true
        by (unfold same_body; rewrite Nat.eqb_refl, orb_true_r; reflexivity).
      destruct (Z.eqb z v); cbn [option_map nth_block]; rewrite exec_ccons;
        change (exec_cases true fuel 0 CNil) with (fun s : St => Some (Completes s));
        rewrite sim_then_id; reflexivity.
    + destruct b as [|s b].
      * cbn [same_body null_body andb orb nth_block].
        destruct (Z.eqb z v); reflexivity.
      * cbn [same_body null_body andb orb nth_block option_map].
        destruct (Z.eqb z v).
        -- cbn [option_map]. rewrite exec_ccons. change (exec_cases true fuel 0 CNil) with (fun s : St => Some (Completes s)).
           change (exec_block true fuel BNil) with (fun s : St => Some (Completes s)).
           rewrite !sim_then_id. auto.
        -- reflexivity.
  - (* two cases *)
    cbn [switch_if_ok] in Hok. destruct Hok as (_ & N1 & N2 & Hok).
    rewrite !rows_cons in Hr. change (number_of_rows (@CNil St)) with 0 in Hr.
    destruct Hok as [(D1 & D2 & Hf)|(D1 & D2 & F1 & F2)].
    + assert (V1 : vals ls <> []).
      { intro V. rewrite (no_vals_default ls N1 V) in D1. discriminate. }
      destruct (vals ls) as [|v [|]] eqn:Ev; [congruence| |cbn [length] in Hr; lia].
      destruct (vals ls2) as [|] eqn:Ev2; [|cbn [length] in Hr; lia].
      exists 0, v. split; [rewrite !last_value_cons, Ev, Ev2; reflexivity|].
      intros fuel z st1. cbv zeta. unfold entry. cbn [first_labelled find_default].
      rewrite !existsb_vals. change (existsb (same_label None) ls) with (has_default ls).
      change (existsb (same_label None) ls2) with (has_default ls2).
      rewrite Ev, Ev2, D1, D2. cbn [existsb option_map].
      rewrite orb_false_r.
      assert (X1 : exec_cases true fuel 1 (CCons ls b (CCons ls2 b2 CNil)) st1 = exec_block true fuel b2 st1).
      { rewrite !exec_ccons. apply sim_then_id. }
      assert (X0 : exec_cases true fuel 0 (CCons ls b (CCons ls2 b2 CNil)) st1
                   = sim_then (exec_block true fuel b st1) (exec_block true fuel b2)).
      { rewrite exec_ccons. destruct (exec_block true fuel b st1) as [[s|s|s|s|s]|]; cbn [sim_then]; auto.
        rewrite exec_ccons. apply sim_then_id. }
      destruct (same_body (Some 0) (Some 1) (CCons ls b (CCons ls2 b2 CNil))) eqn:Es.
      * assert (Hb : b = BNil /\ b2 = BNil).
        { unfold same_body in Es. cbn [null_body Nat.eqb] in Es. rewrite orb_false_r in Es.
          destruct b, b2; cbn in Es; auto; discriminate. }
        destruct Hb as [-> ->]. cbn [nth_block]. destruct (Z.eqb z v); [rewrite X0|rewrite X1]; reflexivity.
      * cbn [nth_block]. destruct (Z.eqb z v); [|rewrite X1; reflexivity].
        rewrite X0. split; [reflexivity|].
        intros O X. rewrite sim_then_never; [reflexivity|]. intro s. apply (Hf O X).
    + assert (V2 : vals ls2 <> []).
      { intro V. rewrite (no_vals_default ls2 N2 V) in D2. discriminate. }
      destruct (vals ls2) as [|v [|]] eqn:Ev2; [congruence| |cbn [length] in Hr; lia].
      destruct (vals ls) as [|] eqn:Ev; [|cbn [length] in Hr; lia].
      exists 1, v. split; [rewrite !last_value_cons, Ev2; reflexivity|].
      intros fuel z st1. cbv zeta. unfold entry. cbn [first_labelled find_default].
      rewrite !existsb_vals. change (existsb (same_label None) ls) with (has_default ls).
      change (existsb (same_label None) ls2) with (has_default ls2).
      rewrite Ev, Ev2, D1, D2. cbn [existsb option_map].
      rewrite orb_false_r.
      assert (X1 : exec_cases true fuel 1 (CCons ls b (CCons ls2 b2 CNil)) st1 = exec_block true fuel b2 st1).
      { rewrite !exec_ccons. apply sim_then_id. }
      assert (X0 : exec_cases true fuel 0 (CCons ls b (CCons ls2 b2 CNil)) st1 = exec_block true fuel b st1).
      { rewrite exec_ccons. apply sim_then_never. intro s. apply F1. }
      destruct (same_body (Some 1) (Some 0) (CCons ls b (CCons ls2 b2 CNil))) eqn:Es.
      * exfalso. unfold same_body in Es. cbn [null_body Nat.eqb] in Es. rewrite orb_false_r in Es.
        destruct b; [|rewrite andb_false_r in Es; discriminate]. exact (F1 fuel st1 st1 eq_refl).
      * cbn [nth_block]. destruct (Z.eqb z v); cbn [option_map].
        -- rewrite X1. rewrite sim_then_never; auto.
        -- rewrite X0. reflexivity.
Qed.

Section Fixed.
Variable o : opts.
Variable P : code.
Variable C : list (@cmd St).
Hypothesis HC : commit P = Some C.
Hypothesis U : forall l, cnt l P <= 1.
Notation sim := (sim P C).

Ltac eqapp := repeat (rewrite <- app_assoc || (progress cbn [app])); reflexivity.
Ltac pos := repeat (rewrite size_app || rewrite size_one || rewrite size_cons); cbn [is_label];
  try change (@size_of St []) with 0.

Lemma sim_pc fuel r pc pc2 pce pce2 bk ct stk st :
  pc = pc2 -> pce = pce2 -> sim fuel r pc pce bk ct stk st -> sim fuel r pc2 pce2 bk ct stk st.
Proof. intros -> ->. auto. Qed.

Lemma sim_after fuel r pc pcm pce bk ct stk st :
  sim fuel r pc pcm bk ct stk st ->
  (forall s, exists k, run C k (Run pcm stk s) = Run pce stk s) ->
  sim fuel r pc pce bk ct stk st.
Proof.
  intros S H. destruct r as [[s'|s'|s'|s'|s']|]; auto.
  destruct S as [k Hk]. destruct (H s') as [k2 Hk2]. exists (k + k2). rewrite run_add, Hk. exact Hk2.
Qed.

(* nothing to run *)
Lemma sim_skip fuel pc pce bk ct stk st : pc = pce ->
  sim fuel (Some (Completes st)) pc pce bk ct stk st.
Proof. intros ->. exists 0. reflexivity. Qed.

Lemma do_jmp_any pre l post : P = pre ++ IJmp JAlways l :: post -> exists t, label_index P l = Some t.
Proof.
  intro E. destruct (fetch P C HC pre _ post E eq_refl) as (x & Hx & _).
  cbn [resolve] in Hx. destruct (label_index P l); [eauto|discriminate].
Qed.

(** A statement inside a loop or switch whose break goes to [lb] = the end. *)
Lemma sim_absorb_break fuel r pc pce bk lb ct stk st :
  label_index P lb = Some pce ->
  sim fuel r pc pce (Some lb) ct stk st ->
  sim fuel (absorb r) pc pce bk ct stk st.
Proof.
  intros L S. destruct r as [[s'|s'|s'|s'|s']|]; auto.
  destruct S as (l & t & k & El & Et & _ & Hk). injection El as <-.
  rewrite L in Et. injection Et as <-. exists k. exact Hk.
Qed.

Lemma app_norm {A} (x y z : list A) : (x ++ y) ++ z = x ++ y ++ z.
Proof. symmetry. apply app_assoc. Qed.

Theorem simulation :
  (forall s, ok o s -> forall bk ct n c n' pre post,
     compile o s bk ct n = Some (c, n') -> P = pre ++ c ++ post ->
     forall fuel stk st,
     sim fuel (exec true fuel s st) (size_of pre) (size_of (pre ++ c)) bk ct stk st) /\
  (forall b stop, ok_block o stop b -> forall bk ct n c n' pre post,
     compile_block o stop b bk ct n = Some (c, n') -> P = pre ++ c ++ post ->
     forall fuel stk st,
     sim fuel (exec_block true fuel b st) (size_of pre) (size_of (pre ++ c)) bk ct stk st) /\
  (forall cs, ok_cases o cs ->
     (forall bk ct n c rows d n' pre post,
        compile_cases o cs bk ct n = Some (c, rows, d, n') -> P = pre ++ c ++ post ->
        (forall fuel stk st,
           sim fuel (exec_cases true fuel 0 cs st) (size_of pre) (size_of (pre ++ c)) bk ct stk st) /\
        (forall z, match first_labelled (Some z) cs with
           | Some k => exists l t, assoc z rows = Some l /\ label_index P l = Some t /\
               forall fuel stk st,
               sim fuel (exec_cases true fuel k cs st) t (size_of (pre ++ c)) bk ct stk st
           | None => assoc z rows = None
           end) /\
        (match first_labelled None cs with
           | Some k => exists l t, d = Some l /\ label_index P l = Some t /\
               forall fuel stk st,
               sim fuel (exec_cases true fuel k cs st) t (size_of (pre ++ c)) bk ct stk st
           | None => d = None
           end)) /\
     (forall k bk ct n c n' pre post,
        compile_nth o k cs bk ct n = Some (c, n') -> P = pre ++ c ++ post ->
        forall fuel stk st,
        sim fuel (exec_block true fuel (nth_block k cs) st)
          (size_of pre) (size_of (pre ++ c)) bk ct stk st)).
Proof.
  apply stmt_mutind.
  - (* SEmpty *)
    intros _ bk ct n c n' pre post H E fuel stk st. cbn [compile] in H.
    apply some_pair in H as [<- <-]. apply sim_skip. rewrite app_nil_r. reflexivity.
  - (* SAct *)
    intros f _ bk ct n c n' pre post H E fuel stk st. cbn [compile] in H.
    apply some_pair in H as [<- <-]. exists 1. pos.
    rewrite (do_act P C HC pre f post stk st E). f_equal. lia.
  - (* SGroup *)
    intros b IH Hok bk ct n c n' pre post H E fuel stk st. rewrite compile_group in H.
    rewrite exec_group. eapply IH; eauto.
  - (* SIf *)
    intros cd t IHt e IHe [Ot Oe] bk ct n c n' pre post H E fuel stk st. cbn [compile] in H.
    cbn [exec].
    destruct (folded o (Some cd)) as [[]|] eqn:Ef.
    + assert (G : test (Some cd) st = (true, st)).
      { unfold folded in Ef. destruct (o_remove o); [|discriminate].
        destruct cd; cbn [const_of] in Ef; [injection Ef as ->; reflexivity|discriminate]. }
      rewrite G. eapply IHt; eauto.
    + assert (G : test (Some cd) st = (false, st)).
      { unfold folded in Ef. destruct (o_remove o); [|discriminate].
        destruct cd; cbn [const_of] in Ef; [injection Ef as ->; reflexivity|discriminate]. }
      rewrite G. eapply IHe; eauto.
    + clear Ef.
      destruct (compile o t bk ct (S (S n))) as [[a n1]|] eqn:Ea; [|discriminate].
      destruct (compile o e bk ct n1) as [[b n2]|] eqn:Eb; [|discriminate].
      apply some_pair in H as [<- <-].
      assert (Et : eval_cond cd st = test (Some cd) st) by (destruct cd; reflexivity).
      assert (L1 : label_index P n =
        Some (size_of (pre ++ [ICond (eval_cond cd); IJmp JFalse n] ++ a ++ [IJmp JAlways (S n)]))).
      { apply (label_pos P U) with (post := b ++ [ILabel (S n)] ++ post). rewrite E.
        eqapp. }
      assert (L2 : label_index P (S n) =
        Some (size_of (pre ++ [ICond (eval_cond cd); IJmp JFalse n] ++ a
                ++ [IJmp JAlways (S n); ILabel n] ++ b))).
      { apply (label_pos P U) with (post := post). rewrite E.
        eqapp. }
      assert (R : run C 2 (Run (size_of pre) stk st)
        = Run (if fst (eval_cond cd st) then S (S (size_of pre))
               else size_of (pre ++ [ICond (eval_cond cd); IJmp JFalse n] ++ a ++ [IJmp JAlways (S n)]))
            stk (snd (eval_cond cd st))).
      { apply (do_cond_false P C HC) with (l := n)
          (post := a ++ IJmp JAlways (S n) :: ILabel n :: b ++ [ILabel (S n)] ++ post); auto.
        rewrite E. eqapp. }
      rewrite Et in R. destruct (test (Some cd) st) as [bb st1]. cbn [fst snd] in R. destruct bb.
      * eapply sim_prefix; [exact R|].
        assert (S1 := IHt Ot bk ct _ _ _ (pre ++ [ICond (eval_cond cd); IJmp JFalse n])
          (IJmp JAlways (S n) :: ILabel n :: b ++ [ILabel (S n)] ++ post) Ea).
        specialize (S1 ltac:(rewrite E; eqapp)
          fuel stk st1).
        eapply sim_pc; [| |eapply sim_after; [exact S1|]]; [pos; lia|reflexivity|].
        intro s'. exists 1.
        rewrite (do_jmp P C HC ((pre ++ [ICond (eval_cond cd); IJmp JFalse n]) ++ a) (S n)
          (ILabel n :: b ++ [ILabel (S n)] ++ post) stk s' _
          ltac:(rewrite E; eqapp) L2).
        f_equal. pos. lia.
      * eapply sim_prefix; [exact R|].
        assert (S1 := IHe Oe bk ct _ _ _
          (pre ++ [ICond (eval_cond cd); IJmp JFalse n] ++ a ++ [IJmp JAlways (S n); ILabel n])
          ([ILabel (S n)] ++ post) Eb).
        specialize (S1 ltac:(rewrite E; eqapp)
          fuel stk st1).
        eapply sim_pc; [| |exact S1]; pos; lia.
  - (* SWhile *)
    intros cd b IH Hok bk ct n c n' pre post H E fuel stk st. cbn [compile] in H. cbn [exec].
    assert (G : (folded o cd = Some false /\ c = [] /\ n' = n) \/
      exists a x, compile o b (Some (S n)) (Some n) (S (S n)) = Some (a, n') /\
        c = ILabel n :: x ++ a ++ [IJmp JAlways n; ILabel (S n)] /\
        ((x = [] /\ forall s, test cd s = (true, s)) \/
         (exists f, x = [ICond f; IJmp JFalse (S n)] /\ forall s, test cd s = f s))).
    { destruct (folded o cd) as [[]|] eqn:Ef.
      - right. destruct (compile o b (Some (S n)) (Some n) (S (S n))) as [[a n1]|]; [|discriminate].
        apply some_pair in H as [<- <-]. exists a, []. split; auto. split; auto. left. split; auto.
        unfold folded in Ef. destruct (o_remove o); [|discriminate].
        destruct cd as [[]|]; cbn [const_of] in Ef; try discriminate. injection Ef as ->. reflexivity.
      - left. apply some_pair in H as [<- <-]. auto.
      - right. destruct (compile o b (Some (S n)) (Some n) (S (S n))) as [[a n1]|]; [|discriminate].
        apply some_pair in H as [<- <-]. destruct cd as [cd|].
        + exists a, [ICond (eval_cond cd); IJmp JFalse (S n)]. split; auto. split; auto. right.
          exists (eval_cond cd). split; auto. intro s. destruct cd; reflexivity.
        + exists a, []. auto. }
    destruct G as [(Ef & -> & ->)|(a & x & Ea & -> & Hx)].
    { rewrite app_nil_r.
      assert (T : forall s, test cd s = (false, s)).
      { unfold folded in Ef. destruct (o_remove o); [|discriminate].
        destruct cd as [[]|]; cbn [const_of] in Ef; try discriminate. injection Ef as ->. reflexivity. }
      destruct fuel as [|fuel]; cbn [while_loop].
      - exists 0, (size_of pre), stk, st. split; [lia|reflexivity].
      - rewrite T. apply sim_skip. reflexivity. }
    assert (Lc : label_index P n = Some (size_of pre)).
    { apply (label_pos P U) with (post := x ++ a ++ [IJmp JAlways n; ILabel (S n)] ++ post).
      rewrite E. eqapp. }
    assert (Lb : label_index P (S n) = Some (size_of (pre ++ [ILabel n] ++ x ++ a ++ [IJmp JAlways n]))).
    { apply (label_pos P U) with (post := post).
      rewrite E. eqapp. }
    assert (W := fun pch pcs pct => while_loop_sim P C fuel (exec true fuel b) (test cd)
      (fun x => x) (size_of pre) pch pcs pct _ bk ct (S n) n Lb Lc).
    eapply sim_pc; [reflexivity| |
      apply (W (size_of pre) (size_of (pre ++ [ILabel n] ++ x)) (size_of (pre ++ [ILabel n] ++ x ++ a)))].
    + pos; lia.
    + intros s k. eapply sim_pc; [reflexivity| |
        apply (IH Hok (Some (S n)) (Some n) _ _ _ (pre ++ [ILabel n] ++ x)
          ([IJmp JAlways n; ILabel (S n)] ++ post) Ea)].
      * pos; lia.
      * rewrite E. eqapp.
    + intros s k. destruct Hx as [[-> T]|(f & -> & T)].
      * exists 0. rewrite T. cbn [run fst snd]. f_equal. pos. lia.
      * exists 2. rewrite T.
        assert (R := do_cond_false P C HC (pre ++ [ILabel n]) f (S n)
          (a ++ [IJmp JAlways n; ILabel (S n)] ++ post) k s _
          ltac:(rewrite E; eqapp) Lb).
        replace (size_of (pre ++ [ILabel n])) with (size_of pre) in R by (pos; lia).
        rewrite R. f_equal. destruct (fst (f s)); [pos; lia|reflexivity].
    + intros s k. apply (do_jmp P C HC) with (l := n) (post := [ILabel (S n)] ++ post); auto.
      rewrite E. eqapp.
    + intros s k. exists 0. reflexivity.
    + lia.
  - (* SDo *)
    intros b IH cd Hok bk ct n c n' pre post H E fuel stk st. cbn [compile] in H. cbn [exec].
    destruct (compile o b (Some (S n)) (Some n) (S (S n))) as [[a n1]|] eqn:Ea; [|discriminate].
    apply some_pair in H as [<- <-].
    match goal with |- context [ILabel n :: a ++ ?x ++ [ILabel (S n)]] => set (x0 := x) in * end.
    match goal with |- context [do_loop true fuel _ ?t st] => set (tst := t) end.
    assert (Hx : (x0 = [IJmp JAlways n] /\ forall s, tst s = (true, s)) \/
                 (x0 = [] /\ forall s, tst s = (false, s)) \/
                 (exists f, x0 = [ICond f; IJmp JTrue n] /\ forall s, tst s =  (f s))).
    { subst x0 tst. unfold folded. destruct cd as [[bb|f]|].
      - destruct (o_remove o); cbn [const_of]; [destruct bb; [left; auto|right; left; auto]|].
        right; right. exists (eval_cond (KConst bb)). split; reflexivity.
      - destruct (o_remove o); cbn [const_of]; right; right; exists f; split; reflexivity.
      - destruct (o_remove o); cbn [const_of]; left; split; reflexivity. }
    clearbody x0 tst.
    assert (Lc : label_index P n = Some (size_of pre)).
    { apply (label_pos P U) with (post := a ++ x0 ++ [ILabel (S n)] ++ post). rewrite E. eqapp. }
    assert (Lb : label_index P (S n) = Some (size_of (pre ++ [ILabel n] ++ a ++ x0))).
    { apply (label_pos P U) with (post := post). rewrite E. eqapp. }
    eapply sim_pc; [reflexivity| |
      apply (do_loop_sim P C fuel (exec true fuel b) tst (size_of pre)
        (size_of (pre ++ [ILabel n] ++ a)) _ bk ct (S n) n Lb Lc)].
    + pos; lia.
    + intros s k. eapply sim_pc; [| |
        apply (IH Hok (Some (S n)) (Some n) _ _ _ (pre ++ [ILabel n])
          (x0 ++ [ILabel (S n)] ++ post) Ea)].
      * pos; lia.
      * pos; lia.
      * rewrite E. eqapp.
    + intros s k. destruct Hx as [[-> T]|[[-> T]|(f & -> & T)]]; rewrite T.
      * exists 1. split; [lia|]. cbn [snd].
        apply (do_jmp P C HC _ n ([ILabel (S n)] ++ post) k s); auto. rewrite E. eqapp.
      * exists 0. cbn [run snd]. f_equal. rewrite app_nil_r. reflexivity.
      * assert (R := do_cond_true P C HC (pre ++ [ILabel n] ++ a) f n ([ILabel (S n)] ++ post) k s _
          ltac:(rewrite E; eqapp) Lc).
        destruct (f s) as [bb s']; destruct bb; cbn [fst snd negate negb] in *;
          [exists 2; split; [lia|exact R]|exists 2; rewrite R; f_equal; pos; lia].
    + lia.
  - (* SUntil *)
    intros b IH cd Hok bk ct n c n' pre post H E fuel stk st. cbn [compile] in H. cbn [exec].
    destruct (compile o b (Some (S n)) (Some n) (S (S n))) as [[a n1]|] eqn:Ea; [|discriminate].
    apply some_pair in H as [<- <-].
    match goal with |- context [ILabel n :: a ++ ?x ++ [ILabel (S n)]] => set (x0 := x) in * end.
    match goal with |- context [do_loop true fuel _ ?t st] => set (tst := t) end.
    assert (Hx : (x0 = [IJmp JAlways n] /\ forall s, tst s = (true, s)) \/
                 (x0 = [] /\ forall s, tst s = (false, s)) \/
                 (exists f, x0 = [ICond f; IJmp JFalse n] /\ forall s, tst s = negate (f s))).
    { subst x0 tst. unfold folded. destruct cd as [[bb|f]|].
      - destruct (o_remove o); cbn [const_of]; [destruct bb; [right; left; auto|left; auto]|].
        right; right. exists (eval_cond (KConst bb)). split; reflexivity.
      - destruct (o_remove o); cbn [const_of]; right; right; exists f; split; reflexivity.
      - destruct (o_remove o); cbn [const_of]; left; split; reflexivity. }
    clearbody x0 tst.
    assert (Lc : label_index P n = Some (size_of pre)).
    { apply (label_pos P U) with (post := a ++ x0 ++ [ILabel (S n)] ++ post). rewrite E. eqapp. }
    assert (Lb : label_index P (S n) = Some (size_of (pre ++ [ILabel n] ++ a ++ x0))).
    { apply (label_pos P U) with (post := post). rewrite E. eqapp. }
    eapply sim_pc; [reflexivity| |
      apply (do_loop_sim P C fuel (exec true fuel b) tst (size_of pre)
        (size_of (pre ++ [ILabel n] ++ a)) _ bk ct (S n) n Lb Lc)].
    + pos; lia.
    + intros s k. eapply sim_pc; [| |
        apply (IH Hok (Some (S n)) (Some n) _ _ _ (pre ++ [ILabel n])
          (x0 ++ [ILabel (S n)] ++ post) Ea)].
      * pos; lia.
      * pos; lia.
      * rewrite E. eqapp.
    + intros s k. destruct Hx as [[-> T]|[[-> T]|(f & -> & T)]]; rewrite T.
      * exists 1. split; [lia|]. cbn [snd].
        apply (do_jmp P C HC _ n ([ILabel (S n)] ++ post) k s); auto. rewrite E. eqapp.
      * exists 0. cbn [run snd]. f_equal. rewrite app_nil_r. reflexivity.
      * assert (R := do_cond_false P C HC (pre ++ [ILabel n] ++ a) f n ([ILabel (S n)] ++ post) k s _
          ltac:(rewrite E; eqapp) Lc).
        destruct (f s) as [bb s']; destruct bb; cbn [fst snd negate negb] in *;
          [exists 2; rewrite R; f_equal; pos; lia|exists 2; split; [lia|exact R]].
    + lia.
  - (* SFor *)
    intros i cd inc b IH Hok bk ct n c n' pre post H E fuel stk st. cbn [compile] in H. cbn [exec].
    set (ini := match i with Some f => [IAct f] | None => [] end) in *.
    assert (Rini : forall post', P = pre ++ ini ++ post' -> forall stk s, exists k,
        run C k (Run (size_of pre) stk s) = Run (size_of (pre ++ ini)) stk (opt_act i s)).
    { intros post' Ep k s. subst ini. destruct i as [f|]; cbn [opt_act].
      - exists 1. rewrite (do_act P C HC pre f post' k s Ep). f_equal. pos. lia.
      - exists 0. rewrite app_nil_r. reflexivity. }
    assert (G : (folded o cd = Some false /\ c = ini /\ n' = n) \/
      exists a x, compile o b (Some (S n)) (Some n) (S (S (S n))) = Some (a, n') /\
        c = ini ++ match inc with Some _ => [IJmp JAlways (S (S n))] | None => [] end
            ++ [ILabel n] ++ match inc with Some f => [IAct f] | None => [] end
            ++ [ILabel (S (S n))] ++ x ++ a ++ [IJmp JAlways n; ILabel (S n)] /\
        ((x = [] /\ forall s, test cd s = (true, s)) \/
         (exists f, x = [ICond f; IJmp JFalse (S n)] /\ forall s, test cd s = f s))).
    { destruct (folded o cd) as [[]|] eqn:Ef.
      - right. destruct (compile o b _ _ _) as [[a n1]|]; [|discriminate].
        apply some_pair in H as [<- <-]. exists a, []. split; auto. split; auto. left. split; auto.
        unfold folded in Ef. destruct (o_remove o); [|discriminate].
        destruct cd as [[]|]; cbn [const_of] in Ef; try discriminate. injection Ef as ->. reflexivity.
      - left. apply some_pair in H as [<- <-]. auto.
      - right. destruct (compile o b _ _ _) as [[a n1]|]; [|discriminate].
        apply some_pair in H as [<- <-]. destruct cd as [cd|].
        + exists a, [ICond (eval_cond cd); IJmp JFalse (S n)]. split; auto. split; auto. right.
          exists (eval_cond cd). split; auto. intro s. destruct cd; reflexivity.
        + exists a, []. auto. }
    destruct G as [(Ef & -> & ->)|(a & x & Ea & -> & Hx)].
    { assert (T : forall s, test cd s = (false, s)).
      { unfold folded in Ef. destruct (o_remove o); [|discriminate].
        destruct cd as [[]|]; cbn [const_of] in Ef; try discriminate. injection Ef as ->. reflexivity. }
      destruct fuel as [|fuel]; cbn [while_loop].
      - exists 0, (size_of pre), stk, st. split; [lia|reflexivity].
      - rewrite T. exact (Rini post E stk st). }
    set (j1 := match inc with Some _ => [IJmp JAlways (S (S n))] | None => [] end) in *.
    set (j2 := match inc with Some f => [IAct f] | None => [] end) in *.
    assert (Lc : label_index P n = Some (size_of (pre ++ ini ++ j1))).
    { apply (label_pos P U) with (post := j2 ++ [ILabel (S (S n))] ++ x ++ a
        ++ [IJmp JAlways n; ILabel (S n)] ++ post). rewrite E. eqapp. }
    assert (Ld : label_index P (S (S n)) = Some (size_of (pre ++ ini ++ j1 ++ [ILabel n] ++ j2))).
    { apply (label_pos P U) with (post := x ++ a ++ [IJmp JAlways n; ILabel (S n)] ++ post).
      rewrite E. eqapp. }
    assert (Lb : label_index P (S n) = Some (size_of (pre ++ ini ++ j1 ++ [ILabel n] ++ j2
        ++ [ILabel (S (S n))] ++ x ++ a ++ [IJmp JAlways n]))).
    { apply (label_pos P U) with (post := post). rewrite E. eqapp. }
    destruct (Rini (j1 ++ [ILabel n] ++ j2 ++ [ILabel (S (S n))] ++ x ++ a
        ++ [IJmp JAlways n; ILabel (S n)] ++ post) ltac:(rewrite E; eqapp) stk st) as [k0 R0].
    set (pch := size_of (pre ++ ini ++ j1 ++ [ILabel n] ++ j2)) in *.
    assert (R1 : exists k, run C k (Run (size_of (pre ++ ini)) stk (opt_act i st)) = Run pch stk (opt_act i st)).
    { subst pch j1 j2. destruct inc as [f|].
      - exists 1. apply (do_jmp P C HC _ (S (S n)) ([ILabel n] ++ [IAct f] ++ [ILabel (S (S n))]
          ++ x ++ a ++ [IJmp JAlways n; ILabel (S n)] ++ post)); auto. rewrite E. eqapp.
      - exists 0. cbn [run]. f_equal. repeat rewrite app_nil_r. cbn [app]. pos. lia. }
    destruct R1 as [k1 R1].
    eapply sim_prefix; [exact R0|]. eapply sim_prefix; [exact R1|].
    eapply sim_pc; [reflexivity| |
      apply (while_loop_sim P C fuel (exec true fuel b) (test cd) (opt_act inc)
        (size_of (pre ++ ini ++ j1)) pch
        (size_of (pre ++ ini ++ j1 ++ [ILabel n] ++ j2 ++ [ILabel (S (S n))] ++ x))
        (size_of (pre ++ ini ++ j1 ++ [ILabel n] ++ j2 ++ [ILabel (S (S n))] ++ x ++ a))
        _ bk ct (S n) n Lb Lc)].
    + pos; lia.
    + intros s k. eapply sim_pc; [reflexivity| |
        apply (IH Hok (Some (S n)) (Some n) _ _ _
          (pre ++ ini ++ j1 ++ [ILabel n] ++ j2 ++ [ILabel (S (S n))] ++ x)
          ([IJmp JAlways n; ILabel (S n)] ++ post) Ea)].
      * pos; lia.
      * rewrite E. eqapp.
    + intros s k. destruct Hx as [[-> T]|(f & -> & T)].
      * exists 0. rewrite T. cbn [run fst snd]. f_equal. subst pch. rewrite app_nil_r. pos. lia.
      * exists 2. rewrite T.
        assert (R := do_cond_false P C HC (pre ++ ini ++ j1 ++ [ILabel n] ++ j2 ++ [ILabel (S (S n))])
          f (S n) (a ++ [IJmp JAlways n; ILabel (S n)] ++ post) k s _
          ltac:(rewrite E; eqapp) Lb).
        replace (size_of (pre ++ ini ++ j1 ++ [ILabel n] ++ j2 ++ [ILabel (S (S n))])) with pch in R
          by (subst pch; pos; lia).
        rewrite R. f_equal. destruct (fst (f s)); [subst pch; pos; lia|reflexivity].
    + intros s k. apply (do_jmp P C HC) with (l := n) (post := [ILabel (S n)] ++ post); auto.
      rewrite E. eqapp.
    + intros s k. subst pch j1 j2. destruct inc as [f|]; cbn [opt_act].
      * exists 1.
        assert (R := do_act P C HC ((pre ++ ini ++ [IJmp JAlways (S (S n))]) ++ [ILabel n]) f
          ([ILabel (S (S n))] ++ x ++ a ++ [IJmp JAlways n; ILabel (S n)] ++ post) k s
          ltac:(rewrite E; eqapp)).
        replace (size_of ((pre ++ ini ++ [IJmp JAlways (S (S n))]) ++ [ILabel n]))
          with (size_of (pre ++ ini ++ [IJmp JAlways (S (S n))])) in R by (pos; lia).
        rewrite R. f_equal. pos. lia.
      * exists 0. cbn [run]. f_equal. repeat rewrite app_nil_r. cbn [app]. pos. lia.
    + lia.
  - (* SBreak *)
    intros _ bk ct n c n' pre post H E fuel stk st. cbn [compile] in H.
    destruct bk as [l|]; [|discriminate]. apply some_pair in H as [<- <-].
    destruct (do_jmp_any pre l post E) as [t Ht].
    exists l, t, 1. repeat split; auto. apply (do_jmp P C HC pre l post); auto.
  - (* SContinue *)
    intros _ bk ct n c n' pre post H E fuel stk st. cbn [compile] in H.
    destruct ct as [l|]; [|discriminate]. apply some_pair in H as [<- <-].
    destruct (do_jmp_any pre l post E) as [t Ht].
    exists l, t, 1. repeat split; auto. apply (do_jmp P C HC pre l post); auto.
  - (* SReturn *)
    intros f _ bk ct n c n' pre post H E fuel stk st. cbn [compile] in H.
    apply some_pair in H as [<- <-]. exists 1. apply (do_ret P C HC pre f post). exact E.
  - intros f _ bk ct n c n' pre post H E fuel stk st. cbn [compile] in H.
    apply some_pair in H as [<- <-]. exists 1. apply (do_throw P C HC pre f post). exact E.
  - (* SSwitch *)
    intros e cs IHcs [Oc Osw] bk ct n c n' pre post H E fuel stk st.
    destruct (IHcs Oc) as [IHc IHn]. clear IHcs Oc.
    rewrite compile_switch in H. rewrite exec_switch.
    assert (Esel : forall s, eval_sel e s = select e s) by (intro s; destruct e; reflexivity).
    assert (SW : (if distinct (case_values cs) && (default_count cs <=? 1)
        then do (a, rows, d, n1) <- compile_cases o cs (Some n) ct (S (S n));
             Some (ISel (eval_sel e)
               :: ISwitch (sort_rows rows) (match d with Some l => l | None => S n end)
               :: a ++ ILabel n :: match d with Some _ => [] | None => [ILabel (S n)] end, n1)
        else None) = Some (c, n') ->
      sim fuel (let (z, st1) := select e st in
        match entry z cs with
        | None => Some (Completes st1)
        | Some k => absorb (exec_cases true fuel k cs st1)
        end) (size_of pre) (size_of (pre ++ c)) bk ct stk st).
    { clear H Osw IHn. intro H.
      destruct (distinct (case_values cs)) eqn:Ed; [|discriminate].
      destruct (default_count cs <=? 1); [|discriminate]. cbn [andb] in H.
      destruct (compile_cases o cs (Some n) ct (S (S n))) as [[[[a rows] d] n1]|] eqn:Ea; [|discriminate].
      apply some_pair in H as [<- <-].
      set (dl := match d with Some l => l | None => S n end) in *.
      set (tl := match d with Some _ => [] | None => [ILabel (S n)] end) in *.
      set (hd := [ISel (eval_sel e); ISwitch (sort_rows rows) dl]) in *.
      destruct (IHc (Some n) ct _ _ _ _ _ (pre ++ hd) (ILabel n :: tl ++ post) Ea
        ltac:(subst hd; rewrite E; eqapp)) as (_ & Sz & Sd).
      assert (Lb : label_index P n = Some (size_of (pre ++ hd ++ a))).
      { apply (label_pos P U) with (post := tl ++ post). subst hd. rewrite E. eqapp. }
      assert (Pe : size_of ((pre ++ hd) ++ a) = size_of (pre ++ hd ++ a)) by (f_equal; eqapp).
      assert (Pend : size_of (pre ++ ISel (eval_sel e) :: ISwitch (sort_rows rows) dl
                :: a ++ ILabel n :: tl) = size_of (pre ++ hd ++ a)).
      { subst hd tl. destruct d; pos; lia. }
      rewrite Pend. rewrite Pe in Sz, Sd.
      assert (Ld : exists kd, label_index P dl = Some kd /\
        match first_labelled None cs with
        | Some k => forall fuel stk st,
            sim fuel (exec_cases true fuel k cs st) kd (size_of (pre ++ hd ++ a)) (Some n) ct stk st
        | None => kd = size_of (pre ++ hd ++ a)
        end).
      { destruct (first_labelled None cs) as [k|].
        - destruct Sd as (l & t & -> & Ht & Hs). exists t. subst dl. auto.
        - subst d. exists (size_of (pre ++ hd ++ a)). split; auto. subst dl tl.
          replace (size_of (pre ++ hd ++ a)) with (size_of (pre ++ hd ++ a ++ [ILabel n])) by (pos; lia).
          apply (label_pos P U) with (post := post). subst hd. rewrite E. eqapp. }
      destruct Ld as (kd & Lkd & Hd).
      assert (R := do_switch P C HC pre (eval_sel e) rows dl (a ++ ILabel n :: tl ++ post) stk st kd
        ltac:(rewrite E; eqapp)
        ltac:(rewrite (compile_cases_keys o cs _ _ _ _ _ _ _ Ea); apply distinct_nodup; exact Ed) Lkd).
      rewrite Esel in R. destruct (select e st) as [z st1]. cbn [fst snd] in R.
      specialize (Sz z). unfold entry. destruct (first_labelled (Some z) cs) as [k|].
      - destruct Sz as (l & t & Hl & Ht & Hs). rewrite Hl, Ht in R.
        eapply sim_prefix; [exact R|]. apply sim_absorb_break with (lb := n); auto.
      - rewrite Sz in R. eapply sim_prefix; [exact R|].
        destruct (first_labelled None cs) as [k|].
        + apply sim_absorb_break with (lb := n); auto.
        + apply sim_skip. auto. }
    destruct (o_switch_if o) eqn:Eo; [|auto].
    destruct (number_of_rows cs) as [|[|nr]] eqn:Enr; [| |auto]; clear SW.
    + (* no rows *)
      specialize (Osw eq_refl ltac:(lia)).
      destruct (compile_nth o (Some 0) cs (Some n) ct (S n)) as [[a n1]|] eqn:Ea; [|discriminate].
      apply some_pair in H as [<- <-].
      assert (R := do_act P C HC pre _ _ stk st E).
      assert (Lb : label_index P n = Some (size_of (pre ++ [IAct (fun s => snd (eval_sel e s))] ++ a))).
      { apply (label_pos P U) with (post := post). rewrite E. eqapp. }
      assert (S1 := IHn (Some 0) (Some n) ct _ _ _ (pre ++ [IAct (fun s => snd (eval_sel e s))])
        ([ILabel n] ++ post) Ea ltac:(rewrite E; eqapp) fuel stk (snd (eval_sel e st))).
      eapply sim_prefix; [exact R|]. rewrite Esel in *. destruct (select e st) as [z st1].
      cbn [snd] in *.
      assert (Ex : match entry z cs with
        | None => Some (Completes st1)
        | Some k => absorb (exec_cases true fuel k cs st1)
        end = absorb (exec_block true fuel (nth_block (Some 0) cs) st1)).
      { destruct cs as [|ls b [|ls2 b2 r2]]; [reflexivity| |].
        - cbn [switch_if_ok] in Osw. rewrite rows_cons in Enr.
          assert (Ev : vals ls = []) by (destruct (vals ls); [auto|cbn [length] in Enr; lia]).
          unfold entry. cbn [first_labelled]. rewrite existsb_vals, existsb_default, Ev.
          rewrite (no_vals_default ls Osw Ev). cbn [existsb option_map nth_block].
          rewrite exec_ccons. destruct (exec_block true fuel b st1) as [[]|]; reflexivity.
        - destruct r2; cbn [switch_if_ok] in Osw; [|contradiction].
          destruct Osw as [Osw _]. congruence. }
      rewrite Ex.
      apply sim_absorb_break with (lb := n); [rewrite Lb; f_equal; pos; lia|].
      eapply sim_pc; [| |exact S1]; pos; lia.
    + (* one row *)
      specialize (Osw eq_refl ltac:(lia)). cbv zeta in H.
      destruct (one_row_exec o e cs Enr Osw) as (ki & v & Elv & Hsrc).
      rewrite Elv in H. cbn [option_map fst] in H.
      set (ke := find_default cs) in *.
      set (src := fun z st1 => match entry z cs with
             | None => Some (Completes st1)
             | Some k => absorb (exec_cases true fuel k cs st1)
             end).
      assert (Hs : forall z st1,
        if same_body (Some ki) ke cs
        then src z st1 = absorb (exec_block true fuel (nth_block (Some ki) cs) st1)
        else if Z.eqb z v
        then src z st1 = absorb (sim_then (exec_block true fuel (nth_block (Some ki) cs) st1)
                                   (exec_block true fuel (nth_block ke cs))) /\
             (o_remove o = true -> (exists x, e = LConst x) ->
              src z st1 = absorb (exec_block true fuel (nth_block (Some ki) cs) st1))
        else src z st1 = absorb (exec_block true fuel (nth_block ke cs) st1)).
      { intros z st1. exact (Hsrc fuel z st1). }
      clear Hsrc.
      change (sim fuel (let (z, st1) := select e st in src z st1) (size_of pre) (size_of (pre ++ c)) bk ct stk st).
      clearbody src.
      destruct (same_body (Some ki) ke cs).
      { (* one body *)
        destruct (compile_nth o (Some ki) cs (Some n) ct (S n)) as [[a n1]|] eqn:Ea; [|discriminate].
        apply some_pair in H as [<- <-].
        assert (R := do_act P C HC pre _ _ stk st E).
        assert (Lb : label_index P n = Some (size_of (pre ++ [IAct (fun s => snd (eval_sel e s))] ++ a))).
        { apply (label_pos P U) with (post := post). rewrite E. eqapp. }
        assert (S1 := IHn (Some ki) (Some n) ct _ _ _ (pre ++ [IAct (fun s => snd (eval_sel e s))])
          ([ILabel n] ++ post) Ea ltac:(rewrite E; eqapp) fuel stk (snd (eval_sel e st))).
        eapply sim_prefix; [exact R|]. rewrite Esel in *. destruct (select e st) as [z st1].
        cbn [snd] in *. rewrite (Hs z st1).
        apply sim_absorb_break with (lb := n); [rewrite Lb; f_equal; pos; lia|].
        eapply sim_pc; [| |exact S1]; pos; lia. }
      destruct (folded o (Some (sel_equals e v))) as [[]|] eqn:Ef.
      * (* constant, equal *)
        assert (Hc : o_remove o = true /\ e = LConst v).
        { unfold folded in Ef. destruct (o_remove o); [|discriminate]. split; auto.
          destruct e as [z|f]; cbn [sel_equals const_of] in Ef; [|discriminate].
          injection Ef as Ez. apply Z.eqb_eq in Ez. subst. reflexivity. }
        destruct Hc as [Hrm He]. rewrite He. cbn [select].
        specialize (Hs v st). rewrite Z.eqb_refl in Hs. destruct Hs as [_ Hs].
        rewrite (Hs Hrm ltac:(eauto)).
        destruct (compile_nth o (Some ki) cs (Some n) ct (S n)) as [[a n1]|] eqn:Ea; [|discriminate].
        apply some_pair in H as [<- <-].
        assert (Lb : label_index P n = Some (size_of (pre ++ a))).
        { apply (label_pos P U) with (post := post). rewrite E. eqapp. }
        assert (S1 := IHn (Some ki) (Some n) ct _ _ _ pre ([ILabel n] ++ post) Ea
          ltac:(rewrite E; eqapp) fuel stk st).
        apply sim_absorb_break with (lb := n); [rewrite Lb; f_equal; pos; lia|].
        eapply sim_pc; [| |exact S1]; pos; lia.
      * (* constant, different *)
        assert (Hc : exists z, e = LConst z /\ Z.eqb z v = false).
        { unfold folded in Ef. destruct (o_remove o); [|discriminate].
          destruct e as [z|f]; cbn [sel_equals const_of] in Ef; [|discriminate].
          injection Ef as Ez. eauto. }
        destruct Hc as (z & He & Hz). rewrite He. cbn [select].
        specialize (Hs z st). rewrite Hz in Hs. rewrite Hs.
        destruct (compile_nth o ke cs (Some n) ct (S n)) as [[a n1]|] eqn:Ea; [|discriminate].
        apply some_pair in H as [<- <-].
        assert (Lb : label_index P n = Some (size_of (pre ++ a))).
        { apply (label_pos P U) with (post := post). rewrite E. eqapp. }
        assert (S1 := IHn ke (Some n) ct _ _ _ pre ([ILabel n] ++ post) Ea
          ltac:(rewrite E; eqapp) fuel stk st).
        apply sim_absorb_break with (lb := n); [rewrite Lb; f_equal; pos; lia|].
        eapply sim_pc; [| |exact S1]; pos; lia.
      * (* compared at run time *)
        clear Ef.
        destruct (compile_nth o (Some ki) cs (Some n) ct (S (S n))) as [[a n1]|] eqn:Ea; [|discriminate].
        destruct (compile_nth o ke cs (Some n) ct n1) as [[b n2]|] eqn:Eb; [|discriminate].
        apply some_pair in H as [<- <-].
        set (cf := eval_cond (sel_equals e v)) in *.
        assert (Hcf : cf st = (Z.eqb (fst (select e st)) v, snd (select e st))).
        { subst cf. destruct e as [z|f]; cbn [sel_equals eval_cond select fst snd]; [reflexivity|].
          destruct (f st); reflexivity. }
        set (hd := [ICond cf; IJmp JFalse (S n)]) in *.
        assert (Le : label_index P (S n) = Some (size_of (pre ++ hd ++ a))).
        { apply (label_pos P U) with (post := b ++ [ILabel n] ++ post). subst hd. rewrite E. eqapp. }
        assert (Lb : label_index P n = Some (size_of (pre ++ hd ++ a ++ [ILabel (S n)] ++ b))).
        { apply (label_pos P U) with (post := post). subst hd. rewrite E. eqapp. }
        assert (R := do_cond_false P C HC pre cf (S n) (a ++ ILabel (S n) :: b ++ [ILabel n] ++ post)
          stk st _ ltac:(rewrite E; eqapp) Le).
        rewrite Hcf in R. destruct (select e st) as [z st1]. cbn [fst snd] in R.
        specialize (Hs z st1). eapply sim_prefix; [exact R|].
        assert (Pend : size_of (pre ++ ICond cf :: IJmp JFalse (S n) :: a ++ ILabel (S n) :: b ++ [ILabel n])
           = size_of (pre ++ hd ++ a ++ [ILabel (S n)] ++ b)) by (subst hd; pos; lia).
        rewrite Pend.
        assert (SE : forall s, sim fuel (exec_block true fuel (nth_block ke cs) s)
          (size_of (pre ++ hd ++ a)) (size_of (pre ++ hd ++ a ++ [ILabel (S n)] ++ b)) (Some n) ct stk s).
        { intro s. assert (S2 := IHn ke (Some n) ct _ _ _ (pre ++ hd ++ a ++ [ILabel (S n)])
            ([ILabel n] ++ post) Eb ltac:(subst hd; rewrite E; eqapp) fuel stk s).
          eapply sim_pc; [| |exact S2]; subst hd; pos; lia. }
        destruct (Z.eqb z v).
        -- destruct Hs as [Hs _]. rewrite Hs.
           apply sim_absorb_break with (lb := n); [exact Lb|].
           eapply sim_bind; [|intros s _; apply SE].
           assert (S1 := IHn (Some ki) (Some n) ct _ _ _ (pre ++ hd)
             (ILabel (S n) :: b ++ [ILabel n] ++ post) Ea ltac:(subst hd; rewrite E; eqapp) fuel stk st1).
           eapply sim_pc; [| |exact S1]; subst hd; pos; lia.
        -- rewrite Hs. apply sim_absorb_break with (lb := n); [exact Lb|]. apply SE.
  - (* BNil *)
    intros stop _ bk ct n c n' pre post H E fuel stk st. cbn [compile_block] in H.
    apply some_pair in H as [<- <-]. apply sim_skip. rewrite app_nil_r. reflexivity.
  - (* BCons *)
    intros s IHs b IHb stop (Os & Ob & Hn) bk ct n c n' pre post H E fuel stk st.
    rewrite compile_bcons in H. rewrite exec_bcons.
    destruct (compile o s bk ct n) as [[a n1]|] eqn:Ea; [|discriminate].
    destruct (stop && unreached (exit_type s)) eqn:Es.
    + apply some_pair in H as [<- <-]. apply andb_prop in Es as [-> Eu].
      specialize (Hn eq_refl Eu).
      assert (S1 := IHs Os bk ct _ _ _ pre post Ea E fuel stk st).
      specialize (Hn fuel st).
      destruct (exec true fuel s st) as [[s'|s'|s'|s'|s']|]; auto.
      exfalso. apply (Hn s'). reflexivity.
    + destruct (compile_block o stop b bk ct n1) as [[b' n2]|] eqn:Eb; [|discriminate].
      apply some_pair in H as [<- <-].
      eapply sim_bind.
      * apply (IHs Os bk ct _ _ _ pre (b' ++ post) Ea). rewrite E. eqapp.
      * intros s1 _. eapply sim_pc; [reflexivity| |
          apply (IHb stop Ob bk ct _ _ _ (pre ++ a) post Eb)].
        -- f_equal. eqapp.
        -- rewrite E. eqapp.
  - (* CNil *)
    intros _. split.
    + intros bk ct n c rows d n' pre post H E. cbn [compile_cases] in H.
      injection H as <- <- <- <-. split; [|split].
      * intros fuel stk st. apply sim_skip. rewrite app_nil_r. reflexivity.
      * intro z. reflexivity.
      * reflexivity.
    + intros k bk ct n c n' pre post H E fuel stk st. cbn [compile_nth] in H.
      apply some_pair in H as [<- <-].
      replace (nth_block k CNil) with (@BNil St) by (destruct k as [[|]|]; reflexivity).
      apply sim_skip. rewrite app_nil_r. reflexivity.
  - (* CCons *)
    intros ls b IHb r IHr [Ob Or]. destruct (IHr Or) as [IHc IHn]. clear IHr. split.
    + intros bk ct n c rows d n' pre post H E. rewrite compile_ccons in H.
      destruct (compile_block o false b bk ct (S n)) as [[a n1]|] eqn:Ea; [|discriminate].
      destruct (compile_cases o r bk ct n1) as [[[[c1 rows1] d1] n2]|] eqn:Er; [|discriminate].
      injection H as <- <- <- <-.
      destruct (IHc bk ct n1 c1 rows1 d1 n2 (pre ++ [ILabel n] ++ a) post Er
        ltac:(rewrite E; eqapp)) as (S0 & Sz & Sd).
      replace ((pre ++ [ILabel n] ++ a) ++ c1) with (pre ++ ILabel n :: a ++ c1) in * by eqapp.
      assert (L : label_index P n = Some (size_of pre)).
      { apply (label_pos P U) with (post := a ++ c1 ++ post). rewrite E. eqapp. }
      assert (F0 : forall fuel stk st, sim fuel (exec_cases true fuel 0 (CCons ls b r) st)
        (size_of pre) (size_of (pre ++ ILabel n :: a ++ c1)) bk ct stk st).
      { intros fuel stk st. rewrite exec_ccons. eapply sim_bind.
        - eapply sim_pc; [| |apply (IHb false Ob bk ct _ _ _ (pre ++ [ILabel n]) (c1 ++ post) Ea)].
          + pos; lia.
          + reflexivity.
          + rewrite E. eqapp.
        - intros s _. replace ((pre ++ [ILabel n]) ++ a) with (pre ++ [ILabel n] ++ a) by eqapp.
          apply S0. }
      split; [exact F0|split].
      * intro z. cbn [first_labelled]. rewrite existsb_vals, assoc_app, assoc_ls.
        destruct (existsb (Z.eqb z) (vals ls)).
        -- exists n, (size_of pre). auto.
        -- specialize (Sz z). destruct (first_labelled (Some z) r) as [k|]; cbn [option_map]; auto.
      * cbn [first_labelled]. rewrite existsb_default. destruct (has_default ls).
        -- exists n, (size_of pre). auto.
        -- destruct (first_labelled None r) as [k|]; cbn [option_map]; auto.
    + intros k bk ct n c n' pre post H E fuel stk st. rewrite compile_nth_cons in H.
      destruct k as [[|k]|].
      * apply (IHb false Ob bk ct _ _ _ pre post H E).
      * apply (IHn (Some k) bk ct _ _ _ pre post H E).
      * apply some_pair in H as [<- <-]. apply sim_skip. rewrite app_nil_r. reflexivity.
Qed.

End Fixed.
End Sim2.
