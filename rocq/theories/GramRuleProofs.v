(* The exchange of one rule and of all rules. *)
From Coq Require Import ZArith List Bool Lia Relations.
From Verif Require Import NetModel GramModel GramSpec GramLayProofs GramPathProofs GramEmptyProofs GramFlatProofs
  GramMergeProofs GramBeginProofs.
Import ListNotations.
Local Open Scope nat_scope.

Section Rule.
Variable R : grammar.
Let A := arena R.
Hypothesis WM : well_made R.

Let spare (k : key) : Prop := meant R (TElem (elem_of k)) [].

(* What can be read from a rule that has been exchanged. *)
Record over (m : memory) (z : nat) (live : list nat) : Prop := Over {
  ov_graph : graph A z spare m live;
  ov_under : forall n, In n live -> under R z n;
  ov_runs : forall ks, runs A m z ks <-> opening R z ks
}.

Section One.
Variable X : nat.
Variable cx : Z.
Variable ax : alts.
Hypothesis AX : at_ A X = CRule cx ax.

Lemma body_X : body R cx = Some ax.
Proof. apply (rule_body R cx ax X (wm_names R WM) AX). Qed.

Lemma X_under : forall u, owner A u = Some X -> under R X u.
Proof. intros u H. now apply under_in. Qed.

Lemma start_under : forall s k, In s (inner A X) -> enters R s k ->
  under R X k /\ (is_leaf A k = true \/ at_ A k = CEnd X).
Proof.
  intros s k I1 EN. destruct (enters_under R X s k EN) as [U K].
  - exists cx, ax. exact AX.
  - apply under_in. now apply inner_under.
  - split; [exact U|]. destruct K as [K|[b [a [K _]]]]; auto.
Qed.

Lemma flat_under : forall n k, is_leaf A n = true -> under R X n -> flat R n k ->
  under R X k /\ (is_leaf A k = true \/ at_ A k = CEnd X).
Proof.
  intros n k L U F. destruct F as [EN|[_ ->]]; [|auto].
  destruct (leaf_cell R n L) as [e [r [s [o [E _]]]]]. fold A in E.
  destruct (enters_under R X _ k EN) as [U' K].
  - exists cx, ax. exact AX.
  - apply (under_same R X n); [|exact U]. fold A. unfold A. rewrite (after_owner R n e r s o E). unfold owner. fold A. now rewrite E.
  - split; [exact U'|]. destruct K as [K|[b [a [K _]]]]; auto.
Qed.

Lemma item_meant : forall u e r s o, at_ A u = CPart e r s o -> under R X u -> says R (TItem e r) [] -> meant R (TItem e r) [].
Proof.
  intros u e r s o E U H. apply (says_meant R (wm_full R WM)); auto. cbn [full].
  pose proof (under_full R X cx ax AX (wm_full R WM _ _ body_X) u U) as F.
  rewrite (suffix_at R _ _ _ _ _ E) in F. apply F.
Qed.

Lemma goes_tail : forall m, (forall n, In n (m_seen m) -> complete R m n) ->
  (forall n k, In n (m_seen m) -> In k (m_links m n) -> is_leaf A k = true -> In k (m_seen m)) ->
  forall n ks, In n (m_seen m) -> goes A m n ks <-> tail R n ks.
Proof.
  intros m C NX n ks I1. split; intro H.
  - induction H as [n e H E|n k ks H L G IH].
    + apply (tail_end R n e); auto. now apply C.
    + apply (tail_next R n k ks); [now apply C|exact L|]. apply IH. now apply (NX n k).
  - induction H as [n k H E|n k ks H L T IH].
    + apply (goes_end A m n k); auto. now apply C.
    + assert (In k (m_links m n)) by (now apply C). apply goes_on; auto. apply IH. now apply (NX n k).
Qed.

Lemma flattened_graph : forall m m', ready R X m -> flattened R X m m' -> over m' X (rev (m_seen m')).
Proof.
  intros m m' RD [F1 F2 F3 F4 F5 F6 F7 F8 F9 F10].
  assert (LV : forall n, In n (rev (m_seen m')) <-> In n (m_seen m')) by (intro n; rewrite <- in_rev; tauto).
  constructor.
  - constructor.
    + intros n H. apply LV in H. now apply F5.
    + now apply NoDup_rev.
    + intros n k H K. apply LV in H. destruct (F5 n H) as [L U].
      assert (FL : flat R n k) by (now apply F2). destruct (flat_under n k L U FL) as [_ [Lk|Lk]]; [left|now right].
      apply LV. now apply (F4 n k).
    + intros k K. assert (exists s, In s (inner A X) /\ enters R s k) as [s [I1 EN]] by (now apply F1).
      destruct (start_under s k I1 EN) as [_ [Lk|Lk]]; [left|now right]. apply LV. now apply F3.
    + intros n n' H H' E FR _ IN. apply LV in H, H'.
      destruct (in_dec Nat.eq_dec n' (m_inner m' X)) as [Y|N]; [exact Y|exfalso].
      destruct (F5 n H) as [L U], (F5 n' H') as [L' U'].
      assert (B : begin R X n).
      { apply F1 in IN. destruct IN as [s [I1 EN]]. apply (begin_enters R X cx ax AX s n EN). now apply bg_first. }
      assert (AG : begins_again R (leaf_key A n) (TAlts ax)).
      { destruct (froms m' (rev (m_seen m')) n) as [|p l] eqn:FE; [easy|].
        assert (P : In p (froms m' (rev (m_seen m')) n)) by (rewrite FE; now left).
        unfold froms in P. rewrite filter_In, mem_in in P. destruct P as [P1 P2]. apply LV in P1.
        apply (reached_again R X cx ax AX (leaf_key A n) n p); auto; [now apply (F5 p P1)|now apply (F2 p P1)]. }
      assert (NB : ~ begin R X n').
      { intro B'. apply N. apply F1. apply (begin_starts R X n' B'). now apply en_leaf. }
      apply (not_begin R X cx ax AX (leaf_key A n) item_meant n' U' NB).
      * apply leaf_occurs; auto.
      * now apply (wm_begin R WM cx ax _ body_X).
    + intros n H IN SK k K. apply LV in H. destruct (F5 n H) as [L U].
      assert (FL : flat R n k) by (now apply F2).
      apply F1 in IN. destruct IN as [s [I1 EN]]. apply F1. exists s. split; [exact I1|].
      destruct FL as [FL|[_ ->]]; [|exact EN].
      apply (enters_trans R s n k EN). destruct (leaf_cell R n L) as [e [r [s' [o [E NG]]]]].
      apply (en_skip R n e r s' o); auto. fold A in E. apply item_empty.
      destruct SK as [SK|SK].
      * left. rewrite F9 in SK. pose proof (rd_raw R X m RD n U) as RW. unfold raw_node in RW. fold A in RW.
        rewrite E in RW. destruct RW as [_ RW]. now rewrite RW in SK.
      * right. unfold spare, A in SK. now rewrite (leaf_elem R n e r s' o L E) in SK.
  - intros n H. apply LV in H. now apply F5.
  - intro ks. unfold opening. split; intro H.
    + inversion H as [e IN E|n ks' IN L G]; subst.
      * apply F1 in IN. destruct IN as [s [I1 EN]]. exists s. split; [exact I1|]. now apply (arrive_end R s e).
      * pose proof (F3 n IN L) as SN. apply F1 in IN. destruct IN as [s [I1 EN]]. exists s. split; [exact I1|].
        apply arrive_leaf; auto. now apply (goes_tail m').
    + destruct H as [s [I1 AR]]. inversion AR as [u k EN E|u k ks' EN L T]; subst.
      * apply (runs_end A m' X k); auto. apply F1. eauto.
      * assert (IN : In k (m_inner m' X)) by (apply F1; eauto). apply runs_on; auto.
        apply (goes_tail m'); auto.
Qed.

(* What a rule that has been exchanged may be taken for. *)
Lemma over_done : forall m live, over m X live -> done_rule R (m_links m) (m_inner m) (m_rep m) X cx.
Proof.
  intros m live [G U RN]. constructor; fold A.
  - intros n H. destruct (gr_first _ _ _ _ _ G n H) as [K|K].
    + left. now apply (gr_leaf _ _ _ _ _ G).
    + right. unfold is_end. fold A. now rewrite K.
  - transitivity (runs A m X []).
    + split.
      * intros [n [H E]]. now apply (runs_end A m X n).
      * intro H. inversion H; subst. eauto.
    + rewrite RN. unfold empty_at. split.
      * intro O. exists ax. split; [now apply (alts_at_X R X cx)|]. apply (opening_meant R X cx ax [] [] AX O). constructor.
      * intros [a [AO M]]. rewrite (alts_at_X R X cx ax AX) in AO. injection AO as <-.
        destruct (meant_opening R cx ax X [] body_X (rule_of_at R cx ax X (wm_names R WM) AX) M) as [ks [O Y]].
        inversion Y; subst; [exact O|].
        match goal with K : _ ++ _ = [] |- _ => apply app_eq_nil in K; destruct K; subst end.
        exfalso. match goal with K : yields _ _ _ |- _ => now apply yields_nonempty in K end.
  - intros n H L SK. destruct (gr_first _ _ _ _ _ G n H) as [K|K].
    + apply (gr_skip _ _ _ _ _ G n K H). destruct SK as [SK|SK]; [now left|]. right. unfold spare, A.
      destruct (leaf_cell R n L) as [e [r [s [o [E _]]]]]. rewrite (leaf_elem R n e r s o L E).
      unfold elem_at in SK. now rewrite E in SK.
    + exfalso. unfold is_leaf in L. fold A in L. now rewrite K in L.
  - intros n H. destruct (gr_first _ _ _ _ _ G n H) as [K|K]; [now apply U|].
    apply under_in. unfold owner. fold A. now rewrite K.
  - intros n c H L E. destruct (gr_first _ _ _ _ _ G n H) as [K|K].
    + destruct (leaf_cell R n L) as [e [r [s [o [E' _]]]]]. unfold elem_at in E. rewrite E' in E. subst e.
      apply (under_mentions R X cx ax n c r s o AX body_X (U n K)). exact E'.
    + exfalso. unfold is_leaf in L. fold A in L. now rewrite K in L.
Qed.

(* The exchange of a rule. *)
Record exchanged (m m' : memory) : Prop := Exchanged {
  ex_over : exists live, over m' X live;
  ex_inner : forall n, n <> X -> m_inner m' n = m_inner m n;
  ex_links : forall n, ~ (is_leaf A n = true /\ under R X n) -> m_links m' n = m_links m n;
  ex_rep : forall n, ~ (is_leaf A n = true /\ under R X n) -> m_rep m' n = m_rep m n;
  ex_cache : cache_ok R [] (m_known m')
}.

Lemma exchange_rule_ok : forall f m m', ready R X m -> exchange_rule f A m X = Ok m' -> exchanged m m'.
Proof.
  intros f m m' RD H. unfold exchange_rule in H.
  destruct (exchange_branch f A m X) as [m1| | |] eqn:EB; try discriminate. cbn [bind] in H. injection H as <-.
  pose proof (exchange_branch_ok R (wm_names R WM) (wm_firm R WM) (wm_full R WM) X cx ax AX f m m1 RD EB) as FL.
  pose proof (flattened_graph m m1 RD FL) as [G U RN].
  destruct (merge_ok A X spare (length A) m1 (rev (m_seen m1)) G) as [[live' [G' SUB]] [[R1 R2 R3 R4] RN']].
  assert (IN : forall n, ~ (is_leaf A n = true /\ under R X n) -> ~ In n (rev (m_seen m1))).
  { intros n N K. apply N. split; [now apply (gr_leaf _ _ _ _ _ G)|now apply U]. }
  constructor.
  - exists live'. constructor; auto. intro ks. now rewrite RN', RN.
  - intros n N. rewrite R3 by exact N. now apply (fl_inner R X m m1 FL).
  - intros n N. rewrite R1 by (now apply IN). now apply (fl_other R X m m1 FL).
  - intros n N. rewrite R2 by (now apply IN). now rewrite (fl_rep R X m m1 FL).
  - rewrite R4. exact (fl_cache R X m m1 FL).
Qed.

End One.

(* ---- what other rules are does not change ---- *)

Section Other.
Variable m m' : memory.
Variable z : nat.
Variable live : list nat.
Hypothesis IN : m_inner m' z = m_inner m z.
Hypothesis LK : forall n, In n live -> m_links m' n = m_links m n.
Hypothesis RP : forall n, In n live -> m_rep m' n = m_rep m n.

Lemma graph_other : graph A z spare m live -> graph A z spare m' live.
Proof.
  intros [G1 G2 G3 G4 G5 G6].
  assert (FR : forall n, froms m' live n = froms m live n).
  { intro n. unfold froms. apply filter_ext_in. intros k K. now rewrite LK. }
  constructor; auto.
  - intros n k H K. rewrite LK in K by exact H. now apply (G3 n).
  - intros k K. rewrite IN in K. now apply G4.
  - intros n n' H H' E F F' I1. rewrite FR in F, F'. rewrite IN in *. now apply (G5 n n').
  - intros n H I1 SK. rewrite RP in SK by exact H. rewrite LK by exact H. rewrite IN in *. now apply G6.
Qed.

Lemma goes_other : graph A z spare m live -> forall n ks, In n live -> goes A m' n ks <-> goes A m n ks.
Proof.
  intros G n ks I1.
  assert (NX : forall n k, In n live -> In k (m_links m n) -> is_leaf A k = true -> In k live).
  { intros n0 k H K L. destruct (gr_next _ _ _ _ _ G n0 k H K) as [Q|Q]; [exact Q|]. exfalso.
    unfold is_leaf in L. now rewrite Q in L. }
  split; intro H.
  - induction H as [n e H E|n k ks H L G' IH]; rewrite LK in H by exact I1.
    + now apply (goes_end A m n e).
    + apply goes_on; auto. apply IH. now apply (NX n k).
  - induction H as [n e H E|n k ks H L G' IH].
    + apply (goes_end A m' n e); auto. now rewrite LK.
    + apply goes_on; auto; [now rewrite LK|]. apply IH. now apply (NX n k).
Qed.

Lemma over_other : over m z live -> over m' z live.
Proof.
  intros [G U RN]. constructor; auto.
  - now apply graph_other.
  - intro ks. rewrite <- RN.
    assert (FI : forall k, In k (m_inner m z) -> is_leaf A k = true -> In k live).
    { intros k K L. destruct (gr_first _ _ _ _ _ G k K) as [Q|Q]; [exact Q|]. exfalso.
      unfold is_leaf in L. now rewrite Q in L. }
    split; intro H; inversion H as [e I1 E|n ks' I1 L GO]; subst.
    + apply (runs_end A m z e); auto. now rewrite <- IN.
    + rewrite IN in I1. apply runs_on; auto. apply goes_other; auto.
    + apply (runs_end A m' z e); auto. now rewrite IN.
    + apply runs_on; auto; [now rewrite IN|]. apply goes_other; auto.
Qed.

End Other.

(* ---- all rules ---- *)

(* Some rules have been exchanged, the others are as they were read. *)
Record partway (m : memory) (todo : list nat) : Prop := Partway {
  pw_groups : forall g a r s o, at_ A g = CPart (Group a) r s o -> m_inner m g = inner A g;
  pw_reps : forall z b a, at_ A z = CRule b a -> m_rep m z = rule_rep a /\ m_links m z = [];
  pw_todo : forall z b a, at_ A z = CRule b a -> In z todo ->
    m_inner m z = inner A z /\ forall n, under R z n -> raw_node R (m_links m) (m_rep m) n;
  pw_done : forall z b a, at_ A z = CRule b a -> ~ In z todo -> exists live, over m z live;
  pw_cache : cache_ok R [] (m_known m)
}.

Lemma exchange_rules_ok : forall f todo m m', NoDup todo -> (forall z, In z todo -> exists b a, at_ A z = CRule b a) ->
  partway m todo -> all_of (exchange_rule f A) m todo = Ok m' -> partway m' [].
Proof.
  intro f. induction todo as [|X todo IH]; intros m m' ND RU PW H; cbn [all_of] in H; [injection H as <-; exact PW|].
  destruct (exchange_rule f A m X) as [m1| | |] eqn:EX; try discriminate. cbn [bind] in H.
  destruct (RU X) as [cx [ax AX]]; [now left|]. inversion ND as [|? ? NX ND']; subst.
  destruct PW as [P1 P2 P3 P4 P5].
  assert (RD : ready R X m).
  { destruct (P3 X cx ax AX) as [Q1 Q2]; [now left|]. destruct (P2 X cx ax AX) as [_ Q3].
    constructor; auto.
    - intros z b a E. now apply (P2 z b a).
    - intros z b a E N. destruct (in_dec Nat.eq_dec z (X :: todo)) as [I1|I1].
      + left. now apply (P3 z b a).
      + right. destruct (P4 z b a E I1) as [live OV]. now apply (over_done z b a E m live). }
  pose proof (exchange_rule_ok X cx ax AX f m m1 RD EX) as [[live OV] E1 E2 E3 E4].
  assert (APART : forall z b a n, at_ A z = CRule b a -> z <> X -> under R z n -> ~ (is_leaf A n = true /\ under R X n)).
  { intros z b a n E N U [_ U']. apply N. now apply (under_rule R z b a X cx ax n). }
  apply (IH m1 m'); auto.
  { intros z K. apply RU. now right. }
  constructor.
  - intros g a r s o E. rewrite E1; [now apply (P1 g a r s o)|]. intros ->. congruence.
  - intros z b a E. rewrite E2, E3; [now apply (P2 z b a)| |].
    + intros [L _]. unfold is_leaf in L. now rewrite E in L.
    + intros [L _]. unfold is_leaf in L. now rewrite E in L.
  - intros z b a E K. assert (N : z <> X) by (intros ->; contradiction).
    rewrite E1 by exact N. destruct (P3 z b a E) as [Q1 Q2]; [now right|]. split; [exact Q1|].
    intros n U. specialize (Q2 n U). unfold raw_node in *. fold A in Q2 |- *.
    destruct (at_ A n); auto. rewrite E2, E3 by (now apply (APART z b a)). exact Q2.
  - intros z b a E K. destruct (Nat.eq_dec z X) as [->|N]; [now exists live|].
    destruct (P4 z b a E) as [lz OZ]; [intros [Q|Q]; [now apply N|contradiction]|]. exists lz.
    apply (over_other m m1 z lz); auto.
    + intros n K2. apply E2. apply (APART z b a); auto. now apply (ov_under _ _ _ OZ).
    + intros n K2. apply E3. apply (APART z b a); auto. now apply (ov_under _ _ _ OZ).
  - exact E4.
Qed.

Lemma exchange_all_rules : forall f m',
  all_of (exchange_rule f A) (with_rule_reps A (memory_read A)) (in_order A (rules_from 0 A)) = Ok m' ->
  forall z b a, at_ A z = CRule b a -> exists live, over m' z live.
Proof.
  intros f m' H z b a E.
  apply (pw_done m' []) with (b := b) (a := a); auto.
  apply (exchange_rules_ok f (in_order A (rules_from 0 A)) (with_rule_reps A (memory_read A)) m'); auto.
  - apply in_order_nodup, rules_from_nodup.
  - intros y K. apply in_order_in in K. now apply rules_from_in in K.
  - constructor; unfold with_rule_reps, memory_read; cbn [m_links m_inner m_rep m_known]; auto.
    + intros y c d K. now rewrite K.
    + intros y c d K _. split; [reflexivity|]. intros n U. unfold raw_node. fold A.
      unfold rep_at. destruct (at_ A n); auto.
    + intros y c d K N. exfalso. apply N. apply in_order_in, rules_from_in. eauto.
    + intro g. cbn [known]. split; discriminate.
Qed.

End Rule.
