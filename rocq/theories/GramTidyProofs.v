(* The links of a net made from a grammar stay inside the rules. *)
From Coq Require Import ZArith List Bool Lia Relations.
From Verif Require Import NetModel NetSpec GramModel GramSpec GramLayProofs GramPathProofs GramEmptyProofs GramFlatProofs
  GramMergeProofs.
Import ListNotations.
Local Open Scope nat_scope.

(* Between a node and its owner there is no rule. *)
Definition cell_owner (c : cell) : option nat :=
  match c with CPart _ _ _ o | CEnd o => Some o | _ => None end.

Lemma lay_owner :
  (forall e base c o', In c (lay_elem base e) -> cell_owner c = Some o' -> base <= o') /\
  (forall s base o c o', In c (lay_parts base o s) -> cell_owner c = Some o' -> o' = o \/ base <= o') /\
  (forall a base o c o', In c (lay_alts base o a) -> cell_owner c = Some o' -> o' = o \/ base <= o').
Proof.
  apply gram_mind.
  - intros v base c o' [].
  - intros v base c o' [].
  - intros a IH base c o' I1 E. cbn [lay_elem] in I1. destruct (IH (S base) base c o' I1 E); lia.
  - intros base o c o' [<-|[]] E. cbn in E. injection E as <-. now left.
  - intros e IHe r s IHs base o c o' I1 E. cbn [lay_parts] in I1. destruct I1 as [<-|I1].
    + cbn in E. injection E as <-. now left.
    + apply in_app_or in I1. destruct I1 as [I1|I1].
      * right. exact (IHe base c o' I1 E).
      * destruct (IHs (base + size_elem e) o c o' I1 E); [now left|right; lia].
  - intros base o c o' [].
  - intros s IHs a IHa base o c o' I1 E. cbn [lay_alts] in I1. destruct (is_done s); [exact (IHa base o c o' I1 E)|].
    apply in_app_or in I1. destruct I1 as [I1|I1].
    + exact (IHs base o c o' I1 E).
    + destruct (IHa (base + size_parts s) o c o' I1 E); [now left|right; lia].
Qed.

Lemma lay_rules_owner : forall R base c o, In c (lay_rules base R) -> cell_owner c = Some o -> base <= o.
Proof.
  induction R as [|[b a] R IH]; intros base c o I1 E; cbn [lay_rules] in I1; [destruct I1|].
  destruct I1 as [<-|I1]; [discriminate|]. apply in_app_or in I1. destruct I1 as [I1|I1].
  - destruct (proj2 (proj2 lay_owner) a (S base) base c o I1 E); lia.
  - specialize (IH _ _ _ I1 E). lia.
Qed.

Lemma lay_rules_between : forall R base i j o b a,
  cell_owner (nth i (lay_rules base R) CNone) = Some o -> nth j (lay_rules base R) CNone = CRule b a -> j <= i -> base + j <= o.
Proof.
  induction R as [|[b0 a0] R IH]; intros base i j o b a HO HR L.
  { destruct i; discriminate. }
  assert (LI : i < length (lay_rules base ((b0, a0) :: R))).
  { destruct (Nat.lt_ge_cases i (length (lay_rules base ((b0, a0) :: R)))) as [K|K]; [exact K|]. now rewrite nth_overflow in HO. }
  pose proof (lay_rules_owner ((b0, a0) :: R) base _ o (nth_In _ _ LI) HO) as LO.
  destruct j as [|j]; [lia|]. destruct i as [|i]; [lia|].
  cbn [lay_rules nth] in HO, HR.
  assert (LJ : size_alts a0 <= j).
  { destruct (Nat.lt_ge_cases j (size_alts a0)) as [K|K]; [|exact K]. exfalso.
    rewrite app_nth1 in HR by (rewrite (proj2 (proj2 lay_length)); lia).
    apply (proj2 (proj2 lay_no_rule) a0 (S base) base b a). rewrite <- HR. apply nth_In.
    rewrite (proj2 (proj2 lay_length)). lia. }
  rewrite app_nth2 in HO by (rewrite (proj2 (proj2 lay_length)); lia).
  rewrite app_nth2 in HR by (rewrite (proj2 (proj2 lay_length)); lia).
  rewrite (proj2 (proj2 lay_length)) in HO, HR. specialize (IH _ _ _ _ _ _ HO HR). lia.
Qed.

Section Tidy.
Variable R : grammar.
Let A := arena R.

(* The rule a node belongs to. *)
Fixpoint climb (f n : nat) : nat :=
  match f with
  | O => n
  | S f' => match owner A n with Some o => climb f' o | None => n end
  end.
Definition top (n : nat) : nat := climb (S n) n.

Lemma climb_fuel : forall f f' n, n < f -> n < f' -> climb f n = climb f' n.
Proof.
  induction f as [|f IH]; intros f' n H H'; [lia|]. destruct f' as [|f']; [lia|]. cbn [climb].
  destruct (owner A n) as [o|] eqn:O; [|reflexivity]. apply (owner_lt R) in O. apply IH; lia.
Qed.

Lemma top_owner : forall n o, owner A n = Some o -> top n = top o.
Proof.
  intros n o H. unfold top. cbn [climb]. rewrite H. pose proof (owner_lt R _ _ H).
  change (match owner A o with Some o0 => climb o o0 | None => o end) with (climb (S o) o).
  apply climb_fuel; lia.
Qed.

Lemma top_rule : forall n b a, at_ A n = CRule b a -> top n = n.
Proof. intros n b a E. unfold top. cbn [climb]. unfold owner. now rewrite E. Qed.

Lemma owner_between : forall n o x b a, owner A n = Some o -> at_ A x = CRule b a -> x <= n -> x <= o.
Proof.
  intros n o x b a HO HR L. unfold A, arena, at_, owner in *. apply (lay_rules_between R 0 n x o b a); auto.
Qed.

Lemma top_between : forall n x b a, at_ A x = CRule b a -> x <= n -> x <= top n.
Proof.
  intros n. induction n as [n IH] using (well_founded_induction lt_wf). intros x b a HR L.
  destruct (owner A n) as [o|] eqn:HO.
  - rewrite (top_owner n o HO). pose proof (owner_lt R _ _ HO). apply (IH o ltac:(lia) x b a HR).
    exact (owner_between n o x b a HO HR L).
  - unfold top. cbn [climb]. now rewrite HO.
Qed.

Lemma top_inner : forall n k, In k (inner A n) -> top k = top n.
Proof. intros n k H. apply top_owner. now apply inner_under. Qed.

Lemma top_after : forall n e r s o, at_ A n = CPart e r s o -> top (after A n) = top n.
Proof.
  intros n e r s o E. rewrite (top_owner (after A n) o); [|now apply (after_owner R n e r s o)].
  symmetry. apply top_owner. unfold owner. now rewrite E.
Qed.

Record stays (m : memory) : Prop := Stays {
  sy_links : forall n k, In k (m_links m n) -> top k = top n;
  sy_inner : forall n k, In k (m_inner m n) -> top k = top n
}.

Definition within (x : nat) (m : memory) : Prop :=
  stays m /\ (forall n, In n (m_seen m) -> top n = x) /\ (forall n, In n (m_queue m) -> top n = x).

Lemma all_within : forall x (f : memory -> nat -> outcome memory) l m m', (forall m u m', In u l -> within x m -> f m u = Ok m' -> within x m') ->
  within x m -> all_of f m l = Ok m' -> within x m'.
Proof.
  intros x f. induction l as [|u l IH]; intros m m' F W H; cbn [all_of] in H; [injection H as <-; exact W|].
  destruct (f m u) as [m1| | |] eqn:E; try discriminate. cbn [bind] in H. apply (IH m1 m'); auto.
  - intros m2 v m3 I1. apply F. now right.
  - apply (F m u m1); auto. now left.
Qed.

Definition keeps (m m' : memory) : Prop :=
  m_links m' = m_links m /\ m_inner m' = m_inner m /\ m_seen m' = m_seen m /\ m_queue m' = m_queue m.

Lemma keeps_within : forall x m m', keeps m m' -> within x m -> within x m'.
Proof.
  intros x m m' [K1 [K2 [K3 K4]]] [[W1 W2] [W3 W4]]. unfold within. rewrite K3, K4. split; [|auto].
  constructor; [rewrite K1|rewrite K2]; auto.
Qed.

Lemma keeps_trans : forall m1 m2 m3, keeps m1 m2 -> keeps m2 m3 -> keeps m1 m3.
Proof. unfold keeps. intros m1 m2 m3 [A1 [A2 [A3 A4]]] [B1 [B2 [B3 B4]]]. repeat split; congruence. Qed.

Lemma keeps_refl : forall m, keeps m m.
Proof. intro m. repeat split. Qed.

Lemma judge_keeps : forall deep, (forall m vis l v vis' m', deep m vis l = Ok (v, vis', m') -> keeps m m') ->
  forall m n v m', judge A deep m n = Ok (v, m') -> keeps m m'.
Proof.
  intros deep D m n v m' H. unfold judge in H. destruct (empty_rep (m_rep m n)); [injection H as <- <-; apply keeps_refl|].
  cbv zeta in H.
  destruct (match at_ A n with CPart (Group _) _ _ _ => Some n | CPart (Ref b) _ _ _ => rule_of A b | _ => None end) as [g|];
    [|injection H as <- <-; apply keeps_refl].
  destruct (known (m_known m) g); [injection H as <- <-; apply keeps_refl|].
  destruct (deep (set_known m g false) [] (m_inner m g)) as [[[v1 vis1] m1]| | |] eqn:E; try discriminate.
  cbn [bind] in H. injection H as <- <-. apply D in E. exact E.
Qed.

Lemma scan_keeps : forall deep, (forall m vis l v vis' m', deep m vis l = Ok (v, vis', m') -> keeps m m') ->
  forall l m vis v vis' m', scan A deep m vis l = Ok (v, vis', m') -> keeps m m'.
Proof.
  intros deep D. induction l as [|n l IH]; intros m vis v vis' m' H; cbn [scan] in H.
  - injection H as <- <- <-. apply keeps_refl.
  - destruct (is_end A n); [injection H as <- <- <-; apply keeps_refl|].
    destruct (judge A deep m n) as [[b m1]| | |] eqn:J; try discriminate. cbn [bind] in H.
    apply (judge_keeps deep D) in J. apply (keeps_trans m m1); [exact J|].
    destruct b; [|now apply IH in H]. destruct (mem n vis); [now apply IH in H|].
    destruct (deep m1 (n :: vis) (m_links m1 n)) as [[[v2 vis2] m2]| | |] eqn:E; try discriminate. cbn [bind] in H.
    apply D in E. apply (keeps_trans m1 m2); [exact E|].
    destruct v2; [injection H as <- <- <-; apply keeps_refl|now apply IH in H].
Qed.

Lemma illusory_keeps : forall f m vis l v vis' m', illusory f A m vis l = Ok (v, vis', m') -> keeps m m'.
Proof.
  induction f as [|f IH]; intros m vis l v vis' m' H; cbn [illusory] in H; [discriminate|].
  now apply (scan_keeps (illusory f A) IH) in H.
Qed.

Lemma link_within : forall x m p n m', within x m -> top n = top p -> link A m p n = Ok m' -> within x m'.
Proof.
  intros x m p n m' [[W1 W2] [W3 W4]] T H. unfold link in H.
  destruct (append A (m_links m p) n) as [l| | |] eqn:E; try discriminate. cbn [bind] in H. injection H as <-.
  pose proof (append_in A _ _ _ E) as AI. split; [|auto]. constructor; cbn [set_links m_links m_inner]; auto.
  intros j k K. unfold update in K. destruct (j =? p) eqn:Q; [|now apply W1].
  apply Nat.eqb_eq in Q. subst j. apply AI in K. destruct K as [K| ->]; auto.
Qed.

Lemma join_within : forall x f p, top p = x -> forall m u m', within x m -> top u = x -> join f A p m u = Ok m' -> within x m'.
Proof.
  intros x f p TP. induction f as [|f IH]; intros m u m' W TU H; [discriminate|]. cbn [join] in H. cbv zeta in H.
  assert (ALL : forall m l m', within x m -> (forall k, In k l -> top k = x) -> all_of (join f A p) m l = Ok m' -> within x m').
  { intros m2 l m3 W2 T. apply all_within; auto. intros m4 v m5 I1 W4. apply IH; auto. }
  assert (LK : forall m n k, within x m -> top n = x -> In k (filter (fun j => negb (j =? n)) (m_links m n)) -> top k = x).
  { intros m2 n k [[W1 _] _] T K. apply filter_In in K. rewrite <- T. now apply W1. }
  match type of H with bind ?B _ = _ => destruct B as [m1| | |] eqn:E; try discriminate end. cbn [bind] in H.
  assert (W1 : within x m1).
  { destruct (at_ A u) as [[v|b|a] r s o|o|b a|] eqn:EU; try discriminate.
    - destruct (link A m p u) as [m2| | |] eqn:L; try discriminate. cbn [bind] in E. injection E as <-.
      apply link_within with (x := x) in L; auto; [|congruence]. unfold push. destruct (mem u (m_seen m2)); [exact L|].
      destruct L as [L1 [L2 L3]]. split; [destruct L1; now constructor|]. cbn [set_seen m_seen m_queue]. split.
      + intros n [<-|K]; auto.
      + intros n K. apply in_app_iff in K. destruct K as [K|[<-|[]]]; auto.
    - destruct (link A m p u) as [m2| | |] eqn:L; try discriminate. cbn [bind] in E. injection E as <-.
      apply link_within with (x := x) in L; auto; [|congruence]. unfold push. destruct (mem u (m_seen m2)); [exact L|].
      destruct L as [L1 [L2 L3]]. split; [destruct L1; now constructor|]. cbn [set_seen m_seen m_queue]. split.
      + intros n [<-|K]; auto.
      + intros n K. apply in_app_iff in K. destruct K as [K|[<-|[]]]; auto.
    - apply (ALL m (m_inner m u) m1 W); [|exact E]. intros k K. destruct W as [[_ W2] _]. rewrite <- TU. now apply W2.
    - assert (TO : top o = x) by (rewrite <- TU; symmetry; apply top_owner; unfold owner; now rewrite EU).
      assert (REST : forall m1, (m' <- all_of (join f A p) m (filter (fun j => negb (j =? o)) (m_links m o)) ;;
                (if loops (m_rep m' o) then all_of (join f A p) m' (m_inner m' o) else Ok m')) = Ok m1 -> within x m1).
      { intros m2 E2. destruct (all_of (join f A p) m (filter (fun j => negb (j =? o)) (m_links m o))) as [m3| | |] eqn:E3;
          try discriminate. cbn [bind] in E2.
        assert (W3 : within x m3) by (eapply ALL; [exact W| |exact E3]; intros k K; now apply (LK m o)).
        destruct (loops (m_rep m3 o)); [|injection E2 as <-; exact W3].
        apply (ALL m3 (m_inner m3 o) m2 W3); [|exact E2]. intros k K. destruct W3 as [[_ W3] _]. rewrite <- TO. now apply W3. }
      destruct (at_ A o); try (now apply REST). apply link_within with (x := x) in E; auto. congruence. }
  destruct ((p =? u) || is_end A u); [injection H as <-; exact W1|].
  assert (SKIP : forall m2 m', within x m2 -> all_of (join f A p) m2 (filter (fun j => negb (j =? u)) (m_links m2 u)) = Ok m' -> within x m').
  { intros m2 m3 W2 E2. eapply ALL; [exact W2| |exact E2]. intros k K. now apply (LK m2 u). }
  assert (JU : forall m', (q <- judge A (illusory f A) m1 u ;; (let '(v, m2) := q in
               if v then all_of (join f A p) m2 (filter (fun n => negb (n =? u)) (m_links m2 u)) else Ok m2)) = Ok m' -> within x m').
  { intros m3 E2. destruct (judge A (illusory f A) m1 u) as [[v m2]| | |] eqn:J; try discriminate. cbn [bind] in E2.
    apply (judge_keeps (illusory f A) (illusory_keeps f)) in J. apply (keeps_within x) in J; auto.
    destruct v; [now apply (SKIP m2)|injection E2 as <-; exact J]. }
  destruct (repetition A m1 u); first [now apply (SKIP m1)|now apply JU].
Qed.

Lemma exchange_within : forall x f m n m', within x m -> top n = x -> exchange f A m n = Ok m' -> within x m'.
Proof.
  intros x f m n m' W T H. unfold exchange in H.
  destruct (all_of (join f A n) (set_links m n []) (m_links m n)) as [m1| | |] eqn:E; try discriminate. cbn [bind] in H.
  assert (W1 : within x m1).
  { eapply (all_within x); [| |exact E].
    - intros m2 u m3 I1 W2. apply join_within; auto. destruct W as [[W _] _]. rewrite <- T. now apply W.
    - destruct W as [[W1 W2] W3]. split; [|exact W3]. constructor; cbn [set_links m_links m_inner]; auto.
      intros j k K. unfold update in K. destruct (j =? n); [easy|now apply W1]. }
  destruct (loops (repetition A m1 n)); [now apply (join_within x f n T m1 n)|injection H as <-; exact W1].
Qed.

Lemma exchange_all_within : forall x f t m m', within x m -> exchange_all t f A m = Ok m' -> within x m'.
Proof.
  intros x f. induction t as [|t IH]; intros m m' W H; cbn [exchange_all] in H; destruct (m_queue m) as [|n q] eqn:Q;
    try discriminate; try (injection H as <-; exact W).
  destruct (exchange f A (set_seen m (m_seen m) q) n) as [m1| | |] eqn:E; try discriminate. cbn [bind] in H.
  apply (IH m1 m'); auto. destruct W as [W1 [W2 W3]]. rewrite Q in W3.
  apply (exchange_within x f (set_seen m (m_seen m) q) n m1); auto.
  - split; [destruct W1; now constructor|]. cbn [set_seen m_seen m_queue]. split; auto. intros k K. apply W3. now right.
  - apply W3. now left.
Qed.

Lemma branch_within : forall x f m y m', stays m -> top y = x -> exchange_branch f A m y = Ok m' -> within x m'.
Proof.
  intros x f m y m' S T H. unfold exchange_branch in H.
  destruct (all_of (join f A y) (set_seen m [] []) (m_inner m y)) as [m1| | |] eqn:E; try discriminate. cbn [bind] in H.
  destruct (exchange_all (length A) f A m1) as [m2| | |] eqn:E2; try discriminate. cbn [bind] in H. injection H as <-.
  assert (W2 : within x m2).
  { apply (exchange_all_within x f (length A) m1 m2); auto. eapply (all_within x); [| |exact E].
    - intros m3 u m4 I1 W3. apply join_within; auto. destruct S as [_ S]. rewrite <- T. now apply S.
    - split; [destruct S; now constructor|]. split; intros n []. }
  destruct W2 as [[S1 S2] W2]. split; [|exact W2]. constructor; cbn [set_links set_inner m_links m_inner].
  - intros n k K. unfold update in K. destruct (n =? y); [easy|now apply S1].
  - intros n k K. unfold update in K. destruct (n =? y) eqn:Q; [|now apply S2]. apply Nat.eqb_eq in Q. subst n. now apply S1.
Qed.

Lemma merge_within : forall x y, top y = x -> forall t m live, stays m -> (forall n, In n live -> top n = x) ->
  stays (merge_branch t A m live y).
Proof.
  intros x y T. induction t as [|t IH]; intros m live S L; cbn [merge_branch]; [exact S|]. cbv zeta.
  destruct (forallb (fun n => stand_in A m live n =? n) live); [exact S|].
  assert (ST : forall n, top n = x -> top (stand_in A m live n) = x).
  { intros n Tn. unfold stand_in. destruct (is_leaf A n); [|exact Tn].
    destruct (find (alike A m live n) live) as [k|] eqn:F; [|exact Tn]. apply find_some in F. now apply L. }
  apply IH.
  - destruct S as [S1 S2]. constructor; unfold merge_once; cbn [m_links m_inner].
    + intros n k K. destruct (mem n live) eqn:M; [|now apply S1]. apply mem_in in M. rewrite (L n M).
      apply union_in in K. destruct K as [[]|K]. apply in_map_iff in K. destruct K as [i [<- K]]. apply ST.
      apply in_flat_map in K. destruct K as [j [J1 J2]]. apply filter_In in J1. rewrite (S1 j i J2). now apply L.
    + intros n k K. destruct (n =? y) eqn:Q; [|now apply S2]. apply Nat.eqb_eq in Q. subst n. rewrite T.
      apply union_in in K. destruct K as [[]|K]. apply in_map_iff in K. destruct K as [i [<- K]]. apply ST. rewrite <- T. now apply S2.
  - intros n K. apply filter_In in K. now apply L.
Qed.

Lemma rules_within : forall f l m m', stays m -> all_of (exchange_rule f A) m l = Ok m' -> stays m'.
Proof.
  intros f. induction l as [|y l IH]; intros m m' S H; cbn [all_of] in H; [injection H as <-; exact S|].
  unfold exchange_rule in H at 1. destruct (exchange_branch f A m y) as [m1| | |] eqn:E; try discriminate.
  cbn [bind] in H. apply (IH (merge_branch (length A) A m1 (rev (m_seen m1)) y) m'); auto.
  apply (branch_within (top y)) in E; auto. destruct E as [E1 [E2 E3]].
  apply (merge_within (top y) y eq_refl); auto. intros n K. apply E2. now apply in_rev.
Qed.

Lemma read_stays : stays (with_rule_reps A (memory_read A)).
Proof.
  constructor; unfold with_rule_reps, memory_read; cbn [m_links m_inner].
  - intros n k K. destruct (at_ A n) as [e r s o| | |] eqn:E; try easy. destruct K as [<-|[]]. now apply (top_after n e r s o).
  - apply top_inner.
Qed.

Lemma net_places : forall m, stays m -> forall b n x x' b' a', begins (net_of A m) b n -> rule_of A b = Some x ->
  at_ A x' = CRule b' a' -> x' <= n -> x' <= x.
Proof.
  intros m [S1 S2] b n x x' b' a' [s [E I1]] RO AX L. cbn [net_of nt_start] in E. rewrite RO in E. injection E as <-.
  apply filter_In in I1. destruct I1 as [I1 _]. pose proof (top_between n x' b' a' AX L) as T. rewrite (S2 x n I1) in T.
  destruct (rule_of_some R b x RO) as [a [_ AX']]. fold A in AX'. now rewrite (top_rule x b a AX') in T.
Qed.

Lemma net_tidy : forall m, stays m -> tidy (net_of A m).
Proof.
  intros m [S1 S2]. exists (fun n => match at_ A (top n) with CRule b _ => b | _ => 0%Z end).
  unfold net_of, begins. cbn [nt_node nt_start nd_next nd_end]. split; [|split].
  - intros b n [s [E I1]]. destruct (rule_of A b) as [x|] eqn:RO; [|discriminate]. injection E as <-.
    apply filter_In in I1. destruct I1 as [I1 _]. rewrite (S2 x n I1).
    destruct (rule_of_some R b x RO) as [a [_ AX]]. fold A in AX. rewrite (top_rule x b a AX). now rewrite AX.
  - intros n k K. apply filter_In in K. destruct K as [K _]. now rewrite (S1 n k K).
  - intros n b H. unfold end_value in H. destruct (find (is_end A) (m_links m n)) as [e|] eqn:F; [|discriminate].
    apply find_some in F. destruct F as [F1 F2]. destruct (at_ A e) as [|o| |] eqn:EE; try discriminate.
    destruct (at_ A o) as [| |b' a|] eqn:EO; try discriminate. injection H as ->.
    rewrite <- (S1 n e F1). rewrite (top_owner e o) by (unfold owner; now rewrite EE).
    rewrite (top_rule o b a EO). now rewrite EO.
Qed.

End Tidy.

Lemma links_tidy : forall fuel R m, exchange_grammar fuel R = Ok m -> tidy (net_of (lay_rules 0 (revise R)) m).
Proof.
  intros fuel R m E. unfold exchange_grammar in E. cbv zeta in E. apply (net_tidy (revise R)).
  apply (rules_within (revise R) fuel _ _ m (read_stays (revise R)) E).
Qed.

Lemma links_places : forall fuel R m, exchange_grammar fuel R = Ok m ->
  forall b n x x' b' a', begins (net_of (lay_rules 0 (revise R)) m) b n -> rule_of (lay_rules 0 (revise R)) b = Some x ->
  at_ (lay_rules 0 (revise R)) x' = CRule b' a' -> x' <= n -> x' <= x.
Proof.
  intros fuel R m E. unfold exchange_grammar in E. cbv zeta in E. apply (net_places (revise R)).
  apply (rules_within (revise R) fuel _ _ m (read_stays (revise R)) E).
Qed.
