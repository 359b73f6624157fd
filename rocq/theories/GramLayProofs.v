(* The nodes that reading a grammar makes, and how they hang together. *)
From Coq Require Import ZArith List Bool Lia.
From Verif Require Import NetModel GramModel GramSpec.
Import ListNotations.
Local Open Scope nat_scope.

Scheme elem_mind := Induction for elem Sort Prop
  with parts_mind := Induction for parts Sort Prop
  with alts_mind := Induction for alts Sort Prop.
Combined Scheme gram_mind from elem_mind, parts_mind, alts_mind.

Lemma size_elem_pos : forall e, 1 <= size_elem e.
Proof. destruct e; cbn; lia. Qed.

Lemma size_parts_pos : forall s, 1 <= size_parts s.
Proof. destruct s; cbn [size_parts]; [lia|]. pose proof (size_elem_pos e). lia. Qed.

Lemma lay_length :
  (forall e base, length (lay_elem base e) = pred (size_elem e)) /\
  (forall s base o, length (lay_parts base o s) = size_parts s) /\
  (forall a base o, length (lay_alts base o a) = size_alts a).
Proof.
  apply gram_mind; intros; cbn [lay_elem lay_parts lay_alts size_elem size_parts size_alts pred length];
    try reflexivity.
  - apply H.
  - rewrite app_length, H, H0. pose proof (size_elem_pos e). lia.
  - destruct (is_done s); [apply H0|]. rewrite app_length, H, H0. reflexivity.
Qed.

(* A list of cells stands in the arena from [base] on. *)
Definition embeds (A : list cell) (base : nat) (l : list cell) : Prop :=
  forall i, i < length l -> at_ A (base + i) = nth i l CNone.

Lemma embeds_app : forall A base l1 l2, embeds A base (l1 ++ l2) ->
  embeds A base l1 /\ embeds A (base + length l1) l2.
Proof.
  intros A base l1 l2 H. split; intros i Hi.
  - rewrite H by (rewrite app_length; lia). now rewrite app_nth1.
  - replace (base + length l1 + i) with (base + (length l1 + i)) by lia.
    rewrite H by (rewrite app_length; lia). rewrite app_nth2 by lia. f_equal. lia.
Qed.

Lemma embeds_cons : forall A base c l, embeds A base (c :: l) ->
  at_ A base = c /\ embeds A (S base) l.
Proof.
  intros A base c l H. split.
  - specialize (H 0). cbn in H. rewrite Nat.add_0_r in H. apply H. lia.
  - intros i Hi. specialize (H (S i)). cbn [length nth] in H.
    replace (S base + i) with (base + S i) by lia. apply H. lia.
Qed.

(* The cell a run of parts begins with. *)
Definition head_cell (s : parts) (o : nat) : cell :=
  match s with Done => CEnd o | Then e r s' => CPart e r s' o end.

(* The alternatives of owner o stand from [base] on. *)
Fixpoint laid_alts (A : list cell) (base o : nat) (a : alts) : Prop :=
  match a with
  | NoMore => True
  | Or s a' =>
      if is_done s then laid_alts A base o a'
      else at_ A base = head_cell s o
           /\ (base = S o \/ at_ A (pred base) = CEnd o)
           /\ laid_alts A (base + size_parts s) o a'
  end.

Definition is_owner (A : list cell) (o : nat) : Prop :=
  (exists b a, at_ A o = CRule b a) \/ (exists a r s o', at_ A o = CPart (Group a) r s o').

Definition cell_ok (A : list cell) (n : nat) : Prop :=
  match at_ A n with
  | CPart e r s o =>
      o < n /\ is_owner A o /\ at_ A (n + size_elem e) = head_cell s o
      /\ match e with
         | Group a => laid_alts A (S n) n a
                      /\ (n + size_elem e = S n \/ at_ A (pred (n + size_elem e)) = CEnd n)
         | _ => True
         end
  | CEnd o => o < n /\ is_owner A o
  | CRule b a => laid_alts A (S n) n a
  | CNone => False
  end.

Lemma lay_head : forall s base o A, embeds A base (lay_parts base o s) -> at_ A base = head_cell s o.
Proof. intros [|e r s] base o A H; apply embeds_cons in H; apply H. Qed.

Lemma lay_end : forall s base o A, embeds A base (lay_parts base o s) ->
  at_ A (pred (base + size_parts s)) = CEnd o.
Proof.
  induction s as [|e r s IH]; intros base o A H.
  - cbn [size_parts]. replace (pred (base + 1)) with base by lia. apply embeds_cons in H. apply H.
  - cbn [lay_parts] in H. apply embeds_cons in H. destruct H as [_ H].
    apply embeds_app in H. destruct H as [_ H]. rewrite (proj1 lay_length) in H.
    pose proof (size_elem_pos e).
    replace (S base + pred (size_elem e)) with (base + size_elem e) in H by lia.
    apply IH in H. cbn [size_parts]. rewrite Nat.add_assoc. exact H.
Qed.

Lemma lay_alts_end : forall a base o A, embeds A base (lay_alts base o a) ->
  base + size_alts a = base \/ at_ A (pred (base + size_alts a)) = CEnd o.
Proof.
  induction a as [|s a IH]; intros base o A H; cbn [size_alts lay_alts] in *.
  - left. lia.
  - destruct (is_done s).
    + now apply IH.
    + apply embeds_app in H. destruct H as [H1 H2]. rewrite (proj1 (proj2 lay_length)) in H2.
      destruct (IH _ _ _ H2) as [E|E].
      * right. replace (base + (size_parts s + size_alts a)) with (base + size_parts s) by lia.
        now apply lay_end.
      * right. rewrite Nat.add_assoc. exact E.
Qed.

Lemma lay_laid : forall a base o A, embeds A base (lay_alts base o a) ->
  (base = S o \/ at_ A (pred base) = CEnd o) -> laid_alts A base o a.
Proof.
  induction a as [|s a IH]; intros base o A H P; cbn [laid_alts lay_alts] in *; [exact Logic.I|].
  destruct (is_done s) eqn:D.
  - now apply IH.
  - apply embeds_app in H. destruct H as [H1 H2]. rewrite (proj1 (proj2 lay_length)) in H2.
    split; [now apply lay_head|]. split; [exact P|].
    apply IH; [exact H2|]. right. now apply lay_end.
Qed.

Lemma lay_cells :
  (forall e base A n, embeds A (S base) (lay_elem base e) ->
     (match e with Group _ => is_owner A base | _ => True end) ->
     base < n < base + size_elem e -> cell_ok A n) /\
  (forall s base o A n, embeds A base (lay_parts base o s) -> o < base -> is_owner A o ->
     base <= n < base + size_parts s -> cell_ok A n) /\
  (forall a base o A n, embeds A base (lay_alts base o a) -> o < base -> is_owner A o ->
     base <= n < base + size_alts a -> cell_ok A n).
Proof.
  apply gram_mind.
  - intros v base A n _ _ H. cbn in H. lia.
  - intros v base A n _ _ H. cbn in H. lia.
  - intros a IH base A n E O H. cbn [lay_elem size_elem] in *. apply (IH (S base) base); auto; lia.
  - intros base o A n E L O H. cbn [size_parts] in H. assert (n = base) by lia. subst n.
    apply embeds_cons in E. destruct E as [E _]. unfold cell_ok. rewrite E. auto.
  - intros e IHe r s IHs base o A n E L O H. cbn [lay_parts size_parts] in *.
    apply embeds_cons in E. destruct E as [Ec E]. apply embeds_app in E. destruct E as [E1 E2].
    rewrite (proj1 lay_length) in E2. pose proof (size_elem_pos e).
    replace (S base + pred (size_elem e)) with (base + size_elem e) in E2 by lia.
    destruct (Nat.eq_dec n base) as [->|N].
    + unfold cell_ok. rewrite Ec. split; [exact L|]. split; [exact O|]. split; [now apply lay_head|].
      destruct e as [v|b|a]; auto. split.
      * apply lay_laid; [exact E1|]. now left.
      * cbn [size_elem] in *. destruct (lay_alts_end _ _ _ _ E1) as [X|X].
        -- left. lia.
        -- right. replace (base + S (size_alts a)) with (S base + size_alts a) by lia. exact X.
    + destruct (Nat.lt_ge_cases n (base + size_elem e)).
      * apply (IHe base); auto; [|lia]. destruct e; auto. right. eauto.
      * apply (IHs (base + size_elem e) o); auto; lia.
  - intros base o A n _ _ _ H. cbn in H. lia.
  - intros s IHs a IHa base o A n E L O H. cbn [lay_alts size_alts] in *.
    destruct (is_done s).
    + now apply (IHa base o).
    + apply embeds_app in E. destruct E as [E1 E2]. rewrite (proj1 (proj2 lay_length)) in E2.
      destruct (Nat.lt_ge_cases n (base + size_parts s)).
      * apply (IHs base o); auto; lia.
      * apply (IHa (base + size_parts s) o); auto; lia.
Qed.

Fixpoint size_rules (R : grammar) : nat :=
  match R with [] => 0 | (_, a) :: R' => S (size_alts a) + size_rules R' end.

Lemma lay_rules_length : forall R base, length (lay_rules base R) = size_rules R.
Proof.
  induction R as [|[b a] R IH]; intro base; [reflexivity|].
  cbn [lay_rules size_rules length]. rewrite app_length, (proj2 (proj2 lay_length)), IH. lia.
Qed.

Lemma lay_rules_cells : forall R base A n, embeds A base (lay_rules base R) ->
  base <= n < base + size_rules R -> cell_ok A n.
Proof.
  induction R as [|[b a] R IH]; intros base A n E H; cbn [lay_rules size_rules] in *; [lia|].
  apply embeds_cons in E. destruct E as [Ec E]. apply embeds_app in E. destruct E as [E1 E2].
  rewrite (proj2 (proj2 lay_length)) in E2.
  replace (S base + size_alts a) with (base + S (size_alts a)) in E2 by lia.
  assert (O : is_owner A base) by (left; eauto).
  destruct (Nat.eq_dec n base) as [->|N].
  - unfold cell_ok. rewrite Ec. apply lay_laid; auto.
  - destruct (Nat.lt_ge_cases n (base + S (size_alts a))).
    + apply (proj2 (proj2 lay_cells) a (S base) base); auto; lia.
    + apply (IH (base + S (size_alts a))); auto. lia.
Qed.

Definition arena (R : grammar) : list cell := lay_rules 0 R.

Lemma arena_ok : forall R n, n < length (arena R) -> cell_ok (arena R) n.
Proof.
  intros R n H. unfold arena in *. rewrite lay_rules_length in H.
  apply (lay_rules_cells R 0); [|lia]. intros i Hi. reflexivity.
Qed.

Lemma at_some : forall R n, at_ (arena R) n <> CNone -> cell_ok (arena R) n.
Proof.
  intros R n H. apply arena_ok. destruct (Nat.lt_ge_cases n (length (arena R))); auto.
  exfalso. apply H. unfold at_. now apply nth_overflow.
Qed.

(* ---- rules ---- *)

Lemma rule_from_app : forall l1 l2 n b, rule_from n (l1 ++ l2) b =
  match rule_from n l1 b with Some x => Some x | None => rule_from (n + length l1) l2 b end.
Proof.
  induction l1 as [|c l1 IH]; intros l2 n b; cbn [app rule_from length].
  - now rewrite Nat.add_0_r.
  - replace (n + S (length l1)) with (S n + length l1) by lia.
    destruct c; try apply IH. destruct (b0 =? b)%Z; [reflexivity|apply IH].
Qed.

Definition no_rule (l : list cell) : Prop := forall b a, ~ In (CRule b a) l.

Lemma lay_no_rule :
  (forall e base, no_rule (lay_elem base e)) /\
  (forall s base o, no_rule (lay_parts base o s)) /\
  (forall a base o, no_rule (lay_alts base o a)).
Proof.
  apply gram_mind; intros; intros b' a' H'; cbn [lay_elem lay_parts lay_alts] in H'; try easy.
  - now apply H in H'.
  - destruct H' as [H'|[]]. discriminate.
  - destruct H' as [H'|H']; [discriminate|]. apply in_app_or in H'. destruct H' as [H'|H'].
    + now apply H in H'.
    + now apply H0 in H'.
  - destruct (is_done s); [now apply H0 in H'|]. apply in_app_or in H'. destruct H' as [H'|H'].
    + now apply H in H'.
    + now apply H0 in H'.
Qed.

Lemma rule_from_none : forall l n b, no_rule l -> rule_from n l b = None.
Proof.
  induction l as [|c l IH]; intros n b H; [reflexivity|]. cbn [rule_from].
  assert (no_rule l) by (intros b' a' K; apply (H b' a'); now right).
  destruct c; try now apply IH. exfalso. apply (H b0 a). now left.
Qed.

Lemma rule_from_lay : forall R base b,
  match rule_from base (lay_rules base R) b with
  | Some x => exists a, body R b = Some a /\ base <= x /\
      nth (x - base) (lay_rules base R) CNone = CRule b a
  | None => body R b = None
  end.
Proof.
  induction R as [|[b' a] R IH]; intros base b; cbn [lay_rules rule_from body]; [reflexivity|].
  destruct (Z.eqb_spec b' b) as [->|N].
  - exists a. rewrite Nat.sub_diag. cbn. auto.
  - rewrite rule_from_app, rule_from_none by apply lay_no_rule.
    rewrite (proj2 (proj2 lay_length)).
    replace (S base + size_alts a) with (base + S (size_alts a)) by lia.
    specialize (IH (base + S (size_alts a)) b).
    destruct (rule_from (base + S (size_alts a)) (lay_rules (base + S (size_alts a)) R) b) as [x|].
    + destruct IH as [a0 [B [L E]]]. exists a0. split; [exact B|]. split; [lia|].
      replace (x - base) with (S (size_alts a + (x - (base + S (size_alts a))))) by lia.
      cbn [nth]. rewrite app_nth2 by (rewrite (proj2 (proj2 lay_length)); lia).
      rewrite (proj2 (proj2 lay_length)).
      replace (size_alts a + (x - (base + S (size_alts a))) - size_alts a)
        with (x - (base + S (size_alts a))) by lia. exact E.
    + exact IH.
Qed.

Lemma rule_of_some : forall R b x, rule_of (arena R) b = Some x ->
  exists a, body R b = Some a /\ at_ (arena R) x = CRule b a.
Proof.
  intros R b x H. pose proof (rule_from_lay R 0 b) as L. unfold rule_of, arena in H.
  rewrite H in L. destruct L as [a [B [_ E]]]. rewrite Nat.sub_0_r in E. eauto.
Qed.

Lemma rule_of_none : forall R b, rule_of (arena R) b = None -> body R b = None.
Proof.
  intros R b H. pose proof (rule_from_lay R 0 b) as L. unfold rule_of, arena in H.
  now rewrite H in L.
Qed.

Lemma rules_from_spec : forall l n x, In x (rules_from n l) <->
  n <= x /\ exists b a, nth (x - n) l CNone = CRule b a.
Proof.
  induction l as [|c l IH]; intros n x; cbn [rules_from].
  - split; [intros []|]. intros [_ [b [a H]]]. destruct (x - n); discriminate.
  - assert (K : In x (rules_from (S n) l) <-> S n <= x /\ exists b a, nth (x - n) (c :: l) CNone = CRule b a).
    { rewrite IH. split; intros [L [b [a E]]]; (split; [lia|]); exists b, a.
      - replace (x - n) with (S (x - S n)) by lia. exact E.
      - replace (x - n) with (S (x - S n)) in E by lia. exact E. }
    destruct c; try (rewrite K; split; intros [L [b' [a' E]]]; (split; [|eauto]); try lia;
      destruct (Nat.eq_dec x n) as [->|]; [rewrite Nat.sub_diag in E; discriminate|lia]).
    cbn [In]. rewrite K. split.
    + intros [->|[L E]]; [|split; [lia|exact E]]. split; [lia|]. rewrite Nat.sub_diag. cbn. eauto.
    + intros [L E]. destruct (Nat.eq_dec x n) as [->|]; [now left|]. right. split; [lia|exact E].
Qed.

Lemma rules_from_in : forall R x, In x (rules_from 0 (arena R)) <->
  exists b a, at_ (arena R) x = CRule b a.
Proof.
  intros R x. rewrite rules_from_spec, Nat.sub_0_r. unfold at_. intuition lia.
Qed.

Lemma rules_from_nodup : forall l n, NoDup (rules_from n l) /\ forall x, In x (rules_from n l) -> n <= x.
Proof.
  intros l n. split; [|intros x H; now apply rules_from_spec in H].
  revert n. induction l as [|c l IH]; intro n; cbn [rules_from]; [constructor|].
  destruct c; try apply IH. constructor; [|apply IH]. intro H. apply rules_from_spec in H. lia.
Qed.

Lemma put_in_order_in : forall A x l y, In y (put_in_order A x l) <-> y = x \/ In y l.
Proof.
  intros A x. induction l as [|z l IH]; intro y; cbn [put_in_order]; [cbn; intuition congruence|].
  destruct (Z.leb (rule_value A x) (rule_value A z)); cbn [In]; [intuition congruence|]. rewrite IH. intuition congruence.
Qed.

Lemma in_order_in : forall A l y, In y (in_order A l) <-> In y l.
Proof.
  intros A. induction l as [|x l IH]; intro y; cbn [in_order fold_right In]; [tauto|].
  change (fold_right (put_in_order A) [] l) with (in_order A l). rewrite put_in_order_in, IH. intuition congruence.
Qed.

Lemma in_order_nodup : forall A l, NoDup l -> NoDup (in_order A l).
Proof.
  intros A. induction l as [|x l IH]; intro ND; [constructor|]. inversion ND as [|? ? NI ND']; subst.
  cbn [in_order fold_right]. change (fold_right (put_in_order A) [] l) with (in_order A l). specialize (IH ND').
  assert (NI' : ~ In x (in_order A l)) by (now rewrite in_order_in). revert IH NI'. generalize (in_order A l).
  induction l0 as [|z r IHr]; intros N1 N2; cbn [put_in_order]; [constructor; [easy|constructor]|].
  destruct (Z.leb (rule_value A x) (rule_value A z)); [constructor; auto|].
  inversion N1 as [|? ? Z1 Z2]; subst. constructor.
  - rewrite put_in_order_in. intros [->|K]; [apply N2; now left|contradiction].
  - apply IHr; auto. intro K. apply N2. now right.
Qed.

(* With different names, every node of a rule is the rule of its name. *)
Lemma rule_of_at : forall R b a x, NoDup (map fst R) -> at_ (arena R) x = CRule b a ->
  rule_of (arena R) b = Some x.
Proof.
  intros R b a x ND H. unfold rule_of, arena, at_ in *.
  enough (G : forall R base x, NoDup (map fst R) -> nth x (lay_rules base R) CNone = CRule b a ->
            rule_from base (lay_rules base R) b = Some (base + x)) by (apply (G R 0 x); auto).
  clear. induction R as [|[b' a'] R IH]; intros base x ND H; cbn [lay_rules] in *; [destruct x; discriminate|].
  cbn [map fst] in ND. inversion ND as [|? ? NI ND']; subst. cbn [rule_from].
  destruct x as [|x]; cbn [nth] in H.
  - injection H as -> ->. now rewrite Z.eqb_refl, Nat.add_0_r.
  - destruct (Nat.lt_ge_cases x (size_alts a')) as [L|L].
    + rewrite app_nth1 in H by (rewrite (proj2 (proj2 lay_length)); lia).
      exfalso. apply (proj2 (proj2 lay_no_rule) a' (S base) base b a). rewrite <- H. apply nth_In.
      rewrite (proj2 (proj2 lay_length)). lia.
    + rewrite app_nth2 in H by (rewrite (proj2 (proj2 lay_length)); lia).
      rewrite (proj2 (proj2 lay_length)) in H.
      assert (I1 : In b (map fst R)).
      { clear - H. remember (base + S (size_alts a')) as k. remember (x - size_alts a') as i. clear Heqk Heqi.
        revert k i H. induction R as [|[b1 a1] R IH]; intros k i H; cbn [lay_rules] in H; [destruct i; discriminate|].
        destruct i as [|i]; cbn [nth] in H; [injection H as -> ->; now left|].
        right. destruct (Nat.lt_ge_cases i (size_alts a1)) as [L|L].
        - rewrite app_nth1 in H by (rewrite (proj2 (proj2 lay_length)); lia).
          exfalso. apply (proj2 (proj2 lay_no_rule) a1 (S k) k b a). rewrite <- H. apply nth_In.
          rewrite (proj2 (proj2 lay_length)). lia.
        - rewrite app_nth2 in H by (rewrite (proj2 (proj2 lay_length)); lia).
          now apply IH in H. }
      destruct (Z.eqb_spec b' b) as [->|N]; [contradiction|].
      rewrite rule_from_app, rule_from_none by apply lay_no_rule.
      rewrite (proj2 (proj2 lay_length)).
      replace (S base + size_alts a') with (base + S (size_alts a')) by lia.
      rewrite (IH _ _ ND' H). f_equal. lia.
Qed.

Lemma rule_body : forall R b a x, NoDup (map fst R) -> at_ (arena R) x = CRule b a -> body R b = Some a.
Proof.
  intros R b a x ND H. pose proof (rule_of_at _ _ _ _ ND H) as E. apply rule_of_some in E.
  destruct E as [a' [B E]]. rewrite H in E. injection E as <-. exact B.
Qed.

(* ---- owners ---- *)

Definition owner (A : list cell) (n : nat) : option nat :=
  match at_ A n with CPart _ _ _ o | CEnd o => Some o | _ => None end.

(* A node is the first of an alternative or follows another part. *)
Definition back (A : list cell) (n : nat) : Prop :=
  match owner A n with
  | Some o => In n (inner A o) \/ (exists p e r s, at_ A p = CPart e r s o /\ after A p = n)
  | None => True
  end.

Lemma lay_back :
  (forall e base A n, embeds A (S base) (lay_elem base e) ->
     (match e with Group _ => exists r s o, at_ A base = CPart e r s o | _ => True end) ->
     base < n < base + size_elem e -> back A n) /\
  (forall s base o A n, embeds A base (lay_parts base o s) ->
     base < n < base + size_parts s -> back A n) /\
  (forall a base o A n, embeds A base (lay_alts base o a) ->
     (forall k, In k (firsts base a) -> In k (inner A o)) ->
     base <= n < base + size_alts a -> back A n).
Proof.
  apply gram_mind.
  - intros v base A n _ _ H. cbn in H. lia.
  - intros v base A n _ _ H. cbn in H. lia.
  - intros a IH base A n E [r [s [o O]]] H. cbn [lay_elem size_elem] in *. apply (IH (S base) base); auto; [|lia].
    unfold inner. rewrite O. auto.
  - intros base o A n E H. cbn [size_parts] in H. lia.
  - intros e IHe r s IHs base o A n E H. cbn [lay_parts size_parts] in *.
    apply embeds_cons in E. destruct E as [Ec E]. apply embeds_app in E. destruct E as [E1 E2].
    rewrite (proj1 lay_length) in E2. pose proof (size_elem_pos e).
    replace (S base + pred (size_elem e)) with (base + size_elem e) in E2 by lia.
    destruct (Nat.lt_trichotomy n (base + size_elem e)) as [L|[L|L]].
    + apply (IHe base); auto; [|lia]. destruct e; auto. eauto.
    + subst n. unfold back, owner. rewrite (lay_head _ _ _ _ E2).
      assert (K : exists p e0 r0 s0, at_ A p = CPart e0 r0 s0 o /\ after A p = base + size_elem e).
      { exists base, e, r, s. split; [exact Ec|]. unfold after. now rewrite Ec. }
      destruct s; cbn [head_cell]; now right.
    + apply (IHs (base + size_elem e) o); auto; lia.
  - intros base o A n _ _ H. cbn in H. lia.
  - intros s IHs a IHa base o A n E F H. cbn [lay_alts size_alts firsts] in *.
    destruct (is_done s) eqn:D.
    + now apply (IHa base o).
    + apply embeds_app in E. destruct E as [E1 E2]. rewrite (proj1 (proj2 lay_length)) in E2.
      destruct (Nat.eq_dec n base) as [->|N].
      * unfold back, owner. rewrite (lay_head _ _ _ _ E1). destruct s; [discriminate|]. cbn [head_cell].
        left. apply F. now left.
      * destruct (Nat.lt_ge_cases n (base + size_parts s)).
        -- apply (IHs base o); auto; lia.
        -- apply (IHa (base + size_parts s) o); auto; [|lia]. intros k K. apply F. now right.
Qed.

Lemma lay_rules_back : forall R base A n, embeds A base (lay_rules base R) ->
  base <= n < base + size_rules R -> back A n.
Proof.
  induction R as [|[b a] R IH]; intros base A n E H; cbn [lay_rules size_rules] in *; [lia|].
  apply embeds_cons in E. destruct E as [Ec E]. apply embeds_app in E. destruct E as [E1 E2].
  rewrite (proj2 (proj2 lay_length)) in E2.
  replace (S base + size_alts a) with (base + S (size_alts a)) in E2 by lia.
  destruct (Nat.eq_dec n base) as [->|N].
  - unfold back, owner. now rewrite Ec.
  - destruct (Nat.lt_ge_cases n (base + S (size_alts a))).
    + apply (proj2 (proj2 lay_back) a (S base) base); auto; [|lia]. intros k K. unfold inner. now rewrite Ec.
    + apply (IH (base + S (size_alts a))); auto. lia.
Qed.

Lemma arena_back : forall R n, back (arena R) n.
Proof.
  intros R n. destruct (Nat.lt_ge_cases n (length (arena R))) as [H|H].
  - unfold arena in *. rewrite lay_rules_length in H.
    apply (lay_rules_back R 0); [|lia]. intros i Hi. reflexivity.
  - unfold back, owner, at_. now rewrite nth_overflow.
Qed.
