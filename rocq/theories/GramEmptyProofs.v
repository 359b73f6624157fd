(* The exchange finds out exactly what can be empty. *)
From Coq Require Import ZArith List Bool Lia Relations.
From Verif Require Import NetModel GramModel GramSpec GramLayProofs GramPathProofs.
Import ListNotations.
Local Open Scope nat_scope.

(* ---- what lies under what ---- *)

Section Under.
Variable R : grammar.
Let A := arena R.

Inductive under (o : nat) : nat -> Prop :=
| under_in n : owner A n = Some o -> under o n
| under_up n g : owner A n = Some g -> under o g -> under o n.

Lemma owner_lt : forall n o, owner A n = Some o -> o < n.
Proof.
  intros n o H. unfold owner in H. destruct (at_ A n) eqn:E; try discriminate; injection H as ->.
  - now apply part_cell in E.
  - now apply end_cell in E.
Qed.

Lemma owner_is : forall n o, owner A n = Some o -> exists a, alts_at R o = Some a.
Proof.
  intros n o H. unfold owner in H.
  assert (O : is_owner A o).
  { destruct (at_ A n) eqn:E; try discriminate; injection H as ->.
    - now apply part_cell in E.
    - now apply end_cell in E. }
  unfold alts_at. fold A. destruct O as [[b [a E]]|[a [r [s [o' E]]]]]; rewrite E; eauto.
Qed.

Lemma under_lt : forall o n, under o n -> o < n.
Proof.
  induction 1 as [n H|n g H U IH]; apply owner_lt in H; lia.
Qed.

Lemma under_trans : forall o g n, under o g -> under g n -> under o n.
Proof.
  intros o g n U. induction 1 as [n H|n k H V IH].
  - now apply (under_up o n g).
  - now apply (under_up o n k).
Qed.

Lemma rule_owner : forall y b a, at_ A y = CRule b a -> owner A y = None.
Proof. intros y b a E. unfold owner. now rewrite E. Qed.

Lemma under_rule : forall y1 b1 a1 y2 b2 a2 n, at_ A y1 = CRule b1 a1 -> at_ A y2 = CRule b2 a2 ->
  under y1 n -> under y2 n -> y1 = y2.
Proof.
  intros y1 b1 a1 y2 b2 a2 n E1 E2 U. apply rule_owner in E1, E2.
  induction U as [n H|n g H U IH]; intros V; inversion V as [k K|k h K W]; subst; rewrite H in K; injection K as <-; auto.
  - inversion W; congruence.
  - inversion U; congruence.
Qed.

Lemma inner_under : forall o n, In n (inner A o) -> owner A n = Some o.
Proof.
  intros o n H. destruct (inner_in R _ _ H) as [a [e [r [s [_ [E _]]]]]]. unfold owner. fold A in E. now rewrite E.
Qed.

Lemma after_owner : forall n e r s o, at_ A n = CPart e r s o -> owner A (after A n) = Some o.
Proof.
  intros n e r s o E. destruct (part_cell R _ _ _ _ _ E) as [_ [_ H]]. fold A in H. unfold owner. rewrite H.
  now destruct s.
Qed.

(* A group is under its owner, and what is under it too. *)
Lemma under_group : forall y n, under y n -> forall g, owner A n = Some g -> g = y \/ under y g.
Proof. intros y n U g H. inversion U; subst; [left|right]; congruence. Qed.

Definition suffix (n : nat) : parts :=
  match at_ A n with CPart e r s _ => Then e r s | _ => Done end.

Lemma alternative_occurs : forall k s a, alternative s a -> occurs_parts k s -> occurs_alts k a.
Proof.
  induction a as [|s' a IH]; intros H K; cbn [alternative occurs_alts] in *; [easy|].
  destruct H as [->|H]; auto.
Qed.

Lemma under_occurs : forall k n y a, under y n -> alts_at R y = Some a -> occurs_parts k (suffix n) -> occurs_alts k a.
Proof.
  intro k. induction n as [n IH] using lt_wf_ind. intros y a U AY OC.
  assert (exists o, owner A n = Some o) as [o HO] by (inversion U; eauto).
  pose proof (arena_back R n) as B. unfold back in B. fold A in B. rewrite HO in B.
  destruct B as [B|[p [e [r [s [Ep Ap]]]]]].
  - destruct (inner_in R _ _ B) as [a' [e [r [s [AO [En [AL _]]]]]]]. fold A in En.
    assert (OA : occurs_alts k a').
    { unfold suffix in OC. rewrite En in OC. now apply (alternative_occurs k (Then e r s)). }
    destruct (under_group _ _ U _ HO) as [->|Uo]; [congruence|].
    apply (IH o (owner_lt _ _ HO) y a Uo AY). unfold suffix. unfold alts_at in AO. fold A in AO.
    destruct (at_ A o) as [[v|b|a0] r0 s0 o0| |b a0|] eqn:Eo; try discriminate.
    + injection AO as ->. cbn [occurs_parts occurs_elem]. now left.
    + exfalso. apply rule_owner in Eo. inversion Uo; congruence.
  - assert (Lp : p < n) by (rewrite <- Ap; now apply (after_pos R p e r s o)).
    apply (IH p Lp y a); auto.
    + inversion U as [k0 K|k0 g K V]; subst; rewrite HO in K; injection K as <-.
      * apply under_in. unfold owner. now rewrite Ep.
      * apply (under_up y p o); [|exact V]. unfold owner. now rewrite Ep.
    + unfold suffix. rewrite Ep. cbn [occurs_parts]. right. unfold suffix in OC. rewrite <- Ap in OC.
      destruct (part_cell R _ _ _ _ _ Ep) as [_ [_ H]]. fold A in H. rewrite H in OC. now destruct s.
Qed.

Lemma under_mentions : forall y b a n c r s o, at_ A y = CRule b a -> body R b = Some a -> under y n ->
  at_ A n = CPart (Ref c) r s o -> mentions R b c.
Proof.
  intros y b a n c r s o Ey B U E. exists a. split; [exact B|].
  apply (under_occurs (KRef c) n y a U).
  - unfold alts_at. fold A. now rewrite Ey.
  - unfold suffix. rewrite E. cbn. now left.
Qed.

End Under.

(* ---- emptiness ---- *)

Lemma empty_rep_true : forall r, empty_rep r = true <-> r = Star \/ r = Question.
Proof. destruct r; cbn; split; intro H; auto; try discriminate; destruct H; discriminate. Qed.

Lemma item_empty : forall R e r, meant R (TItem e r) [] <-> empty_rep r = true \/ meant R (TElem e) [].
Proof.
  intros R e r. rewrite empty_rep_true. split; intro H.
  - inversion H; subst; auto. right.
    match goal with K : _ ++ _ = [] |- _ => apply app_eq_nil in K; destruct K; subst end. assumption.
  - destruct H; [now apply mean_none|now apply mean_once].
Qed.

Lemma parts_empty : forall R e r s, meant R (TParts (Then e r s)) [] <->
  meant R (TItem e r) [] /\ meant R (TParts s) [].
Proof.
  intros R e r s. split; intro H.
  - inversion H; subst.
    match goal with K : _ ++ _ = [] |- _ => apply app_eq_nil in K; destruct K; subst end. auto.
  - destruct H. now apply (mean_then R e r s [] []).
Qed.

Lemma firm_full : forall R a, firm R a -> ~ meant R (TAlts a) [].
Proof.
  induction a as [|s a IH]; intros F H; inversion H; subst; cbn [firm] in F; destruct F as [F1 F2].
  - destruct s as [|e r s]; [easy|].
    match goal with K : meant _ (TParts _) _ |- _ => apply parts_empty in K; destruct K as [K _]; apply meant_says in K end.
    destruct e; [|now apply F1|easy]. now apply F1.
  - now apply IH.
Qed.

Section Empty.
Variable R : grammar.
Let A := arena R.
Hypothesis NAMES : NoDup (map fst R).
Hypothesis FIRM : forall b a, body R b = Some a -> leads R b b -> firm R a.

(* The rule that is being exchanged. *)
Variable X : nat.
Variable cx : Z.
Variable ax : alts.
Hypothesis AX : at_ A X = CRule cx ax.

Variable links inside : nat -> list nat.
Variable reps : nat -> rep.

Definition raw_node (n : nat) : Prop :=
  match at_ A n with CPart _ r _ _ => links n = [after A n] /\ reps n = r | _ => True end.

Definition empty_at (g : nat) : Prop := exists a, alts_at R g = Some a /\ meant R (TAlts a) [].

Definition elem_at (n : nat) : elem := match at_ A n with CPart e _ _ _ => e | _ => Tok 0 end.

(* A rule that has been exchanged. *)
Record done_rule (z : nat) (b : Z) : Prop := DoneRule {
  dr_kind : forall n, In n (inside z) -> is_leaf A n = true \/ is_end A n = true;
  dr_end : (exists n, In n (inside z) /\ is_end A n = true) <-> empty_at z;
  dr_next : forall n, In n (inside z) -> is_leaf A n = true ->
    empty_rep (reps n) = true \/ meant R (TElem (elem_at n)) [] -> incl (links n) (inside z);
  dr_under : forall n, In n (inside z) -> under R z n;
  dr_refs : forall n c, In n (inside z) -> is_leaf A n = true -> elem_at n = Ref c -> mentions R b c
}.

Hypothesis GROUPS : forall g a r s o, at_ A g = CPart (Group a) r s o -> inside g = inner A g.
Hypothesis CURRENT : inside X = inner A X.
Hypothesis CURREP : forall n e r s o, under R X n -> at_ A n = CPart e r s o -> reps n = r.
Hypothesis OTHERS : forall z b a, at_ A z = CRule b a -> z <> X ->
  (inside z = inner A z /\ forall n, under R z n -> raw_node n) \/ done_rule z b.

Definition st (m : memory) : Prop := m_links m = links /\ m_inner m = inside /\ m_rep m = reps.

Definition cache_ok (Q : list nat) (kn : list (nat * bool)) : Prop :=
  forall g, (known kn g = Some true -> empty_at g) /\ (known kn g = Some false -> ~ empty_at g \/ In g Q).

Definition grow (kn kn' : list (nat * bool)) : Prop := forall g, known kn g <> None -> known kn' g <> None.

(* The groups and rules being looked at, while rule b is. *)
Definition stack_ok (b : Z) (Q : list nat) (kn : list (nat * bool)) : Prop :=
  forall g, In g Q -> known kn g <> None /\
    ((exists c a, at_ A g = CRule c a /\ (c = b \/ leads R c b)) \/
     (exists z c a, at_ A z = CRule c a /\ under R z g /\ (In z Q \/ z = X))).

Definition fine (Q : list nat) (m m' : memory) : Prop :=
  st m' /\ cache_ok Q (m_known m') /\ grow (m_known m) (m_known m')
  /\ m_seen m' = m_seen m /\ m_queue m' = m_queue m.

Definition rule_claim (f : nat) : Prop := forall m Q z b a v vis m',
  st m -> at_ A z = CRule b a -> In z Q -> stack_ok b Q (m_known m) -> leads R cx b ->
  (forall g, In g Q -> under R z g -> z = X) -> cache_ok Q (m_known m) ->
  illusory f A m [] (inside z) = Ok (v, vis, m') ->
  (v = true <-> empty_at z) /\ fine Q m m'.

(* In a place of rule y that was not exchanged. *)
Definition ctx (y : nat) (b : Z) (Q : list nat) (m : memory) (n : nat) : Prop :=
  (exists a, at_ A y = CRule b a) /\ (In y Q \/ y = X) /\ stack_ok b Q (m_known m) /\
  (cx = b \/ leads R cx b) /\ (forall g, In g Q -> under R y g -> g < n) /\ cache_ok Q (m_known m) /\ st m.

Definition below (k : nat) (vis : list nat) : Prop := forall n, In n vis -> n < k.

Definition alts_claim (f : nat) : Prop := forall a base o m Q y b vis v vis' m',
  ctx y b Q m base -> (o = y \/ under R y o) -> laid_alts A base o a ->
  (forall n, under R o n -> raw_node n) -> below base vis ->
  illusory f A m vis (firsts base a) = Ok (v, vis', m') ->
  (v = true <-> meant R (TAlts a) []) /\ fine Q m m'.

Definition chain_claim (f : nat) : Prop := forall s n o m Q y b vis v vis' m',
  ctx y b Q m n -> (o = y \/ under R y o) -> at_ A n = head_cell s o ->
  (forall k, under R o k -> raw_node k) -> below n vis ->
  illusory f A m vis [n] = Ok (v, vis', m') ->
  (v = true <-> meant R (TParts s) []) /\ fine Q m m' /\ below (n + size_parts s) vis'.

Definition judge_ctx (y : nat) (b : Z) (Q : list nat) (m : memory) (n : nat) : Prop :=
  match at_ A n with
  | CPart (Ref c) _ _ _ => mentions R b c
  | CPart (Group _) _ _ _ => under R y n /\ (forall g, In g Q -> under R y g -> g < n)
       /\ (known (m_known m) n = None -> forall k, under R n k -> raw_node k)
  | _ => True
  end.

Lemma known_set : forall m g v k, known (m_known (set_known m g v)) k = if g =? k then Some v else known (m_known m) k.
Proof. reflexivity. Qed.

Lemma cache_set : forall Q m g v, cache_ok (g :: Q) (m_known m) -> (v = true <-> empty_at g) ->
  cache_ok Q (m_known (set_known m g v)).
Proof.
  intros Q m g v C E k. specialize (C k). rewrite known_set. destruct (Nat.eqb_spec g k) as [->|N].
  - split; intro H; injection H as ->; [now apply E|]. left. intro K. apply E in K. discriminate.
  - destruct C as [C1 C2]. split; [exact C1|]. intro H. destruct (C2 H) as [K|[K|K]]; auto.
Qed.

Lemma cache_start : forall Q m g, cache_ok Q (m_known m) -> cache_ok (g :: Q) (m_known (set_known m g false)).
Proof.
  intros Q m g C k. specialize (C k). rewrite known_set. destruct (Nat.eqb_spec g k) as [->|N].
  - split; intro H; [discriminate|]. right. now left.
  - destruct C as [C1 C2]. split; [exact C1|]. intro H. destruct (C2 H); auto. right. now right.
Qed.

Lemma grow_set : forall m g v, grow (m_known m) (m_known (set_known m g v)).
Proof. intros m g v k H. rewrite known_set. destruct (g =? k); [discriminate|exact H]. Qed.

Lemma grow_refl : forall kn, grow kn kn.
Proof. intros kn k H. exact H. Qed.

Lemma grow_trans : forall k1 k2 k3, grow k1 k2 -> grow k2 k3 -> grow k1 k3.
Proof. intros k1 k2 k3 G1 G2 g H. auto. Qed.

Lemma stack_grow : forall b Q kn kn', grow kn kn' -> stack_ok b Q kn -> stack_ok b Q kn'.
Proof.
  intros b Q kn kn' G S0 g H. destruct (S0 g H) as [K K1]. split; [now apply G|]. exact K1.
Qed.

Lemma not_under_rule : forall z c a y, at_ A z = CRule c a -> ~ under R y z.
Proof. intros z c a y E U. apply rule_owner in E. inversion U; unfold A in *; congruence. Qed.

Lemma fine_refl : forall Q m, st m -> cache_ok Q (m_known m) -> fine Q m m.
Proof. intros Q m H C. split; [exact H|]. split; [exact C|]. split; [apply grow_refl|]. auto. Qed.

Lemma fine_trans : forall Q m1 m2 m3, fine Q m1 m2 -> fine Q m2 m3 -> fine Q m1 m3.
Proof.
  intros Q m1 m2 m3 [_ [_ [G1 [S1 Q1]]]] [F [C [G2 [S2 Q2]]]]. split; [exact F|]. split; [exact C|].
  split; [now apply (grow_trans _ (m_known m2))|]. split; congruence.
Qed.

Lemma ctx_fine : forall y b Q m m' n n', ctx y b Q m n -> fine Q m m' -> n <= n' -> ctx y b Q m' n'.
Proof.
  intros y b Q m m' n n' [H1 [H2 [H3 [H4 [H5 [H6 H7]]]]]] [F1 [F2 [F3 _]]] L.
  split; [exact H1|]. split; [exact H2|]. split; [now apply (stack_grow _ _ (m_known m))|].
  split; [exact H4|]. split; [|auto]. intros g G U. specialize (H5 g G U). lia.
Qed.

Lemma rule_node : forall c z, rule_of A c = Some z -> exists a, at_ A z = CRule c a /\ body R c = Some a.
Proof. intros c z H. destruct (rule_of_some _ _ _ H) as [a [B E]]. eauto. Qed.

Lemma empty_ref : forall c, meant R (TElem (Ref c)) [] <-> exists z, rule_of A c = Some z /\ empty_at z.
Proof.
  intro c. split; intro H.
  - inversion H; subst. destruct (rule_exists R c a) as [z [RO EZ]]; auto. exists z. split; [exact RO|].
    exists a. split; [|assumption]. unfold alts_at. fold A. unfold A. now rewrite EZ.
  - destruct H as [z [RO [a [AL M]]]]. destruct (rule_node _ _ RO) as [a' [E B]].
    unfold alts_at in AL. fold A in AL. rewrite E in AL. injection AL as <-. now apply (mean_rule R c a').
Qed.

Lemma judge_ok : forall f, rule_claim f -> alts_claim f -> forall m Q y b n e r s o v m',
  (exists a, at_ A y = CRule b a) -> (In y Q \/ y = X) -> stack_ok b Q (m_known m) ->
  (cx = b \/ leads R cx b) -> cache_ok Q (m_known m) -> st m ->
  at_ A n = CPart e r s o -> judge_ctx y b Q m n ->
  judge A (illusory f A) m n = Ok (v, m') ->
  (v = true <-> empty_rep (reps n) = true \/ meant R (TElem e) []) /\ fine Q m m'.
Proof.
  intros f PR PA m Q y b n e r s o v m' HY HQ SK RX CO ST E JC H.
  unfold judge in H. destruct ST as [ST1 [ST2 ST3]]. rewrite ST3, E in H.
  assert (ST : st m) by (split; auto).
  destruct (empty_rep (reps n)) eqn:ER.
  { injection H as <- <-. split; [tauto|]. now apply fine_refl. }
  assert (NE : forall P, (false = true \/ P) <-> P) by (intro P; split; [intros [K|K]; [discriminate|exact K]|auto]).
  rewrite NE. unfold judge_ctx in JC. rewrite E in JC.
  destruct e as [t|c|a].
  - injection H as <- <-. split; [|now apply fine_refl]. split; [discriminate|]. intro K. inversion K.
  - rewrite empty_ref. destruct (rule_of A c) as [z|] eqn:RO.
    + assert (EZ : forall P : nat -> Prop, (exists z0, Some z = Some z0 /\ P z0) <-> P z).
      { intro P. split; [intros [z0 [Q0 K]]; now injection Q0 as <-|eauto]. }
      rewrite EZ. destruct (rule_node _ _ RO) as [a [Az Bz]].
      assert (LX : leads R cx c).
      { destruct RX as [<-|RX]; [now apply t_step|]. eapply t_trans; [exact RX|]. now apply t_step. }
      destruct (known (m_known m) z) as [w|] eqn:KN.
      * injection H as <- <-. split; [|now apply fine_refl]. destruct (CO z) as [C1 C2].
        destruct w; [split; auto|]. split; [discriminate|]. intro EM. exfalso.
        destruct (C2 KN) as [N|I1]; [contradiction|]. destruct (SK z I1) as [_ K].
        assert (L : leads R c c).
        { destruct K as [[c0 [a0 [E0 K]]]|[z0 [c0 [a0 [E0 [U0 _]]]]]]; [|now apply (not_under_rule z c a z0) in U0].
          rewrite Az in E0. injection E0 as <- <-.
          destruct K as [->|L]; [now apply t_step|]. eapply t_trans; [exact L|]. now apply t_step. }
        destruct EM as [a' [AL M]]. unfold alts_at in AL. fold A in AL. rewrite Az in AL. injection AL as <-.
        now apply (firm_full R a (FIRM c a Bz L)).
      * rewrite ST2 in H.
        destruct (illusory f A (set_known m z false) [] (inside z)) as [[[v0 vis0] m0]| | |] eqn:D; try discriminate.
        cbn [bind] in H. injection H as <- <-.
        assert (SK' : stack_ok c (z :: Q) (m_known (set_known m z false))).
        { intros g [<-|I1].
          - split; [rewrite known_set, Nat.eqb_refl; discriminate|]. left. exists c, a. auto.
          - destruct (SK g I1) as [K0 K1]. split; [now apply grow_set|].
            destruct K1 as [[c0 [a0 [E0 K]]]|[z0 [c0 [a0 [E0 [U0 K]]]]]].
            + left. exists c0, a0. split; [exact E0|]. right. destruct K as [->|L]; [now apply t_step|].
              eapply t_trans; [exact L|]. now apply t_step.
            + right. exists z0, c0, a0. split; [exact E0|]. split; [exact U0|].
              destruct K as [K|K]; [left; now right|now right]. }
        assert (NU : forall g, In g (z :: Q) -> under R z g -> z = X).
        { intros g [<-|I1] U; [apply under_lt in U; lia|].
          destruct (SK g I1) as [_ [[c0 [a0 [E0 K]]]|[z0 [c0 [a0 [E0 [U0 K]]]]]]].
          - now apply (not_under_rule g c0 a0 z) in U.
          - assert (z0 = z) by (apply (under_rule R z0 c0 a0 z c a g); auto). subst z0.
            destruct K as [K|K]; [|exact K]. destruct (SK z K) as [K0 _]. congruence. }
        assert (ST' : st (set_known m z false)) by (split; auto).
        destruct (PR (set_known m z false) (z :: Q) z c a v0 vis0 m0 ST' Az (or_introl eq_refl) SK' LX NU
                    (cache_start Q m z CO) D) as [V F].
        split; [exact V|]. destruct F as [F1 [F2 [F3 F4]]]. split; [exact F1|]. split; [now apply cache_set|].
        split; [|exact F4]. eapply grow_trans; [apply (grow_set m z false)|]. eapply grow_trans; [exact F3|]. apply grow_set.
    + injection H as <- <-. split; [|now apply fine_refl]. split; [discriminate|]. intros [z [K _]]. discriminate.
  - destruct JC as [UN [QN RW]].
    assert (EG : meant R (TElem (Group a)) [] <-> empty_at n).
    { unfold empty_at, alts_at. fold A. rewrite E. split.
      - intro K. inversion K; subst. eauto.
      - intros [a0 [Q0 K]]. injection Q0 as <-. now constructor. }
    rewrite EG. destruct (known (m_known m) n) as [w|] eqn:KN.
    + injection H as <- <-. split; [|now apply fine_refl]. destruct (CO n) as [C1 C2].
      destruct w; [split; auto|]. split; [discriminate|]. intro EM. exfalso.
      destruct (C2 KN) as [N|I1]; [contradiction|]. specialize (QN n I1 UN). lia.
    + rewrite ST2, (GROUPS _ _ _ _ _ E) in H.
      destruct (illusory f A (set_known m n false) [] (inner A n)) as [[[v0 vis0] m0]| | |] eqn:D; try discriminate.
      cbn [bind] in H. injection H as <- <-.
      assert (AL : alts_at R n = Some a) by (unfold alts_at; fold A; now rewrite E).
      destruct (alts_laid R _ _ AL) as [LA IA]. fold A in LA, IA. rewrite IA in D.
      destruct (PA a (S n) n (set_known m n false) (n :: Q) y b [] v0 vis0 m0) as [V F]; auto.
      { split; [exact HY|]. split; [destruct HQ; [left; now right|now right]|]. split.
        - intros g [<-|I1].
          + split; [rewrite known_set, Nat.eqb_refl; discriminate|]. right. destruct HY as [ay HY].
            exists y, b, ay. split; [exact HY|]. split; [exact UN|]. destruct HQ; [left; now right|now right].
          + destruct (SK g I1) as [K0 K1]. split; [now apply grow_set|].
            destruct K1 as [K|[z0 [c0 [a0 [E0 [U0 K]]]]]]; [now left|].
            right. exists z0, c0, a0. split; [exact E0|]. split; [exact U0|].
            destruct K as [K|K]; [left; now right|now right].
        - split; [exact RX|]. split; [|split; [now apply cache_start|split; auto]].
          intros g [<-|I1] U; [lia|]. specialize (QN g I1 U). lia. }
      { intros k []. }
      assert (V' : v0 = true <-> empty_at n).
      { rewrite V. unfold empty_at. rewrite AL. split; [eauto|]. intros [a0 [Q0 K]]. now injection Q0 as <-. }
      split; [exact V'|]. destruct F as [F1 [F2 [F3 F4]]]. split; [exact F1|]. split; [now apply cache_set|].
      split; [|exact F4]. eapply grow_trans; [apply (grow_set m n false)|]. eapply grow_trans; [exact F3|]. apply grow_set.
Qed.

(* One node of a sequence that was not exchanged. *)
Lemma scan_step : forall f, rule_claim f -> alts_claim f -> chain_claim f ->
  forall s n o m Q y b vis l res,
  ctx y b Q m n -> (o = y \/ under R y o) -> at_ A n = head_cell s o ->
  (forall k, under R o k -> raw_node k) -> below n vis ->
  scan A (illusory f A) m vis (n :: l) = Ok res ->
  exists m2 vis2, fine Q m m2 /\ below (n + size_parts s) vis2 /\
    ((meant R (TParts s) [] /\ res = (true, vis2, m2)) \/
     (~ meant R (TParts s) [] /\ scan A (illusory f A) m2 vis2 l = Ok res)).
Proof.
  intros f PR PA PC s n o m Q y b vis l res CX OY E RW BV H. cbn [scan] in H.
  pose proof CX as CX0. destruct CX0 as [HY [HQ [SK [RX [QN [CO ST]]]]]].
  unfold is_end in H. destruct s as [|e r s]; cbn [head_cell] in E; rewrite E in H.
  { injection H as <-. exists m, vis. split; [now apply fine_refl|]. split.
    - intros k K. specialize (BV k K). cbn [size_parts]. lia.
    - left. split; [constructor|reflexivity]. }
  assert (ON : owner A n = Some o) by (unfold owner; now rewrite E).
  assert (UN : under R y n) by (destruct OY as [->|U]; [now apply under_in|now apply (under_up R y n o)]).
  assert (JC : judge_ctx y b Q m n).
  { unfold judge_ctx. rewrite E. destruct e as [t|c|a]; auto.
    - destruct HY as [ay HY]. apply (under_mentions R y b ay n c r s o); auto. now apply (rule_body R b ay y).
    - split; [exact UN|]. split; [exact QN|]. intros _ k U. apply RW.
      apply (under_trans R o n k); [now apply under_in|exact U]. }
  destruct (judge A (illusory f A) m n) as [[v m1]| | |] eqn:J; try discriminate. cbn [bind] in H.
  destruct (judge_ok f PR PA m Q y b n e r s o v m1 HY HQ SK RX CO ST E JC J) as [V F1].
  assert (RN : raw_node n) by (apply RW; now apply under_in). unfold raw_node in RN. rewrite E in RN.
  destruct RN as [LN RP]. rewrite RP, <- item_empty in V.
  pose proof (size_elem_pos e) as SE.
  destruct v.
  - assert (NV : mem n vis = false).
    { destruct (mem n vis) eqn:M; [|reflexivity]. exfalso.
      assert (K : forall l, mem n l = true -> In n l).
      { induction l0 as [|x l0 IH]; cbn [mem]; [discriminate|]. intro K. apply orb_true_iff in K.
        destruct K as [K|K]; [left; now apply Nat.eqb_eq|right; auto]. }
      apply K in M. specialize (BV n M). lia. }
    rewrite NV in H.
    assert (ST1 : m_links m1 = links) by (destruct F1 as [[K _] _]; exact K). rewrite ST1, LN in H.
    destruct (illusory f A m1 (n :: vis) [after A n]) as [[[v2 vis2] m2]| | |] eqn:D; try discriminate.
    cbn [bind] in H. destruct (part_cell R _ _ _ _ _ E) as [_ [_ HC]]. fold A in HC.
    pose proof (after_pos R _ _ _ _ _ E) as LP. fold A in LP.
    destruct (PC s (after A n) o m1 Q y b (n :: vis) v2 vis2 m2) as [V2 [F2 B2]]; auto.
    { apply (ctx_fine y b Q m m1 n); auto. lia. }
    { intros k [<-|K]; [exact LP|]. specialize (BV k K). lia. }
    assert (B3 : below (n + size_parts (Then e r s)) vis2).
    { intros k K. specialize (B2 k K). unfold after in B2. rewrite E in B2. cbn [size_parts]. lia. }
    exists m2, vis2. split; [now apply (fine_trans Q m m1)|]. split; [exact B3|].
    rewrite parts_empty. destruct v2.
    + injection H as <-. left. split; [|reflexivity]. split; [now apply V|now apply V2].
    + right. split; [|exact H]. intros [_ K]. apply V2 in K. discriminate.
  - exists m1, vis. split; [exact F1|]. split.
    + intros k K. specialize (BV k K). lia.
    + right. split; [|exact H]. rewrite parts_empty. intros [K _]. apply V in K. discriminate.
Qed.

Lemma chain_next : forall f, rule_claim f -> alts_claim f -> chain_claim f -> chain_claim (S f).
Proof.
  intros f PR PA PC s n o m Q y b vis v vis' m' CX OY E RW BV H. cbn [illusory] in H.
  destruct (scan_step f PR PA PC s n o m Q y b vis [] (v, vis', m') CX OY E RW BV H)
    as [m2 [vis2 [F [B [[M K]|[M K]]]]]].
  - injection K as -> -> ->. split; [tauto|]. auto.
  - cbn [scan] in K. injection K as <- <- <-. split; [|auto]. split; [discriminate|contradiction].
Qed.

Lemma scan_alts : forall f, rule_claim f -> alts_claim f -> chain_claim f ->
  forall a base o m Q y b vis v vis' m',
  ctx y b Q m base -> (o = y \/ under R y o) -> laid_alts A base o a ->
  (forall n, under R o n -> raw_node n) -> below base vis ->
  scan A (illusory f A) m vis (firsts base a) = Ok (v, vis', m') ->
  (v = true <-> meant R (TAlts a) []) /\ fine Q m m'.
Proof.
  intros f PR PA PC. induction a as [|s a IH]; intros base o m Q y b vis v vis' m' CX OY LA RW BV H;
    cbn [firsts laid_alts] in *.
  - cbn [scan] in H. injection H as <- <- <-. destruct CX as [_ [_ [_ [_ [_ [CO ST]]]]]].
    split; [|now apply fine_refl]. split; [discriminate|]. intro K. inversion K.
  - destruct (is_done s) eqn:D.
    + destruct (IH base o m Q y b vis v vis' m' CX OY LA RW BV H) as [V F]. split; [|exact F].
      rewrite V. split; intro K; [now apply mean_other|]. inversion K; subst; [|assumption]. now destruct s.
    + destruct LA as [E [_ LA]].
      destruct (scan_step f PR PA PC s base o m Q y b vis _ (v, vis', m') CX OY E RW BV H)
        as [m2 [vis2 [F [B [[M K]|[M K]]]]]].
      * injection K as -> -> ->. split; [|exact F]. split; [|reflexivity]. intros _. apply mean_this; [|exact M].
        now intros ->.
      * assert (CX2 : ctx y b Q m2 (base + size_parts s)) by (apply (ctx_fine y b Q m m2 base); auto; lia).
        destruct (IH _ o m2 Q y b vis2 v vis' m' CX2 OY LA RW B K) as [V F2].
        split; [|now apply (fine_trans Q m m2)]. rewrite V. split; intro KK; [now apply mean_other|].
        inversion KK; subst; [contradiction|assumption].
Qed.

(* The links of a rule that has been exchanged. *)
Definition rule_ctx (z : nat) (b : Z) (Q : list nat) (m : memory) : Prop :=
  (exists a, at_ A z = CRule b a) /\ In z Q /\ stack_ok b Q (m_known m) /\ (cx = b \/ leads R cx b) /\
  cache_ok Q (m_known m) /\ st m.

Lemma rule_ctx_fine : forall z b Q m m', rule_ctx z b Q m -> fine Q m m' -> rule_ctx z b Q m'.
Proof.
  intros z b Q m m' [H1 [H2 [H3 [H4 [H5 H6]]]]] [F1 [F2 [F3 _]]].
  split; [exact H1|]. split; [exact H2|]. split; [now apply (stack_grow _ _ (m_known m))|]. auto.
Qed.

Definition done_claim (f : nat) : Prop := forall z b m Q vis l v vis' m',
  done_rule z b -> rule_ctx z b Q m -> incl l (inside z) ->
  illusory f A m vis l = Ok (v, vis', m') ->
  (v = true -> exists n, In n (inside z) /\ is_end A n = true) /\
  ((exists n, In n l /\ is_end A n = true) -> v = true) /\ fine Q m m'.

Lemma done_next : forall f, rule_claim f -> alts_claim f -> done_claim f -> done_claim (S f).
Proof.
  intros f PR PA PD z b m Q vis l v vis' m' DR RC IN H. cbn [illusory] in H.
  revert m vis RC H. induction l as [|n l IH]; intros m vis RC H; cbn [scan] in H.
  - injection H as <- <- <-. split; [discriminate|]. split; [intros [n [[] _]]|].
    destruct RC as [_ [_ [_ [_ [CO ST]]]]]. now apply fine_refl.
  - assert (IN' : incl l (inside z)) by (intros k K; apply IN; now right).
    assert (In1 : In n (inside z)) by (apply IN; now left).
    destruct (is_end A n) eqn:EN.
    { injection H as <- <- <-. split; [intros _; eauto|]. split; [reflexivity|].
      destruct RC as [_ [_ [_ [_ [CO ST]]]]]. now apply fine_refl. }
    assert (EX : (exists k, In k (n :: l) /\ is_end A k = true) <-> (exists k, In k l /\ is_end A k = true)).
    { split; intros [k [K1 K2]]; exists k; (split; [|exact K2]); [destruct K1 as [<-|K1]; [congruence|exact K1]|now right]. }
    rewrite EX. clear EX.
    destruct (judge A (illusory f A) m n) as [[w m1]| | |] eqn:J; try discriminate. cbn [bind] in H.
    destruct (dr_kind _ _ DR n In1) as [LF|LF]; [|congruence].
    destruct (leaf_cell R _ LF) as [e [r [s [o [E NG]]]]]. fold A in E.
    pose proof RC as RC0. destruct RC0 as [HZ [HQ [SK [RX [CO ST]]]]].
    assert (JC : judge_ctx z b Q m n).
    { unfold judge_ctx. rewrite E. destruct e as [t|c|a]; auto; [|easy].
      apply (dr_refs _ _ DR n c In1 LF). unfold elem_at. now rewrite E. }
    destruct (judge_ok f PR PA m Q z b n e r s o w m1 HZ (or_introl HQ) SK RX CO ST E JC J) as [V F1].
    pose proof (rule_ctx_fine _ _ _ _ _ RC F1) as RC1.
    destruct w.
    + destruct (mem n vis).
      * destruct (IH IN' m1 vis RC1 H) as [K1 [K2 K3]]. split; [exact K1|]. split; [exact K2|].
        now apply (fine_trans Q m m1).
      * assert (LI : incl (m_links m1 n) (inside z)).
        { destruct F1 as [[-> _] _]. apply (dr_next _ _ DR n In1 LF). unfold elem_at. rewrite E. now apply V. }
        destruct (illusory f A m1 (n :: vis) (m_links m1 n)) as [[[v2 vis2] m2]| | |] eqn:D; try discriminate.
        cbn [bind] in H.
        destruct (PD z b m1 Q (n :: vis) _ v2 vis2 m2 DR RC1 LI D) as [D1 [D2 D3]].
        pose proof (rule_ctx_fine _ _ _ _ _ RC1 D3) as RC2.
        destruct v2.
        -- injection H as <- <- <-. split; [exact D1|]. split; [reflexivity|]. now apply (fine_trans Q m m1).
        -- destruct (IH IN' m2 vis2 RC2 H) as [K1 [K2 K3]]. split; [exact K1|]. split; [exact K2|].
           apply (fine_trans Q m m1); auto. now apply (fine_trans Q m1 m2).
    + destruct (IH IN' m1 vis RC1 H) as [K1 [K2 K3]]. split; [exact K1|]. split; [exact K2|].
      now apply (fine_trans Q m m1).
Qed.

(* The rule that is being exchanged, when it is met again. *)
Lemma scan_firm : forall f, rule_claim f -> alts_claim f -> forall l m Q vis v vis' m',
  rule_ctx X cx Q m ->
  (forall n, In n l -> exists e r s, at_ A n = CPart e r s X /\ is_leaf A n = true /\ ~ meant R (TItem e r) []) ->
  scan A (illusory f A) m vis l = Ok (v, vis', m') -> v = false /\ fine Q m m'.
Proof.
  intros f PR PA. induction l as [|n l IH]; intros m Q vis v vis' m' RC NL H; cbn [scan] in H.
  - injection H as <- <- <-. split; [reflexivity|]. destruct RC as [_ [_ [_ [_ [CO ST]]]]]. now apply fine_refl.
  - destruct (NL n (or_introl eq_refl)) as [e [r [s [E [LF NE]]]]].
    assert (EN : is_end A n = false) by (unfold is_end; now rewrite E). rewrite EN in H.
    destruct (judge A (illusory f A) m n) as [[w m1]| | |] eqn:J; try discriminate. cbn [bind] in H.
    pose proof RC as RC0. destruct RC0 as [HZ [HQ [SK [RX [CO ST]]]]].
    assert (U : under R X n) by (apply under_in; unfold owner; fold A; now rewrite E).
    assert (JC : judge_ctx X cx Q m n).
    { unfold judge_ctx. rewrite E. destruct e as [t|c|a]; auto.
      - apply (under_mentions R X cx ax n c r s X); auto. now apply (rule_body R cx ax X).
      - unfold is_leaf in LF. now rewrite E in LF. }
    destruct (judge_ok f PR PA m Q X cx n e r s X w m1 HZ (or_introl HQ) SK RX CO ST E JC J) as [V F1].
    pose proof (rule_ctx_fine _ _ _ _ _ RC F1) as RC1.
    rewrite (CURREP n e r s X U E), <- item_empty in V.
    destruct w; [exfalso; now apply NE, V|].
    destruct (IH m1 Q vis v vis' m' RC1) as [K1 K2]; auto.
    { intros k K. apply NL. now right. }
    split; [exact K1|]. now apply (fine_trans Q m m1).
Qed.

Hypothesis FULL : forall b a, body R b = Some a -> full_alts a.

Lemma firm_first : forall a s, firm R a -> full_alts a -> alternative s a ->
  match s with Done => True | Then (Group _) _ _ => False | Then e r _ => ~ meant R (TItem e r) [] end.
Proof.
  induction a as [|s' a IH]; intros s F FU H; cbn [firm full_alts alternative] in *; [easy|].
  destruct F as [F1 F2], FU as [N [FU1 FU2]]. destruct H as [->|H]; [|now apply IH].
  destruct s' as [|e r s']; [exact Logic.I|]. destruct e; try exact F1;
    intro M; apply F1; now apply meant_says in M.
Qed.

Lemma rule_next : forall f, rule_claim f -> alts_claim f -> chain_claim f -> done_claim f -> rule_claim (S f).
Proof.
  intros f PR PA PC PD m Q z b a v vis m' ST AZ IQ SK LX NU CO H.
  assert (BZ : body R b = Some a) by (now apply (rule_body R b a z)).
  assert (AL : alts_at R z = Some a) by (unfold alts_at; fold A; now rewrite AZ).
  assert (RC : rule_ctx z b Q m).
  { split; [eauto|]. split; [exact IQ|]. split; [exact SK|]. split; [now right|]. auto. }
  destruct (Nat.eq_dec z X) as [->|NX].
  - assert (Hb : b = cx /\ a = ax) by (rewrite AX in AZ; now injection AZ as -> ->). destruct Hb as [-> ->].
    rewrite CURRENT in H. cbn [illusory] in H.
    destruct (scan_firm f PR PA (inner A X) m Q [] v vis m' RC) as [K1 K2]; auto.
    { intros n I1. destruct (inner_in R _ _ I1) as [a' [e [r [s [AL' [En [ALT _]]]]]]]. fold A in En.
      rewrite AL in AL'. injection AL' as <-.
      pose proof (firm_first ax _ (FIRM cx ax BZ LX) (FULL cx ax BZ) ALT) as FF.
      exists e, r, s. split; [exact En|]. unfold is_leaf. rewrite En. destruct e; try (split; [reflexivity|exact FF]). easy. }
    split; [|exact K2]. rewrite K1. split; [discriminate|]. intros [a' [AL' M]]. rewrite AL in AL'. injection AL' as <-.
    exfalso. now apply (firm_full R ax (FIRM cx ax BZ LX)).
  - destruct (OTHERS z b a AZ NX) as [[IZ RW]|DR].
    + destruct (alts_laid R _ _ AL) as [LA IA]. fold A in LA, IA. rewrite IZ, IA in H. cbn [illusory] in H.
      assert (CX : ctx z b Q m (S z)).
      { split; [eauto|]. split; [now left|]. split; [exact SK|]. split; [now right|]. split; [|auto].
        intros g G U. now apply NU in U. }
      destruct (scan_alts f PR PA PC a (S z) z m Q z b [] v vis m' CX (or_introl eq_refl) LA RW) as [V F]; auto.
      { intros k []. }
      split; [|exact F]. rewrite V. unfold empty_at. rewrite AL. split; [eauto|].
      intros [a' [Q0 M]]. now injection Q0 as <-.
    + destruct (done_next f PR PA PD z b m Q [] (inside z) v vis m' DR RC (incl_refl _) H) as [K1 [K2 K3]].
      split; [|exact K3]. rewrite <- (dr_end _ _ DR). split; assumption.
Qed.

Lemma all_claims : forall f, rule_claim f /\ alts_claim f /\ chain_claim f /\ done_claim f.
Proof.
  induction f as [|f [PR [PA [PC PD]]]].
  - split; [|split; [|split]]; red; intros; discriminate.
  - split; [now apply rule_next|]. split; [|split; [now apply chain_next|now apply done_next]].
    intros a base o m Q y b vis v vis' m'. cbn [illusory]. now apply scan_alts.
Qed.

(* Outside of any search, in the rule that is being exchanged. *)
Lemma judge_exact : forall f m n e r s o v m', st m -> cache_ok [] (m_known m) ->
  at_ A n = CPart e r s o -> under R X n ->
  match e with Group _ => known (m_known m) n = None -> forall k, under R n k -> raw_node k | _ => True end ->
  judge A (illusory f A) m n = Ok (v, m') ->
  (v = true <-> meant R (TItem e r) []) /\ fine [] m m'.
Proof.
  intros f m n e r s o v m' ST CO E U RW H. destruct (all_claims f) as [PR [PA _]].
  destruct (judge_ok f PR PA m [] X cx n e r s o v m') as [V F]; auto.
  - eauto.
  - intros g [].
  - unfold judge_ctx. rewrite E. destruct e as [t|c|a]; auto.
    + apply (under_mentions R X cx ax n c r s o); auto. now apply (rule_body R cx ax X).
    + split; [exact U|]. split; [intros g []|exact RW].
  - split; [|exact F]. rewrite V, (CURREP n e r s o U E). symmetry. apply item_empty.
Qed.

(* A group that was judged is known, or can be left out anyway. *)
Lemma judge_known : forall f m n a r s o v m', st m -> at_ A n = CPart (Group a) r s o -> under R X n ->
  judge A (illusory f A) m n = Ok (v, m') -> empty_rep r = true \/ known (m_known m') n <> None.
Proof.
  intros f m n a r s o v m' [_ [_ ST3]] E U H. unfold judge in H. rewrite ST3, (CURREP _ _ _ _ _ U E), E in H.
  destruct (empty_rep r); [now left|right].
  destruct (known (m_known m) n) eqn:KN; [injection H as <- <-; congruence|].
  destruct (illusory f A (set_known m n false) [] (m_inner m n)) as [[[v0 vis0] m0]| | |]; try discriminate.
  cbn [bind] in H. injection H as <- <-. rewrite known_set, Nat.eqb_refl. discriminate.
Qed.

End Empty.
