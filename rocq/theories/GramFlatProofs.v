(* The exchange gives every node the links that walking would find. *)
From Coq Require Import ZArith List Bool Lia Relations.
From Verif Require Import NetModel GramModel GramSpec GramLayProofs GramPathProofs GramEmptyProofs.
Import ListNotations.
Local Open Scope nat_scope.

Lemma mem_in : forall n l, mem n l = true <-> In n l.
Proof.
  induction l as [|x l IH]; cbn [mem In]; [split; [discriminate|easy]|].
  rewrite orb_true_iff, Nat.eqb_eq, IH. tauto.
Qed.

Lemma mem_out : forall n l, mem n l = false <-> ~ In n l.
Proof. intros n l. rewrite <- mem_in. destruct (mem n l); split; congruence. Qed.

Lemma append_in : forall A l n l', append A l n = Ok l' -> forall k, In k l' <-> In k l \/ k = n.
Proof.
  intros A l n l' H k. unfold append in H. destruct (mem n l) eqn:M.
  - injection H as <-. apply mem_in in M. split; [tauto|]. intros [K| ->]; auto.
  - destruct (is_end A n && existsb (is_end A) l); [discriminate|]. injection H as <-.
    rewrite in_app_iff. cbn [In]. split; intros [K|K]; auto. destruct K as [->|[]]. auto.
Qed.

Section Flat.
Variable R : grammar.
Let A := arena R.
Hypothesis NAMES : NoDup (map fst R).
Hypothesis FIRM : forall b a, body R b = Some a -> leads R b b -> firm R a.
Hypothesis FULL : forall b a, body R b = Some a -> full_alts a.
Variable X : nat.
Variable cx : Z.
Variable ax : alts.
Hypothesis AX : at_ A X = CRule cx ax.

(* Without leaving p out. *)
Inductive avoids (p : nat) : nat -> nat -> Prop :=
| av_leaf u : is_leaf A u = true -> avoids p u u
| av_end u o b a : at_ A u = CEnd o -> at_ A o = CRule b a -> avoids p u u
| av_group u a r s o n m : at_ A u = CPart (Group a) r s o -> In n (inner A u) -> avoids p n m -> avoids p u m
| av_next u o a r s o' m : at_ A u = CEnd o -> at_ A o = CPart (Group a) r s o' ->
    avoids p (after A o) m -> avoids p u m
| av_again u o a r s o' n m : at_ A u = CEnd o -> at_ A o = CPart (Group a) r s o' ->
    loops r = true -> In n (inner A o) -> avoids p n m -> avoids p u m
| av_skip u e r s o m : at_ A u = CPart e r s o -> u <> p -> meant R (TItem e r) [] ->
    avoids p (after A u) m -> avoids p u m.

Lemma enters_avoids : forall p u m, enters R u m -> avoids p u m \/ avoids p (after A p) m.
Proof.
  intro p. induction 1 as [u L|u o b a E O|u a r s o n m E I1 H IH|u o a r s o' m E O H IH
                 |u o a r s o' n m E O L I1 H IH|u e r s o m E M H IH].
  - left. now apply av_leaf.
  - left. now apply (av_end p u o b a).
  - destruct IH as [IH|IH]; [left|now right]. now apply (av_group p u a r s o n).
  - destruct IH as [IH|IH]; [left|now right]. now apply (av_next p u o a r s o').
  - destruct IH as [IH|IH]; [left|now right]. now apply (av_again p u o a r s o' n).
  - destruct IH as [IH|IH]; [|now right]. destruct (Nat.eq_dec u p) as [->|N]; [now right|].
    left. now apply (av_skip p u e r s o).
Qed.

Lemma enters_trans : forall u y m, enters R u y -> enters R y m -> enters R u m.
Proof.
  intros u y m H. induction H as [u L|u o b a E O|u a r s o n y E I1 H IH|u o a r s o' y E O H IH
                 |u o a r s o' n y E O L I1 H IH|u e r s o y E M H IH]; intro K; auto.
  - now apply (en_group R u a r s o n); auto.
  - now apply (en_next R u o a r s o'); auto.
  - now apply (en_again R u o a r s o' n); auto.
  - now apply (en_skip R u e r s o); auto.
Qed.

Lemma under_same : forall y n k, owner A n = owner A k -> under R y n -> under R y k.
Proof.
  intros y n k E U. inversion U; subst.
  - apply under_in. unfold A in E. congruence.
  - apply (under_up R y k g); auto. unfold A in E. congruence.
Qed.

Lemma enters_under : forall y u m, enters R u m -> (exists b a, at_ A y = CRule b a) -> under R y u ->
  under R y m /\ (is_leaf A m = true \/ exists b a, at_ A m = CEnd y /\ at_ A y = CRule b a).
Proof.
  intros y u m H Y. induction H as [u L|u o b a E O|u a r s o n m E I1 H IH|u o a r s o' m E O H IH
                 |u o a r s o' n m E O L I1 H IH|u e r s o m E M H IH]; intro U.
  - auto.
  - split; [exact U|]. right. fold A in E, O. exists b, a.
    assert (o = y); [|now subst o].
    destruct (under_group R _ _ U o) as [K|K]; auto.
    { unfold owner. fold A. now rewrite E. }
    exfalso. apply rule_owner in O. inversion K; unfold A in *; congruence.
  - apply IH. apply (under_trans R y u n U). apply under_in. now apply inner_under.
  - apply IH. fold A in E, O. assert (Uo : under R y o).
    { destruct (under_group R _ _ U o) as [K|K]; auto.
      { unfold owner. fold A. now rewrite E. } subst o. destruct Y as [b [a0 Y]]. congruence. }
    apply (under_same y o); [|exact Uo]. unfold A. rewrite (after_owner R o (Group a) r s o' O). unfold owner. fold A. now rewrite O.
  - apply IH. fold A in E, O. assert (Uo : under R y o).
    { destruct (under_group R _ _ U o) as [K|K]; auto.
      { unfold owner. fold A. now rewrite E. } subst o. destruct Y as [b [a0 Y]]. congruence. }
    apply (under_trans R y o n Uo). apply under_in. now apply inner_under.
  - apply IH. fold A in E. apply (under_same y u); [|exact U].
    unfold A. rewrite (after_owner R u e r s o E). unfold owner. fold A. now rewrite E.
Qed.

Definition settled (m : memory) (g : nat) : Prop :=
  known (m_known m) g <> None \/ exists e r s o, at_ A g = CPart e r s o /\ empty_rep r = true.

(* All groups around n have been judged. *)
Definition calm (m : memory) (n : nat) : Prop := forall g, under R X g -> under R g n -> settled m g.

Definition complete (m : memory) (n : nat) : Prop := forall k, In k (m_links m n) <-> flat R n k.

Record inv (p : nat) (m : memory) : Prop := Inv {
  iv_groups : forall g a r s o, at_ A g = CPart (Group a) r s o -> m_inner m g = inner A g;
  iv_current : m_inner m X = inner A X;
  iv_reps : forall n e r s o, under R X n -> at_ A n = CPart e r s o -> m_rep m n = r;
  iv_rules : forall z b a, at_ A z = CRule b a -> m_rep m z = rule_rep a;
  iv_others : forall z b a, at_ A z = CRule b a -> z <> X ->
    (m_inner m z = inner A z /\ forall n, under R z n -> raw_node R (m_links m) (m_rep m) n)
    \/ done_rule R (m_links m) (m_inner m) (m_rep m) z b;
  iv_glinks : forall g a r s o, under R X g -> at_ A g = CPart (Group a) r s o -> m_links m g = [after A g];
  iv_links : forall n, under R X n -> is_leaf A n = true -> n <> p ->
    m_links m n = [after A n] \/ (complete m n /\ calm m n /\ forall k, In k (m_links m n) -> calm m k);
  iv_p : calm m p;
  iv_cache : cache_ok R [] (m_known m);
  iv_seen : forall n, In n (m_seen m) -> is_leaf A n = true /\ under R X n;
  iv_nodup : NoDup (m_seen m)
}.

Definition is_p (p : nat) : Prop := p = X \/ (is_leaf A p = true /\ under R X p).

(* What the joining of nodes to p does.  Only what satisfies S becomes a link,
   and only groups that satisfy G may be left unjudged around a node that is
   seen first. *)
Record step (p : nat) (S0 G : nat -> Prop) (m m' : memory) : Prop := Step {
  sp_inv : inv p m';
  sp_inner : m_inner m' = m_inner m;
  sp_rep : m_rep m' = m_rep m;
  sp_links : forall n, n <> p -> m_links m' n = m_links m n;
  sp_mono : incl (m_links m p) (m_links m' p);
  sp_sound : forall k, In k (m_links m' p) -> In k (m_links m p) \/ S0 k;
  sp_grow : grow (m_known m) (m_known m');
  sp_queue : exists new, m_queue m' = m_queue m ++ new /\ m_seen m' = rev new ++ m_seen m;
  sp_seen : forall n, In n (m_seen m') -> In n (m_seen m) \/ (forall g, under R X g -> under R g n -> settled m' g \/ G g);
  sp_all : forall k, In k (m_links m' p) -> is_leaf A k = true -> In k (m_links m p) \/ In k (m_seen m')
}.

Lemma settled_grow : forall m m' g, grow (m_known m) (m_known m') -> settled m g -> settled m' g.
Proof. intros m m' g G [H|H]; [left; now apply G|now right]. Qed.

Lemma calm_grow : forall m m' n, grow (m_known m) (m_known m') -> calm m n -> calm m' n.
Proof. intros m m' n G H g U V. apply (settled_grow m); auto. Qed.

Lemma step_refl : forall p S0 G m, inv p m -> step p S0 G m m.
Proof.
  intros p S0 G m I1. constructor; auto.
  - apply incl_refl.
  - apply grow_refl.
  - exists []. split; [now rewrite app_nil_r|reflexivity].
Qed.

Lemma step_trans : forall p S0 G m1 m2 m3, step p S0 G m1 m2 -> step p S0 G m2 m3 -> step p S0 G m1 m3.
Proof.
  intros p S0 G m1 m2 m3 H K. destruct H as [H1 H2 H3 H4 H5 H6 H7 H8 H9 H10], K as [K1 K2 K3 K4 K5 K6 K7 K8 K9 K10].
  constructor; auto.
  - congruence.
  - congruence.
  - intros n N. rewrite K4, H4; auto.
  - now apply (incl_tran H5).
  - intros k K. destruct (K6 k K) as [L|L]; auto.
  - now apply (grow_trans _ (m_known m2)).
  - destruct H8 as [n1 [Q1 S1]], K8 as [n2 [Q2 S2]]. exists (n1 ++ n2).
    rewrite Q2, Q1, S2, S1, rev_app_distr, !app_assoc. auto.
  - intros n K. destruct (K9 n K) as [L|L]; auto. destruct (H9 n L) as [L1|L1]; auto. right.
    intros g U V. destruct (L1 g U V); auto. left. now apply (settled_grow m2).
  - intros k K LF. destruct (K10 k K LF) as [L|L]; auto. destruct (H10 k L LF) as [L1|L1]; auto. right.
    destruct K8 as [n2 [_ S2]]. rewrite S2. apply in_or_app. now right.
Qed.

Lemma step_weaken : forall p (S0 S1 G G1 : nat -> Prop) m m', step p S0 G m m' ->
  (forall k, S0 k -> S1 k) -> (forall g, under R X g -> G g -> G1 g \/ settled m' g) -> step p S1 G1 m m'.
Proof.
  intros p S0 S1 G G1 m m' H W1 W2. destruct H as [H1 H2 H3 H4 H5 H6 H7 H8 H9 H10]. constructor; auto.
  - intros k K. destruct (H6 k K); auto.
  - intros n K. destruct (H9 n K) as [L|L]; auto. right. intros g U V. destruct (L g U V) as [L1|L1]; auto.
    destruct (W2 g U L1); auto.
Qed.

(* Whatever only makes more known. *)
Lemma inv_known : forall p m kn, inv p m -> cache_ok R [] kn -> grow (m_known m) kn ->
  inv p (Memory (m_links m) (m_inner m) (m_rep m) (m_seen m) (m_queue m) kn).
Proof.
  intros p m kn H C G. destruct H as [H1 H2 H3 H4 H5 H6 H7 H8 H9 H10 H11].
  constructor; cbn [m_links m_inner m_rep m_seen m_queue m_known]; auto.
  - intros n U L N. destruct (H7 n U L N) as [K|[K1 [K2 K3]]]; [now left|]. right. split; [exact K1|].
    split; [now apply (calm_grow m)|]. intros k K. apply (calm_grow m); auto.
  - now apply (calm_grow m).
Qed.

Lemma p_not_under : forall p z b a, is_p p -> at_ A z = CRule b a -> z <> X -> ~ under R z p.
Proof.
  intros p z b a [->|[_ U]] Z N K.
  - now apply (not_under_rule R X cx ax z AX) in K.
  - apply N. symmetry. now apply (under_rule R X cx ax z b a p).
Qed.

Lemma inv_links_p : forall p m l, is_p p -> inv p m -> inv p (set_links m p l).
Proof.
  intros p m l P H. destruct H as [H1 H2 H3 H4 H5 H6 H7 H8 H9 H10 H11].
  assert (UP : forall n, n <> p -> update (m_links m) p l n = m_links m n).
  { intros n N. unfold update. now apply Nat.eqb_neq in N; rewrite N. }
  constructor; unfold set_links; cbn [m_links m_inner m_rep m_seen m_queue m_known]; auto.
  - intros z b a Z N. destruct (H5 z b a Z N) as [[K1 K2]|K].
    + left. split; [exact K1|]. intros n U. specialize (K2 n U). unfold raw_node in *. fold A in K2. fold A.
      destruct (at_ A n); auto. rewrite UP; [exact K2|]. intros ->. now apply (p_not_under p z b a P).
    + right. destruct K as [D1 D2 D3 D4 D5]. constructor; auto.
      intros n I1 L E. rewrite UP; [now apply D3|]. intros ->. apply (p_not_under p z b a P Z N). now apply D4.
  - intros g a r s o U E. rewrite UP; [now apply (H6 g a r s o)|]. intros ->.
    destruct P as [->|[P _]]; [congruence|]. unfold is_leaf in P. now rewrite E in P.
  - intros n U L N. unfold complete. cbn [m_links]. rewrite UP by auto. exact (H7 n U L N).
Qed.

Lemma inv_push : forall p m n, inv p m -> is_leaf A n = true -> under R X n -> inv p (push m n).
Proof.
  intros p m n H L U. unfold push. destruct (mem n (m_seen m)) eqn:M; [exact H|].
  destruct H as [H1 H2 H3 H4 H5 H6 H7 H8 H9 H10 H11].
  constructor; unfold set_seen; cbn [m_links m_inner m_rep m_seen m_queue m_known]; auto.
  - intros k [<-|K]; auto.
  - constructor; [now apply mem_out|exact H11].
Qed.

Lemma link_step : forall p m n m', is_p p -> inv p m -> link A m p n = Ok m' ->
  m' = set_links m p (m_links m' p) /\ inv p m' /\ (forall k, In k (m_links m' p) <-> In k (m_links m p) \/ k = n).
Proof.
  intros p m n m' P I1 H. unfold link in H. destruct (append A (m_links m p) n) as [l| | |] eqn:E; try discriminate.
  cbn [bind] in H. injection H as <-.
  assert (ML : m_links (set_links m p l) p = l) by (unfold set_links, update; cbn [m_links]; now rewrite Nat.eqb_refl).
  rewrite ML.
  split; [reflexivity|]. split; [now apply inv_links_p|]. intro k. now apply (append_in A).
Qed.

Definition join_claim (p f : nat) : Prop := forall m u m', inv p m -> under R X u -> join f A p m u = Ok m' ->
  step p (enters R u) (fun g => under R g u) m m' /\ forall k, avoids p u k -> In k (m_links m' p).

Lemma all_join : forall p f, join_claim p f -> forall (S0 G : nat -> Prop) l m m', inv p m ->
  all_of (join f A p) m l = Ok m' ->
  (forall u, In u l -> under R X u /\ (forall k, enters R u k -> S0 k)
     /\ (forall g, under R X g -> under R g u -> G g \/ settled m g)) ->
  step p S0 G m m' /\ forall u k, In u l -> avoids p u k -> In k (m_links m' p).
Proof.
  intros p f J S0 G. induction l as [|u l IH]; intros m m' I1 H PRE; cbn [all_of] in H.
  - injection H as <-. split; [now apply step_refl|]. intros u k [].
  - destruct (join f A p m u) as [m1| | |] eqn:E; try discriminate. cbn [bind] in H.
    destruct (PRE u (or_introl eq_refl)) as [U [SS GG]]. destruct (J m u m1 I1 U E) as [ST C].
    assert (ST1 : step p S0 G m m1).
    { apply (step_weaken p _ S0 _ G _ _ ST); auto. intros g Ug K. destruct (GG g Ug K) as [K1|K1]; auto.
      right. apply (settled_grow m); auto. exact (sp_grow _ _ _ _ _ ST). }
    destruct (IH m1 m') as [ST2 C2]; auto.
    { exact (sp_inv _ _ _ _ _ ST). }
    { intros u' K. destruct (PRE u' (or_intror K)) as [U' [SS' GG']]. split; [exact U'|]. split; [exact SS'|].
      intros g Ug K1. destruct (GG' g Ug K1) as [K2|K2]; auto. right. apply (settled_grow m); auto.
      exact (sp_grow _ _ _ _ _ ST). }
    split; [now apply (step_trans p S0 G m m1)|]. intros u' k [<-|K] AV; [|now apply (C2 u')].
    apply (sp_mono _ _ _ _ _ ST2). now apply C.
Qed.

Lemma rep_exact : forall m p n e r s o, inv p m -> under R X n -> at_ A n = CPart e r s o ->
  repetition A m n = eff R e r.
Proof.
  intros m p n e r s o I1 U E. unfold repetition, eff. rewrite E, (iv_reps p m I1 n e r s o U E).
  destruct e as [t|c|a]; auto. destruct (rule_of A c) as [z|] eqn:RO.
  - destruct (rule_of_some _ _ _ RO) as [a [B Ez]]. rewrite B. now rewrite (iv_rules p m I1 z c a Ez).
  - apply rule_of_none in RO. now rewrite RO.
Qed.

Lemma eff_empty : forall e r, empty_rep (eff R e r) = true -> empty_rep r = true.
Proof.
  intros e r H. unfold eff in H. destruct e as [t|c|a]; auto. destruct (body R c); auto.
  now destruct r, (rule_rep a).
Qed.

(* Judging a node of the rule. *)
Lemma judge_step : forall p f m n e r s o v m', is_p p -> inv p m -> under R X n -> at_ A n = CPart e r s o ->
  judge A (illusory f A) m n = Ok (v, m') ->
  (v = true <-> meant R (TItem e r) []) /\ (forall S0 G, step p S0 G m m') /\
  (match e with Group _ => settled m' n | _ => True end) /\ m_links m' = m_links m.
Proof.
  intros p f m n e r s o v m' P I1 U E H.
  destruct (empty_rep r) eqn:ER.
  - unfold judge in H. rewrite (iv_reps p m I1 n e r s o U E), ER in H. injection H as <- <-.
    split; [|split; [|split]].
    + rewrite item_empty. tauto.
    + intros S0 G. now apply step_refl.
    + destruct e; auto. right. exists (Group a), r, s, o. auto.
    + reflexivity.
  - assert (ST : st (m_links m) (m_inner m) (m_rep m) m) by (split; auto).
    destruct (judge_exact R NAMES FIRM X cx ax AX (m_links m) (m_inner m) (m_rep m)
                (iv_groups p m I1) (iv_current p m I1) (iv_reps p m I1) (iv_others p m I1) FULL
                f m n e r s o v m' ST (iv_cache p m I1) E U) as [V F]; auto.
    { destruct e as [t|c|a]; auto. intros KN k Uk. unfold raw_node. fold A.
      assert (UX : under R X k) by (now apply (under_trans R X n k)).
      assert (NS : ~ settled m n).
      { intros [K|[e' [r' [s' [o' [E' K]]]]]]; [now apply K|]. rewrite E in E'. injection E' as <- <- <- <-. congruence. }
      destruct (at_ A k) as [ek rk sk ok| | |] eqn:Ek; auto.
      split; [|now apply (iv_reps p m I1 k ek rk sk ok)].
      destruct ek as [t|c|a']; [| |now apply (iv_glinks p m I1 k a' rk sk ok)].
      - destruct (Nat.eq_dec k p) as [->|N]; [exfalso; apply NS; now apply (iv_p p m I1 n U)|].
        destruct (iv_links p m I1 k UX) as [K|[_ [K _]]]; auto.
        + unfold is_leaf. now rewrite Ek.
        + exfalso. apply NS. now apply K.
      - destruct (Nat.eq_dec k p) as [->|N]; [exfalso; apply NS; now apply (iv_p p m I1 n U)|].
        destruct (iv_links p m I1 k UX) as [K|[_ [K _]]]; auto.
        + unfold is_leaf. now rewrite Ek.
        + exfalso. apply NS. now apply K. }
    destruct F as [[F1 [F2 F3]] [F4 [F5 [F6 F7]]]].
    assert (EM : m' = Memory (m_links m) (m_inner m) (m_rep m) (m_seen m) (m_queue m) (m_known m')).
    { destruct m'. cbn in *. now subst. }
    split; [exact V|]. split; [|split].
    + intros S0 G. rewrite EM. constructor; cbn [m_links m_inner m_rep m_seen m_queue m_known]; auto.
      * now apply inv_known.
      * apply incl_refl.
      * exists []. split; [now rewrite app_nil_r|reflexivity].
    + destruct e as [t|c|a]; auto.
      destruct (judge_known R X (m_links m) (m_inner m) (m_rep m) (iv_reps p m I1) f m n a r s o v m' ST E U H) as [K|K].
      * congruence.
      * now left.
    + exact F1.
Qed.

Lemma filter_other : forall x y l, In y (filter (fun n => negb (n =? x)) l) <-> In y l /\ y <> x.
Proof. intros x y l. rewrite filter_In, negb_true_iff, Nat.eqb_neq. tauto. Qed.

(* What comes after u, when u can be left out. *)
Lemma skip_step : forall p f, is_p p -> join_claim p f -> forall m u e r s o m', inv p m -> under R X u ->
  u <> p -> at_ A u = CPart e r s o -> meant R (TItem e r) [] ->
  (is_leaf A u = true -> In u (m_links m p)) ->
  all_of (join f A p) m (filter (fun n => negb (n =? u)) (m_links m u)) = Ok m' ->
  step p (enters R u) (fun g => under R g u) m m' /\
  forall k, enters R (after A u) k -> avoids p (after A u) k -> In k (m_links m' p).
Proof.
  intros p f P J m u e r s o m' I1 U NP E M LK H.
  assert (OA : owner A (after A u) = owner A u).
  { unfold A. rewrite (after_owner R u e r s o E). unfold owner. fold A. now rewrite E. }
  assert (UA : under R X (after A u)) by (apply (under_same X u); auto).
  pose proof (after_pos R u e r s o E) as LT. fold A in LT.
  assert (CASES : m_links m u = [after A u] \/
    (is_leaf A u = true /\ complete m u /\ forall k, In k (m_links m u) -> calm m k)).
  { destruct (is_leaf A u) eqn:LF.
    - destruct (iv_links p m I1 u U LF NP) as [K|[K1 [_ K2]]]; auto.
    - left. destruct e as [t|c|a]; [unfold is_leaf in LF; rewrite E in LF; discriminate..|].
      now apply (iv_glinks p m I1 u a r s o). }
  destruct (all_join p f J (enters R u) (fun g => under R g u) _ m m' I1 H) as [ST C].
  { intros v K. apply filter_other in K. destruct K as [K NV]. destruct CASES as [Q|[LF [CM CL]]].
    - rewrite Q in K. destruct K as [<-|[]]. split; [exact UA|]. split.
      + intros k K. now apply (en_skip R u e r s o).
      + intros g _ Ug. left. apply (under_same g (after A u)); auto.
    - apply CM in K as FV. destruct FV as [FV|[_ ->]]; [|now elim NV].
      split; [|split].
      + apply (enters_under X (after A u) v FV); eauto.
      + intros k K2. apply (en_skip R u e r s o); auto. now apply (enters_trans _ v).
      + intros g Ug K2. right. now apply (CL v K g). }
  split; [exact ST|]. intros k EN AV. destruct CASES as [Q|[LF [CM CL]]].
  - apply (C (after A u)); auto. apply filter_other. rewrite Q. split; [now left|lia].
  - assert (IK : In k (m_links m u)) by (apply CM; now left).
    destruct (Nat.eq_dec k u) as [->|NK]; [apply (sp_mono _ _ _ _ _ ST); auto|].
    apply (C k); [apply filter_other; auto|].
    destruct (enters_under X _ k EN) as [_ [LK'|[b [a [E1 E2]]]]]; eauto.
    + now apply av_leaf.
    + now apply (av_end p k X b a).
Qed.

(* What may follow a node that is no end. *)
Definition finish (f p u : nat) (m1 : memory) : outcome memory :=
  match repetition A m1 u with
  | Question | Star => all_of (join f A p) m1 (filter (fun n => negb (n =? u)) (m_links m1 u))
  | _ =>
      q <- judge A (illusory f A) m1 u ;;
      let '(v, m2) := q in
      if v then all_of (join f A p) m2 (filter (fun n => negb (n =? u)) (m_links m2 u)) else Ok m2
  end.

Lemma finish_step : forall p f, is_p p -> join_claim p f -> forall m u e r s o m', inv p m -> under R X u ->
  u <> p -> at_ A u = CPart e r s o -> (is_leaf A u = true -> In u (m_links m p)) ->
  finish f p u m = Ok m' ->
  step p (enters R u) (fun g => under R g u) m m' /\
  (match e with Group _ => settled m' u | _ => True end) /\
  forall k, meant R (TItem e r) [] -> avoids p (after A u) k -> enters R (after A u) k -> In k (m_links m' p).
Proof.
  intros p f P J m u e r s o m' I1 U NP E LK H. unfold finish in H.
  rewrite (rep_exact m p u e r s o I1 U E) in H.
  destruct (empty_rep (eff R e r)) eqn:ER.
  - apply eff_empty in ER as ER'. assert (M : meant R (TItem e r) []) by (rewrite item_empty; now left).
    assert (H' : all_of (join f A p) m (filter (fun n => negb (n =? u)) (m_links m u)) = Ok m')
      by (destruct (eff R e r); try discriminate; exact H).
    destruct (skip_step p f P J m u e r s o m' I1 U NP E M LK H') as [ST C].
    split; [exact ST|]. split; [|auto]. destruct e; auto. right. exists (Group a), r, s, o. auto.
  - assert (H' : (q <- judge A (illusory f A) m u ;; let '(v, m2) := q in
      if v then all_of (join f A p) m2 (filter (fun n => negb (n =? u)) (m_links m2 u)) else Ok m2) = Ok m')
      by (destruct (eff R e r); try discriminate; exact H).
    clear H. destruct (judge A (illusory f A) m u) as [[v m2]| | |] eqn:JJ; try discriminate. cbn [bind] in H'.
    destruct (judge_step p f m u e r s o v m2 P I1 U E JJ) as [V [ST1 [SE ML]]].
    specialize (ST1 (enters R u) (fun g => under R g u)). destruct v.
    + assert (M : meant R (TItem e r) []) by (now apply V).
      destruct (skip_step p f P J m2 u e r s o m' (sp_inv _ _ _ _ _ ST1) U NP E M) as [ST2 C]; auto.
      { intro L. rewrite ML. auto. }
      split; [now apply (step_trans _ _ _ m m2)|]. split; [|auto]. destruct e; auto.
      apply (settled_grow m2); auto. exact (sp_grow _ _ _ _ _ ST2).
    + injection H' as <-. split; [exact ST1|]. split; [exact SE|]. intros k M. apply V in M. discriminate.
Qed.

Lemma avoids_enters : forall p u k, avoids p u k -> enters R u k.
Proof.
  induction 1; [now apply en_leaf|now apply (en_end R u o b a)|now apply (en_group R u a r s o n)
    |now apply (en_next R u o a r s o')|now apply (en_again R u o a r s o' n)|now apply (en_skip R u e r s o)].
Qed.

(* A token or reference. *)
Lemma join_leaf : forall p f, is_p p -> join_claim p f -> forall m u e r s o m', inv p m -> under R X u ->
  at_ A u = CPart e r s o -> match e with Group _ => False | _ => True end ->
  (m1 <- (m' <- link A m p u ;; Ok (push m' u)) ;;
   if (p =? u) || is_end A u then Ok m1 else finish f p u m1) = Ok m' ->
  step p (enters R u) (fun g => under R g u) m m' /\ forall k, avoids p u k -> In k (m_links m' p).
Proof.
  intros p f P J m u e r s o m' I1 U E NG H.
  destruct (link A m p u) as [m0| | |] eqn:LK; try discriminate. cbn [bind] in H.
  destruct (link_step p m u m0 P I1 LK) as [Q0 [I0 L0]].
  assert (LF : is_leaf A u = true) by (unfold is_leaf; rewrite E; now destruct e).
  assert (PL : m_links (push m0 u) = m_links m0) by (unfold push; now destruct (mem u (m_seen m0))).
  assert (ST1 : step p (enters R u) (fun g => under R g u) m (push m0 u)).
  { assert (QQ : m_seen m0 = m_seen m /\ m_queue m0 = m_queue m /\ m_known m0 = m_known m /\ m_inner m0 = m_inner m
                 /\ m_rep m0 = m_rep m) by (rewrite Q0; auto).
    destruct QQ as [Q1 [Q2 [Q3 [Q4 Q5]]]].
    assert (QK : m_known (push m0 u) = m_known m0 /\ m_inner (push m0 u) = m_inner m0 /\ m_rep (push m0 u) = m_rep m0)
      by (unfold push; now destruct (mem u (m_seen m0))). destruct QK as [QK1 [QK2 QK3]].
    constructor.
    - now apply inv_push.
    - congruence.
    - congruence.
    - intros n N. rewrite PL, Q0. unfold set_links. cbn [m_links]. unfold update. apply Nat.eqb_neq in N. now rewrite N.
    - intros k K. rewrite PL. apply L0. now left.
    - intros k K. rewrite PL in K. apply L0 in K. destruct K as [K| ->]; [now left|]. right. now apply en_leaf.
    - rewrite QK1, Q3. apply grow_refl.
    - unfold push. rewrite Q1. destruct (mem u (m_seen m)).
      + exists []. rewrite app_nil_r. auto.
      + exists [u]. unfold set_seen. cbn [m_queue m_seen rev app]. rewrite Q2. auto.
    - intros n K. unfold push in K. rewrite Q1 in K. destruct (mem u (m_seen m)).
      + left. now rewrite Q1 in K.
      + unfold set_seen in K. cbn [m_seen] in K. destruct K as [<-|K]; [|now left]. right. intros g _ Ug. now right.
    - intros k K LK'. rewrite PL in K. apply L0 in K. destruct K as [K| ->]; [now left|]. right.
      unfold push. destruct (mem u (m_seen m0)) eqn:M; [now apply mem_in|]. now left. }
  assert (IU : In u (m_links (push m0 u) p)) by (rewrite PL; apply L0; now right).
  assert (NE : is_end A u = false) by (unfold is_end; now rewrite E). rewrite NE, orb_false_r in H.
  destruct (Nat.eqb_spec p u) as [->|NP].
  - injection H as <-. split; [exact ST1|]. intros k AV. inversion AV; subst; try congruence.
    rewrite E in H. injection H as -> -> -> ->. easy.
  - destruct (finish_step p f P J (push m0 u) u e r s o m' (sp_inv _ _ _ _ _ ST1) U (not_eq_sym NP) E (fun _ => IU) H)
      as [ST2 [_ C]].
    split; [now apply (step_trans _ _ _ m (push m0 u))|]. intros k AV.
    inversion AV; subst; try congruence.
    + apply (sp_mono _ _ _ _ _ ST2). exact IU.
    + rewrite E in H0. injection H0 as -> -> -> ->. easy.
    + rewrite E in H0. injection H0 as <- <- <- <-. apply C; auto. now apply (avoids_enters p).
Qed.

Lemma join_group : forall p f, is_p p -> join_claim p f -> forall m u a r s o m', inv p m -> under R X u ->
  at_ A u = CPart (Group a) r s o ->
  (m1 <- all_of (join f A p) m (m_inner m u) ;;
   if (p =? u) || is_end A u then Ok m1 else finish f p u m1) = Ok m' ->
  step p (enters R u) (fun g => under R g u) m m' /\ forall k, avoids p u k -> In k (m_links m' p).
Proof.
  intros p f P J m u a r s o m' I1 U E H.
  destruct (all_of (join f A p) m (m_inner m u)) as [m1| | |] eqn:AO; try discriminate. cbn [bind] in H.
  rewrite (iv_groups p m I1 u a r s o E) in AO.
  destruct (all_join p f J (enters R u) (fun g => g = u \/ under R g u) _ m m1 I1 AO) as [ST1 C1].
  { intros n K. assert (ON : owner A n = Some u) by (now apply inner_under).
    split; [apply (under_trans R X u n U); now apply under_in|]. split.
    - intros k EN. now apply (en_group R u a r s o n).
    - intros g _ Ug. left. destruct (under_group R g n Ug u ON) as [K2|K2]; auto. }
  assert (NE : is_end A u = false) by (unfold is_end; now rewrite E). rewrite NE, orb_false_r in H.
  assert (NP : u <> p).
  { intros ->. destruct P as [->|[P _]]; [congruence|]. unfold is_leaf in P. now rewrite E in P. }
  destruct (Nat.eqb_spec p u) as [K|_]; [congruence|].
  destruct (finish_step p f P J m1 u (Group a) r s o m' (sp_inv _ _ _ _ _ ST1) U NP E) as [ST2 [SE C]]; auto.
  { intro L. unfold is_leaf in L. now rewrite E in L. }
  assert (ST2' : step p (enters R u) (fun g => g = u \/ under R g u) m1 m').
  { apply (step_weaken p _ _ _ _ _ _ ST2); auto. }
  split.
  - apply (step_weaken p _ _ _ _ _ _ (step_trans _ _ _ _ _ _ ST1 ST2')); auto.
    intros g _ [->|K]; auto.
  - intros k AV. inversion AV; subst; try congruence.
    + exfalso. unfold is_leaf in H0. now rewrite E in H0.
    + apply (sp_mono _ _ _ _ _ ST2). now apply (C1 n).
    + rewrite E in H0. injection H0 as <- <- <- <-. apply C; auto. now apply (avoids_enters p).
Qed.

Lemma join_end : forall p f, is_p p -> join_claim p f -> forall m u o m', inv p m -> under R X u ->
  at_ A u = CEnd o ->
  (match at_ A o with
   | CRule _ _ => link A m p u
   | _ => m' <- all_of (join f A p) m (filter (fun n => negb (n =? o)) (m_links m o)) ;;
          if loops (m_rep m' o) then all_of (join f A p) m' (m_inner m' o) else Ok m'
   end) = Ok m' ->
  step p (enters R u) (fun g => under R g u) m m' /\ forall k, avoids p u k -> In k (m_links m' p).
Proof.
  intros p f P J m u o m' I1 U E H.
  assert (OU : owner A u = Some o) by (unfold owner; now rewrite E).
  destruct (end_cell R u o E) as [_ [[b [a EO]]|[a [r [s [o' EO]]]]]]; fold A in EO; rewrite EO in H.
  - destruct (link_step p m u m' P I1 H) as [Q0 [I0 L0]]. split.
    + constructor; auto.
      * now rewrite Q0.
      * now rewrite Q0.
      * intros n N. rewrite Q0. unfold set_links. cbn [m_links]. unfold update. apply Nat.eqb_neq in N. now rewrite N.
      * intros k K. apply L0. now left.
      * intros k K. apply L0 in K. destruct K as [K| ->]; [now left|]. right. now apply (en_end R u o b a).
      * rewrite Q0. apply grow_refl.
      * exists []. rewrite app_nil_r, Q0. auto.
      * intros n K. rewrite Q0 in K. now left.
      * intros k K LK. apply L0 in K. destruct K as [K| ->]; [now left|]. unfold is_leaf in LK. now rewrite E in LK.
    + intros k AV. inversion AV; subst; try congruence; apply L0; now right.
  - assert (Uo : under R X o).
    { destruct (under_group R _ _ U o OU) as [K|K]; auto. subst o. congruence. }
    assert (UP : forall g, under R g o -> under R g u) by (intros g K; now apply (under_up R g u o)).
    assert (OO : owner A (after A o) = owner A o).
    { unfold A. rewrite (after_owner R o _ r s o' EO). unfold owner. fold A. now rewrite EO. }
    pose proof (after_pos R o _ r s o' EO) as LT. fold A in LT.
    destruct (all_of (join f A p) m (filter (fun n => negb (n =? o)) (m_links m o))) as [m1| | |] eqn:AO; try discriminate.
    cbn [bind] in H. rewrite (iv_glinks p m I1 o a r s o' Uo EO) in AO.
    destruct (all_join p f J (enters R u) (fun g => under R g u) _ m m1 I1 AO) as [ST1 C1].
    { intros n K. apply filter_other in K. destruct K as [[<-|[]] _]. split; [now apply (under_same X o)|]. split.
      - intros k EN. now apply (en_next R u o a r s o').
      - intros g _ Ug. left. apply UP. now apply (under_same g (after A o)). }
    assert (CN : forall k, avoids p (after A o) k -> In k (m_links m1 p)).
    { intros k AV. apply (C1 (after A o)); auto. apply filter_other. split; [now left|lia]. }
    pose proof (sp_inv _ _ _ _ _ ST1) as I2. rewrite (iv_reps p m1 I2 o _ r s o' Uo EO) in H.
    destruct (loops r) eqn:LR.
    + rewrite (iv_groups p m1 I2 o a r s o' EO) in H.
      destruct (all_join p f J (enters R u) (fun g => under R g u) _ m1 m' I2 H) as [ST2 C2].
      { intros n K. assert (ON : owner A n = Some o) by (now apply inner_under).
        split; [apply (under_trans R X o n Uo); now apply under_in|]. split.
        - intros k EN. now apply (en_again R u o a r s o' n).
        - intros g _ Ug. left. destruct (under_group R g n Ug o ON) as [<-|K2]; auto. now apply under_in. }
      split; [now apply (step_trans _ _ _ m m1)|]. intros k AV. inversion AV; subst; try congruence.
      * exfalso. unfold is_leaf in H0. now rewrite E in H0.
      * apply (sp_mono _ _ _ _ _ ST2). apply CN. congruence.
      * apply (C2 n); auto. congruence.
    + injection H as <-. split; [exact ST1|]. intros k AV. inversion AV; subst; try congruence.
      * exfalso. unfold is_leaf in H. now rewrite E in H.
      * apply CN. congruence.
Qed.

Lemma join_step : forall p, is_p p -> forall f, join_claim p f.
Proof.
  intros p P. induction f as [|f IH]; intros m u m' I1 U H; cbn [join] in H; [discriminate|].
  destruct (at_ A u) as [e r s o|o|b a|] eqn:E.
  - destruct e as [t|c|a].
    + now apply (join_leaf p f P IH m u (Tok t) r s o).
    + now apply (join_leaf p f P IH m u (Ref c) r s o).
    + now apply (join_group p f P IH m u a r s o).
  - apply (join_end p f P IH m u o m' I1 U E).
    assert (NE : is_end A u = true) by (unfold is_end; now rewrite E). rewrite NE, orb_true_r in H.
    match type of H with bind ?x _ = _ => destruct x as [m1| | |] eqn:Q; try discriminate end. cbn [bind] in H.
    now injection H as <-.
  - exfalso. now apply (not_under_rule R u b a X E) in U.
  - exfalso. inversion U as [k K|k g K V]; unfold owner in K; fold A in K; now rewrite E in K.
Qed.

(* ---- all nodes of the rule ---- *)

Lemma calm_rule : forall m, calm m X.
Proof. intros m g _ U. now apply (not_under_rule R X cx ax g AX) in U. Qed.

Lemma leaf_not_X : forall n, is_leaf A n = true -> n <> X.
Proof. intros n L ->. unfold is_leaf in L. now rewrite AX in L. Qed.

Lemma inv_for : forall m n, inv X m -> calm m n -> inv n m.
Proof.
  intros m n H C. destruct H as [H1 H2 H3 H4 H5 H6 H7 H8 H9 H10 H11]. constructor; auto.
  intros k U L _. apply H7; auto. now apply leaf_not_X.
Qed.

Lemma inv_back : forall m n, inv n m -> complete m n -> (forall k, In k (m_links m n) -> calm m k) -> inv X m.
Proof.
  intros m n H C CK. destruct H as [H1 H2 H3 H4 H5 H6 H7 H8 H9 H10 H11]. constructor; auto.
  - intros k U L _. destruct (Nat.eq_dec k n) as [->|N]; [|now apply H7]. right. auto.
  - apply calm_rule.
Qed.

Lemma inv_queue : forall p m q, inv p m -> inv p (set_seen m (m_seen m) q).
Proof. intros p m q H. destruct H as [H1 H2 H3 H4 H5 H6 H7 H8 H9 H10 H11]. constructor; auto. Qed.

Record top (m : memory) : Prop := Top {
  tp_inv : inv X m;
  tp_calm : forall n, In n (m_seen m) -> calm m n;
  tp_sub : incl (m_queue m) (m_seen m);
  tp_nodup : NoDup (m_queue m);
  tp_raw : forall n, is_leaf A n = true -> under R X n -> ~ In n (m_seen m) \/ In n (m_queue m) ->
    m_links m n = [after A n];
  tp_done : forall n, In n (m_seen m) -> ~ In n (m_queue m) ->
    complete m n /\ forall k, In k (m_links m n) -> is_leaf A k = true -> In k (m_seen m)
}.

(* Only links of tokens and references of the rule change. *)
Record kept (m m' : memory) : Prop := Kept {
  kp_links : forall n, ~ (is_leaf A n = true /\ under R X n) -> m_links m' n = m_links m n;
  kp_inner : m_inner m' = m_inner m;
  kp_rep : m_rep m' = m_rep m;
  kp_seen : incl (m_seen m) (m_seen m')
}.

Lemma join_self : forall f m n m', inv n m -> is_leaf A n = true -> under R X n -> In n (m_seen m) ->
  join f A n m n = Ok m' ->
  m' = set_links m n (m_links m' n) /\ inv n m' /\ (forall k, In k (m_links m' n) <-> In k (m_links m n) \/ k = n).
Proof.
  intros f m n m' I1 L U IS H. destruct f as [|f]; cbn [join] in H; [discriminate|].
  assert (P : is_p n) by (right; auto).
  destruct (leaf_cell R n L) as [e [r [s [o [E NG]]]]]. fold A in E. rewrite E in H.
  assert (H' : (m1 <- (m' <- link A m n n ;; Ok (push m' n)) ;; Ok m1) = Ok m').
  { rewrite Nat.eqb_refl in H. cbn [orb] in H. destruct e as [t|c|a]; [exact H|exact H|easy]. }
  destruct (link A m n n) as [m0| | |] eqn:LK; try discriminate. cbn [bind] in H'. injection H' as <-.
  destruct (link_step n m n m0 P I1 LK) as [Q0 [I0 L0]].
  assert (PQ : push m0 n = m0).
  { unfold push. replace (m_seen m0) with (m_seen m) by (now rewrite Q0). apply mem_in in IS. now rewrite IS. }
  rewrite PQ. auto.
Qed.

Lemma nodup_app : forall (q new seen : list nat), NoDup q -> incl q seen -> NoDup (rev new ++ seen) -> NoDup (q ++ new).
Proof.
  intros q new seen. induction q as [|x q IH]; intros NQ IN ND; cbn [app].
  - rewrite <- (rev_involutive new). apply NoDup_rev. clear - ND. induction (rev new) as [|x l IH]; [constructor|].
    cbn [app] in ND. inversion ND; subst. constructor; auto. intro K. apply H1. apply in_or_app. now left.
  - inversion NQ; subst. constructor.
    + intro K. apply in_app_or in K. destruct K as [K|K]; [contradiction|].
      assert (S0 : In x seen) by (apply IN; now left). clear - ND K S0. apply in_rev in K.
      induction (rev new) as [|y l IH]; [easy|]. cbn [app] in ND. inversion ND; subst. destruct K as [->|K]; [|now apply IH].
      apply H1. apply in_or_app. now right.
    + apply IH; auto. intros k K. apply IN. now right.
Qed.

Lemma new_apart : forall (new seen : list nat) n, NoDup (rev new ++ seen) -> In n new -> ~ In n seen.
Proof.
  intros new seen n ND K S0. apply in_rev in K. induction (rev new) as [|y l IH]; [easy|].
  cbn [app] in ND. inversion ND; subst. destruct K as [->|K]; [|now apply IH]. apply H1. apply in_or_app. now right.
Qed.

Lemma exchange_step : forall f m n q m', top m -> m_queue m = n :: q ->
  exchange f A (set_seen m (m_seen m) q) n = Ok m' -> top m' /\ kept m m' /\ grow (m_known m) (m_known m').
Proof.
  intros f m n q m' T Q H. destruct T as [I0 TC TS TN TR TD].
  assert (IS : In n (m_seen m)) by (apply TS; rewrite Q; now left).
  destruct (iv_seen X m I0 n IS) as [LF U].
  assert (P : is_p n) by (right; auto).
  assert (NX : n <> X) by (now apply leaf_not_X).
  assert (RW : m_links m n = [after A n]) by (apply TR; auto; right; rewrite Q; now left).
  unfold exchange in H. cbn [set_seen m_links] in H. rewrite RW in H.
  set (m0 := set_links (set_seen m (m_seen m) q) n []) in H.
  assert (I1 : inv n m0).
  { apply inv_links_p; [exact P|]. apply inv_queue. apply inv_for; auto. }
  destruct (leaf_cell R n LF) as [e [r [s [o [E NG]]]]]. fold A in E.
  assert (OA : owner A (after A n) = owner A n).
  { unfold A. rewrite (after_owner R n e r s o E). unfold owner. fold A. now rewrite E. }
  destruct (all_of (join f A n) m0 [after A n]) as [m1| | |] eqn:AO; try discriminate. cbn [bind] in H.
  destruct (all_join n f (join_step n P f) (enters R (after A n)) (fun g => under R g n) _ m0 m1 I1 AO) as [ST C].
  { intros u [<-|[]]. split; [now apply (under_same X n)|]. split; [auto|].
    intros g _ Ug. left. now apply (under_same g (after A n)). }
  assert (L0 : m_links m0 n = []) by (unfold m0, set_links, update; cbn [m_links]; now rewrite Nat.eqb_refl).
  assert (LK0 : forall k, k <> n -> m_links m0 k = m_links m k).
  { intros k N. unfold m0, set_links, update; cbn [m_links set_seen]. apply Nat.eqb_neq in N. now rewrite N. }
  assert (C1 : forall k, In k (m_links m1 n) <-> enters R (after A n) k).
  { intro k. split; intro K.
    - destruct (sp_sound _ _ _ _ _ ST k K) as [K1|K1]; [rewrite L0 in K1; easy|exact K1].
    - apply (C (after A n)); [now left|]. destruct (enters_avoids n _ _ K); auto. }
  pose proof (sp_inv _ _ _ _ _ ST) as I2.
  destruct (sp_queue _ _ _ _ _ ST) as [new [Q1 S1]]. cbn in Q1, S1.
  assert (IS1 : In n (m_seen m1)) by (rewrite S1; apply in_or_app; now right).
  assert (F : inv n m' /\ complete m' n /\ (forall k, k <> n -> m_links m' k = m_links m1 k) /\
    m_inner m' = m_inner m1 /\ m_rep m' = m_rep m1 /\ m_seen m' = m_seen m1 /\ m_queue m' = m_queue m1 /\
    m_known m' = m_known m1).
  { assert (EA : eff_at R n = eff R e r) by (unfold eff_at; fold A; now rewrite E).
    rewrite (rep_exact m1 n n e r s o I2 U E) in H. unfold complete, flat. rewrite EA. fold A.
    destruct (loops (eff R e r)) eqn:LP.
    - destruct (join_self f m1 n m' I2 LF U IS1 H) as [Q2 [I3 K]]. split; [exact I3|].
      split; [intro k; rewrite K, C1; tauto|]. split; [|rewrite Q2; cbn; auto 6].
      intros k N. rewrite Q2. unfold set_links, update. cbn [m_links]. apply Nat.eqb_neq in N. now rewrite N.
    - injection H as <-. split; [exact I2|]. split; [|auto 8].
      intro k. rewrite C1. split; [now left|]. intros [K|[K _]]; [exact K|discriminate]. }
  destruct F as [I3 [CM [F1 [F2 [F3 [F4 [F5 F6]]]]]]].
  assert (GR : grow (m_known m) (m_known m')) by (rewrite F6; exact (sp_grow _ _ _ _ _ ST)).
  assert (SEEN : m_seen m' = rev new ++ m_seen m) by (now rewrite F4).
  assert (QUE : m_queue m' = q ++ new) by (now rewrite F5).
  assert (NN : NoDup (rev new ++ m_seen m)) by (rewrite <- SEEN; exact (iv_nodup n m' I3)).
  assert (CALM : forall k, In k (m_seen m') -> calm m' k).
  { intros k K. assert (K1 : In k (m_seen m1)) by (now rewrite F4 in K).
    destruct (sp_seen _ _ _ _ _ ST k K1) as [K2|K2].
    - apply (calm_grow m); auto.
    - intros g Ug Uk. destruct (K2 g Ug Uk) as [K3|K3].
      + destruct K3 as [K3|K3]; [left; now rewrite F6|now right].
      + apply (settled_grow m); auto. now apply (TC n IS g). }
  assert (CK : forall k, In k (m_links m' n) -> calm m' k).
  { intros k K. apply CM in K. destruct K as [K|[_ ->]].
    - destruct (enters_under X _ k K) as [_ [LK|[b [a [E1 E2]]]]].
      + eauto.
      + now apply (under_same X n).
      + apply CALM. rewrite F4. apply C1 in K. destruct (sp_all _ _ _ _ _ ST k K LK) as [K1|K1]; [rewrite L0 in K1; easy|exact K1].
      + intros g Ug Uk. exfalso. destruct (under_group R g k Uk X) as [K1|K1].
        * unfold owner. fold A. now rewrite E1.
        * subst g. now apply under_lt in Ug; lia.
        * now apply (not_under_rule R X cx ax g AX) in K1.
    - apply CALM. rewrite SEEN. apply in_or_app. now right. }
  assert (LKS : forall k, k <> n -> m_links m' k = m_links m k).
  { intros k N. rewrite F1, (sp_links _ _ _ _ _ ST), LK0; auto. }
  assert (NQ : NoDup (n :: q)) by (rewrite <- Q; exact TN). inversion NQ as [|? ? NI NQ']; subst.
  split; [|split; [|exact GR]].
  - constructor.
    + now apply (inv_back m' n).
    + exact CALM.
    + rewrite QUE, SEEN. intros k K. apply in_or_app. apply in_app_or in K. destruct K as [K|K].
      * right. apply TS. rewrite Q. now right.
      * left. now apply in_rev in K.
    + rewrite QUE. apply (nodup_app q new (m_seen m)); auto. intros k K. apply TS. rewrite Q. now right.
    + intros k L Uk K.
      assert (N : k <> n).
      { intros ->. destruct K as [K|K].
        - apply K. rewrite SEEN. apply in_or_app. now right.
        - rewrite QUE in K. apply in_app_or in K. destruct K as [K|K]; [contradiction|].
          now apply (new_apart new (m_seen m) n). }
      rewrite LKS by auto. apply TR; auto. destruct K as [K|K].
      * left. intro K1. apply K. rewrite SEEN. apply in_or_app. now right.
      * rewrite QUE in K. apply in_app_or in K. destruct K as [K|K].
        -- right. rewrite Q. now right.
        -- left. now apply (new_apart new).
    + intros k K NK. destruct (Nat.eq_dec k n) as [->|N].
      * split; [exact CM|]. intros j K1 LJ. apply CM in K1. destruct K1 as [K1|[_ ->]]; [|exact K].
        rewrite F4. apply C1 in K1. destruct (sp_all _ _ _ _ _ ST j K1 LJ) as [K2|K2]; [rewrite L0 in K2; easy|exact K2].
      * rewrite SEEN in K. apply in_app_or in K. destruct K as [K|K].
        { exfalso. apply NK. rewrite QUE. apply in_or_app. right. now apply in_rev in K. }
        destruct (TD k K) as [D1 D2].
        { rewrite Q. intros [K1|K1]; [congruence|]. apply NK. rewrite QUE. apply in_or_app. now left. }
        split.
        -- intro j. rewrite (LKS k N). apply D1.
        -- rewrite (LKS k N). intros j K1 LJ. rewrite SEEN. apply in_or_app. right. now apply D2.
  - constructor.
    + intros k K. apply LKS. intros ->. apply K. auto.
    + rewrite F2, (sp_inner _ _ _ _ _ ST). reflexivity.
    + rewrite F3, (sp_rep _ _ _ _ _ ST). reflexivity.
    + rewrite SEEN. intros k K. apply in_or_app. now right.
Qed.

Lemma kept_trans : forall m1 m2 m3, kept m1 m2 -> kept m2 m3 -> kept m1 m3.
Proof.
  intros m1 m2 m3 [H1 H2 H3 H4] [K1 K2 K3 K4]. constructor; try congruence.
  - intros n N. rewrite K1, H1; auto.
  - now apply (incl_tran H4).
Qed.

Lemma exchange_all_ok : forall t f m m', top m -> exchange_all t f A m = Ok m' ->
  top m' /\ m_queue m' = [] /\ kept m m'.
Proof.
  induction t as [|t IH]; intros f m m' T H; cbn [exchange_all] in H; destruct (m_queue m) as [|n q] eqn:Q;
    try (injection H as <-; split; [exact T|]; split; [exact Q|]; constructor; auto; apply incl_refl); try discriminate.
  destruct (exchange f A (set_seen m (m_seen m) q) n) as [m1| | |] eqn:E; try discriminate. cbn [bind] in H.
  destruct (exchange_step f m n q m1 T Q E) as [T1 [K1 _]]. destruct (IH f m1 m' T1 H) as [T2 [Q2 K2]].
  split; [exact T2|]. split; [exact Q2|]. now apply (kept_trans m m1).
Qed.

(* Before the rule is exchanged. *)
Record ready (m : memory) : Prop := Ready {
  rd_groups : forall g a r s o, at_ A g = CPart (Group a) r s o -> m_inner m g = inner A g;
  rd_current : m_inner m X = inner A X;
  rd_links : m_links m X = [];
  rd_raw : forall n, under R X n -> raw_node R (m_links m) (m_rep m) n;
  rd_rules : forall z b a, at_ A z = CRule b a -> m_rep m z = rule_rep a;
  rd_others : forall z b a, at_ A z = CRule b a -> z <> X ->
    (m_inner m z = inner A z /\ forall n, under R z n -> raw_node R (m_links m) (m_rep m) n)
    \/ done_rule R (m_links m) (m_inner m) (m_rep m) z b;
  rd_cache : cache_ok R [] (m_known m)
}.

Record flattened (m m' : memory) : Prop := Flattened {
  fl_start : forall k, In k (m_inner m' X) <-> exists s, In s (inner A X) /\ enters R s k;
  fl_links : forall n, In n (m_seen m') -> complete m' n;
  fl_first : forall k, In k (m_inner m' X) -> is_leaf A k = true -> In k (m_seen m');
  fl_next : forall n k, In n (m_seen m') -> In k (m_links m' n) -> is_leaf A k = true -> In k (m_seen m');
  fl_seen : forall n, In n (m_seen m') -> is_leaf A n = true /\ under R X n;
  fl_nodup : NoDup (m_seen m');
  fl_inner : forall n, n <> X -> m_inner m' n = m_inner m n;
  fl_other : forall n, ~ (is_leaf A n = true /\ under R X n) -> m_links m' n = m_links m n;
  fl_rep : m_rep m' = m_rep m;
  fl_cache : cache_ok R [] (m_known m')
}.

Lemma exchange_branch_ok : forall f m m', ready m -> exchange_branch f A m X = Ok m' -> flattened m m'.
Proof.
  intros f m m' [R1 R2 R3 R4 R5 R6 R7] H. unfold exchange_branch in H.
  set (m0 := set_seen m [] []) in H.
  assert (I0 : inv X m0).
  { constructor; unfold m0; cbn [set_seen m_links m_inner m_rep m_seen m_queue m_known]; auto.
    - intros n e r s o U E. specialize (R4 n U). unfold raw_node in R4. fold A in R4. rewrite E in R4. now apply R4.
    - intros g a r s o U E. specialize (R4 g U). unfold raw_node in R4. fold A in R4. rewrite E in R4. now apply R4.
    - intros n U L _. left. destruct (leaf_cell R n L) as [e [r [s [o [E _]]]]]. fold A in E.
      specialize (R4 n U). unfold raw_node in R4. fold A in R4. rewrite E in R4. now apply R4.
    - apply calm_rule.
    - easy.
    - constructor. }
  assert (P : is_p X) by (now left).
  destruct (all_of (join f A X) m0 (m_inner m X)) as [m1| | |] eqn:AO; try discriminate. cbn [bind] in H.
  rewrite R2 in AO.
  destruct (all_join X f (join_step X P f) (fun k => exists s, In s (inner A X) /\ enters R s k) (fun _ => False)
              _ m0 m1 I0 AO) as [ST C].
  { intros u K. assert (O : owner A u = Some X) by (now apply inner_under). split; [now apply under_in|].
    split; [eauto|]. intros g Ug Uu. exfalso. destruct (under_group R g u Uu X O) as [K1|K1].
    - subst g. apply under_lt in Ug. lia.
    - now apply (not_under_rule R X cx ax g AX) in K1. }
  assert (C1 : forall k, In k (m_links m1 X) <-> exists s, In s (inner A X) /\ enters R s k).
  { intro k. split; intro K.
    - destruct (sp_sound _ _ _ _ _ ST k K) as [K1|K1]; [|exact K1]. unfold m0 in K1. cbn [set_seen m_links] in K1.
      now rewrite R3 in K1.
    - destruct K as [s [I1 EN]]. apply (C s); auto.
      assert (G : forall u k, enters R u k -> avoids X u k).
      { clear - AX. induction 1 as [u L|u o b a E O|u a r s o n m E I1 H IH|u o a r s o' m E O H IH
                 |u o a r s o' n m E O L I1 H IH|u e r s o m E M H IH].
        - now apply av_leaf.
        - now apply (av_end X u o b a).
        - now apply (av_group X u a r s o n).
        - now apply (av_next X u o a r s o').
        - now apply (av_again X u o a r s o' n).
        - apply (av_skip X u e r s o); auto. intros ->. unfold A in AX. congruence. }
      now apply G. }
  destruct (sp_queue _ _ _ _ _ ST) as [new [Q1 S1]]. cbn in Q1, S1. rewrite app_nil_r in S1.
  pose proof (sp_inv _ _ _ _ _ ST) as I1.
  assert (T1 : top m1).
  { constructor; auto.
    - intros n K g Ug Un. destruct (sp_seen _ _ _ _ _ ST n K) as [K1|K1]; [easy|].
      destruct (K1 g Ug Un) as [K2|[]]. exact K2.
    - intros n K. rewrite S1. rewrite Q1 in K. now apply in_rev in K.
    - rewrite Q1. rewrite <- (rev_involutive new). apply NoDup_rev. rewrite <- S1. exact (iv_nodup X m1 I1).
    - intros n L U _. rewrite (sp_links _ _ _ _ _ ST) by (now apply leaf_not_X).
      destruct (leaf_cell R n L) as [e [r [s [o [E _]]]]]. fold A in E.
      specialize (R4 n U). unfold raw_node in R4. fold A in R4. rewrite E in R4. now apply R4.
    - intros n K NK. exfalso. apply NK. rewrite Q1. rewrite S1 in K. now apply in_rev in K. }
  destruct (exchange_all (length A) f A m1) as [m2| | |] eqn:EA; try discriminate. cbn [bind] in H.
  destruct (exchange_all_ok _ f m1 m2 T1 EA) as [T2 [Q2 K2]]. injection H as <-.
  assert (LX : m_links m2 X = m_links m1 X).
  { apply (kp_links _ _ K2). intros [L _]. now apply leaf_not_X in L. }
  assert (UPI : update (m_inner m2) X (m_links m2 X) X = m_links m2 X) by (unfold update; now rewrite Nat.eqb_refl).
  assert (UPL : forall n, n <> X -> update (m_links m2) X [] n = m_links m2 n).
  { intros n N. unfold update. apply Nat.eqb_neq in N. now rewrite N. }
  pose proof (tp_inv _ T2) as I2.
  constructor; unfold set_links, set_inner; cbn [m_links m_inner m_rep m_seen m_queue m_known].
  - intro k. rewrite UPI, LX. apply C1.
  - intros n K. intro k. cbn [m_links]. destruct (iv_seen _ _ I2 n K) as [L _].
    rewrite UPL by (now apply leaf_not_X). apply (tp_done _ T2 n K). rewrite Q2. easy.
  - intros k K L. rewrite UPI, LX in K. destruct (sp_all _ _ _ _ _ ST k K L) as [K1|K1].
    + unfold m0 in K1. cbn [set_seen m_links] in K1. now rewrite R3 in K1.
    + now apply (kp_seen _ _ K2).
  - intros n k K. destruct (iv_seen _ _ I2 n K) as [L _]. rewrite UPL by (now apply leaf_not_X).
    apply (tp_done _ T2 n K). rewrite Q2. easy.
  - exact (iv_seen _ _ I2).
  - exact (iv_nodup _ _ I2).
  - intros n N. unfold update. apply Nat.eqb_neq in N. rewrite N, (kp_inner _ _ K2), (sp_inner _ _ _ _ _ ST). reflexivity.
  - intros n N. destruct (Nat.eq_dec n X) as [->|NX].
    + unfold update. now rewrite Nat.eqb_refl, R3.
    + rewrite UPL, (kp_links _ _ K2), (sp_links _ _ _ _ _ ST); auto.
  - rewrite (kp_rep _ _ K2), (sp_rep _ _ _ _ _ ST). reflexivity.
  - exact (iv_cache _ _ I2).
Qed.

End Flat.
