(* Merging nodes that cannot be told apart leaves what can be read as it is. *)
From Coq Require Import ZArith List Bool Lia Relations.
From Verif Require Import NetModel GramModel GramSpec GramLayProofs GramPathProofs GramEmptyProofs GramFlatProofs.
Import ListNotations.
Local Open Scope nat_scope.

Lemma key_eqb_eq : forall k1 k2, key_eqb k1 k2 = true <-> k1 = k2.
Proof.
  intros [a|a] [b|b]; unfold key_eqb; try (split; [discriminate|intro H; discriminate]);
    rewrite Z.eqb_eq; split; congruence.
Qed.

(* What can be read from a node on, and from the beginning of a rule. *)
Inductive goes (A : list cell) (m : memory) : nat -> list key -> Prop :=
| goes_end n e : In e (m_links m n) -> is_end A e = true -> goes A m n []
| goes_on n k ks : In k (m_links m n) -> is_leaf A k = true -> goes A m k ks -> goes A m n (leaf_key A k :: ks).

Inductive runs (A : list cell) (m : memory) (x : nat) : list key -> Prop :=
| runs_end e : In e (m_inner m x) -> is_end A e = true -> runs A m x []
| runs_on n ks : In n (m_inner m x) -> is_leaf A n = true -> goes A m n ks -> runs A m x (leaf_key A n :: ks).

Lemma union_in : forall l2 l1 k, In k (union l1 l2) <-> In k l1 \/ In k l2.
Proof.
  unfold union. induction l2 as [|x l2 IH]; intros l1 k; cbn [fold_left In]; [tauto|].
  rewrite IH. destruct (mem x l1) eqn:M.
  - apply mem_in in M. split; [tauto|]. intros [K|[->|K]]; auto.
  - rewrite in_app_iff. cbn [In]. tauto.
Qed.

Section Merge.
Variable A : list cell.
Variable X : nat.
Variable spare : key -> Prop.

(* The nodes of a rule and their links. *)
Record graph (m : memory) (live : list nat) : Prop := Graph {
  gr_leaf : forall n, In n live -> is_leaf A n = true;
  gr_nodup : NoDup live;
  gr_next : forall n k, In n live -> In k (m_links m n) -> In k live \/ at_ A k = CEnd X;
  gr_first : forall k, In k (m_inner m X) -> In k live \/ at_ A k = CEnd X;
  gr_agree : forall n n', In n live -> In n' live -> leaf_key A n = leaf_key A n' ->
    froms m live n <> [] -> froms m live n' <> [] -> In n (m_inner m X) -> In n' (m_inner m X);
  gr_skip : forall n, In n live -> In n (m_inner m X) -> empty_rep (m_rep m n) = true \/ spare (leaf_key A n) ->
    incl (m_links m n) (m_inner m X)
}.

Section Once.
Variable m : memory.
Variable live : list nat.
Hypothesis GR : graph m live.

Let s := stand_in A m live.

Lemma leaf_end : forall n, is_leaf A n = true -> is_end A n = true -> False.
Proof. intros n H K. unfold is_leaf in H. unfold is_end in K. destruct (at_ A n) as [[| |]| | |]; discriminate. Qed.

Lemma is_last : forall n, at_ A n = CEnd X -> is_end A n = true.
Proof. intros n H. unfold is_end. now rewrite H. Qed.

Lemma alike_spec : forall n k, alike A m live n k = true <->
  n = k \/ (leaf_key A n = leaf_key A k /\ froms m live n <> [] /\ froms m live n = froms m live k).
Proof.
  intros n k. unfold alike. rewrite orb_true_iff, !andb_true_iff, Nat.eqb_eq, key_eqb_eq.
  destruct (list_eq_dec Nat.eq_dec (froms m live n) (froms m live k)) as [E|E];
    destruct (froms m live n) as [|x l]; intuition (try congruence; try discriminate).
Qed.

Lemma alike_refl : forall n, alike A m live n n = true.
Proof. intro n. apply alike_spec. now left. Qed.

Lemma alike_sym : forall n k, alike A m live n k = true -> alike A m live k n = true.
Proof.
  intros n k H. apply alike_spec. apply alike_spec in H. destruct H as [->|[H1 [H2 H3]]]; [now left|].
  right. rewrite <- H3. auto.
Qed.

Lemma alike_trans : forall n k j, alike A m live n k = true -> alike A m live k j = true -> alike A m live n j = true.
Proof.
  intros n k j H K. apply alike_spec in H. apply alike_spec in K. apply alike_spec.
  destruct H as [->|[H1 [H2 H3]]]; [exact K|]. destruct K as [<-|[K1 [K2 K3]]]; [auto|].
  right. split; [congruence|]. split; [exact H2|congruence].
Qed.

Lemma stand_live : forall n, In n live -> In (s n) live /\ alike A m live n (s n) = true.
Proof.
  intros n H. unfold s, stand_in. rewrite (gr_leaf _ _ GR n H).
  destruct (find (alike A m live n) live) as [k|] eqn:F.
  - now apply find_some in F.
  - apply (find_none _ _ F) in H. now rewrite alike_refl in H.
Qed.

Lemma stand_end : forall n, is_end A n = true -> s n = n.
Proof.
  intros n H. unfold s, stand_in. destruct (is_leaf A n) eqn:L; [|reflexivity]. exfalso. now apply (leaf_end n).
Qed.

Lemma find_ext : forall (f g : nat -> bool) l, (forall x, f x = g x) -> find f l = find g l.
Proof. intros f g l H. induction l as [|x l IH]; cbn [find]; [reflexivity|]. now rewrite H, IH. Qed.

Lemma alike_stand : forall n k, In n live -> In k live -> alike A m live n k = true -> s n = s k.
Proof.
  intros n k Hn Hk H. unfold s, stand_in. rewrite (gr_leaf _ _ GR n Hn), (gr_leaf _ _ GR k Hk).
  rewrite (find_ext (alike A m live n) (alike A m live k)).
  - destruct (find (alike A m live k) live) eqn:F; [reflexivity|]. apply (find_none _ _ F) in Hk. now rewrite alike_refl in Hk.
  - intro x. destruct (alike A m live k x) eqn:E.
    + now apply (alike_trans n k x).
    + destruct (alike A m live n x) eqn:E2; [|reflexivity]. rewrite <- E. symmetry.
      apply (alike_trans k n x); auto. now apply alike_sym.
Qed.

Lemma stand_idem : forall n, In n live -> s (s n) = s n.
Proof. intros n H. destruct (stand_live n H) as [L K]. symmetry. now apply alike_stand. Qed.

Lemma stand_same : forall n k, In n live -> In k live -> s n = s k -> alike A m live n k = true.
Proof.
  intros n k Hn Hk E. destruct (stand_live n Hn) as [_ H1], (stand_live k Hk) as [_ H2].
  apply (alike_trans n (s n) k); auto. rewrite E. now apply alike_sym.
Qed.

Lemma alike_key : forall n k, alike A m live n k = true -> leaf_key A n = leaf_key A k.
Proof. intros n k H. apply alike_spec in H. destruct H as [->|[H _]]; auto. Qed.

Lemma alike_froms : forall n k, alike A m live n k = true -> froms m live n = froms m live k.
Proof. intros n k H. apply alike_spec in H. destruct H as [->|[_ [_ H]]]; auto. Qed.

Lemma froms_in : forall n k, In k (froms m live n) <-> In k live /\ In n (m_links m k).
Proof. intros n k. unfold froms. rewrite filter_In, mem_in. tauto. Qed.

Let m' := merge_once A m live X.
Let live' := filter (fun n => s n =? n) live.

Lemma links_new : forall n k, In n live ->
  (In k (m_links m' n) <-> exists j i, In j live /\ s j = n /\ In i (m_links m j) /\ k = s i).
Proof.
  intros n k H. unfold m', merge_once. cbn [m_links]. apply mem_in in H. rewrite H, union_in, in_map_iff.
  fold s. split.
  - intros [[]|[i [<- K]]]. apply in_flat_map in K. destruct K as [j [K1 K2]]. apply filter_In in K1.
    destruct K1 as [K1 K3]. apply Nat.eqb_eq in K3. eauto 6.
  - intros [j [i [K1 [K2 [K3 ->]]]]]. right. exists i. split; [reflexivity|]. apply in_flat_map. exists j.
    split; [|exact K3]. apply filter_In. split; [exact K1|]. now apply Nat.eqb_eq.
Qed.

Lemma inner_new : forall k, In k (m_inner m' X) <-> exists i, In i (m_inner m X) /\ k = s i.
Proof.
  intro k. unfold m', merge_once. cbn [m_inner]. rewrite Nat.eqb_refl, union_in, in_map_iff. fold s. split.
  - intros [[]|[i [<- K]]]. eauto.
  - intros [i [K ->]]. right. eauto.
Qed.

Lemma live_new : forall n, In n live' <-> In n live /\ s n = n.
Proof. intro n. unfold live'. rewrite filter_In, Nat.eqb_eq. tauto. Qed.

Lemma stand_new : forall n, In n live -> In (s n) live'.
Proof. intros n H. apply live_new. split; [now apply stand_live|now apply stand_idem]. Qed.

(* A stand-in that is an end or a node. *)
Lemma stand_kind : forall i, In i live \/ at_ A i = CEnd X ->
  (In i live /\ In (s i) live') \/ (at_ A i = CEnd X /\ s i = i).
Proof. intros i [H|H]; [left|right]; (split; [exact H|]); [now apply stand_new|apply stand_end; now apply is_last]. Qed.

Lemma agree_class : forall n n', In n live -> In n' live -> s n = s n' -> In n (m_inner m X) -> In n' (m_inner m X).
Proof.
  intros n n' Hn Hn' E I1. pose proof (stand_same n n' Hn Hn' E) as K. apply alike_spec in K.
  destruct K as [<-|[K1 [K2 K3]]]; [exact I1|]. apply (gr_agree _ _ GR n n'); auto. now rewrite <- K3.
Qed.

Lemma froms_new : forall n, In n live' -> froms m' live' n <> [] -> froms m live n <> [].
Proof.
  intros n Hn H. apply live_new in Hn. destruct Hn as [Hn Sn].
  destruct (froms m' live' n) as [|k l] eqn:F; [easy|].
  assert (K : In k (froms m' live' n)) by (rewrite F; now left).
  unfold froms in K. rewrite filter_In, mem_in in K. destruct K as [K1 K2]. apply live_new in K1. destruct K1 as [K1 _].
  apply links_new in K2; auto. destruct K2 as [j [i [J1 [J2 [J3 J4]]]]].
  assert (Li : In i live).
  { destruct (gr_next _ _ GR j i J1 J3) as [L|L]; [exact L|]. exfalso. rewrite (stand_end i (is_last i L)) in J4. subst n.
    apply (leaf_end i); [now apply (gr_leaf _ _ GR)|now apply is_last]. }
  rewrite (alike_froms n i).
  - intro Z. assert (In j (froms m live i)) by (now apply froms_in). now rewrite Z in H0.
  - apply stand_same; auto. congruence.
Qed.

Lemma graph_new : graph m' live'.
Proof.
  constructor.
  - intros n H. apply live_new in H. now apply (gr_leaf _ _ GR).
  - unfold live'. apply NoDup_filter. exact (gr_nodup _ _ GR).
  - intros n k Hn K. apply live_new in Hn. destruct Hn as [Hn _]. apply links_new in K; auto.
    destruct K as [j [i [J1 [J2 [J3 ->]]]]].
    destruct (stand_kind i (gr_next _ _ GR j i J1 J3)) as [[_ L]|[L ->]]; auto.
  - intros k K. apply inner_new in K. destruct K as [i [I1 ->]].
    destruct (stand_kind i (gr_first _ _ GR i I1)) as [[_ L]|[L ->]]; auto.
  - intros n n' Hn Hn' E F F' I1. pose proof (froms_new n Hn F) as G. pose proof (froms_new n' Hn' F') as G'.
    apply live_new in Hn, Hn'. destruct Hn as [Hn Sn], Hn' as [Hn' Sn'].
    apply inner_new in I1. destruct I1 as [i [I1 Q]]. apply inner_new. exists n'. split; [|congruence].
    apply (gr_agree _ _ GR n n'); auto.
    destruct (stand_kind i (gr_first _ _ GR i I1)) as [[L _]|[L W]].
    + apply (agree_class i n); auto. congruence.
    + exfalso. rewrite W in Q. subst n. apply (leaf_end i); [now apply (gr_leaf _ _ GR)|now apply is_last].
  - intros n Hn I1 SK k K. apply live_new in Hn. destruct Hn as [Hn Sn]. apply links_new in K; auto.
    destruct K as [j [i [J1 [J2 [J3 ->]]]]]. apply inner_new. exists i. split; [|reflexivity].
    apply inner_new in I1. destruct I1 as [i0 [I1 Q]].
    assert (In0 : In n (m_inner m X)).
    { destruct (stand_kind i0 (gr_first _ _ GR i0 I1)) as [[L _]|[L W]].
      - apply (agree_class i0 n); auto. congruence.
      - exfalso. rewrite W in Q. subst n. apply (leaf_end i0); [now apply (gr_leaf _ _ GR)|now apply is_last]. }
    assert (Ij : In j (m_inner m X)) by (apply (agree_class n j); auto; congruence).
    apply (gr_skip _ _ GR j J1 Ij); auto.
    assert (KJ : leaf_key A n = leaf_key A j) by (apply alike_key; apply stand_same; auto; congruence).
    destruct SK as [SK|SK]; [|right; now rewrite <- KJ].
    unfold m', merge_once in SK. cbn [m_rep] in SK. fold s in SK.
    assert (Mn : mem n live = true) by (now apply mem_in). rewrite Mn in SK. cbn [andb] in SK.
    destruct (1 <? length (filter (fun k => s k =? n) live)) eqn:LN; [discriminate|].
    left. apply Nat.ltb_ge in LN. assert (j = n); [|now subst].
    assert (Fn : In n (filter (fun k => s k =? n) live)) by (apply filter_In; split; auto; now apply Nat.eqb_eq).
    assert (Fj : In j (filter (fun k => s k =? n) live)) by (apply filter_In; split; auto; now apply Nat.eqb_eq).
    destruct (filter (fun k => s k =? n) live) as [|x [|y l]]; cbn [length] in LN; [easy| |lia].
    destruct Fn as [->|[]], Fj as [->|[]]. reflexivity.
Qed.

Lemma goes_into : forall n ks, goes A m n ks -> In n live -> goes A m' (s n) ks.
Proof.
  induction 1 as [n e H E|n k ks H L G IH]; intro Hn.
  - apply (goes_end A m' (s n) e); auto. apply links_new; [now apply stand_live|]. exists n, e.
    split; [exact Hn|]. split; [reflexivity|]. split; [exact H|]. symmetry. now apply stand_end.
  - assert (Lk : In k live) by (destruct (gr_next _ _ GR n k Hn H) as [K|K]; [exact K|exfalso; apply (leaf_end k); [assumption|now apply is_last]]).
    destruct (stand_live k Lk) as [SL SA]. rewrite (alike_key k (s k) SA). apply goes_on; auto.
    + apply links_new; [now apply stand_live|]. exists n, k. auto.
    + now apply (gr_leaf _ _ GR).
Qed.

Lemma goes_out : forall c ks, goes A m' c ks -> In c live -> exists n, In n live /\ s n = c /\ goes A m n ks.
Proof.
  induction 1 as [c e H E|c k ks H L G IH]; intro Hc; apply links_new in H; auto;
    destruct H as [j [i [J1 [J2 [J3 J4]]]]]; destruct (stand_kind i (gr_next _ _ GR j i J1 J3)) as [[Li Si]|[Li Si]].
  - exfalso. subst e. apply live_new in Si. apply (leaf_end (s i)); auto. now apply (gr_leaf _ _ GR).
  - exists j. split; [exact J1|]. split; [exact J2|]. apply (goes_end A m j i); [assumption|now apply is_last].
  - destruct IH as [n [Hn [Sn Gn]]]; [subst k; apply live_new in Si; tauto|].
    assert (AL : alike A m live i n = true) by (apply stand_same; auto; congruence).
    exists j. split; [exact J1|]. split; [exact J2|].
    assert (KN : leaf_key A k = leaf_key A n).
    { rewrite J4. destruct (stand_live i Li) as [_ SA]. rewrite <- (alike_key _ _ SA). now apply alike_key. }
    rewrite KN. apply goes_on; auto.
    + assert (F : In j (froms m live i)) by (now apply froms_in). rewrite (alike_froms _ _ AL) in F. now apply froms_in in F.
    + now apply (gr_leaf _ _ GR).
  - exfalso. subst k. rewrite Si in L. apply (leaf_end i); [exact L|now apply is_last].
Qed.

Lemma runs_once : forall ks, runs A m' X ks <-> runs A m X ks.
Proof.
  intro ks. split; intro H.
  - inversion H as [e I1 E|n ks' I1 L G]; subst; apply inner_new in I1; destruct I1 as [i [I1 Q]];
      destruct (stand_kind i (gr_first _ _ GR i I1)) as [[Li Si]|[Li Si]].
    + exfalso. subst e. apply live_new in Si. apply (leaf_end (s i)); auto. now apply (gr_leaf _ _ GR).
    + apply (runs_end A m X i); [assumption|now apply is_last].
    + destruct (goes_out n ks' G) as [k [Hk [Sk Gk]]]; [subst n; apply live_new in Si; tauto|].
      assert (KN : leaf_key A n = leaf_key A k).
      { rewrite <- Sk. destruct (stand_live k Hk) as [_ SA]. symmetry. now apply alike_key. }
      rewrite KN. apply runs_on; auto; [|now apply (gr_leaf _ _ GR)].
      apply (agree_class i k); auto. congruence.
    + exfalso. subst n. rewrite Si in L. apply (leaf_end i); [exact L|now apply is_last].
  - inversion H as [e I1 E|n ks' I1 L G]; subst.
    + apply (runs_end A m' X e); auto. apply inner_new. exists e. split; [exact I1|]. symmetry. now apply stand_end.
    + assert (Ln : In n live) by (destruct (gr_first _ _ GR n I1) as [K|K]; [exact K|exfalso; apply (leaf_end n); [assumption|now apply is_last]]).
      destruct (stand_live n Ln) as [SL SA]. rewrite (alike_key n (s n) SA). apply runs_on.
      * apply inner_new. eauto.
      * now apply (gr_leaf _ _ GR).
      * now apply goes_into.
Qed.

End Once.

(* What merging leaves alone. *)
Record rest (live : list nat) (m m' : memory) : Prop := Rest {
  rs_links : forall n, ~ In n live -> m_links m' n = m_links m n;
  rs_rep : forall n, ~ In n live -> m_rep m' n = m_rep m n;
  rs_inner : forall n, n <> X -> m_inner m' n = m_inner m n;
  rs_known : m_known m' = m_known m
}.

Lemma merge_ok : forall t m live, graph m live -> let m' := merge_branch t A m live X in
  (exists live', graph m' live' /\ incl live' live) /\ rest live m m' /\ forall ks, runs A m' X ks <-> runs A m X ks.
Proof.
  induction t as [|t IH]; intros m live G; cbn [merge_branch]; cbv zeta.
  - split; [exists live; split; [exact G|apply incl_refl]|]. split; [constructor; auto|tauto].
  - destruct (forallb (fun n => stand_in A m live n =? n) live).
    + split; [exists live; split; [exact G|apply incl_refl]|]. split; [constructor; auto|tauto].
    + pose proof (graph_new m live G) as G'.
      destruct (IH _ _ G') as [[live' [G2 I2]] [[R1 R2 R3 R4] RN]].
      assert (SUB : incl (filter (fun n => stand_in A m live n =? n) live) live).
      { intros n K. apply filter_In in K. tauto. }
      split; [exists live'; split; [exact G2|now apply (incl_tran I2)]|]. split.
      * constructor.
        -- intros n N. rewrite R1 by (intro K; apply N; now apply SUB). unfold merge_once. cbn [m_links].
           apply mem_out in N. now rewrite N.
        -- intros n N. rewrite R2 by (intro K; apply N; now apply SUB). unfold merge_once. cbn [m_rep].
           apply mem_out in N. now rewrite N.
        -- intros n N. rewrite R3 by exact N. unfold merge_once. cbn [m_inner]. apply Nat.eqb_neq in N. now rewrite N.
        -- rewrite R4. reflexivity.
      * intro ks. rewrite RN. now apply runs_once.
Qed.

End Merge.
