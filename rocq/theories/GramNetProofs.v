(* The net made from a grammar has the sentences the grammar has. *)
From Coq Require Import ZArith List Bool Lia Relations.
From Verif Require Import NetModel NetSpec GramModel GramSpec GramLayProofs GramPathProofs GramEmptyProofs GramFlatProofs
  GramMergeProofs GramBeginProofs GramRuleProofs.
Import ListNotations.
Local Open Scope nat_scope.

Scheme matches_mut := Induction for matches Sort Prop
with walks_mut := Induction for walks Sort Prop.
Combined Scheme net_mind from matches_mut, walks_mut.
Scheme yields_mut := Induction for yields Sort Prop
with ylist_mut := Induction for ylist Sort Prop.
Combined Scheme yield_mind from yields_mut, ylist_mut.

Section Sentence.
Variable R : grammar.
Let A := arena R.
Hypothesis WM : well_made R.
Variable m : memory.
Hypothesis OV : forall z b a, at_ A z = CRule b a -> exists live, over R m z live.

Let g := net_of A m.
Definition runs_of (b : Z) (ks : list key) : Prop := exists x, rule_of A b = Some x /\ runs A m x ks.

Lemma next_leaf : forall n k, In k (nd_next (nt_node g n)) <-> In k (m_links m n) /\ is_leaf A k = true.
Proof. intros n k. unfold g, net_of. cbn [nt_node nd_next]. now rewrite filter_In. Qed.

Lemma begins_in : forall b n, begins g b n <-> exists x, rule_of A b = Some x /\ In n (m_inner m x) /\ is_leaf A n = true.
Proof.
  intros b n. unfold begins, g, net_of. cbn [nt_start]. split.
  - intros [s [E I1]]. destruct (rule_of A b) as [x|]; [|discriminate]. injection E as <-. apply filter_In in I1. eauto.
  - intros [x [E [I1 L]]]. rewrite E. eexists. split; [reflexivity|]. now apply filter_In.
Qed.

Lemma end_goes : forall n b, nd_end (nt_node g n) = Some b -> goes A m n [].
Proof.
  intros n b H. unfold g, net_of in H. cbn [nt_node nd_end] in H. unfold end_value in H.
  destruct (find (is_end A) (m_links m n)) as [e|] eqn:F; [|discriminate]. apply find_some in F.
  now apply (goes_end A m n e).
Qed.

Lemma net_yields :
  (forall n w next rs, matches g n w next rs -> is_leaf A n = true -> yields runs_of (leaf_key A n) (map snd w)) /\
  (forall b n w next rs, walks g b n w next rs -> is_leaf A n = true /\
     forall ks' w', goes A m n ks' -> ylist runs_of ks' w' ->
       exists ks, ks <> [] /\ runs_of b ks /\ ylist runs_of ks (map snd w ++ w')).
Proof.
  apply net_mind.
  - intros n i next L. cbn [map snd]. apply y_self.
  - intros n b k w next rs K W [Lk IH] E L.
    destruct (IH [] [] (end_goes k b E) (y_nil _)) as [ks [N [RN Y]]]. rewrite app_nil_r in Y.
    change (nd_key (nt_node g n)) with (leaf_key A n) in K. rewrite K. now apply (y_rule _ b ks).
  - intros b n w next rs B M IH. apply begins_in in B. destruct B as [x [E [I1 L]]]. split; [exact L|].
    intros ks' w' G Y. exists (leaf_key A n :: ks'). split; [discriminate|]. split.
    + exists x. split; [exact E|]. now apply runs_on.
    + constructor; auto.
  - intros b k n w1 w2 next rs1 rs2 W [Lk IH] N M IH2. apply next_leaf in N. destruct N as [N L]. split; [exact L|].
    intros ks' w' G Y. rewrite map_app, <- app_assoc. apply (IH (leaf_key A n :: ks')).
    + now apply goes_on.
    + constructor; auto.
Qed.

(* An end among the links of a node of a rule. *)
Lemma end_found : forall x b a live n, at_ A x = CRule b a -> over R m x live -> In n live -> goes A m n [] ->
  nd_end (nt_node g n) = Some b.
Proof.
  intros x b a live n E O I1 G. inversion G as [n' e I2 EE|]; subst.
  unfold g, net_of. cbn [nt_node nd_end]. unfold end_value.
  destruct (find (is_end A) (m_links m n)) as [e'|] eqn:F.
  - apply find_some in F. destruct F as [F1 F2].
    destruct (gr_next _ _ _ _ _ (ov_graph _ _ _ _ O) n e' I1 F1) as [K|K].
    + exfalso. apply (leaf_end A e'); auto. now apply (gr_leaf _ _ _ _ _ (ov_graph _ _ _ _ O)).
    + fold A in K. now rewrite K, E.
  - exfalso. apply (find_none _ _ F) in I2. congruence.
Qed.

Lemma yields_net :
  (forall k w, yields runs_of k w -> forall n wd next, leaf_key A n = k -> map snd wd = w ->
     exists rs, matches g n wd next rs) /\
  (forall ks w, ylist runs_of ks w ->
     (forall x b a live n wd0 wd next rs0, at_ A x = CRule b a -> over R m x live -> In n live ->
        goes A m n ks -> map snd wd = w -> walks g b n wd0 (first wd next) rs0 ->
        exists n' rs, walks g b n' (wd0 ++ wd) next rs /\ nd_end (nt_node g n') = Some b) /\
     (forall b x wd next, rule_of A b = Some x -> runs A m x ks -> ks <> [] -> map snd wd = w ->
        exists n' rs, walks g b n' wd next rs /\ nd_end (nt_node g n') = Some b)).
Proof.
  apply yield_mind.
  - intros k n wd next K W. destruct wd as [|[i k'] [|]]; try discriminate. cbn [map snd] in W. injection W as ->.
    exists []. rewrite <- K. change (leaf_key A n) with (nd_key (nt_node g n)). apply match_element.
  - intros b ks w [x [E RN]] N Y [_ IH] n wd next K W. destruct (IH b x wd next E RN N W) as [n' [rs [WK EN]]].
    eexists. apply (match_branch g n b n' wd next rs); auto.
  - split.
    + intros x b a live n wd0 wd next rs0 E O I1 G W WK. destruct wd; [|discriminate]. cbn [first] in WK.
      exists n, rs0. rewrite app_nil_r. split; [exact WK|]. now apply (end_found x b a live).
    + intros b x wd next _ _ N. easy.
  - intros k ks w1 w2 Y1 IH1 Y2 [IH2 _]. split.
    + intros x b a live n wd0 wd next rs0 E O I1 G W WK.
      apply map_eq_app in W. destruct W as [d1 [d2 [-> [W1 W2]]]].
      inversion G as [|n0 j ks0 I2 L G2]; subst.
      assert (J : In j live).
      { destruct (gr_next _ _ _ _ _ (ov_graph _ _ _ _ O) n j I1 I2) as [K|K]; [exact K|].
        exfalso. unfold is_leaf in L. fold A in K. now rewrite K in L. }
      destruct (IH1 j d1 (first d2 next) eq_refl eq_refl) as [rs1 M].
      rewrite app_assoc. apply (IH2 x b a live j (wd0 ++ d1) d2 next (rs0 ++ rs1)); auto.
      apply (walk_next g b n j wd0 d1); auto.
      * destruct d1 as [|[i0 k0] d1']; [|exact WK]. exfalso. now apply (yields_nonempty runs_of _ _ Y1).
      * apply next_leaf. auto.
    + intros b x wd next E RN _ W.
      apply map_eq_app in W. destruct W as [d1 [d2 [-> [W1 W2]]]].
      inversion RN as [|j ks0 I2 L G2]; subst.
      destruct (rule_of_some R b x E) as [a [_ AX]].
      destruct (OV x b a AX) as [live O].
      assert (J : In j live).
      { destruct (gr_first _ _ _ _ _ (ov_graph _ _ _ _ O) j I2) as [K|K]; [exact K|].
        exfalso. unfold is_leaf in L. fold A in K. now rewrite K in L. }
      destruct (IH1 j d1 (first d2 next) eq_refl eq_refl) as [rs1 M].
      apply (IH2 x b a live j d1 d2 next rs1); auto.
      apply walk_start; auto. apply begins_in. eauto.
Qed.

Lemma runs_keys : forall b ks, runs_of b ks <-> rule_keys R b ks.
Proof.
  intros b ks. unfold runs_of, rule_keys. fold A.
  assert (Q : forall x, rule_of A b = Some x -> runs A m x ks <-> opening R x ks).
  { intros x E. destruct (rule_of_some R b x E) as [a [_ AX]]. destruct (OV x b a AX) as [live O]. apply (ov_runs _ _ _ _ O). }
  split; intros [x [E H]]; exists x; (split; [exact E|]); now apply Q.
Qed.

Lemma ylist_ext : forall (L L' : Z -> list key -> Prop), (forall b ks, L b ks -> L' b ks) ->
  (forall k w, yields L k w -> yields L' k w) /\ (forall ks w, ylist L ks w -> ylist L' ks w).
Proof.
  intros L L' H. apply yield_mind; intros; try (now constructor).
  apply (y_rule L' b ks w); auto.
Qed.

Lemma net_sentence : forall a wd next, body R root_value = Some a -> elementary R (map snd wd) ->
  (exists rs, sentence g wd next rs) <-> wd <> [] /\ says R (TAlts a) (map snd wd).
Proof.
  intros a wd next B EL. destruct (rule_exists R root_value a B) as [x [E AX]]. split.
  - intros [rs [n [W EN]]].
    destruct (proj2 net_yields _ _ _ _ _ W) as [_ H]. destruct (H [] [] (end_goes n _ EN) (y_nil _)) as [ks [N [RN Y]]].
    rewrite app_nil_r in Y. split.
    + intros ->. cbn [map] in Y. inversion Y; subst; [easy|].
      match goal with K : _ ++ _ = [] |- _ => apply app_eq_nil in K; destruct K; subst end.
      match goal with K : yields _ _ _ |- _ => now apply yields_nonempty in K end.
    + apply meant_says. apply runs_keys in RN. destruct RN as [x' [E' O]]. fold A in E', E. rewrite E in E'. injection E' as <-.
      apply (opening_meant R x root_value a ks); auto. apply ylist_spelt; auto.
      apply (proj2 (ylist_ext runs_of (rule_keys R) (fun b ks => proj1 (runs_keys b ks)))). exact Y.
  - intros [N S]. apply (says_meant R (wm_full R WM)) in S; [|now apply (wm_full R WM root_value)].
    destruct (meant_opening R root_value a x (map snd wd) B E S) as [ks [O Y]].
    apply (proj2 (ylist_ext (rule_keys R) runs_of (fun b ks => proj2 (runs_keys b ks)))) in Y.
    assert (K : ks <> []).
    { intros ->. inversion Y. apply N. now destruct wd. }
    destruct (proj2 (proj2 yields_net _ _ Y) root_value x wd next E) as [n [rs [W EN]]]; auto.
    + destruct (OV x root_value a AX) as [live OX]. now apply (ov_runs _ _ _ _ OX).
    + exists rs, n. auto.
Qed.

End Sentence.
