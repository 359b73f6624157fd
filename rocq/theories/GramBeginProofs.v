(* Where the symbols of a rule stand: at its beginning, again, later. *)
From Coq Require Import ZArith List Bool Lia Relations.
From Verif Require Import NetModel GramModel GramSpec GramLayProofs GramPathProofs GramEmptyProofs GramFlatProofs.
Import ListNotations.
Local Open Scope nat_scope.

Section Begin.
Variable R : grammar.
Let A := arena R.
Variable X : nat.
Variable cx : Z.
Variable ax : alts.
Hypothesis AX : at_ A X = CRule cx ax.
Variable k : key.

(* Nodes the rule may begin with. *)
Inductive begin : nat -> Prop :=
| bg_first u : In u (inner A X) -> begin u
| bg_group u g : begin g -> In u (inner A g) -> begin u
| bg_skip p e r s o : begin p -> at_ A p = CPart e r s o -> meant R (TItem e r) [] -> begin (after A p).

(* First on every level, and in nothing that is repeated. *)
Inductive front : nat -> Prop :=
| fr_first u : In u (inner A X) -> front u
| fr_group u g e r s o : front g -> at_ A g = CPart e r s o -> loops r = false -> In u (inner A g) -> front u.

Lemma alts_at_X : alts_at R X = Some ax.
Proof. unfold alts_at. fold A. now rewrite AX. Qed.

Lemma owner_of : forall u o, In u (inner A o) -> owner A u = Some o.
Proof. intros u o H. now apply inner_under. Qed.

Lemma after_suffix : forall p e r s o, at_ A p = CPart e r s o -> suffix R (after A p) = s.
Proof.
  intros p e r s o E. unfold suffix. fold A. destruct (part_cell R _ _ _ _ _ E) as [_ [_ H]]. fold A in H.
  rewrite H. now destruct s.
Qed.

Lemma part_owner : forall p e r s o, at_ A p = CPart e r s o -> owner A p = Some o.
Proof. intros p e r s o E. unfold owner. now rewrite E. Qed.

Lemma begin_under : forall u, begin u -> under R X u.
Proof.
  induction 1 as [u H|u g B IH H|p e r s o B IH E M].
  - apply under_in. now apply owner_of.
  - apply (under_trans R X g u IH). apply under_in. now apply owner_of.
  - apply (under_same R X p); [|exact IH]. fold A. rewrite (part_owner _ _ _ _ _ E). symmetry.
    now apply (after_owner R p e r s o).
Qed.

Lemma group_cell : forall g u, In u (inner A g) -> g <> X -> under R X g ->
  exists a r s o, at_ A g = CPart (Group a) r s o.
Proof.
  intros g u H N U. destruct (inner_in R _ _ H) as [a [e [r [s [AO _]]]]]. unfold alts_at in AO. fold A in AO.
  destruct (at_ A g) as [[v|b|a0] r0 s0 o0| |b a0|] eqn:E; try discriminate; [eauto 6|].
  exfalso. apply rule_owner in E. inversion U; unfold A in *; congruence.
Qed.

Lemma begin_not_X : forall u, begin u -> u <> X.
Proof. intros u B ->. apply begin_under in B. apply under_lt in B. lia. Qed.

Lemma begin_group_cell : forall g u, begin g -> In u (inner A g) -> exists a r s o, at_ A g = CPart (Group a) r s o
  /\ exists e r' s', at_ A u = CPart e r' s' g /\ alternative (Then e r' s') a.
Proof.
  intros g u B H. destruct (group_cell g u H (begin_not_X g B) (begin_under g B)) as [a [r [s [o E]]]].
  exists a, r, s, o. split; [exact E|]. destruct (inner_in R _ _ H) as [a' [e [r' [s' [AO [E' [AL _]]]]]]].
  unfold alts_at in AO. fold A in AO, E'. rewrite E in AO. injection AO as ->. eauto 6.
Qed.

(* ---- the beginning ---- *)

Lemma begin_empty : forall u, begin u -> meant R (TParts (suffix R u)) [] -> forall o a, owner A u = Some o ->
  alts_at R o = Some a -> meant R (TAlts a) [].
Proof.
  assert (Q : forall u o, In u (inner A o) -> meant R (TParts (suffix R u)) [] -> forall o' a, owner A u = Some o' ->
    alts_at R o' = Some a -> meant R (TAlts a) []).
  { intros u o H M o' a O AO. rewrite (owner_of u o H) in O. injection O as <-.
    destruct (inner_in R _ _ H) as [a' [e [r [s [AO' [E [AL _]]]]]]]. rewrite AO in AO'. injection AO' as <-.
    unfold suffix in M. fold A in E, M. rewrite E in M. apply (alternative_meant R (Then e r s)); auto. discriminate. }
  induction 1 as [u H|u g B IH H|p e r s o B IH E M]; intros MS o' a O AO.
  - now apply (Q u X H MS o').
  - now apply (Q u g H MS o').
  - unfold A in O. rewrite (after_owner R p e r s o E) in O. injection O as <-. rewrite (after_suffix p e r s o E) in MS.
    apply (IH) with (o := o); auto.
    + unfold suffix. fold A. rewrite E. now apply parts_empty.
    + now apply (part_owner p e r s o).
Qed.

Lemma begin_owner : forall u, begin u -> forall o, owner A u = Some o -> o = X \/ begin o.
Proof.
  induction 1 as [u H|u g B IH H|p e r s o B IH E M]; intros o' O.
  - rewrite (owner_of u X H) in O. injection O as <-. now left.
  - rewrite (owner_of u g H) in O. injection O as <-. now right.
  - unfold A in O. rewrite (after_owner R p e r s o E) in O. injection O as <-. apply IH. now apply (part_owner p e r s o).
Qed.

Lemma begin_enters : forall u m, enters R u m -> begin u -> begin m.
Proof.
  induction 1 as [u L|u o b a E O|u a r s o n m E I1 H IH|u o a r s o' m E O H IH
                 |u o a r s o' n m E O L I1 H IH|u e r s o m E M H IH]; intro B; auto.
  - apply IH. now apply (bg_group n u).
  - apply IH. fold A in E, O.
    assert (OW : owner A u = Some o) by (unfold owner; now rewrite E).
    destruct (begin_owner u B o OW) as [->|Bo]; [congruence|].
    apply (bg_skip o (Group a) r s o'); auto. apply mean_once, mean_group.
    apply (begin_empty u B) with (o := o); auto.
    + unfold suffix. fold A. rewrite E. constructor.
    + unfold alts_at. fold A. now rewrite O.
  - apply IH. fold A in E, O.
    assert (OW : owner A u = Some o) by (unfold owner; now rewrite E).
    destruct (begin_owner u B o OW) as [->|Bo]; [congruence|]. now apply (bg_group n o).
  - apply IH. now apply (bg_skip u e r s o).
Qed.

Lemma begin_starts : forall u, begin u -> forall m, enters R u m -> exists s, In s (inner A X) /\ enters R s m.
Proof.
  induction 1 as [u H|u g B IH H|p e r s o B IH E M]; intros m EN; eauto.
  - destruct (begin_group_cell g u B H) as [a [r [s [o [E _]]]]]. apply IH. now apply (en_group R g a r s o u).
  - apply IH. now apply (en_skip R p e r s o).
Qed.

(* ---- beginning again ---- *)

Lemma alternative_begins : forall s a, alternative s a -> begins_with R k (TParts s) -> begins_with R k (TAlts a).
Proof.
  induction a as [|s' a IH]; intros H B; cbn [alternative] in H; [easy|].
  destruct H as [->|H]; [now apply begin_this|]. apply begin_other. auto.
Qed.

Lemma alternative_again : forall s a, alternative s a -> begins_again R k (TParts s) -> begins_again R k (TAlts a).
Proof.
  induction a as [|s' a IH]; intros H B; cbn [alternative] in H; [easy|].
  destruct H as [->|H]; [now apply again_this|]. apply again_other. auto.
Qed.

Lemma again_with : forall t, begins_again R k t -> begins_with R k t.
Proof.
  induction 1.
  - now apply begin_group.
  - now apply begin_item.
  - now apply begin_item.
  - now apply begin_first.
  - now apply begin_rest.
  - now apply begin_this.
  - now apply begin_other.
Qed.

Lemma first_alternative : forall u, In u (inner A X) -> exists e r s, at_ A u = CPart e r s X /\ alternative (Then e r s) ax.
Proof.
  intros u H. destruct (inner_in R _ _ H) as [a [e [r [s [AO [E [AL _]]]]]]]. rewrite alts_at_X in AO.
  injection AO as <-. eauto 6.
Qed.

Lemma suffix_at : forall u e r s o, at_ A u = CPart e r s o -> suffix R u = Then e r s.
Proof. intros u e r s o E. unfold suffix. fold A. now rewrite E. Qed.

Lemma lift_again : forall u, begin u -> begins_again R k (TParts (suffix R u)) -> begins_again R k (TAlts ax).
Proof.
  induction 1 as [u H|u g B IH H|p e r s o B IH E M]; intro BA.
  - destruct (first_alternative u H) as [e [r [s [E AL]]]]. rewrite (suffix_at _ _ _ _ _ E) in BA.
    now apply (alternative_again (Then e r s)).
  - destruct (begin_group_cell g u B H) as [a [r [s [o [E [e [r' [s' [E' AL]]]]]]]]]. apply IH.
    rewrite (suffix_at _ _ _ _ _ E). rewrite (suffix_at _ _ _ _ _ E') in BA.
    apply again_first, again_item, again_group. now apply (alternative_again (Then e r' s')).
  - apply IH. rewrite (suffix_at _ _ _ _ _ E). rewrite (after_suffix _ _ _ _ _ E) in BA.
    apply again_rest; [now apply meant_says|now apply again_with].
Qed.

Lemma loops_rep : forall r, loops r = true <-> r = Star \/ r = Plus.
Proof. destruct r; cbn; split; intro H; auto; try discriminate; destruct H; discriminate. Qed.

Lemma begin_kind : forall u, begin u -> begins_with R k (TParts (suffix R u)) ->
  front u \/ begins_again R k (TAlts ax).
Proof.
  induction 1 as [u H|u g B IH H|p e r s o B IH E M]; intro BW.
  - left. now apply fr_first.
  - destruct (begin_group_cell g u B H) as [a [r [s [o [E [e [r' [s' [E' AL]]]]]]]]].
    rewrite (suffix_at _ _ _ _ _ E') in BW.
    assert (BG : begins_with R k (TElem (Group a))) by (apply begin_group; now apply (alternative_begins (Then e r' s'))).
    destruct (loops r) eqn:L.
    + right. apply (lift_again g B). rewrite (suffix_at _ _ _ _ _ E). apply again_first, again_loop; auto.
      now apply loops_rep.
    + destruct IH as [F|F]; [|left|now right].
      * rewrite (suffix_at _ _ _ _ _ E). now apply begin_first, begin_item.
      * now apply (fr_group u g (Group a) r s o).
  - right. apply (lift_again p B). rewrite (suffix_at _ _ _ _ _ E). rewrite (after_suffix _ _ _ _ _ E) in BW.
    apply again_rest; auto. now apply meant_says.
Qed.

(* What follows a part is not the first of an alternative. *)
Lemma after_not_inner : forall p e r s o o', at_ A p = CPart e r s o -> ~ In (after A p) (inner A o').
Proof.
  intros p e r s o o' E H. pose proof (owner_of _ _ H) as O. unfold A in O.
  rewrite (after_owner R p e r s o E) in O. injection O as <-.
  destruct (inner_in R _ _ H) as [a [e' [r' [s' [_ [_ [_ K]]]]]]]. fold A in K.
  assert (C : cell_ok A p) by (apply at_some; fold A; rewrite E; discriminate).
  unfold cell_ok in C. unfold after in K. rewrite E in C, K. destruct C as [C1 [_ [_ C2]]].
  assert (C3 := size_elem_pos e).
  destruct K as [K|K]; [lia|].
  destruct e as [v|b|a0]; cbn [size_elem] in K; try (rewrite Nat.add_comm in K; cbn [Nat.add pred] in K; unfold A in *; congruence).
  destruct C2 as [_ [C2|C2]]; cbn [size_elem] in C2, K.
  - rewrite C2 in K. cbn [pred] in K. unfold A in *; congruence.
  - rewrite C2 in K. injection K as K. lia.
Qed.

Lemma front_not_after : forall p e r s o, at_ A p = CPart e r s o -> ~ front (after A p).
Proof. intros p e r s o E F. inversion F as [v K|v g e' r' s' o' Fg Eg Lg K]; subst; now apply (after_not_inner _ _ _ _ _ _ E K). Qed.

Lemma front_enters : forall u m, enters R u m -> front m -> front u.
Proof.
  induction 1 as [u L|u o b a E O|u a r s o n m E I1 H IH|u o a r s o' m E O H IH
                 |u o a r s o' n m E O L I1 H IH|u e r s o m E M H IH]; intro F; auto; specialize (IH F).
  - inversion IH as [v K|v g e r' s' o' Fg Eg Lg K]; subst; pose proof (owner_of _ _ K) as O1;
      pose proof (owner_of _ _ I1) as O2; rewrite O1 in O2; injection O2 as O2; [subst; unfold A in *; congruence|now subst].
  - exfalso. now apply (front_not_after o (Group a) r s o').
  - exfalso. inversion IH as [v K|v g e r' s' o'' Fg Eg Lg K]; subst; pose proof (owner_of _ _ K) as O1;
      pose proof (owner_of _ _ I1) as O2; rewrite O1 in O2; injection O2 as O2; subst; unfold A in *; congruence.
  - exfalso. now apply (front_not_after u e r s o).
Qed.

Lemma leaf_begins : forall n, is_leaf A n = true -> leaf_key A n = k -> exists e r s o,
  at_ A n = CPart e r s o /\ begins_with R k (TElem e).
Proof.
  intros n L K. unfold is_leaf in L. unfold leaf_key in K.
  destruct (at_ A n) as [[v|b|a0] r0 s0 o0| |b a0|] eqn:E; try discriminate; do 4 eexists; (split; [reflexivity|]); now constructor.
Qed.

Lemma reached_again : forall n p, is_leaf A n = true -> leaf_key A n = k -> begin n -> is_leaf A p = true -> flat R p n ->
  begins_again R k (TAlts ax).
Proof.
  intros n p L K B Lp F. destruct (leaf_begins n L K) as [e [r [s [o [E BW]]]]].
  destruct F as [F|[F ->]].
  - destruct (begin_kind n B) as [FR|H]; [|exfalso|exact H].
    + rewrite (suffix_at _ _ _ _ _ E). now apply begin_first, begin_item.
    + destruct (leaf_cell R p Lp) as [e' [r' [s' [o' [E' _]]]]]. fold A in F, E'.
      apply (front_not_after p e' r' s' o' E'). now apply (front_enters (after A p) n).
  - apply (lift_again p B). rewrite (suffix_at _ _ _ _ _ E). apply again_first, again_loop; auto.
    unfold eff_at in F. fold A in F. rewrite E in F. now apply (eff_loops R e).
Qed.

(* ---- later ---- *)

Lemma alternative_full : forall s a, alternative s a -> full_alts a -> full_parts s.
Proof.
  induction a as [|s' a IH]; intros H F; cbn [alternative full_alts] in *; [easy|].
  destruct H as [->|H]; tauto.
Qed.

Lemma under_full : full_alts ax -> forall u, under R X u -> full_parts (suffix R u).
Proof.
  intro FX. induction u as [u IH] using lt_wf_ind. intro U.
  assert (exists o, owner A u = Some o) as [o HO] by (inversion U; eauto).
  pose proof (arena_back R u) as B. unfold back in B. fold A in B. rewrite HO in B.
  destruct B as [B|[p [e [r [s [Ep Ap]]]]]].
  - destruct (inner_in R _ _ B) as [a [e [r [s [AO [E [AL _]]]]]]]. fold A in E. rewrite (suffix_at _ _ _ _ _ E).
    apply (alternative_full _ a AL).
    destruct (under_group R _ _ U _ HO) as [->|Uo]; [rewrite alts_at_X in AO; now injection AO as <-|].
    specialize (IH o (owner_lt R _ _ HO) Uo).
    destruct (group_cell o u B) as [a' [r' [s' [o' E']]]]; auto.
    { intros ->. apply under_lt in Uo. lia. }
    unfold alts_at in AO. fold A in AO. rewrite E' in AO. injection AO as ->. rewrite (suffix_at _ _ _ _ _ E') in IH.
    apply IH.
  - assert (Lp : p < u) by (rewrite <- Ap; now apply (after_pos R p e r s o)).
    assert (Up : under R X p).
    { apply (under_same R X u); [|exact U]. fold A. rewrite HO. symmetry. now apply (part_owner p e r s o). }
    specialize (IH p Lp Up). rewrite (suffix_at _ _ _ _ _ Ep) in IH. rewrite <- Ap, (after_suffix _ _ _ _ _ Ep). apply IH.
Qed.

Lemma alternative_later : forall s a, alternative s a -> occurs_later R k (TParts s) -> occurs_later R k (TAlts a).
Proof.
  induction a as [|s' a IH]; intros H B; cbn [alternative] in H; [easy|].
  destruct H as [->|H]; [now apply later_this|]. apply later_other. auto.
Qed.

Lemma lift_later : forall u, under R X u -> occurs_later R k (TParts (suffix R u)) -> occurs_later R k (TAlts ax).
Proof.
  induction u as [u IH] using lt_wf_ind. intros U OL.
  assert (exists o, owner A u = Some o) as [o HO] by (inversion U; eauto).
  pose proof (arena_back R u) as B. unfold back in B. fold A in B. rewrite HO in B.
  destruct B as [B|[p [e [r [s [Ep Ap]]]]]].
  - destruct (inner_in R _ _ B) as [a [e [r [s [AO [E [AL _]]]]]]]. fold A in E. rewrite (suffix_at _ _ _ _ _ E) in OL.
    assert (OA : occurs_later R k (TAlts a)) by (now apply (alternative_later (Then e r s))).
    destruct (under_group R _ _ U _ HO) as [->|Uo]; [rewrite alts_at_X in AO; now injection AO as ->|].
    apply (IH o (owner_lt R _ _ HO) Uo).
    destruct (group_cell o u B) as [a' [r' [s' [o' E']]]]; auto.
    { intros ->. apply under_lt in Uo. lia. }
    unfold alts_at in AO. fold A in AO. rewrite E' in AO. injection AO as ->. rewrite (suffix_at _ _ _ _ _ E').
    now apply later_first, later_item, later_group.
  - assert (Lp : p < u) by (rewrite <- Ap; now apply (after_pos R p e r s o)).
    apply (IH p Lp).
    + apply (under_same R X u); [|exact U]. fold A. rewrite HO. symmetry. now apply (part_owner p e r s o).
    + rewrite (suffix_at _ _ _ _ _ Ep). rewrite <- Ap, (after_suffix _ _ _ _ _ Ep) in OL. now apply later_rest.
Qed.

Lemma not_begin :
  (forall u e r s o, at_ A u = CPart e r s o -> under R X u -> says R (TItem e r) [] -> meant R (TItem e r) []) ->
  forall u, under R X u -> ~ begin u -> occurs_parts k (suffix R u) -> ~ ~ occurs_later R k (TAlts ax).
Proof.
  intros SM. induction u as [u IH] using lt_wf_ind. intros U NB OC N.
  assert (exists o, owner A u = Some o) as [o HO] by (inversion U; eauto).
  pose proof (arena_back R u) as B. unfold back in B. fold A in B. rewrite HO in B.
  destruct B as [B|[p [e [r [s [Ep Ap]]]]]].
  - destruct (under_group R _ _ U _ HO) as [->|Uo]; [apply NB; now apply bg_first|].
    destruct (group_cell o u B) as [a' [r' [s' [o' E']]]]; auto.
    { intros ->. apply under_lt in Uo. lia. }
    apply (IH o (owner_lt R _ _ HO) Uo); auto.
    + intro Bo. apply NB. now apply (bg_group u o).
    + destruct (inner_in R _ _ B) as [a [e [r [s [AO [E [AL _]]]]]]]. fold A in E. rewrite (suffix_at _ _ _ _ _ E) in OC.
      unfold alts_at in AO. fold A in AO. rewrite E' in AO. injection AO as ->. rewrite (suffix_at _ _ _ _ _ E').
      cbn [occurs_parts occurs_elem]. left. now apply (alternative_occurs k (Then e r s)).
  - assert (Lp : p < u) by (rewrite <- Ap; now apply (after_pos R p e r s o)).
    assert (Up : under R X p).
    { apply (under_same R X u); [|exact U]. fold A. rewrite HO. symmetry. now apply (part_owner p e r s o). }
    rewrite <- Ap, (after_suffix _ _ _ _ _ Ep) in OC.
    assert (NE : ~ ~ (empty R (TItem e r) \/ ~ empty R (TItem e r))) by tauto.
    apply NE. intros [Y|Y].
    + apply (IH p Lp Up); auto.
      * intro Bp. apply NB. rewrite <- Ap. apply (bg_skip p e r s o); auto. now apply (SM p e r s o).
      * rewrite (suffix_at _ _ _ _ _ Ep). cbn [occurs_parts]. now right.
    + apply N. apply (lift_later p Up). rewrite (suffix_at _ _ _ _ _ Ep). now apply later_after.
Qed.

Lemma leaf_occurs : forall n, is_leaf A n = true -> leaf_key A n = k -> occurs_parts k (suffix R n).
Proof.
  intros n L K. unfold suffix. fold A. unfold is_leaf in L. unfold leaf_key in K.
  destruct (at_ A n) as [[v|b|a0] r0 s0 o0| |b a0|] eqn:E; try discriminate; cbn; left; congruence.
Qed.

End Begin.
