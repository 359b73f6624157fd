(* Moving the repetition of a group into its only part changes nothing. *)
From Coq Require Import ZArith List Bool Lia Relations.
From Verif Require Import NetModel GramModel GramSpec GramLayProofs.
Import ListNotations.
Local Open Scope nat_scope.

(* ---- repetitions of a language ---- *)

Section Lang.
Variable K : Type.
Definition lang := list K -> Prop.

Inductive many (L : lang) : lang :=
| many_nil : many L []
| many_cons w1 w2 : L w1 -> many L w2 -> many L (w1 ++ w2).

Definition repeated (r : rep) (L : lang) : lang := fun w =>
  match r with
  | Once => L w
  | Question => w = [] \/ L w
  | Star => many L w
  | Plus => exists w1 w2, w = w1 ++ w2 /\ L w1 /\ many L w2
  end.

Lemma many_app : forall L w1 w2, many L w1 -> many L w2 -> many L (w1 ++ w2).
Proof.
  intros L w1 w2 H K2. induction H as [|v1 v2 V M IH]; [exact K2|]. rewrite <- app_assoc. now constructor.
Qed.

Lemma many_one : forall (L : lang) w, L w -> many L w.
Proof. intros L w H. rewrite <- (app_nil_r w). constructor; [exact H|constructor]. Qed.

Lemma many_sub : forall (L L' : lang), (forall w, L w -> many L' w) -> forall w, many L w -> many L' w.
Proof. intros L L' H w M. induction M as [|v1 v2 V M IH]; [constructor|]. apply many_app; auto. Qed.

Lemma repeated_many : forall r (L : lang) w, repeated r L w -> many L w.
Proof.
  intros [| | |] L w H; cbn [repeated] in H.
  - now apply many_one.
  - exact H.
  - destruct H as [w1 [w2 [-> [H1 H2]]]]. now constructor.
  - destruct H as [->|H]; [constructor|now apply many_one].
Qed.

Lemma repeated_one : forall r (L : lang) w, L w -> repeated r L w.
Proof.
  intros [| | |] L w H; cbn [repeated].
  - exact H.
  - now apply many_one.
  - exists w, []. split; [symmetry; apply app_nil_r|]. split; [exact H|constructor].
  - now right.
Qed.

Lemma repeated_nil : forall r (L : lang), r = Star \/ r = Question -> repeated r L [].
Proof. intros r L [->| ->]; cbn; [constructor|now left]. Qed.

Lemma combine_repeated : forall o r (L : lang) w, repeated o (repeated r L) w <-> repeated (combine_rep o r) L w.
Proof.
  intros o r L w.
  assert (M1 : forall v, many (repeated r L) v -> many L v) by (apply many_sub, repeated_many).
  assert (M2 : forall v, many L v -> many (repeated r L) v) by (apply many_sub; intros v H; apply many_one, repeated_one, H).
  destruct o, r; cbn [combine_rep].
  all: try (cbn [repeated] in *; tauto).
  - (* Star, Star *) cbn [repeated] in *. split; auto.
  - cbn [repeated] in *. split; auto.
  - cbn [repeated] in *. split; auto.
  - (* Plus, Star *) change (repeated Plus (repeated Star L) w <-> many L w). cbn [repeated] in *. split.
    + intros [w1 [w2 [-> [H1 H2]]]]. apply many_app; auto.
    + intro H. exists [], w. split; [reflexivity|]. split; [constructor|auto].
  - (* Plus, Plus *) split; intros [w1 [w2 [-> [H1 H2]]]]; cbn [repeated] in *.
    + destruct H1 as [v1 [v2 [-> [H3 H4]]]]. exists v1, (v2 ++ w2). split; [symmetry; apply app_assoc|].
      split; [exact H3|]. apply many_app; auto.
    + exists w1, w2. split; [reflexivity|]. split; [|auto]. exists w1, []. split; [symmetry; apply app_nil_r|].
      split; [exact H1|constructor].
  - (* Plus, Question *) cbn [repeated] in *. split.
    + intros [w1 [w2 [-> [H1 H2]]]]. apply many_app; auto. destruct H1 as [->|H1]; [constructor|now apply many_one].
    + intro H. exists [], w. split; [reflexivity|]. split; [now left|auto].
  - (* Question, Star *) cbn [repeated] in *. split; [intros [->|H]; [constructor|exact H]|]. intro H. now right.
  - (* Question, Plus *) cbn [repeated] in *. split.
    + intros [->|[w1 [w2 [-> [H1 H2]]]]]; [constructor|now constructor].
    + intro H. inversion H as [|w1 w2 H1 H2]; subst; [now left|]. right. eauto.
Qed.
End Lang.

Section Revise.
Variable Q : grammar.

Lemma item_repeated : forall e r w, says Q (TItem e r) w <-> repeated key r (fun v => says Q (TElem e) v) w.
Proof.
  intros e r w. split; intro H.
  - remember (TItem e r) as t eqn:T. revert e r T.
    induction H; intros e0 r0 T; try discriminate; injection T as -> ->.
    + now apply repeated_one.
    + now apply repeated_nil.
    + specialize (IHsays2 _ _ eq_refl). apply repeated_many in IHsays2.
      destruct H as [->| ->]; cbn [repeated]; [now constructor|]. exists w1, w2. auto.
  - assert (M : forall r v, r = Star -> many key (fun v => says Q (TElem e) v) v -> says Q (TItem e r) v).
    { intros r0 v E M. induction M as [|v1 v2 V M IH]; [apply says_none; auto|apply says_more; auto]. }
    assert (P : forall v1 v, many key (fun v => says Q (TElem e) v) v -> says Q (TElem e) v1 -> says Q (TItem e Plus) (v1 ++ v)).
    { intros v1 v M'. revert v1. induction M' as [|u1 u2 V M' IH]; intros v1 H1.
      - rewrite app_nil_r. now apply says_once.
      - apply says_more; auto. }
    destruct r; cbn [repeated] in H.
    + now apply says_once.
    + now apply M.
    + destruct H as [w1 [w2 [-> [H1 H2]]]]. now apply P.
    + destruct H as [->|H]; [apply says_none; auto|now apply says_once].
Qed.

Definition same (t t' : thing) : Prop := forall w, says Q t w <-> says Q t' w.

Lemma same_refl : forall t, same t t.
Proof. intros t w. tauto. Qed.
Lemma same_sym : forall t t', same t t' -> same t' t.
Proof. intros t t' H w. now rewrite (H w). Qed.
Lemma same_trans : forall t t' t'', same t t' -> same t' t'' -> same t t''.
Proof. intros t t' t'' H K w. now rewrite (H w). Qed.

Lemma many_ext : forall (L L' : lang key), (forall w, L w <-> L' w) -> forall w, many key L w <-> many key L' w.
Proof.
  assert (Q1 : forall (L L' : lang key), (forall w, L w -> L' w) -> forall w, many key L w -> many key L' w).
  { intros L L' H w M. induction M; constructor; auto. }
  intros L L' H w. split; apply Q1; intros v; apply H.
Qed.

Lemma repeated_ext : forall r (L L' : lang key), (forall w, L w <-> L' w) -> forall w, repeated key r L w <-> repeated key r L' w.
Proof.
  intros r L L' H w. destruct r; cbn [repeated].
  - apply H.
  - now apply many_ext.
  - split; intros [w1 [w2 [E [H1 H2]]]]; exists w1, w2; (split; [exact E|]); (split; [now apply H|]);
      [now apply (many_ext L L' H)|now apply (many_ext L L' H)].
  - rewrite (H w). tauto.
Qed.

Lemma same_item : forall e e' r, same (TElem e) (TElem e') -> same (TItem e r) (TItem e' r).
Proof. intros e e' r H w. rewrite !item_repeated. apply repeated_ext. exact H. Qed.

Lemma same_group : forall a a', same (TAlts a) (TAlts a') -> same (TElem (Group a)) (TElem (Group a')).
Proof.
  intros a a' H w. split; intro S; inversion S; subst; apply says_group; now apply H.
Qed.

Lemma same_then : forall e r s e' r' s', same (TItem e r) (TItem e' r') -> same (TParts s) (TParts s') ->
  same (TParts (Then e r s)) (TParts (Then e' r' s')).
Proof.
  intros e r s e' r' s' H K w. split; intro S; inversion S; subst; apply says_then; first [now apply H|now apply K].
Qed.

Lemma same_or : forall s a s' a', same (TParts s) (TParts s') -> same (TAlts a) (TAlts a') ->
  same (TAlts (Or s a)) (TAlts (Or s' a')).
Proof.
  intros s a s' a' H K w. split; intro S; inversion S; subst;
    first [apply says_this; now apply H|apply says_other; now apply K].
Qed.

Lemma same_lone : forall e r, same (TAlts (Or (Then e r Done) NoMore)) (TItem e r).
Proof.
  intros e r w. split; intro S.
  - inversion S as [| | | | | | | | |s0 a0 w0 S1|s0 a0 w0 S1]; subst; [|inversion S1].
    inversion S1 as [| | | | | | | |e0 r0 s0 w1 w2 S2 S3| |]; subst. inversion S3; subst. now rewrite app_nil_r.
  - apply says_this. rewrite <- (app_nil_r w). apply says_then; [exact S|constructor].
Qed.

(* A repeated group with one part is that part, repeated. *)
Lemma same_nested : forall e r o,
  same (TItem (Group (Or (Then e r Done) NoMore)) o) (TItem e (combine_rep o r)).
Proof.
  intros e r o w. rewrite !item_repeated, <- combine_repeated. apply repeated_ext. intro v.
  rewrite <- item_repeated. rewrite <- (same_lone e r v). split; intro S; [now inversion S|now apply says_group].
Qed.

Lemma once_item : forall e, same (TItem e Once) (TElem e).
Proof. intros e w. now rewrite item_repeated. Qed.

Lemma lone_full : forall a e r, full_alts a -> lone a = Some (e, r) -> a = Or (Then e r Done) NoMore.
Proof.
  intros a e r F L. destruct a as [|[|e0 r0 s0] a]; cbn [lone full_alts] in *; [discriminate|tauto|].
  destruct s0; cbn [is_done] in L; [|discriminate].
  destruct a as [|[|e1 r1 s1] a]; [injection L as -> ->; reflexivity|cbn [full_alts] in F; tauto|discriminate].
Qed.

Lemma combine_once : forall r, combine_rep Once r = r.
Proof. destruct r; reflexivity. Qed.

Definition revised_parts (s : parts) : Prop := full_parts s ->
  match s with
  | Done => True
  | Then e r s' => forall o, same (TParts (revise_parts o s)) (TParts (Then e (combine_rep o r) s'))
  end.
Definition revised_alts (a : alts) : Prop := full_alts a ->
  same (TAlts (revise_alts Once a)) (TAlts a) /\
  forall e r o, lone a = Some (e, r) -> same (TAlts (revise_alts o a)) (TItem (Group a) o).

Lemma revise_same :
  (forall e, match e with Group a => revised_alts a | _ => True end) /\
  (forall s, revised_parts s) /\ (forall a, revised_alts a).
Proof.
  apply gram_mind; try exact (fun _ => Logic.I); auto.
  - (* Then *)
    intros e IHe r s IHs F o. cbn [full_parts] in F. destruct F as [Fe Fs].
    assert (S : same (TParts (revise_parts Once s)) (TParts s)).
    { destruct s as [|e1 r1 s1]; [apply same_refl|]. specialize (IHs Fs Once). now rewrite combine_once in IHs. }
    destruct e as [v|b|a]; cbn [revise_parts]; try apply same_refl.
    cbn [full_elem] in Fe. destruct (IHe Fe) as [H1 H2].
    destruct (lone a) as [[e1 r1]|] eqn:L; apply same_then; auto.
    + apply (same_trans _ (TElem (Group (revise_alts (combine_rep o r) a)))); [apply once_item|].
      intro w. rewrite <- (H2 e1 r1 (combine_rep o r) eq_refl w).
      split; intro S1; [now inversion S1|now apply says_group].
    + apply same_item. now apply same_group.
  - (* NoMore *) intros _. split; [apply same_refl|]. discriminate.
  - (* Or *)
    intros s IHs a IHa F. cbn [full_alts] in F. destruct F as [Ns [Fs Fa]].
    destruct s as [|e1 r1 s1]; [easy|]. specialize (IHs Fs). destruct (IHa Fa) as [H1 H2]. split.
    + cbn [revise_alts]. apply same_or; [|exact H1]. specialize (IHs Once). now rewrite combine_once in IHs.
    + intros e r o L. assert (E : Or (Then e1 r1 s1) a = Or (Then e r Done) NoMore).
      { apply lone_full; [|exact L]. cbn [full_alts]. auto. }
      injection E as -> -> -> ->.
      apply (same_trans _ (TParts (Then e (combine_rep o r) Done))).
      * intro w. change (revise_alts o (Or (Then e r Done) NoMore)) with (Or (revise_parts o (Then e r Done)) NoMore).
        rewrite <- (IHs o w). split; intro S; [|now apply says_this].
        inversion S as [| | | | | | | | |s0 a0 w0 S1|s0 a0 w0 S1]; subst; [exact S1|inversion S1].
      * apply (same_trans _ (TItem e (combine_rep o r))); [|apply same_sym, same_nested].
        intro w. rewrite <- (same_lone e (combine_rep o r) w). split; intro S; [now apply says_this|].
        inversion S as [| | | | | | | | |s0 a0 w0 S1|s0 a0 w0 S1]; subst; [exact S1|inversion S1].
Qed.

(* ---- the shape ---- *)

Lemma revise_full :
  (forall e, match e with Group a => forall o, full_alts a -> full_alts (revise_alts o a) | _ => True end) /\
  (forall s, forall o, full_parts s -> full_parts (revise_parts o s) /\ (s <> Done -> revise_parts o s <> Done)) /\
  (forall a, forall o, full_alts a -> full_alts (revise_alts o a)).
Proof.
  apply gram_mind; try exact (fun _ => Logic.I); auto.
  - intros e IHe r s IHs o F. cbn [full_parts] in F. destruct F as [Fe Fs]. cbn [revise_parts].
    destruct e as [v|b|a]; cbn [full_parts full_elem]; try (split; [tauto|discriminate]).
    cbn [full_elem] in Fe. destruct (lone a); cbn [full_parts full_elem]; (split; [|discriminate]);
      (split; [now apply IHe|now apply IHs]).
  - intros s IHs a IHa o F. cbn [full_alts revise_alts] in *. destruct F as [N [Fs Fa]].
    destruct (IHs o Fs) as [K1 K2]. auto.
Qed.

Lemma revise_occurs : forall k,
  (forall e, match e with Group a => forall o, occurs_alts k (revise_alts o a) -> occurs_alts k a | _ => True end) /\
  (forall s, forall o, occurs_parts k (revise_parts o s) -> occurs_parts k s) /\
  (forall a, forall o, occurs_alts k (revise_alts o a) -> occurs_alts k a).
Proof.
  intro k. apply gram_mind; try exact (fun _ => Logic.I); auto.
  - intros e IHe r s IHs o H. cbn [revise_parts] in H.
    destruct e as [v|b|a]; cbn [occurs_parts occurs_elem] in *; auto.
    destruct (lone a); cbn [occurs_parts occurs_elem] in H; destruct H as [H|H];
      [left; now apply (IHe (combine_rep o r))|right; now apply (IHs Once)|left; now apply (IHe Once)|right; now apply (IHs Once)].
  - intros s IHs a IHa o H. cbn [revise_alts occurs_alts] in *. destruct H as [H|H]; [left|right]; eauto.
Qed.

(* ---- beginnings ---- *)

Variable k : key.

Lemma done_with : ~ begins_with Q k (TParts Done).
Proof. intro H. inversion H. Qed.

(* Parts whose first may be given the repetition of a group. *)
Definition shifts (o : rep) (s : parts) : Prop := o = Once \/ s = Done.

Lemma revise_empty : forall a o, full_alts a -> (o = Once \/ exists x, lone a = Some x) ->
  empty Q (TAlts (revise_alts o a)) -> empty Q (TItem (Group a) o).
Proof.
  intros a o F C H. destruct (proj2 (proj2 revise_same) a F) as [H1 H2].
  destruct C as [->|[[e r] L]].
  - apply once_item, says_group. now apply H1.
  - now apply (H2 e r o L).
Qed.

Lemma revise_empty_not : forall a o, full_alts a -> (o = Once \/ exists x, lone a = Some x) ->
  empty Q (TItem (Group a) o) -> empty Q (TAlts (revise_alts o a)).
Proof.
  intros a o F C H. destruct (proj2 (proj2 revise_same) a F) as [H1 H2].
  destruct C as [->|[[e r] L]].
  - apply once_item in H. inversion H; subst. now apply H1.
  - now apply (H2 e r o L).
Qed.

Definition with_alts (a : alts) : Prop := full_alts a -> forall o, (o = Once \/ exists x, lone a = Some x) ->
  begins_with Q k (TAlts (revise_alts o a)) -> begins_with Q k (TAlts a).
Definition with_parts (s : parts) : Prop := full_parts s -> forall o,
  match s with Done => True | Then e r s' => shifts o s' end ->
  begins_with Q k (TParts (revise_parts o s)) -> begins_with Q k (TParts s).

Lemma lone_done : forall e r s a x, full_alts (Or (Then e r s) a) -> lone (Or (Then e r s) a) = Some x -> s = Done /\ a = NoMore.
Proof. intros e r s a [e' r'] F L. apply lone_full in L; [|exact F]. injection L as -> -> -> ->. auto. Qed.

Lemma revise_with :
  (forall e, match e with Group a => with_alts a | _ => True end) /\ (forall s, with_parts s) /\ (forall a, with_alts a).
Proof.
  apply gram_mind; try exact (fun _ => Logic.I); auto.
  - intros F o _ H. exact H.
  - intros e IHe r s IHs F o SH H. cbn [full_parts] in F. destruct F as [Fe Fs].
    assert (S : begins_with Q k (TParts (revise_parts Once s)) -> begins_with Q k (TParts s)).
    { apply IHs; auto. destruct s; [exact Logic.I|now left]. }
    destruct e as [v|b|a]; cbn [revise_parts] in H.
    + inversion H as [| | | |e0 r0 s0 H1|e0 r0 s0 E H1| |]; subst.
      * apply begin_first. inversion H1; subst. now apply begin_item.
      * destruct SH as [->| ->]; [rewrite combine_once in E; now apply begin_rest|now apply done_with in H1].
    + inversion H as [| | | |e0 r0 s0 H1|e0 r0 s0 E H1| |]; subst.
      * apply begin_first. inversion H1; subst. now apply begin_item.
      * destruct SH as [->| ->]; [rewrite combine_once in E; now apply begin_rest|now apply done_with in H1].
    + cbn [full_elem] in Fe.
      destruct (lone a) as [x|] eqn:L;
        inversion H as [| | | |e0 r0 s0 H1|e0 r0 s0 E H1| |]; subst.
      * apply begin_first, begin_item, begin_group. inversion H1 as [| | |e1 r1 H2| | | |]; subst.
        inversion H2; subst. apply (IHe Fe (combine_rep o r)); eauto.
      * destruct SH as [->| ->]; [|now apply done_with in H1]. rewrite combine_once in E. apply begin_rest; [|now apply S].
        apply once_item in E. inversion E; subst. apply revise_empty; eauto.
      * apply begin_first, begin_item, begin_group. inversion H1 as [| | |e1 r1 H2| | | |]; subst.
        inversion H2; subst. apply (IHe Fe Once); eauto.
      * destruct SH as [->| ->]; [|now apply done_with in H1]. rewrite combine_once in E. apply begin_rest; [|now apply S].
        revert E. unfold empty. intro E. apply (same_item (Group a) (Group (revise_alts Once a))); [|exact E].
        apply same_group, same_sym. now apply (proj2 (proj2 revise_same) a Fe).
  - intros F o _ H. exact H.
  - intros s IHs a IHa F o C H. cbn [revise_alts] in H. pose proof F as F0. cbn [full_alts] in F. destruct F as [Ns [Fs Fa]].
    destruct s as [|e r s]; [easy|].
    inversion H as [| | | | | |s0 a0 H1|s0 a0 H1]; subst.
    + apply begin_this. apply (IHs Fs o); auto. destruct C as [->|[x L]]; [now left|].
      right. now apply lone_done in L.
    + apply begin_other. destruct C as [->|[x L]]; [now apply (IHa Fa Once); auto|].
      apply lone_done in L; auto. destruct L as [_ ->]. inversion H1.
Qed.

Definition again_alts (a : alts) : Prop := full_alts a -> forall o, (o = Once \/ exists x, lone a = Some x) ->
  begins_again Q k (TAlts (revise_alts o a)) -> begins_again Q k (TItem (Group a) o).
Definition again_parts (s : parts) : Prop := full_parts s -> 
  match s with
  | Done => True
  | Then e r s' => forall o, shifts o s' -> begins_again Q k (TParts (revise_parts o s)) ->
      begins_again Q k (TParts (Then e (combine_rep o r) s'))
  end.

Lemma done_again : ~ begins_again Q k (TParts Done).
Proof. intro H. inversion H. Qed.

Lemma combine_loops : forall o r, combine_rep o r = Star \/ combine_rep o r = Plus -> (o = Star \/ o = Plus) \/ (r = Star \/ r = Plus).
Proof. intros [] [] [H|H]; try discriminate; auto. Qed.

Lemma again_once : forall a, begins_again Q k (TItem (Group a) Once) -> begins_again Q k (TAlts a).
Proof.
  intros a H. inversion H as [|e r H1|e r L H1| | | |]; subst; [now inversion H1|destruct L; discriminate].
Qed.

Lemma revise_again :
  (forall e, match e with Group a => again_alts a | _ => True end) /\ (forall s, again_parts s) /\ (forall a, again_alts a).
Proof.
  apply gram_mind; try exact (fun _ => Logic.I); auto.
  - intros e IHe r s IHs F o SH H. cbn [full_parts] in F. destruct F as [Fe Fs].
    assert (SW : begins_with Q k (TParts (revise_parts Once s)) -> begins_with Q k (TParts s)).
    { apply (proj1 (proj2 revise_with)); auto. destruct s; [exact Logic.I|now left]. }
    destruct e as [v|b|a]; cbn [revise_parts] in H; [exact H|exact H|].
    cbn [full_elem] in Fe.
    destruct (lone a) as [x|] eqn:L;
      inversion H as [| | |e0 r0 s0 H1|e0 r0 s0 E H1| |]; subst.
    + apply again_first. inversion H1 as [|e1 r1 H2|e1 r1 LP H2| | | |]; subst; [|destruct LP; discriminate].
      inversion H2; subst. apply (IHe Fe); eauto.
    + apply again_rest; [|now apply SW]. apply once_item in E. inversion E; subst. apply revise_empty; eauto.
    + apply again_first. inversion H1 as [|e1 r1 H2|e1 r1 LP H2| | | |]; subst.
      * apply again_item. inversion H2; subst. apply again_group. apply again_once. apply (IHe Fe Once); auto.
      * apply again_loop; auto. inversion H2; subst. apply begin_group.
        apply (proj2 (proj2 revise_with) a Fe Once); auto.
    + apply again_rest; [|now apply SW].
      apply (same_item (Group a) (Group (revise_alts Once a))); [|exact E].
      apply same_group, same_sym. now apply (proj2 (proj2 revise_same) a Fe).
  - intros F o _ H. inversion H.
  - intros s IHs a IHa F o C H. cbn [revise_alts] in H. pose proof F as F0. cbn [full_alts] in F. destruct F as [Ns [Fs Fa]].
    destruct s as [|e r s]; [easy|]. specialize (IHs Fs).
    inversion H as [| | | | |s0 a0 H1|s0 a0 H1]; subst.
    + destruct C as [->|[x L]].
      * apply again_item, again_group, again_this. specialize (IHs Once). rewrite combine_once in IHs. apply IHs; auto. now left.
      * apply lone_done in L; auto. destruct L as [-> ->].
        assert (H2 : begins_again Q k (TParts (Then e (combine_rep o r) Done))) by (apply IHs; auto; now right).
        inversion H2 as [| | |e0 r0 s0 H3|e0 r0 s0 E H3| |]; subst; [|now apply done_with in H3].
        inversion H3 as [|e1 r1 H4|e1 r1 LP H4| | | |]; subst.
        -- now apply again_item, again_group, again_this, again_first, again_item.
        -- apply combine_loops in LP. destruct LP as [LP|LP].
           ++ apply again_loop; auto. now apply begin_group, begin_this, begin_first, begin_item.
           ++ now apply again_item, again_group, again_this, again_first, again_loop.
    + destruct C as [->|[x L]].
      * apply again_item, again_group, again_other. apply again_once. apply (IHa Fa Once); auto.
      * apply lone_done in L; auto. destruct L as [_ ->]. inversion H1.
Qed.

Definition later_alts (a : alts) : Prop := full_alts a -> forall o, (o = Once \/ exists x, lone a = Some x) ->
  occurs_later Q k (TAlts (revise_alts o a)) -> occurs_later Q k (TAlts a).
Definition later_parts (s : parts) : Prop := full_parts s -> forall o,
  match s with Done => True | Then e r s' => shifts o s' end ->
  occurs_later Q k (TParts (revise_parts o s)) -> occurs_later Q k (TParts s).

Lemma revise_later :
  (forall e, match e with Group a => later_alts a | _ => True end) /\ (forall s, later_parts s) /\ (forall a, later_alts a).
Proof.
  apply gram_mind; try exact (fun _ => Logic.I); auto.
  - intros F o _ H. exact H.
  - intros e IHe r s IHs F o SH H. cbn [full_parts] in F. destruct F as [Fe Fs].
    assert (S : occurs_later Q k (TParts (revise_parts Once s)) -> occurs_later Q k (TParts s)).
    { apply IHs; auto. destruct s; [exact Logic.I|now left]. }
    assert (LEAF : match e with Group _ => False | _ => True end -> occurs_later Q k (TParts (Then e (combine_rep o r) s)) ->
      occurs_later Q k (TParts (Then e r s))).
    { intros LF H0. inversion H0 as [| |e0 r0 s0 H1|e0 r0 s0 E H1|e0 r0 s0 H1| |]; subst.
      - inversion H1 as [|e1 r1 H2| | | | |]; subst. now apply later_first, later_item.
      - destruct SH as [->| ->]; [rewrite combine_once in E; now apply later_after|easy].
      - now apply later_rest. }
    destruct e as [v|b|a]; cbn [revise_parts] in H; [now apply LEAF|now apply LEAF|].
    cbn [full_elem] in Fe.
    destruct (lone a) as [x|] eqn:L;
      inversion H as [| |e0 r0 s0 H1|e0 r0 s0 E H1|e0 r0 s0 H1| |]; subst.
    + apply later_first, later_item, later_group. inversion H1 as [|e1 r1 H2| | | | |]; subst.
      inversion H2; subst. apply (IHe Fe (combine_rep o r)); eauto.
    + destruct SH as [->| ->]; [|easy]. apply later_after.
      * intro E1. apply E. apply once_item, says_group. apply revise_empty_not; eauto. now rewrite combine_once.
      * now apply (proj1 (proj2 (revise_occurs k)) s Once).
    + apply later_rest. now apply S.
    + apply later_first, later_item, later_group. inversion H1 as [|e1 r1 H2| | | | |]; subst.
      inversion H2; subst. apply (IHe Fe Once); eauto.
    + destruct SH as [->| ->]; [|easy]. rewrite combine_once in E. apply later_after.
      * intro E1. apply E. apply (same_item (Group a) (Group (revise_alts Once a))); [|exact E1].
        apply same_group, same_sym. now apply (proj2 (proj2 revise_same) a Fe).
      * now apply (proj1 (proj2 (revise_occurs k)) s Once).
    + apply later_rest. now apply S.
  - intros F o _ H. exact H.
  - intros s IHs a IHa F o C H. cbn [revise_alts] in H. pose proof F as F0. cbn [full_alts] in F. destruct F as [Ns [Fs Fa]].
    destruct s as [|e r s]; [easy|].
    inversion H as [| | | | |s0 a0 H1|s0 a0 H1]; subst.
    + apply later_this. apply (IHs Fs o); auto. destruct C as [->|[x L]]; [now left|].
      right. now apply lone_done in L.
    + apply later_other. destruct C as [->|[x L]]; [now apply (IHa Fa Once); auto|].
      apply lone_done in L; auto. destruct L as [_ ->]. inversion H1.
Qed.

End Revise.

(* ---- whole grammars ---- *)

Lemma body_revise : forall R b, body (revise R) b = option_map (revise_alts Once) (body R b).
Proof.
  induction R as [|[b' a] R IH]; intro b; cbn [revise map body fst snd option_map]; [reflexivity|].
  destruct (Z.eqb b' b); [reflexivity|]. apply IH.
Qed.

Section Whole.
Variable R : grammar.
Hypothesis FULL : forall b a, body R b = Some a -> full_alts a.

Lemma revise_says : forall t w, says R t w <-> says (revise R) t w.
Proof.
  intros t w. split; intro H; induction H; try (now constructor).
  - apply (says_rule (revise R) b (revise_alts Once a)).
    + now rewrite body_revise, H.
    + now apply (proj2 (proj2 (revise_same (revise R))) a (FULL b a H)).
  - apply says_foreign. now rewrite body_revise, H.
  - rewrite body_revise in H. destruct (body R b) as [a0|] eqn:B; [|discriminate]. injection H as <-.
    apply (says_rule R b a0); auto. now apply (proj2 (proj2 (revise_same R)) a0 (FULL b a0 B)).
  - apply says_foreign. rewrite body_revise in H. now destruct (body R b).
Qed.

Lemma revise_empty_iff : forall t, empty R t <-> empty (revise R) t.
Proof. intro t. apply revise_says. Qed.

Lemma with_same : forall k t, begins_with (revise R) k t -> begins_with R k t.
Proof. intros k t H. induction H; try (now constructor). apply begin_rest; auto. now apply revise_empty_iff. Qed.

Lemma again_same : forall k t, begins_again (revise R) k t -> begins_again R k t.
Proof.
  intros k t H. induction H; try (now constructor).
  - apply again_loop; auto. now apply with_same.
  - apply again_rest; [now apply revise_empty_iff|now apply with_same].
Qed.

Lemma later_same : forall k t, occurs_later (revise R) k t -> occurs_later R k t.
Proof.
  intros k t H. induction H; try (now constructor). apply later_after; auto. now rewrite revise_empty_iff.
Qed.

End Whole.

Lemma revise_well_made : forall R, well_made R -> well_made (revise R).
Proof.
  intros R [W1 W2 W3 W4].
  assert (BD : forall b a', body (revise R) b = Some a' -> exists a, body R b = Some a /\ a' = revise_alts Once a).
  { intros b a' B. rewrite body_revise in B. destruct (body R b) as [a|]; [|discriminate]. injection B as <-. eauto. }
  assert (MN : forall b c, mentions (revise R) b c -> mentions R b c).
  { intros b c [a' [B OC]]. destruct (BD b a' B) as [a [B0 ->]]. exists a. split; [exact B0|].
    now apply (proj2 (proj2 (revise_occurs (KRef c))) a Once). }
  constructor.
  - unfold revise. rewrite map_map. cbn [fst]. exact W1.
  - intros b a' B. destruct (BD b a' B) as [a [B0 ->]]. apply (proj2 (proj2 revise_full)). now apply (W2 b).
  - intros b a' B LD. destruct (BD b a' B) as [a [B0 ->]].
    assert (F : firm R a).
    { apply (W3 b a B0). assert (LG : forall x y, leads (revise R) x y -> leads R x y); [|now apply LG].
      clear - MN. unfold leads. intros u v LD. induction LD as [x y H|x y z H1 IH1 H2 IH2].
      - apply t_step. now apply MN.
      - now apply (t_trans Z (mentions R) x y z). }
    clear B B0 LD BD. revert F. generalize a. clear a. induction a as [|s a IH]; intro F; cbn [firm revise_alts] in *; [exact F|].
    destruct F as [F1 F2]. split; [|now apply IH].
    destruct s as [|[v|c|a0] r s]; cbn [revise_parts]; try easy; rewrite combine_once;
      intro E; apply F1; now apply revise_empty_iff.
  - intros b a' k B AG LT. destruct (BD b a' B) as [a [B0 ->]]. pose proof (W2 b a B0) as F.
    apply (W4 b a k B0).
    + apply again_same in AG; auto. apply again_once. apply (proj2 (proj2 (revise_again R k)) a F Once); auto.
    + apply later_same in LT; auto. apply (proj2 (proj2 (revise_later R k)) a F Once); auto.
Qed.
