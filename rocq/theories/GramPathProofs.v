(* Walking through the nodes as they were read says what the rules say. *)
From Coq Require Import ZArith List Bool Lia Relations.
From Verif Require Import NetModel GramModel GramSpec GramLayProofs.
Import ListNotations.
Local Open Scope nat_scope.

Section Path.
Variable R : grammar.
Let A := arena R.

(* The repetition the exchange takes a part for. *)
Definition eff (e : elem) (r : rep) : rep :=
  match e with
  | Ref b => match body R b with Some a => subtract_rep r (rule_rep a) | None => r end
  | _ => r
  end.

(* What is said without using an alternative that has no parts, and repeating
   only what the exchange repeats. *)
Inductive meant : thing -> list key -> Prop :=
| mean_token v : meant (TElem (Tok v)) [KToken v]
| mean_rule b a w : body R b = Some a -> meant (TAlts a) w -> meant (TElem (Ref b)) w
| mean_foreign b : body R b = None -> meant (TElem (Ref b)) [KRef b]
| mean_group a w : meant (TAlts a) w -> meant (TElem (Group a)) w
| mean_once e r w : meant (TElem e) w -> meant (TItem e r) w
| mean_none e r : r = Star \/ r = Question -> meant (TItem e r) []
| mean_more e r w1 w2 : loops (eff e r) = true ->
    meant (TElem e) w1 -> meant (TItem e r) w2 -> meant (TItem e r) (w1 ++ w2)
| mean_done : meant (TParts Done) []
| mean_then e r s w1 w2 : meant (TItem e r) w1 -> meant (TParts s) w2 ->
    meant (TParts (Then e r s)) (w1 ++ w2)
| mean_this s a w : s <> Done -> meant (TParts s) w -> meant (TAlts (Or s a)) w
| mean_other s a w : meant (TAlts a) w -> meant (TAlts (Or s a)) w.

(* Arriving at u, the next node that takes an element can be m, or the end m of
   the rule is reached. *)
Inductive enters : nat -> nat -> Prop :=
| en_leaf u : is_leaf A u = true -> enters u u
| en_end u o b a : at_ A u = CEnd o -> at_ A o = CRule b a -> enters u u
| en_group u a r s o n m : at_ A u = CPart (Group a) r s o -> In n (inner A u) -> enters n m -> enters u m
| en_next u o a r s o' m : at_ A u = CEnd o -> at_ A o = CPart (Group a) r s o' ->
    enters (after A o) m -> enters u m
| en_again u o a r s o' n m : at_ A u = CEnd o -> at_ A o = CPart (Group a) r s o' ->
    loops r = true -> In n (inner A o) -> enters n m -> enters u m
| en_skip u e r s o m : at_ A u = CPart e r s o -> meant (TItem e r) [] ->
    enters (after A u) m -> enters u m.

Definition eff_at (n : nat) : rep :=
  match at_ A n with CPart e r _ _ => eff e r | _ => Once end.

(* The links a node gets. *)
Definition flat (n m : nat) : Prop := enters (after A n) m \/ (loops (eff_at n) = true /\ m = n).

Inductive tail : nat -> list key -> Prop :=
| tail_end n m : flat n m -> is_end A m = true -> tail n []
| tail_next n m ks : flat n m -> is_leaf A m = true -> tail m ks -> tail n (leaf_key A m :: ks).

Inductive arrives : nat -> list key -> Prop :=
| arrive_end u m : enters u m -> is_end A m = true -> arrives u []
| arrive_leaf u m ks : enters u m -> is_leaf A m = true -> tail m ks -> arrives u (leaf_key A m :: ks).

Definition opening (x : nat) (ks : list key) : Prop := exists s, In s (inner A x) /\ arrives s ks.

(* ---- the cells ---- *)

Lemma cell_at : forall n, at_ A n <> CNone -> cell_ok A n.
Proof. apply at_some. Qed.

Fixpoint alternative (s : parts) (a : alts) : Prop :=
  match a with NoMore => False | Or s' a' => s = s' \/ alternative s a' end.

Lemma laid_in : forall a base o n, laid_alts A base o a -> In n (firsts base a) ->
  exists e r s, at_ A n = CPart e r s o /\ alternative (Then e r s) a
    /\ (n = S o \/ at_ A (pred n) = CEnd o).
Proof.
  induction a as [|s a IH]; intros base o n L H; cbn [laid_alts firsts alternative] in *; [easy|].
  destruct s as [|e r s]; cbn [is_done] in *.
  - destruct (IH _ _ _ L H) as [e [r [s [E [F G]]]]]. exists e, r, s. auto.
  - destruct L as [E [P L]]. destruct H as [<-|H].
    + exists e, r, s. cbn [head_cell] in E. auto.
    + destruct (IH _ _ _ L H) as [e' [r' [s' [E' [F G]]]]]. exists e', r', s'. auto.
Qed.

Lemma laid_has : forall a base o e r s, laid_alts A base o a -> alternative (Then e r s) a ->
  exists n, In n (firsts base a) /\ at_ A n = CPart e r s o.
Proof.
  induction a as [|s0 a IH]; intros base o e r s L H; cbn [laid_alts firsts alternative] in *; [easy|].
  destruct H as [<-|H].
  - cbn [is_done] in *. destruct L as [E _]. exists base. split; [now left|exact E].
  - destruct (is_done s0) eqn:D.
    + now apply (IH _ _ _ _ _ L).
    + destruct L as [_ [_ L]]. destruct (IH _ _ _ _ _ L H) as [n [I1 E]]. exists n. split; [now right|exact E].
Qed.

(* What stands in a group or rule. *)
Definition alts_at (o : nat) : option alts :=
  match at_ A o with CPart (Group a) _ _ _ => Some a | CRule _ a => Some a | _ => None end.

Lemma alts_laid : forall o a, alts_at o = Some a -> laid_alts A (S o) o a /\ inner A o = firsts (S o) a.
Proof.
  intros o a H. unfold alts_at in H. assert (C : cell_ok A o).
  { apply cell_at. destruct (at_ A o); congruence. }
  unfold cell_ok in C. unfold inner. destruct (at_ A o) as [[| |a0]| | |]; try discriminate;
    injection H as ->; split; try reflexivity; [apply C|exact C].
Qed.

Lemma inner_in : forall o n, In n (inner A o) ->
  exists a e r s, alts_at o = Some a /\ at_ A n = CPart e r s o /\ alternative (Then e r s) a
    /\ (n = S o \/ at_ A (pred n) = CEnd o).
Proof.
  intros o n H. destruct (alts_at o) as [a|] eqn:E.
  - destruct (alts_laid _ _ E) as [L I1]. rewrite I1 in H. destruct (laid_in _ _ _ _ L H) as [e [r [s K]]].
    exists a, e, r, s. auto.
  - unfold inner in H. unfold alts_at in E. destruct (at_ A o) as [[| |]| | |]; try discriminate; easy.
Qed.

Lemma inner_has : forall o a e r s, alts_at o = Some a -> alternative (Then e r s) a ->
  exists n, In n (inner A o) /\ at_ A n = CPart e r s o.
Proof.
  intros o a e r s H K. destruct (alts_laid _ _ H) as [L ->]. now apply (laid_has a).
Qed.

Lemma part_cell : forall n e r s o, at_ A n = CPart e r s o ->
  o < n /\ is_owner A o /\ at_ A (after A n) = head_cell s o.
Proof.
  intros n e r s o E. assert (C : cell_ok A n) by (apply cell_at; congruence).
  unfold cell_ok in C. unfold after. rewrite E in *. tauto.
Qed.

Lemma end_cell : forall n o, at_ A n = CEnd o -> o < n /\ is_owner A o.
Proof.
  intros n o E. assert (C : cell_ok A n) by (apply cell_at; congruence).
  unfold cell_ok in C. now rewrite E in C.
Qed.

Lemma leaf_cell : forall n, is_leaf A n = true -> exists e r s o, at_ A n = CPart e r s o
  /\ match e with Group _ => False | _ => True end.
Proof.
  intros n H. unfold is_leaf in H. destruct (at_ A n) as [e r s o| | |]; try discriminate.
  exists e, r, s, o. split; [reflexivity|]. now destruct e.
Qed.

Lemma after_pos : forall n e r s o, at_ A n = CPart e r s o -> n < after A n.
Proof. intros n e r s o E. unfold after. rewrite E. pose proof (size_elem_pos e). lia. Qed.


(* ---- meant and said ---- *)

Lemma eff_loops : forall e r, loops (eff e r) = true -> r = Star \/ r = Plus.
Proof.
  intros e r H. unfold eff in H.
  assert (K : forall t, loops (subtract_rep r t) = true -> r = Star \/ r = Plus)
    by (intro t; destruct r, t; cbn; intro; try discriminate; auto).
  destruct e as [v|b|a]; [|destruct (body R b); [now apply K in H|]|]; destruct r; cbn in H; try discriminate; auto.
Qed.

Lemma meant_says : forall t w, meant t w -> says R t w.
Proof.
  induction 1; try (econstructor; eassumption).
  apply says_more; auto. now apply eff_loops in H.
Qed.

Definition full (t : thing) : Prop :=
  match t with
  | TElem e | TItem e _ => full_elem e
  | TParts s => full_parts s
  | TAlts a => full_alts a
  end.

(* What repeats may be repeated once more. *)
Lemma lone_none : forall (e : elem) (r : rep) a x w,
  (fix none (a : alts) : option (elem * rep) :=
     match a with
     | NoMore => Some (e, r)
     | Or Done a' => none a'
     | Or (Then _ _ _) _ => None
     end) a = Some x -> x = (e, r) /\ ~ meant (TAlts a) w.
Proof.
  induction a as [|s a IH]; intros x w K.
  - injection K as <-. split; [reflexivity|]. intro M. inversion M.
  - destruct s; [|discriminate]. destruct (IH x w K) as [E N]. split; [exact E|].
    intro M. inversion M; subst; [easy|contradiction].
Qed.

Lemma lone_rep : forall a e r, lone a = Some (e, r) -> rep_in_alts a = rep_in_parts (Then e r Done).
Proof.
  induction a as [|s a IH]; intros e r L; cbn [lone] in L; [discriminate|].
  destruct s as [|e' r' s]; [now apply IH|]. destruct s; cbn [is_done] in L; [|discriminate].
  apply (lone_none e' r' a _ []) in L. destruct L as [E _]. injection E as -> ->. reflexivity.
Qed.

Lemma lone_shape : forall a e r w, lone a = Some (e, r) ->
  (meant (TAlts a) w <-> meant (TItem e r) w).
Proof.
  induction a as [|s a IH]; intros e r w L; cbn [lone] in L; [discriminate|].
  destruct s as [|e' r' s].
  - rewrite <- (IH _ _ w L). split; intro M; [|now apply mean_other]. inversion M; subst; [easy|assumption].
  - destruct s; cbn [is_done] in L; [|discriminate].
    apply (lone_none e' r' a _ w) in L. destruct L as [E N]. injection E as -> ->.
    split; intro M.
    + inversion M; subst; [|contradiction].
      match goal with H : meant (TParts _) _ |- _ => inversion H; subst end.
      match goal with H : meant (TParts Done) _ |- _ => inversion H; subst end. now rewrite app_nil_r.
    + apply mean_this; [discriminate|]. rewrite <- (app_nil_r w). apply mean_then; [exact M|constructor].
Qed.

(* Whether the exchange takes it for granted that t may be repeated. *)
Definition closed (t : thing) : Prop :=
  match t with
  | TElem (Ref b) => exists a, body R b = Some a /\ loops (rule_rep a) = true
  | TElem (Group a) | TAlts a => (exists x, lone a = Some x) /\ loops (rep_in_alts a) = true
  | TItem e r => loops (rep_in_parts (Then e r Done)) = true
  | _ => False
  end.

Lemma item_split : forall e r w, meant (TItem e r) w ->
  w = [] \/ meant (TElem e) w \/
  (loops (eff e r) = true /\ exists w1 w2, w = w1 ++ w2 /\ meant (TElem e) w1 /\ meant (TItem e r) w2).
Proof. intros e r w H. inversion H; subst; auto. right. right. split; [assumption|]. eauto. Qed.

Lemma meant_closed : forall t w1, meant t w1 -> closed t ->
  forall w2, meant t w2 -> meant t (w1 ++ w2).
Proof.
  assert (RL : forall a, loops (rule_rep a) = true -> (exists x, lone a = Some x) /\ loops (rep_in_alts a) = true).
  { intros a H. unfold rule_rep in H. destruct (lone a); [split; eauto|discriminate]. }
  enough (G : forall t w1, meant t w1 -> match t with
     | TParts (Then e r Done) => closed (TItem e r) -> forall w2, meant (TItem e r) w2 -> meant (TItem e r) (w1 ++ w2)
     | _ => closed t -> forall w2, meant t w2 -> meant t (w1 ++ w2)
     end).
  { intros t w1 H C w2 H2. specialize (G t w1 H). destruct t as [e|e r|s|a]; auto. now destruct C. }
  induction 1; try (intros C ww M2).
  - (* token *) now destruct C.
  - (* rule *) destruct C as [a' [B L]]. rewrite B in H. injection H as ->.
    inversion M2; subst; [|congruence]. rewrite B in H1. injection H1 as <-.
    eapply mean_rule; [exact B|]. apply IHmeant; [|assumption]. cbn [closed]. now apply RL.
  - (* foreign *) destruct C as [a' [B L]]. congruence.
  - (* group *) inversion M2; subst. constructor. now apply IHmeant.
  - (* once *) cbn [closed rep_in_parts] in C.
    destruct e as [v|b|a].
    + destruct (item_split _ _ _ M2) as [->|K]; [rewrite app_nil_r; now apply mean_once|].
      apply mean_more; auto.
    + destruct (loops (eff (Ref b) r)) eqn:L; [now apply mean_more|].
      destruct (item_split _ _ _ M2) as [->|[K|[L' _]]]; [rewrite app_nil_r; now apply mean_once| |congruence].
      apply mean_once. apply IHmeant; [|exact K]. unfold eff in L. cbn [closed].
      destruct (body R b) as [a|]; [|congruence]. exists a. split; [reflexivity|].
      destruct r, (rule_rep a); cbn in *; congruence.
    + destruct (lone a) as [x|] eqn:LO.
      * destruct (item_split _ _ _ M2) as [->|[K|[L' [v1 [v2 [-> [K1 K2]]]]]]].
        -- rewrite app_nil_r. now apply mean_once.
        -- apply mean_once. apply IHmeant; [|exact K]. cbn [closed]. split; eauto.
        -- rewrite app_assoc. apply mean_more; auto. apply IHmeant; [|exact K1]. cbn [closed]. split; eauto.
      * now apply mean_more.
  - (* none *) exact M2.
  - (* more *) rewrite <- app_assoc. apply mean_more; auto.
  - (* done *) now destruct C.
  - (* then *) destruct s; [|intros []]. intros C w3 M3. inversion H0; subst. rewrite app_nil_r.
    now apply IHmeant1.
  - (* this *) destruct C as [[[e r] L] LO]. apply (lone_shape _ _ _ _ L) in M2.
    apply (lone_shape _ _ _ _ L).
    rewrite (lone_rep _ _ _ L) in LO. destruct s as [|e' r' s]; [easy|]. cbn [lone] in L.
    destruct s; cbn [is_done] in L; [|discriminate].
    apply (lone_none e' r' a _ []) in L. destruct L as [E _]. injection E as -> ->. now apply IHmeant.
  - (* other *) destruct C as [[[e r] L] LO]. destruct s as [|e' r' s].
    + apply mean_other. apply IHmeant; [split; eauto|]. inversion M2; subst; [easy|assumption].
    + exfalso. cbn [lone] in L. destruct s; cbn [is_done] in L; [|discriminate].
      apply (lone_none e' r' a _ w) in L. now destruct L.
Qed.

Lemma says_meant : (forall b a, body R b = Some a -> full_alts a) ->
  forall t w, says R t w -> full t -> meant t w.
Proof.
  intros FULL. induction 1; cbn [full] in *; intro F.
  - constructor.
  - eapply mean_rule; [eassumption|]. apply IHsays. now apply (FULL b).
  - now constructor.
  - constructor. now apply IHsays.
  - apply mean_once. now apply IHsays.
  - now apply mean_none.
  - specialize (IHsays1 F). specialize (IHsays2 F).
    destruct (loops (eff e r)) eqn:L; [now apply mean_more|].
    destruct (item_split _ _ _ IHsays2) as [->|[K|[L' _]]]; [| |congruence].
    + rewrite app_nil_r. now apply mean_once.
    + apply mean_once. apply meant_closed; auto. unfold eff in L.
      destruct e as [v|b|a]; try (destruct H as [-> | ->]; discriminate).
      cbn [closed]. destruct (body R b) as [a|]; [|destruct H as [-> | ->]; discriminate].
      exists a. split; [reflexivity|]. destruct H as [-> | ->]; destruct (rule_rep a); cbn in *; congruence.
  - constructor.
  - destruct F. apply mean_then; auto.
  - destruct F as [N [F1 F2]]. apply mean_this; auto.
  - destruct F as [N [F1 F2]]. apply mean_other; auto.
Qed.

(* ---- what is read is meant ---- *)

Inductive outside : nat -> list key -> Prop :=
| out_rule o b a : at_ A o = CRule b a -> outside o []
| out_next o a r s o' w1 w2 : at_ A o = CPart (Group a) r s o' ->
    meant (TParts s) w1 -> outside o' w2 -> outside o (w1 ++ w2)
| out_again o a r s o' w1 w2 : at_ A o = CPart (Group a) r s o' -> loops r = true ->
    meant (TAlts a) w1 -> outside o w2 -> outside o (w1 ++ w2).

Definition arrive_word (u : nat) (w : list key) : Prop :=
  match at_ A u with
  | CPart e r s o => exists w1 w2, w = w1 ++ w2 /\ meant (TParts (Then e r s)) w1 /\ outside o w2
  | CEnd o => outside o w
  | _ => False
  end.

Inductive past : nat -> list key -> Prop :=
| past_next n e r s o w1 w2 : at_ A n = CPart e r s o ->
    meant (TParts s) w1 -> outside o w2 -> past n (w1 ++ w2)
| past_again n e r s o w1 w2 : at_ A n = CPart e r s o -> loops (eff e r) = true ->
    meant (TElem e) w1 -> past n w2 -> past n (w1 ++ w2).

Lemma arrive_item : forall u e r s o w1 w2, at_ A u = CPart e r s o ->
  meant (TItem e r) w1 -> arrive_word (after A u) w2 -> arrive_word u (w1 ++ w2).
Proof.
  intros u e r s o w1 w2 E M W. destruct (part_cell _ _ _ _ _ E) as [_ [_ H]].
  unfold arrive_word in *. rewrite H in W. rewrite E. destruct s as [|e' r' s']; cbn [head_cell] in W.
  - exists w1, w2. split; [reflexivity|]. split; [|exact W].
    rewrite <- (app_nil_r w1). apply mean_then; [exact M|constructor].
  - destruct W as [v1 [v2 [-> [W1 W2]]]]. exists (w1 ++ v1), v2. split; [apply app_assoc|].
    split; [|exact W2]. now apply mean_then.
Qed.

Lemma item_more : forall e r s w0 w, loops (eff e r) = true -> meant (TElem e) w0 ->
  meant (TParts (Then e r s)) w -> meant (TParts (Then e r s)) (w0 ++ w).
Proof.
  intros e r s w0 w L M H. inversion H; subst. rewrite app_assoc. apply mean_then; [|assumption].
  now apply mean_more.
Qed.

Lemma past_arrive : forall n w, past n w -> forall e r s o w0, at_ A n = CPart e r s o ->
  meant (TElem e) w0 -> arrive_word n (w0 ++ w).
Proof.
  induction 1 as [n e r s o w1 w2 E M O|n e r s o w1 w2 E L M P IH]; intros e' r' s' o' w0 E' M0;
    rewrite E in E'; injection E' as <- <- <- <-; unfold arrive_word in *; rewrite E in *.
  - exists (w0 ++ w1), w2. split; [apply app_assoc|]. split; [|exact O].
    apply mean_then; [|exact M]. now apply mean_once.
  - destruct (IH e r s o w1 eq_refl M) as [v1 [v2 [Q [V1 V2]]]].
    exists (w0 ++ v1), v2. split; [rewrite Q; apply app_assoc|]. split; [|exact V2].
    now apply item_more.
Qed.

Lemma alternative_meant : forall s a w, alternative s a -> s <> Done -> meant (TParts s) w -> meant (TAlts a) w.
Proof.
  induction a as [|s' a IH]; intros w H N M; cbn [alternative] in H; [easy|].
  destruct H as [<-|H]; [now apply mean_this|]. apply mean_other. now apply IH.
Qed.

Lemma group_arrive : forall u w2, outside u w2 -> forall a r s o w1, at_ A u = CPart (Group a) r s o ->
  meant (TAlts a) w1 -> arrive_word u (w1 ++ w2).
Proof.
  induction 1 as [u b a E|u a r s o v1 v2 E M O IH|u a r s o v1 v2 E L M O IH];
    intros a' r' s' o' w1 E' M1; rewrite E in E'; try discriminate; injection E' as <- <- <- <-.
  - unfold arrive_word. rewrite E. exists (w1 ++ v1), v2. split; [apply app_assoc|]. split; [|exact O].
    apply mean_then; [|exact M]. apply mean_once. now apply mean_group.
  - specialize (IH a r s o v1 E M). unfold arrive_word in *. rewrite E in *.
    destruct IH as [x1 [x2 [Q [X1 X2]]]]. exists (w1 ++ x1), x2. split; [rewrite Q; apply app_assoc|].
    split; [|exact X2]. apply item_more; auto. now apply mean_group.
Qed.

Lemma enters_word : forall u m, enters u m ->
  (is_leaf A m = true -> forall w0 w, meant (TElem (match at_ A m with CPart e _ _ _ => e | _ => Tok 0 end)) w0 ->
     past m w -> arrive_word u (w0 ++ w))
  /\ (is_end A m = true -> arrive_word u []).
Proof.
  induction 1 as [u L|u o b a E O|u a r s o n m E I1 H IH|u o a r s o' m E O H IH
                 |u o a r s o' n m E O L I1 H IH|u e r s o m E M H IH].
  - split.
    + intros _ w0 w M P. destruct (leaf_cell _ L) as [e [r [s [o [E _]]]]]. rewrite E in M.
      now apply (past_arrive _ _ P e r s o).
    + intro N. unfold is_end in N. unfold is_leaf in L. now destruct (at_ A u).
  - split.
    + intro L. unfold is_leaf in L. now rewrite E in L.
    + intros _. unfold arrive_word. rewrite E. now apply (out_rule o b a).
  - assert (G : forall w, arrive_word n w -> arrive_word u w).
    { intros w W. destruct (inner_in _ _ I1) as [a0 [e' [r' [s' [AL [En [ALT _]]]]]]].
      unfold alts_at in AL. rewrite E in AL. injection AL as <-.
      unfold arrive_word in W. rewrite En in W. destruct W as [w1 [w2 [-> [W1 W2]]]].
      apply (group_arrive _ _ W2 a r s o); auto.
      apply (alternative_meant (Then e' r' s')); auto. discriminate. }
    destruct IH as [IH1 IH2]. split; intros; apply G; auto.
  - assert (G : forall w, arrive_word (after A o) w -> arrive_word u w).
    { intros w W. destruct (part_cell _ _ _ _ _ O) as [_ [_ HC]]. unfold arrive_word in *. rewrite E. rewrite HC in W.
      destruct s as [|e1 r1 s1]; cbn [head_cell] in W.
      - change w with ([] ++ w). apply (out_next o a r Done o'); auto. constructor.
      - destruct W as [w1 [w2 [-> [W1 W2]]]]. now apply (out_next o a r (Then e1 r1 s1) o'). }
    destruct IH as [IH1 IH2]. split; intros; apply G; auto.
  - assert (G : forall w, arrive_word n w -> arrive_word u w).
    { intros w W. destruct (inner_in _ _ I1) as [a0 [e' [r' [s' [AL [En [ALT _]]]]]]].
      unfold alts_at in AL. rewrite O in AL. injection AL as <-.
      unfold arrive_word in W. rewrite En in W. destruct W as [w1 [w2 [-> [W1 W2]]]].
      unfold arrive_word. rewrite E. apply (out_again o a r s o'); auto.
      apply (alternative_meant (Then e' r' s')); auto. discriminate. }
    destruct IH as [IH1 IH2]. split; intros; apply G; auto.
  - assert (G : forall w, arrive_word (after A u) w -> arrive_word u w).
    { intros w W. change w with ([] ++ w). now apply (arrive_item u e r s o). }
    destruct IH as [IH1 IH2]. split; intros; apply G; auto.
Qed.

Definition elem_of (k : key) : elem := match k with KToken v => Tok v | KRef b => Ref b end.

Lemma leaf_elem : forall m e r s o, is_leaf A m = true -> at_ A m = CPart e r s o -> elem_of (leaf_key A m) = e.
Proof.
  intros m e r s o L E. unfold is_leaf in L. unfold leaf_key. rewrite E in *. now destruct e.
Qed.

Inductive spelt : list key -> list key -> Prop :=
| spelt_nil : spelt [] []
| spelt_cons k ks w1 w2 : meant (TElem (elem_of k)) w1 -> spelt ks w2 -> spelt (k :: ks) (w1 ++ w2).

Lemma after_past : forall n e r s o w, at_ A n = CPart e r s o -> arrive_word (after A n) w -> past n w.
Proof.
  intros n e r s o w E W. destruct (part_cell _ _ _ _ _ E) as [_ [_ H]].
  unfold arrive_word in W. rewrite H in W. destruct s as [|e1 r1 s1]; cbn [head_cell] in W.
  - change w with ([] ++ w). apply (past_next n e r Done o); auto. constructor.
  - destruct W as [w1 [w2 [-> [W1 W2]]]]. now apply (past_next n e r (Then e1 r1 s1) o).
Qed.

Lemma tail_past : forall n ks, tail n ks -> is_leaf A n = true -> forall w, spelt ks w -> past n w.
Proof.
  induction 1 as [n m F E|n m ks F L T IH]; intros LN w SP; destruct (leaf_cell _ LN) as [e [r [s [o [EN NG]]]]].
  - inversion SP; subst. destruct F as [F|[_ ->]].
    + apply (after_past _ _ _ _ _ _ EN). now apply (enters_word _ _ F).
    + unfold is_leaf in LN. unfold is_end in E. now destruct (at_ A n).
  - inversion SP; subst. specialize (IH L _ H3). destruct (leaf_cell _ L) as [e' [r' [s' [o' [EM _]]]]].
    rewrite (leaf_elem _ _ _ _ _ L EM) in H1. destruct F as [F|[LO ->]].
    + apply (after_past _ _ _ _ _ _ EN). apply (enters_word _ _ F); auto. now rewrite EM.
    + rewrite EN in EM. injection EM as <- <- <- <-. unfold eff_at in LO. rewrite EN in LO.
      now apply (past_again n e r s o).
Qed.

Lemma opening_meant : forall x b a ks w, at_ A x = CRule b a -> opening x ks -> spelt ks w -> meant (TAlts a) w.
Proof.
  intros x b a ks w EX [n [I1 AR]] SP.
  assert (W : arrive_word n w).
  { inversion AR as [u m EN E|u m ks' EN L T]; subst.
    - inversion SP; subst. now apply (enters_word _ _ EN).
    - inversion SP; subst. destruct (leaf_cell _ L) as [e' [r' [s' [o' [EM _]]]]].
      rewrite (leaf_elem _ _ _ _ _ L EM) in H1.
      apply (enters_word _ _ EN); auto; [now rewrite EM|]. now apply (tail_past _ ks'). }
  destruct (inner_in _ _ I1) as [a0 [e [r [s [AL [En [ALT _]]]]]]].
  unfold alts_at in AL. rewrite EX in AL. injection AL as <-.
  unfold arrive_word in W. rewrite En in W. destruct W as [w1 [w2 [-> [W1 W2]]]].
  inversion W2; subst; try congruence. rewrite app_nil_r.
  apply (alternative_meant (Then e r s)); auto. discriminate.
Qed.

(* ---- what is meant is read ---- *)

(* What keys stand for, given the keys of every rule. *)
Inductive yields (L : Z -> list key -> Prop) : key -> list key -> Prop :=
| y_self k : yields L k [k]
| y_rule b ks w : L b ks -> ks <> [] -> ylist L ks w -> yields L (KRef b) w
with ylist (L : Z -> list key -> Prop) : list key -> list key -> Prop :=
| y_nil : ylist L [] []
| y_cons k ks w1 w2 : yields L k w1 -> ylist L ks w2 -> ylist L (k :: ks) (w1 ++ w2).

Definition rule_keys (b : Z) (ks : list key) : Prop :=
  exists x, rule_of A b = Some x /\ opening x ks.

Definition reads (u : nat) (w : list key) : Prop := exists ks, arrives u ks /\ ylist rule_keys ks w.
Definition reads_end (o : nat) (w : list key) : Prop := forall u, at_ A u = CEnd o -> reads u w.

Lemma reads_by : forall u v w, (forall m, enters v m -> enters u m) -> reads v w -> reads u w.
Proof.
  intros u v w H [ks [AR Y]]. exists ks. split; [|exact Y]. inversion AR; subst.
  - eapply arrive_end; eauto.
  - eapply arrive_leaf; eauto.
Qed.

Lemma reads_leaf : forall u w1 w2, is_leaf A u = true -> yields rule_keys (leaf_key A u) w1 ->
  (exists ks, tail u ks /\ ylist rule_keys ks w2) -> reads u (w1 ++ w2).
Proof.
  intros u w1 w2 L Y [ks [T Y2]]. exists (leaf_key A u :: ks). split; [|now constructor].
  apply arrive_leaf; auto. now constructor.
Qed.

Lemma reads_tail : forall u w, reads (after A u) w -> exists ks, tail u ks /\ ylist rule_keys ks w.
Proof.
  intros u w [ks [AR Y]]. exists ks. split; [|exact Y]. inversion AR; subst.
  - apply (tail_end u m); auto. now left.
  - apply (tail_next u m); auto. now left.
Qed.

Lemma reads_tail_loop : forall u w, loops (eff_at u) = true -> is_leaf A u = true -> reads u w ->
  exists ks, tail u ks /\ ylist rule_keys ks w.
Proof.
  intros u w L LF [ks [AR Y]]. exists ks. split; [|exact Y].
  assert (F : forall m, enters u m -> flat u m).
  { intros m H. inversion H; subst; try (right; auto; fail).
    - exfalso. unfold is_leaf in LF. now rewrite H0 in LF.
    - exfalso. unfold is_leaf in LF. now rewrite H0 in LF.
    - exfalso. unfold is_leaf in LF. now rewrite H0 in LF.
    - now left. }
  inversion AR; subst.
  - apply (tail_end u m); auto.
  - apply (tail_next u m); auto.
Qed.

Lemma yields_nonempty : forall L k w, yields L k w -> w <> [].
Proof.
  fix IH 4. intros L k w H. destruct H as [k|b ks w B N Y]; [discriminate|].
  destruct Y as [|k ks w1 w2 Y1 Y2]; [easy|]. apply IH in Y1. destruct w1; [easy|discriminate].
Qed.

Definition read_claim (t : thing) (w : list key) : Prop :=
  match t with
  | TElem (Tok v) => w <> [] -> yields rule_keys (KToken v) w
  | TElem (Ref b) => w <> [] -> yields rule_keys (KRef b) w
  | TElem (Group a) => forall u r s o w', at_ A u = CPart (Group a) r s o -> reads_end u w' ->
      exists n, In n (inner A u) /\ reads n (w ++ w')
  | TItem e r => forall u s o w', at_ A u = CPart e r s o -> reads (after A u) w' -> reads u (w ++ w')
  | TParts s => forall u o w', at_ A u = head_cell s o -> reads_end o w' -> reads u (w ++ w')
  | TAlts a => forall base o w', laid_alts A base o a -> reads_end o w' ->
      exists n, In n (firsts base a) /\ reads n (w ++ w')
  end.

Lemma leaf_is : forall u e r s o, at_ A u = CPart e r s o ->
  match e with Group _ => False | _ => True end -> is_leaf A u = true /\ leaf_key A u =
    match e with Tok v => KToken v | Ref b => KRef b | _ => KToken 0 end.
Proof. intros u e r s o E N. unfold is_leaf, leaf_key. rewrite E. now destruct e. Qed.

Lemma rule_exists : forall b a, body R b = Some a -> exists x, rule_of A b = Some x /\ at_ A x = CRule b a.
Proof.
  intros b a B. destruct (rule_of A b) as [x|] eqn:E.
  - exists x. split; [reflexivity|]. destruct (rule_of_some _ _ _ E) as [a' [B' E']].
    rewrite B in B'. injection B' as <-. exact E'.
  - apply rule_of_none in E. congruence.
Qed.

Lemma meant_read : forall t w, meant t w -> read_claim t w.
Proof.
  induction 1; unfold read_claim in *.
  - intros _. constructor.
  - intros N. destruct (rule_exists _ _ H) as [x [RO EX]].
    assert (AL : alts_at x = Some a) by (unfold alts_at; now rewrite EX).
    destruct (alts_laid _ _ AL) as [LA IA].
    destruct (IHmeant (S x) x [] LA) as [n [I1 [ks [AR Y]]]].
    { intros u E. exists []. split; [|constructor]. apply (arrive_end u u).
      - now apply (en_end u x b a).
      - unfold is_end. now rewrite E. }
    rewrite app_nil_r in Y. apply (y_rule _ b ks).
    + exists x. split; [exact RO|]. exists n. split; [|exact AR]. now rewrite IA.
    + intros ->. inversion Y; subst. easy.
    + exact Y.
  - intros _. constructor.
  - intros u r s o w' E RE. assert (AL : alts_at u = Some a) by (unfold alts_at; now rewrite E).
    destruct (alts_laid _ _ AL) as [LA IA]. rewrite IA. now apply (IHmeant _ u).
  - (* once *) intros u s o w' E RD. destruct e as [v|b|a].
    + destruct (leaf_is _ _ _ _ _ E Logic.I) as [L K]. inversion H; subst.
      apply reads_leaf; auto; [rewrite K; constructor|]. now apply reads_tail.
    + destruct (leaf_is _ _ _ _ _ E Logic.I) as [L K]. destruct w as [|k w].
      * cbn [app]. apply (reads_by u (after A u)); auto. intros m EN. apply (en_skip u (Ref b) r s o); auto.
        now apply mean_once.
      * apply reads_leaf; auto; [rewrite K; apply IHmeant; discriminate|]. now apply reads_tail.
    + destruct (IHmeant u r s o w' E) as [n [I1 RN]].
      * intros v EV. apply (reads_by v (after A u)); auto. intros m EN. now apply (en_next v u a r s o).
      * apply (reads_by u n); auto. intros m EN. now apply (en_group u a r s o n).
  - (* none *) intros u s o w' E RD. cbn [app]. apply (reads_by u (after A u)); auto. intros m EN.
    apply (en_skip u e r s o); auto. now apply mean_none.
  - (* more *) intros u s o w' E RD. specialize (IHmeant2 u s o w' E RD). rewrite <- app_assoc.
    destruct e as [v|b|a].
    + destruct (leaf_is _ _ _ _ _ E Logic.I) as [L K]. inversion H0; subst.
      apply reads_leaf; auto; [rewrite K; constructor|]. apply reads_tail_loop; auto.
      unfold eff_at. now rewrite E.
    + destruct (leaf_is _ _ _ _ _ E Logic.I) as [L K]. destruct w1 as [|k w1]; [exact IHmeant2|].
      apply reads_leaf; auto; [rewrite K; apply IHmeant1; discriminate|]. apply reads_tail_loop; auto.
      unfold eff_at. now rewrite E.
    + destruct (IHmeant1 u r s o (w2 ++ w') E) as [n [I1 RN]].
      * intros v EV. apply (reads_by v u); auto. intros m EN. inversion EN; subst; try congruence.
        -- match goal with K : is_leaf A _ = true |- _ => unfold is_leaf in K; rewrite E in K; discriminate end.
        -- match goal with I2 : In ?x (inner A u), K2 : enters ?x _ |- _ => now apply (en_again v u a r s o x) end.
        -- now apply (en_next v u a r s o).
      * apply (reads_by u n); auto. intros m EN. now apply (en_group u a r s o n).
  - (* done *) intros u o w' E RE. cbn [head_cell app] in *. now apply RE.
  - (* then *) intros u o w' E RE. cbn [head_cell] in E. rewrite <- app_assoc.
    eapply (IHmeant1 u s o); auto. destruct (part_cell _ _ _ _ _ E) as [_ [_ HC]]. now apply (IHmeant2 _ o).
  - (* this *) intros base o w' LA RE. cbn [laid_alts firsts] in *.
    destruct s as [|e r s]; [easy|]. cbn [is_done] in *. destruct LA as [E [_ _]].
    exists base. split; [now left|]. now apply (IHmeant base o).
  - (* other *) intros base o w' LA RE. cbn [laid_alts firsts] in *.
    destruct (is_done s); [now apply (IHmeant base o)|]. destruct LA as [_ [_ LA]].
    destruct (IHmeant _ o w' LA RE) as [n [I1 RN]]. exists n. split; [now right|exact RN].
Qed.

(* The word of a rule, by its keys. *)
Lemma meant_opening : forall b a x w, body R b = Some a -> rule_of A b = Some x ->
  meant (TAlts a) w -> exists ks, opening x ks /\ ylist rule_keys ks w.
Proof.
  intros b a x w B RO M. destruct (rule_of_some _ _ _ RO) as [a' [B' EX]]. rewrite B in B'. injection B' as <-.
  assert (AL : alts_at x = Some a) by (unfold alts_at; fold A in EX; now rewrite EX).
  destruct (alts_laid _ _ AL) as [LA IA].
  destruct (meant_read _ _ M (S x) x [] LA) as [n [I1 [ks [AR Y]]]].
  { intros u E. exists []. split; [|constructor]. apply (arrive_end u u).
    - now apply (en_end u x b a).
    - unfold is_end. now rewrite E. }
  rewrite app_nil_r in Y. exists ks. split; [|exact Y]. exists n. split; [|exact AR]. now rewrite IA.
Qed.

(* Words that are read are meant, when they are made of elements. *)
Lemma yields_meant : forall k w, yields rule_keys k w -> elementary R w -> meant (TElem (elem_of k)) w
with ylist_spelt : forall ks w, ylist rule_keys ks w -> elementary R w -> spelt ks w.
Proof.
  - intros k w H EL. destruct H as [k|b ks w L N Y].
    + destruct k as [v|b]; cbn [elem_of]; constructor. apply EL. now left.
    + destruct L as [x [RO OP]]. destruct (rule_of_some _ _ _ RO) as [a [B EX]]. cbn [elem_of].
      apply (mean_rule b a); auto. apply (opening_meant x b a ks); auto.
  - intros ks w H EL. destruct H as [|k ks w1 w2 Y1 Y2]; constructor.
    + apply yields_meant; auto. intros b I1. apply EL. apply in_or_app. now left.
    + apply ylist_spelt; auto. intros b I1. apply EL. apply in_or_app. now right.
Qed.

End Path.
