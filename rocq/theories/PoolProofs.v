(** Proofs about the pools. *)

From Coq Require Import ZArith List Bool Arith Lia Permutation.
Import ListNotations.
From Verif Require Import CppInt PoolModel PoolSpec.
Local Open Scope nat_scope.

Lemma alive_app : forall tr e a, alive (tr ++ [e]) a =
  match e with Created b => if b =? a then true else alive tr a | Destroyed b => if b =? a then false else alive tr a | _ => alive tr a end.
Proof. intros. unfold alive. rewrite fold_left_app. reflexivity. Qed.

Lemma out_app : forall tr e a, out (tr ++ [e]) a =
  match e with Handed b => if b =? a then true else out tr a | Returned b => if b =? a then false else out tr a | _ => out tr a end.
Proof. intros. unfold out. rewrite fold_left_app. reflexivity. Qed.

Lemma always_nil : forall P, always P [].
Proof. intros P b e a H. destruct b; discriminate. Qed.

Lemma always_snoc : forall P tr e, always P (tr ++ [e]) <-> always P tr /\ P tr e.
Proof.
  intros P tr e. split.
  - intro H. split; [|apply (H tr e []); reflexivity]. intros b x a E. apply (H b x (a ++ [e])). rewrite E, <- app_assoc. reflexivity.
  - intros [H1 H2] b x a E. destruct (rev a) as [|y r] eqn:R.
    + assert (a = []) by (rewrite <- (rev_involutive a), R; reflexivity). subst a. apply app_inj_tail in E. destruct E as [<- <-]. exact H2.
    + assert (a = rev r ++ [y]) by (rewrite <- (rev_involutive a), R; reflexivity). subst a.
      rewrite app_comm_cons, app_assoc in E. apply app_inj_tail in E. destruct E as [E _]. exact (H1 b x (rev r) E).
Qed.

Lemma always_prefix : forall P tr tr2, always P (tr ++ tr2) -> always P tr.
Proof. intros P tr tr2 H b e a E. apply (H b e (a ++ tr2)). rewrite E, <- app_assoc. reflexivity. Qed.

Lemma mem_iff : forall a l, existsb (Nat.eqb a) l = true <-> In a l.
Proof.
  intros a l. rewrite existsb_exists. split.
  - intros (x & H & E). apply Nat.eqb_eq in E. subst. exact H.
  - intro H. exists a. split; [exact H|apply Nat.eqb_refl].
Qed.

Record inv (p : pool) (tr : list event) : Prop := {
  i_acq : NoDup (acquired p);
  i_rel : NoDup (released p);
  i_dis : forall a, In a (acquired p) -> ~ In a (released p);
  i_out : forall a, out tr a = true <-> In a (acquired p);
  i_live : forall a, alive tr a = true <-> In a (acquired p) \/ In a (released p);
  i_ok : always allowed tr
}.

Lemma start : inv no_objects [].
Proof.
  constructor.
  - constructor.
  - constructor.
  - intros a [].
  - intro a. cbn. split; [discriminate|tauto].
  - intro a. cbn. split; [discriminate|tauto].
  - apply always_nil.
Qed.

Lemma acquire_ok : forall n p tr, inv p tr -> (released p = [] -> honest (tr ++ [Created n])) ->
  exists p' ev, acquire n p = (p', ev) /\ inv p' (tr ++ ev).
Proof.
  intros n p tr I H. destruct I. unfold acquire. destruct (released p) as [|b r] eqn:R.
  - specialize (H eq_refl). apply always_snoc in H. destruct H as [_ N]. cbn in N.
    assert (Nn : ~ In n (acquired p)) by (intro X; assert (alive tr n = true) by (apply i_live0; left; exact X); congruence).
    assert (existsb (Nat.eqb n) (acquired p) = false) as -> by (apply not_true_iff_false; rewrite mem_iff; exact Nn).
    do 2 eexists. split; [reflexivity|].
    assert (On : out tr n = false) by (apply not_true_iff_false; rewrite i_out0; exact Nn).
    cbn [app]. replace (tr ++ [Created n; Handed n]) with ((tr ++ [Created n]) ++ [Handed n]) by (rewrite <- app_assoc; reflexivity).
    constructor; cbn [acquired released].
    + constructor; assumption.
    + constructor.
    + intros a _ [].
    + intro a. rewrite !out_app. cbn [In]. destruct (Nat.eqb_spec n a); [tauto|]. rewrite i_out0. split; [tauto|intros []; [congruence|assumption]].
    + intro a. rewrite !alive_app. cbn [In]. destruct (Nat.eqb_spec n a); [tauto|]. rewrite i_live0. cbn [In]. tauto.
    + apply always_snoc. split; [apply always_snoc; split; [exact i_ok0|exact Logic.I]|]. cbn. rewrite alive_app, out_app, Nat.eqb_refl. auto.
  - assert (Nb : ~ In b (acquired p)) by (intro X; apply (i_dis0 b X); left; reflexivity).
    assert (existsb (Nat.eqb b) (acquired p) = false) as -> by (apply not_true_iff_false; rewrite mem_iff; exact Nb).
    do 2 eexists. split; [reflexivity|]. cbn [app]. inversion i_rel0; subst.
    constructor; cbn [acquired released].
    + constructor; assumption.
    + assumption.
    + intros a [<-|Ha]; [assumption|]. intro X. apply (i_dis0 a Ha). right. exact X.
    + intro a. rewrite !out_app. cbn [In]. destruct (Nat.eqb_spec b a); [tauto|]. rewrite i_out0. split; [tauto|intros []; [congruence|assumption]].
    + intro a. rewrite !alive_app. cbn [In]. rewrite i_live0. cbn [In]. tauto.
    + apply always_snoc. split; [exact i_ok0|]. cbn. split; [apply i_live0; right; left; reflexivity|]. apply not_true_iff_false. rewrite i_out0. exact Nb.
Qed.

Lemma trim_ok : forall cap q acq tr q' ev, inv (Pool acq q) tr -> trim cap q = (q', ev) -> inv (Pool acq q') (tr ++ ev).
Proof.
  intros cap q. induction q as [|a r IH]; intros acq tr q' ev I E; cbn [trim] in E.
  - injection E as <- <-. rewrite app_nil_r. exact I.
  - destruct (cap <? Z.of_nat (length (a :: r)))%Z; [|injection E as <- <-; rewrite app_nil_r; exact I].
    destruct (trim cap r) as [q1 ev1] eqn:T. injection E as <- <-.
    replace (tr ++ Destroyed a :: ev1) with ((tr ++ [Destroyed a]) ++ ev1) by (rewrite <- app_assoc; reflexivity).
    apply (IH acq _ q1 ev1); [|reflexivity]. destruct I. cbn [acquired released] in *. inversion i_rel0; subst.
    assert (Na : ~ In a acq) by (intro X; apply (i_dis0 a X); left; reflexivity).
    constructor; cbn [acquired released].
    + assumption.
    + assumption.
    + intros b Hb X. apply (i_dis0 b Hb). right. exact X.
    + intro b. rewrite out_app. apply i_out0.
    + intro b. rewrite alive_app. destruct (Nat.eqb_spec a b) as [<-|N].
      * split; [discriminate|]. intros [X|X]; contradiction.
      * rewrite i_live0. cbn [In]. split; [intros [X|[X|X]]; [tauto|congruence|tauto]|tauto].
    + apply always_snoc. split; [exact i_ok0|]. cbn. split; [apply i_live0; right; left; reflexivity|]. apply not_true_iff_false. rewrite i_out0. exact Na.
Qed.

Lemma release_ok : forall cap a p tr p' ev, inv p tr -> release cap a p = (p', ev) -> inv p' (tr ++ ev).
Proof.
  intros cap a p tr p' ev I E. unfold release in E. destruct (existsb (Nat.eqb a) (acquired p)) eqn:M.
  - apply mem_iff in M. set (acq := filter _ _) in E.
    assert (F : forall b, In b acq <-> In b (acquired p) /\ b <> a).
    { intro b. unfold acq. rewrite filter_In, negb_true_iff, Nat.eqb_neq. tauto. }
    assert (I1 : inv (Pool acq (released p ++ [a])) (tr ++ [Returned a])).
    { destruct I. constructor; cbn [acquired released].
      - apply NoDup_filter. assumption.
      - apply (Permutation.Permutation_NoDup (l := a :: released p)).
        + apply Permutation.Permutation_cons_append.
        + constructor; [apply i_dis0; exact M|assumption].
      - intros b Hb X. apply F in Hb. destruct Hb as [Hb Nb]. apply in_app_iff in X. destruct X as [X|[X|[]]]; [exact (i_dis0 b Hb X)|congruence].
      - intro b. rewrite out_app, F. destruct (Nat.eqb_spec a b) as [<-|N]; [split; [discriminate|tauto]|]. rewrite i_out0. split; [auto|tauto].
      - intro b. rewrite alive_app, i_live0, F, in_app_iff. cbn [In]. destruct (Nat.eq_dec b a) as [->|N]; [tauto|].
        split; [tauto|]. intros [X|[X|[X|[]]]]; [tauto|tauto|congruence].
      - apply always_snoc. split; [assumption|]. cbn. apply i_out0. exact M. }
    destruct (wrap U64 (cap * 3) / 2 <? Z.of_nat (length (released p ++ [a])))%Z.
    + destruct (trim cap (released p ++ [a])) as [q1 ev1] eqn:T. injection E as <- <-.
      replace (tr ++ Returned a :: ev1) with ((tr ++ [Returned a]) ++ ev1) by (rewrite <- app_assoc; reflexivity).
      exact (trim_ok cap _ acq _ q1 ev1 I1 T).
    + injection E as <- <-. exact I1.
  - injection E as <- <-. destruct I. constructor; try assumption.
    + intro b. rewrite out_app. apply i_out0.
    + intro b. rewrite alive_app. apply i_live0.
    + apply always_snoc. split; [assumption|]. cbn. apply not_true_iff_false. rewrite i_out0, <- mem_iff. congruence.
Qed.

Lemma run_ok : forall cap cs p tr p' ev, inv p tr -> run cap cs p = (p', ev) -> honest (tr ++ ev) -> inv p' (tr ++ ev).
Proof.
  intros cap cs. induction cs as [|c cs IH]; intros p tr p' ev I E H; cbn [run] in E.
  - injection E as <- <-. rewrite app_nil_r. exact I.
  - destruct (step cap c p) as [p1 ev1] eqn:S. destruct (run cap cs p1) as [p2 ev2] eqn:R. injection E as <- <-. rewrite app_assoc in *.
    apply (IH p1 (tr ++ ev1) p2 ev2); [|exact R|exact H]. apply always_prefix in H. destruct c as [n|a]; cbn [step] in S.
    + assert (released p = [] -> honest (tr ++ [Created n])) as Hn.
      { intro Z0. unfold acquire in S. rewrite Z0 in S.
        destruct (existsb (Nat.eqb n) (acquired p)); injection S as <- <-; [apply (always_prefix _ _ [Failed])|apply (always_prefix _ _ [Handed n])];
          rewrite <- app_assoc; exact H. }
      destruct (acquire_ok n p tr I Hn) as (p1' & ev1' & E1 & I1). rewrite E1 in S. injection S as <- <-. exact I1.
    + exact (release_ok cap a p tr p1 ev1 I S).
Qed.

Lemma pool_allowed : forall cap cs p tr, run cap cs no_objects = (p, tr) -> honest tr -> always allowed tr.
Proof. intros cap cs p tr E H. exact (i_ok _ _ (run_ok cap cs no_objects [] p tr start E H)). Qed.

(** ** The queue stays short *)

Lemma trim_length : forall cap q q' ev, (0 <= cap)%Z -> trim cap q = (q', ev) -> (Z.of_nat (length q') <= cap)%Z.
Proof.
  intros cap q. induction q as [|a r IH]; intros q' ev C E; cbn [trim] in E; [injection E as <- <-; cbn; lia|].
  destruct (Z.ltb_spec cap (Z.of_nat (length (a :: r)))); [|injection E as <- <-; lia].
  destruct (trim cap r) as [q1 ev1] eqn:T. injection E as <- <-. eapply IH; [exact C|reflexivity].
Qed.

Lemma step_bound : forall cap c p p' ev, (0 <= cap)%Z -> (cap * 3 < 2 ^ 64)%Z -> step cap c p = (p', ev) ->
  (Z.of_nat (length (released p)) <= cap * 3 / 2)%Z -> (Z.of_nat (length (released p')) <= cap * 3 / 2)%Z.
Proof.
  intros cap c p p' ev C L E B. destruct c as [n|a]; cbn [step] in E.
  - unfold acquire in E. destruct (released p) as [|b r] eqn:R.
    + destruct (existsb (Nat.eqb n) (acquired p)); injection E as <- <-; exact B.
    + destruct (existsb (Nat.eqb b) (acquired p)); injection E as <- <-; cbn [released length] in *; lia.
  - unfold release in E. destruct (existsb (Nat.eqb a) (acquired p)); [|injection E as <- <-; exact B].
    rewrite wrap_id in E by (unfold in_range; change (tmin U64) with 0%Z; change (tmax U64) with (2 ^ 64 - 1)%Z; lia).
    destruct (Z.ltb_spec (cap * 3 / 2) (Z.of_nat (length (released p ++ [a])))).
    + destruct (trim cap (released p ++ [a])) as [q1 ev1] eqn:T. injection E as <- <-. apply trim_length in T; [|exact C]. cbn [released]. lia.
    + injection E as <- <-. cbn [released]. assumption.
Qed.

Lemma pool_bound : forall cap cs p tr, (0 <= cap)%Z -> (cap * 3 < 2 ^ 64)%Z -> run cap cs no_objects = (p, tr) ->
  (Z.of_nat (length (released p)) <= cap * 3 / 2)%Z.
Proof.
  intros cap cs p tr C L. assert (B : (Z.of_nat (length (released no_objects)) <= cap * 3 / 2)%Z) by (cbn; lia). revert p tr B. generalize no_objects as q.
  induction cs as [|c cs IH]; intros q p tr B E; cbn [run] in E; [injection E as <- <-; exact B|].
  destruct (step cap c q) as [p1 ev1] eqn:S. destruct (run cap cs p1) as [p2 ev2] eqn:R. injection E as <- <-.
  exact (IH p1 p2 ev2 (step_bound cap c q p1 ev1 C L S B) R).
Qed.

(** ** Nothing is left behind *)

Lemma alive_destroyed : forall l tr a, alive (tr ++ map Destroyed l) a = if existsb (Nat.eqb a) l then false else alive tr a.
Proof.
  induction l as [|x l IH]; intros tr a; cbn [map existsb]; [rewrite app_nil_r; reflexivity|].
  replace (tr ++ Destroyed x :: map Destroyed l) with ((tr ++ [Destroyed x]) ++ map Destroyed l) by (rewrite <- app_assoc; reflexivity).
  rewrite IH, alive_app, Nat.eqb_sym. destruct (a =? x), (existsb (Nat.eqb a) l); reflexivity.
Qed.

Lemma once_destroyed : forall l tr, once tr -> NoDup l -> (forall a, In a l -> alive tr a = true) -> once (tr ++ map Destroyed l).
Proof.
  induction l as [|x l IH]; intros tr O N A; cbn [map]; [rewrite app_nil_r; exact O|].
  replace (tr ++ Destroyed x :: map Destroyed l) with ((tr ++ [Destroyed x]) ++ map Destroyed l) by (rewrite <- app_assoc; reflexivity).
  inversion N; subst. apply IH; [|assumption|].
  - apply always_snoc. split; [exact O|]. apply A. left. reflexivity.
  - intros a Ha. rewrite alive_app. destruct (Nat.eqb_spec x a); [subst; contradiction|]. apply A. right. exact Ha.
Qed.

Lemma pool_destroyed : forall cap cs p tr, run cap cs no_objects = (p, tr) -> honest tr ->
  once (tr ++ destruct_pool p) /\ forall a, alive (tr ++ destruct_pool p) a = false.
Proof.
  intros cap cs p tr E H. destruct (run_ok cap cs no_objects [] p tr start E H). cbn [app] in *. unfold destruct_pool. rewrite <- map_app. split.
  - apply once_destroyed.
    + intros b e a X. specialize (i_ok0 b e a X). destruct e; try exact Logic.I. apply i_ok0.
    + assert (G : forall l1 l2 : list nat, NoDup l1 -> NoDup l2 -> (forall x, In x l1 -> ~ In x l2) -> NoDup (l1 ++ l2)).
      { clear. induction l1 as [|x l1 IH]; intros l2 N1 N2 D; [exact N2|]. inversion N1; subst. cbn [app]. constructor.
        - rewrite in_app_iff. intros [H|H]; [contradiction|]. apply (D x (or_introl eq_refl) H).
        - apply IH; [assumption|assumption|]. intros y Hy. apply D. right. exact Hy. }
      apply G; assumption.
    + intros a Ha. apply i_live0. apply in_app_iff. exact Ha.
  - intro a. rewrite alive_destroyed. destruct (existsb (Nat.eqb a) (acquired p ++ released p)) eqn:M; [reflexivity|].
    apply not_true_iff_false. intro L. apply i_live0 in L. rewrite <- in_app_iff, <- mem_iff in L. congruence.
Qed.

(** ** Strings *)

Lemma str_eqb_eq : forall a b, str_eqb a b = true <-> a = b.
Proof.
  induction a as [|x a IH]; intros [|y b]; cbn [str_eqb]; try (split; congruence).
  rewrite andb_true_iff, Z.eqb_eq, IH. split; [intros [-> ->]; reflexivity|]. intro H. injection H as -> ->. auto.
Qed.

Record sinv (p : spool) : Prop := {
  s_pos : 0 < next p;
  s_below : forall s a, In (s, a) (strings p) -> 0 < a < next p;
  s_str : forall s a b, In (s, a) (strings p) -> In (s, b) (strings p) -> a = b;
  s_addr : forall s t a, In (s, a) (strings p) -> In (t, a) (strings p) -> s = t
}.

Lemma sinv_start : sinv no_strings.
Proof. constructor; cbn; try lia; tauto. Qed.

Lemma to_sid_ok : forall s p p' a, sinv p -> to_sid s p = (p', a) -> sinv p' /\ In (s, a) (strings p') /\ (forall e, In e (strings p) -> In e (strings p')).
Proof.
  intros s p p' a I E. unfold to_sid in E. destruct (find _ (strings p)) as [[t b]|] eqn:F.
  - injection E as <- <-. apply find_some in F. destruct F as [F1 F2]. cbn [fst] in F2. apply str_eqb_eq in F2. subst t. auto.
  - injection E as <- <-. assert (N : forall b, ~ In (s, b) (strings p)).
    { intros b X. pose proof (find_none _ _ F (s, b) X) as Y. cbn [fst] in Y. assert (str_eqb s s = true) by (apply str_eqb_eq; reflexivity). congruence. }
    destruct I. split; [|split].
    + constructor; cbn [strings next].
      * lia.
      * intros t b X. apply in_app_iff in X. destruct X as [X|[X|[]]]; [specialize (s_below0 t b X); lia|]. injection X as <- <-. lia.
      * intros t b c X Y. apply in_app_iff in X. apply in_app_iff in Y. destruct X as [X|[X|[]]], Y as [Y|[Y|[]]].
        -- eauto.
        -- injection Y as <- <-. destruct (N _ X).
        -- injection X as <- <-. destruct (N _ Y).
        -- congruence.
      * intros t u b X Y. apply in_app_iff in X. apply in_app_iff in Y. destruct X as [X|[X|[]]], Y as [Y|[Y|[]]].
        -- eauto.
        -- injection Y as <- <-. specialize (s_below0 _ _ X). lia.
        -- injection X as <- <-. specialize (s_below0 _ _ Y). lia.
        -- congruence.
    + cbn [strings]. apply in_app_iff. right. left. reflexivity.
    + intros e He. cbn [strings]. apply in_app_iff. left. exact He.
Qed.

Lemma to_sids_ok : forall ss p p' l, sinv p -> to_sids ss p = (p', l) ->
  sinv p' /\ (forall e, In e (strings p) -> In e (strings p')) /\ Forall2 (fun s a => In (s, a) (strings p')) ss l.
Proof.
  induction ss as [|s ss IH]; intros p p' l I E; cbn [to_sids] in E; [injection E as <- <-; auto|].
  destruct (to_sid s p) as [p1 a] eqn:S. destruct (to_sids ss p1) as [p2 l2] eqn:R. injection E as <- <-.
  destruct (to_sid_ok s p p1 a I S) as (I1 & A1 & K1). destruct (IH p1 p2 l2 I1 R) as (I2 & K2 & F2). auto.
Qed.

Lemma of_sid_ok : forall p s a, sinv p -> In (s, a) (strings p) -> a <> 0 /\ of_sid a p = Some s.
Proof.
  intros p s a I H. destruct I. pose proof (s_below0 s a H). split; [lia|]. unfold of_sid. destruct (Nat.eqb_spec a 0); [lia|].
  destruct (find (fun e => snd e =? a) (strings p)) as [[t b]|] eqn:F.
  - apply find_some in F. destruct F as [F1 F2]. cbn [snd] in F2. apply Nat.eqb_eq in F2. subst b. f_equal. eauto.
  - pose proof (find_none _ _ F (s, a) H) as Y. cbn [snd] in Y. rewrite Nat.eqb_refl in Y. discriminate.
Qed.

Lemma forall2_at : forall {A B} (R : A -> B -> Prop) l m i a b, Forall2 R l m -> nth_error l i = Some a -> nth_error m i = Some b -> R a b.
Proof.
  intros A B R l m i a b F. revert i. induction F; intros i Ea Eb; [destruct i; discriminate|].
  destruct i; cbn in *; [injection Ea as <-; injection Eb as <-; assumption|eauto].
Qed.

Lemma interned : forall ss p l i j s t a b, to_sids ss no_strings = (p, l) ->
  nth_error ss i = Some s -> nth_error l i = Some a -> nth_error ss j = Some t -> nth_error l j = Some b ->
  (a = b <-> s = t) /\ a <> 0 /\ of_sid a p = Some s.
Proof.
  intros ss p l i j s t a b E Es Ea Et Eb. destruct (to_sids_ok ss no_strings p l sinv_start E) as (I & _ & F).
  pose proof (forall2_at _ _ _ _ _ _ F Es Ea) as A. pose proof (forall2_at _ _ _ _ _ _ F Et Eb) as B. cbv beta in A, B.
  split; [split; [intros <-; exact (s_addr p I s t a A B)|intros <-; exact (s_str p I s a b A B)]|]. exact (of_sid_ok p s a I A).
Qed.

Lemma sids_length : forall ss p, length (snd (to_sids ss p)) = length ss.
Proof.
  induction ss as [|s ss IH]; intro p; cbn [to_sids]; [reflexivity|]. destruct (to_sid s p) as [p1 a]. specialize (IH p1). destruct (to_sids ss p1). cbn in *. lia.
Qed.
