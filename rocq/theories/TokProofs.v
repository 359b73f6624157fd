(** Proofs about the tokeniser. *)

From Coq Require Import String Ascii ZArith List Bool Lia.
Import ListNotations.
From Verif Require Import CppInt StrModel StrProofs LitModel LitSpec LitProofs TokModel TokSpec.
Open Scope Z_scope.
Ltac Zify.zify_post_hook ::= Z.div_mod_to_equations.

(** ** Characters *)

Lemma within_small : forall c, 0 <= c < 127 -> within c = true.
Proof. intros c H. apply within_ascii. left. exact H. Qed.

Lemma white_true : forall c, white c -> is_whitespace c = true.
Proof. intros c H. unfold is_whitespace. unfold white in H. rewrite within_small by lia. lia. Qed.

Lemma white_false : forall c, ~ white c -> c <> 0 -> is_whitespace c = false.
Proof. intros c H N. unfold is_whitespace. unfold white in H. destruct (within c); [cbn [andb]; lia | reflexivity]. Qed.

Lemma white_iff : forall c, c <> 0 -> (is_whitespace c = true <-> white c).
Proof.
  intros c N. split; [| apply white_true]. intros H. unfold is_whitespace in H. apply andb_prop in H. unfold white. lia.
Qed.

Lemma line_end_iff : forall c, is_lineend c = true <-> line_end c.
Proof.
  intros c. unfold is_lineend, line_end. split; intros H.
  - apply andb_prop in H. lia.
  - rewrite within_small by lia. lia.
Qed.

Lemma word_iff : forall c, is_word c = true <-> word_char c.
Proof. exact is_word_char. Qed.

Lemma name_prefix_iff : forall c, is_name_prefix c = true <-> name_start c.
Proof.
  intros c. unfold is_name_prefix, name_start. split; intros H.
  - apply andb_prop in H. lia.
  - rewrite within_small by lia. lia.
Qed.

Lemma numeric_prefix_iff : forall c, is_numeric_prefix c = true <-> (48 <= c <= 57 \/ c = 46).
Proof.
  intros c. unfold is_numeric_prefix. split; intros H.
  - apply andb_prop in H. lia.
  - rewrite within_small by lia. lia.
Qed.

(** ** Loops *)

Definition ends {A B : Type} (step : A -> A + B) (a : A) (r : B) : Prop :=
  exists least, forall n, (least <= n)%nat -> repeat_step step n a = Some r.

Lemma ends_done : forall A B (step : A -> A + B) a r, step a = inr r -> ends step a r.
Proof.
  intros A B step a r H. exists 1%nat. intros [| n] L; [lia |]. cbn [repeat_step]. rewrite H. reflexivity.
Qed.

Lemma ends_step : forall A B (step : A -> A + B) a b r, step a = inl b -> ends step b r -> ends step a r.
Proof.
  intros A B step a b r H (k & K). exists (S k). intros [| n] L; [lia |]. cbn [repeat_step]. rewrite H. apply K. lia.
Qed.

Lemma repeat_more : forall A B (step : A -> A + B) n a r, repeat_step step n a = Some r ->
  forall m, (n <= m)%nat -> repeat_step step m a = Some r.
Proof.
  induction n as [| n IH]; intros a r H m L; [discriminate |]. destruct m as [| m]; [lia |].
  cbn [repeat_step] in *. destruct (step a); [apply IH; [exact H | lia] | exact H].
Qed.

Lemma repeat_ends : forall A B (step : A -> A + B) n a r, repeat_step step n a = Some r -> ends step a r.
Proof. intros. exists n. intros. eapply repeat_more; eauto. Qed.

Lemma ends_unique : forall A B (step : A -> A + B) a r n r', ends step a r -> repeat_step step n a = Some r' -> r' = r.
Proof.
  intros A B step a r n r' (k & K) H. pose proof (K (max k n) ltac:(lia)) as E.
  rewrite (repeat_more _ _ _ _ _ _ H (max k n) ltac:(lia)) in E. congruence.
Qed.

Lemma measured_ends : forall A B (step : A -> A + B) (m : A -> nat), (forall a b, step a = inl b -> (m b < m a)%nat) ->
  forall a, exists r, ends step a r.
Proof.
  intros A B step m D a. remember (m a) as k eqn:E. revert a E.
  induction k as [k IH] using (well_founded_induction lt_wf). intros a E.
  destruct (step a) as [b | r] eqn:St.
  - destruct (IH (m b) ltac:(subst; apply D; exact St) b eq_refl) as (r & R). exists r. eapply ends_step; eauto.
  - exists r. apply ends_done. exact St.
Qed.

(** Invariants of loops. *)
Lemma ends_invariant : forall A B (step : A -> A + B) (I : A -> Prop) (P : B -> Prop),
  (forall a b, I a -> step a = inl b -> I b) -> (forall a r, I a -> step a = inr r -> P r) ->
  forall n a r, I a -> repeat_step step n a = Some r -> P r.
Proof.
  intros A B step I P H1 H2. induction n as [| n IH]; intros a r Ha H; [discriminate |].
  cbn [repeat_step] in H. destruct (step a) as [b | r'] eqn:E; [exact (IH b r (H1 a b Ha E) H) | injection H as <-; exact (H2 a r' Ha E)].
Qed.

(** ** Positions *)

(** The spot [q] lies ahead of [p]. *)
Definition ahead (p q : spot) : Prop := exists body, snd p = body ++ snd q /\ fst q = (fst p + length body)%nat.

Lemma ahead_refl : forall p, ahead p p.
Proof. intros p. exists []. cbn [app length]. split; [reflexivity | lia]. Qed.

Lemma ahead_trans : forall p q r, ahead p q -> ahead q r -> ahead p r.
Proof.
  intros p q r (a & A1 & A2) (b & B1 & B2). exists (a ++ b). rewrite app_length, <- app_assoc, A1, B1. split; [reflexivity | lia].
Qed.

Lemma ahead_advance : forall p, at_spot p <> 0 -> ahead p (advance p).
Proof.
  intros [n [| c s]] H; [destruct (H eq_refl) |]. exists [c]. cbn. split; [reflexivity | lia].
Qed.

Lemma advance_shorter : forall p, at_spot p <> 0 -> (length (snd (advance p)) < length (snd p))%nat.
Proof. intros [n [| c s]] H; [destruct (H eq_refl) |]. cbn. lia. Qed.

Lemma advance_shorter2 : forall p, at_spot p <> 0 -> (length (snd (advance (advance p))) < length (snd p))%nat.
Proof. intros [n [| c s]] H; [destruct (H eq_refl) |]. destruct s; cbn; lia. Qed.

Ltac step_cases H :=
  repeat match type of H with
         | (if ?b then _ else _) = _ => let E := fresh "E" in destruct b eqn:E
         | match ?x with Some _ => _ | None => _ end = _ => let E := fresh "E" in destruct x eqn:E
         end; try discriminate; try (injection H as <-).

(** Whitespace. *)
Lemma whitespace_decreases : forall a b, whitespace_step a = inl b -> (length (snd b) < length (snd a))%nat.
Proof.
  intros a b H. unfold whitespace_step in H. cbv zeta in H. step_cases H. apply advance_shorter. lia.
Qed.

Lemma whitespace_ends : forall a, exists r, ends whitespace_step a r.
Proof. apply (measured_ends _ _ _ (fun a => length (snd a))). exact whitespace_decreases. Qed.

Lemma whitespace_found : forall n p q b, repeat_step whitespace_step n p = Some (q, b) ->
  exists ws, snd p = ws ++ snd q /\ fst q = (fst p + length ws)%nat /\ Forall white ws
    /\ (if b then ~ white (at_spot q) /\ at_spot q <> 0 else at_spot q = 0).
Proof.
  intros n p q b H.
  refine (ends_invariant _ _ whitespace_step
    (fun x => exists ws, snd p = ws ++ snd x /\ fst x = (fst p + length ws)%nat /\ Forall white ws)
    (fun r => exists ws, snd p = ws ++ snd (fst r) /\ fst (fst r) = (fst p + length ws)%nat /\ Forall white ws
       /\ (if snd r then ~ white (at_spot (fst r)) /\ at_spot (fst r) <> 0 else at_spot (fst r) = 0)) _ _ n p (q, b) _ H).
  - intros x y (ws & A & B & C) St. unfold whitespace_step in St. cbv zeta in St. step_cases St.
    destruct x as [m [| c s]]; [cbn in E; discriminate |]. cbn [snd fst advance at_spot front hd tl] in *.
    exists (ws ++ [c]). rewrite <- app_assoc, app_length. cbn [app length]. split; [exact A | split; [lia |]].
    apply Forall_app. split; [exact C | constructor; [apply white_iff; [lia | exact E0] | constructor]].
  - intros x r (ws & A & B & C) St. unfold whitespace_step in St. cbv zeta in St. step_cases St; exists ws; cbn [fst snd]; repeat split; auto.
    + lia.
    + intros W. rewrite (white_true _ W) in E0. discriminate.
    + lia.
  - exists []. cbn [app length]. repeat split; [lia | constructor].
Qed.

Lemma whitespace_skip : forall ws n s, Forall white ws ->
  (match s with [] => True | c :: _ => ~ white c end) ->
  ends whitespace_step (n, ws ++ s) ((n + length ws)%nat, s, negb (front s =? 0)).
Proof.
  induction ws as [| c r IH]; intros n s F Hs.
  - cbn [app length]. rewrite Nat.add_0_r. apply ends_done. unfold whitespace_step, at_spot. cbn [snd].
    destruct s as [| c s]; [reflexivity |]. cbn [front hd]. destruct (c =? 0) eqn:E; [reflexivity |].
    rewrite white_false by (auto; lia). reflexivity.
  - apply Forall_cons_iff in F. destruct F as (Hc & F). cbn [app].
    apply (ends_step _ _ _ _ (S n, r ++ s)).
    + unfold whitespace_step, at_spot. cbn [snd front hd advance tl]. rewrite (white_true c Hc).
      unfold white in Hc. replace (c =? 0) with false by lia. reflexivity.
    + cbn [length]. replace (n + S (length r))%nat with (S n + length r)%nat by lia. apply IH; assumption.
Qed.

(** ** The loops that read tokens end *)

Lemma line_comment_ends : forall a, exists r, ends line_comment_step a r.
Proof.
  apply (measured_ends _ _ _ (fun a => length (snd a))). intros a b H. unfold line_comment_step in H. cbv zeta in H.
  step_cases H. apply advance_shorter. lia.
Qed.

Lemma block_comment_ends : forall a, exists r, ends block_comment_step a r.
Proof.
  apply (measured_ends _ _ _ (fun a => length (snd a))). intros a b H. unfold block_comment_step in H. cbv zeta in H.
  step_cases H. apply advance_shorter. lia.
Qed.

Lemma word_not_zero : forall c, is_word c = true -> c <> 0.
Proof. intros c H. apply word_iff in H. unfold word_char in H. lia. Qed.

Lemma name_ends : forall a, exists r, ends name_step a r.
Proof.
  apply (measured_ends _ _ _ (fun a => length (snd a))). intros a b H. unfold name_step in H.
  step_cases H. apply advance_shorter. apply word_not_zero. exact E.
Qed.

Lemma unknown_ends : forall c a, exists r, ends (unknown_step c) a r.
Proof.
  intros c. apply (measured_ends _ _ _ (fun a => length (snd a))). intros a b H. unfold unknown_step in H. cbv zeta in H.
  step_cases H. apply advance_shorter. lia.
Qed.

Lemma string_ends : forall a, exists r, ends string_step a r.
Proof.
  apply (measured_ends _ _ _ (fun a => length (snd (fst (fst a))))). intros [[p acc] g] b H. unfold string_step in H. cbv zeta in H.
  step_cases H; cbn [fst snd]; try (apply advance_shorter2; lia). apply advance_shorter. lia.
Qed.

Lemma verbatim_ends : forall a, exists r, ends verbatim_step a r.
Proof.
  apply (measured_ends _ _ _ (fun a => length (snd (fst (fst a))))). intros [[p acc] g] b H. unfold verbatim_step in H. cbv zeta in H.
  step_cases H; cbn [fst snd]. apply advance_shorter. lia.
Qed.

(** ** Character literals *)

Lemma unclosed_loops : forall s, unclosed s -> forall n m ret count good,
  repeat_step char_step n ((m, s), ret, count, good) = None.
Proof.
  intros s U n. revert s U. induction n as [n IH] using (well_founded_induction lt_wf). intros s U m ret count good.
  destruct n as [| n]; [reflexivity |]. cbn [repeat_step]. inversion U; subst.
  - apply IH; [lia | exact U].
  - unfold char_step, at_spot. cbn [fst snd front hd advance tl]. unfold line_end in H.
    replace (c =? 39) with false by lia. replace (c =? 92) with false by lia.
    replace ((c =? 13) || (c =? 10) || (c =? 0)) with true by lia. apply IH; [lia | exact U].
  - unfold char_step, at_spot. cbn [fst snd front hd advance tl].
    replace (c =? 39) with false by lia. replace (c =? 92) with false by lia.
    destruct ((c =? 13) || (c =? 10) || (c =? 0)); (apply IH; [lia | assumption]).
  - unfold char_step, at_spot. cbn [fst snd front hd advance tl]. cbn [Z.eqb Pos.eqb]. replace (d =? 0) with false by lia.
    destruct (escape_char d); (apply IH; [lia | assumption]).
Qed.

Lemma closed_ends_aux : forall k s, (length s <= k)%nat -> ~ unclosed s -> forall m ret count good,
  exists r, ends char_step ((m, s), ret, count, good) r.
Proof.
  induction k as [| k IH]; intros s L U m ret count good.
  { destruct s; [destruct (U Unclosed_end) | cbn in L; lia]. }
  destruct s as [| c s]; [destruct (U Unclosed_end) |]. cbn [length] in L.
  destruct (c =? 39) eqn:E1.
  { eexists. apply ends_done. unfold char_step, at_spot. cbn [fst snd front hd]. rewrite E1. reflexivity. }
  destruct (c =? 92) eqn:E2.
  { assert (c = 92) by lia. subst c. destruct s as [| d s].
    { eexists. apply ends_done. reflexivity. }
    destruct (d =? 0) eqn:E3.
    { eexists. apply ends_done. unfold char_step, at_spot. cbn [fst snd front hd advance tl Z.eqb Pos.eqb]. rewrite E3. reflexivity. }
    assert (U' : ~ unclosed s) by (intros X; apply U; apply Unclosed_escape; [lia | exact X]).
    cbn [length] in L.
    destruct (escape_char d) as [e |] eqn:E4.
    - destruct (IH s ltac:(lia) U' (S (S m)) e (S count) good) as (r & R). exists r. eapply ends_step; [| exact R].
      unfold char_step, at_spot. cbn [fst snd front hd advance tl Z.eqb Pos.eqb]. rewrite E3, E4. reflexivity.
    - destruct (IH s ltac:(lia) U' (S (S m)) ret (S count) false) as (r & R). exists r. eapply ends_step; [| exact R].
      unfold char_step, at_spot. cbn [fst snd front hd advance tl Z.eqb Pos.eqb]. rewrite E3, E4. reflexivity. }
  destruct ((c =? 13) || (c =? 10) || (c =? 0)) eqn:E3.
  { destruct U. apply Unclosed_line. unfold line_end. lia. }
  assert (U' : ~ unclosed s) by (intros X; apply U; apply Unclosed_plain; [lia | lia | exact X]).
  destruct (IH s ltac:(lia) U' (S m) c (S count) good) as (r & R). exists r. eapply ends_step; [| exact R].
  unfold char_step, at_spot. cbn [fst snd front hd advance tl]. rewrite E1, E2, E3. reflexivity.
Qed.

Lemma closed_ends : forall s, ~ unclosed s -> forall m ret count good, exists r, ends char_step ((m, s), ret, count, good) r.
Proof. intros s U. apply (closed_ends_aux (length s)); [lia | exact U]. Qed.

Lemma char_terminates_iff : forall s m ret count good,
  (exists n r, repeat_step char_step n ((m, s), ret, count, good) = Some r) <-> ~ unclosed s.
Proof.
  intros s m ret count good. split.
  - intros (n & r & H) U. rewrite (unclosed_loops s U) in H. discriminate.
  - intros U. destruct (closed_ends s U m ret count good) as (r & k & K). exists k, r. apply K. lia.
Qed.

(** ** How far the loops go *)

Lemma ahead_bound : forall p q, ahead p q -> (fst p <= fst q /\ fst q + length (snd q) = fst p + length (snd p))%nat.
Proof. intros p q (b & A & B). rewrite A, app_length. lia. Qed.

Lemma simple_loop : forall (step : spot -> spot + (spot * datum)),
  (forall a b, step a = inl b -> ahead a b) -> (forall a r, step a = inr r -> ahead a (fst r)) ->
  forall n p q d, repeat_step step n p = Some (q, d) -> ahead p q.
Proof.
  intros step H1 H2 n p q d H.
  refine (ends_invariant _ _ step (fun x => ahead p x) (fun r => ahead p (fst r)) _ _ n p (q, d) (ahead_refl p) H).
  - intros a b A St. eapply ahead_trans; [exact A | apply H1; exact St].
  - intros a r A St. eapply ahead_trans; [exact A | apply H2; exact St].
Qed.

Lemma line_comment_ahead : forall n p q d, repeat_step line_comment_step n p = Some (q, d) -> ahead p q.
Proof.
  apply simple_loop.
  - intros a b H. unfold line_comment_step in H. cbv zeta in H. step_cases H. apply ahead_advance. lia.
  - intros a b H. unfold line_comment_step in H. cbv zeta in H. step_cases H; apply ahead_refl.
Qed.

Lemma name_ahead : forall n p q d, repeat_step name_step n p = Some (q, d) -> ahead p q.
Proof.
  apply simple_loop.
  - intros a b H. unfold name_step in H. step_cases H. apply ahead_advance. apply word_not_zero. exact E.
  - intros a b H. unfold name_step in H. step_cases H; apply ahead_refl.
Qed.

Lemma unknown_ahead : forall c n p q d, repeat_step (unknown_step c) n p = Some (q, d) -> ahead p q.
Proof.
  intros c. apply simple_loop.
  - intros a b H. unfold unknown_step in H. cbv zeta in H. step_cases H. apply ahead_advance. lia.
  - intros a b H. unfold unknown_step in H. cbv zeta in H. step_cases H; apply ahead_refl.
Qed.

Lemma block_comment_ahead : forall n p q d, repeat_step block_comment_step n p = Some (q, d) ->
  ahead p q \/ (d = Bad /\ fst q = S (fst p + length (snd p))).
Proof.
  intros n p q d H.
  refine (ends_invariant _ _ block_comment_step (fun x => ahead p x)
    (fun r => ahead p (fst r) \/ (snd r = Bad /\ fst (fst r) = S (fst p + length (snd p)))) _ _ n p (q, d) (ahead_refl p) H).
  - intros a b A St. unfold block_comment_step in St. cbv zeta in St. step_cases St.
    eapply ahead_trans; [exact A | apply ahead_advance; lia].
  - intros a r A St. unfold block_comment_step in St. cbv zeta in St. step_cases St; cbn [fst snd].
    + destruct a as [m [| c s]].
      * right. apply ahead_bound in A. cbn [fst snd length advance] in *. split; [reflexivity | lia].
      * left. eapply ahead_trans; [exact A |]. exists [c]. cbn. split; [reflexivity | lia].
    + left. eapply ahead_trans; [exact A |]. apply andb_prop in E0.
      eapply ahead_trans; [apply ahead_advance | apply ahead_advance]; lia.
Qed.

Lemma string_ahead : forall n p acc good q d, repeat_step string_step n (p, acc, good) = Some (q, d) -> ahead p q.
Proof.
  intros n p acc good q d H.
  refine (ends_invariant _ _ string_step (fun x => ahead p (fst (fst x))) (fun r => ahead p (fst r)) _ _ n (p, acc, good) (q, d) (ahead_refl p) H).
  - intros [[a ac] g] b A St. unfold string_step in St. cbv zeta in St. cbn [fst] in *. step_cases St; cbn [fst];
      (eapply ahead_trans; [exact A |]).
    + eapply ahead_trans; apply ahead_advance; lia.
    + eapply ahead_trans; apply ahead_advance; lia.
    + apply ahead_advance; lia.
  - intros [[a ac] g] r A St. unfold string_step in St. cbv zeta in St. cbn [fst] in *. step_cases St; cbn [fst];
      (eapply ahead_trans; [exact A |]); try apply ahead_refl; apply ahead_advance; lia.
Qed.

Lemma verbatim_ahead : forall n p acc good q d, repeat_step verbatim_step n (p, acc, good) = Some (q, d) -> ahead p q.
Proof.
  intros n p acc good q d H.
  refine (ends_invariant _ _ verbatim_step (fun x => ahead p (fst (fst x))) (fun r => ahead p (fst r)) _ _ n (p, acc, good) (q, d) (ahead_refl p) H).
  - intros [[a ac] g] b A St. unfold verbatim_step in St. cbv zeta in St. cbn [fst] in *. step_cases St; cbn [fst];
      (eapply ahead_trans; [exact A |]). apply ahead_advance; lia.
  - intros [[a ac] g] r A St. unfold verbatim_step in St. cbv zeta in St. cbn [fst] in *. step_cases St; cbn [fst];
      (eapply ahead_trans; [exact A |]).
    + eapply ahead_trans; apply ahead_advance; lia.
    + apply ahead_advance; lia.
    + apply ahead_refl.
Qed.

Lemma char_ahead : forall n p ret count good q d, repeat_step char_step n (p, ret, count, good) = Some (q, d) -> ahead p q.
Proof.
  intros n p ret count good q d H.
  refine (ends_invariant _ _ char_step (fun x => ahead p (fst (fst (fst x)))) (fun r => ahead p (fst r)) _ _ n (p, ret, count, good) (q, d) (ahead_refl p) H).
  - intros [[[a rt] ct] g] b A St. unfold char_step in St. cbv zeta in St. cbn [fst] in *. step_cases St; cbn [fst];
      (eapply ahead_trans; [exact A |]); try apply ahead_refl.
    + eapply ahead_trans; apply ahead_advance; lia.
    + eapply ahead_trans; apply ahead_advance; lia.
    + apply ahead_advance; lia.
  - intros [[[a rt] ct] g] r A St. unfold char_step in St. cbv zeta in St. cbn [fst] in *. step_cases St; cbn [fst];
      (eapply ahead_trans; [exact A |]); apply ahead_advance; lia.
Qed.

(** ** Numbers *)

Lemma continue_some : forall s p e x pos, (match e with Some (_, None) => False | _ => True end) ->
  exists r, continue_read p e (Some x) pos s = Some r.
Proof.
  assert (Stop : forall p e x pos, (match e with Some (_, None) => False | _ => True end) -> exists r, stop p e (Some x) pos = Some r).
  { intros p [[k [y |]] |] x pos H; [| destruct H |]; unfold stop; cbn [set_end]; eexists; reflexivity. }
  assert (Keep : forall e pos x, (match e with Some (_, None) => False | _ => True end) ->
    match set_end e pos (Some x) with Some (_, None) => False | _ => True end).
  { intros [[k [y |]] |] pos x H; cbn [set_end]; auto. }
  assert (G : forall k s, (length s <= k)%nat -> forall p e x pos, (match e with Some (_, None) => False | _ => True end) ->
    exists r, continue_read p e (Some x) pos s = Some r).
  { induction k as [| k IH]; intros s L p e x pos He.
    - destruct s; [apply Stop; exact He | cbn in L; lia].
    - destruct s as [| c s]; [apply Stop; exact He |]. cbn [length] in L. cbn [continue_read].
      destruct (c =? 46); [apply IH; [lia | exact He] |].
      destruct (((c =? 69) || (c =? 101)) && (radix p =? 10)).
      { destruct s as [| d [| f s]]; cbn [length] in L.
        - apply Stop; exact He.
        - destruct ((d =? 43) || (d =? 45)); [apply Stop; exact He | apply IH; [cbn; lia | exact He]].
        - destruct ((d =? 43) || (d =? 45)); [| apply IH; [cbn; lia | exact He]].
          destruct (is_digit f); (apply IH; [lia | exact He]). }
      destruct (((c =? 70) || (c =? 102)) && ((radix p =? 10) || (radix p =? 0))); [apply IH; [lia | apply Keep; exact He] |].
      destruct ((c =? 76) || (c =? 108)); [apply IH; [lia | apply Keep; exact He] |].
      destruct ((c =? 85) || (c =? 117)); [apply IH; [lia | apply Keep; exact He] |].
      destruct ((c =? 72) || (c =? 104)); [apply IH; [lia | apply Keep; exact He] |].
      destruct (c =? 39); [apply IH; [lia | exact He] |].
      destruct (is_word c); [apply IH; [lia | exact He] | apply Stop; exact He]. }
  intros s. apply (G (length s)). lia.
Qed.

(** The characters of a literal and what follows. *)
Lemma literal_run : forall a b c d, a ++ b = c ++ d -> Forall literal_char a -> Forall literal_char c -> ends_here b -> ends_here d ->
  a = c /\ b = d.
Proof.
  induction a as [| x a IH]; intros b c d E Fa Fc Hb Hd.
  - destruct c as [| y c]; [split; [reflexivity | exact E] |]. cbn [app] in E. subst b. cbn in Hb.
    apply Forall_cons_iff in Fc. destruct (Hb (proj1 Fc)).
  - apply Forall_cons_iff in Fa. destruct c as [| y c].
    + cbn [app] in E. subst d. cbn in Hd. destruct (Hd (proj1 Fa)).
    + cbn [app] in E. injection E as -> E. apply Forall_cons_iff in Fc.
      destruct (IH b c d E (proj2 Fa) (proj2 Fc) Hb Hd) as (-> & ->). split; reflexivity.
Qed.

Lemma prefix_literal : forall c, prefix_char c -> literal_char c.
Proof. intros c H. unfold prefix_char, literal_char, word_char in *. cbn [In] in H. lia. Qed.

Lemma prefix_nonsign : forall c r p pos, c <> 45 -> c <> 43 -> radix p <> 10 ->
  forall p' start rest, read_prefix p pos (c :: r) = (p', start, rest) ->
  exists pre, c :: r = pre ++ rest /\ start = (pos + length pre)%nat /\ Forall prefix_char pre /\ radix p' <> 10
    /\ (pre = [] -> p' = p \/ c = 0).
Proof.
  intros c r p pos N1 N2 Hr p' start rest H. pose proof H as H0.
  apply prefix_pos in H; [| exact Hr]. destruct H as (sg & pre & E & St & Fp & Fs & R & _ & _).
  assert (Sg : sg = []).
  { destruct sg as [| x sg]; [reflexivity |]. cbn [app] in E. injection E as -> E. apply Forall_cons_iff in Fs. lia. }
  subst sg. cbn [app] in E, St. exists pre. split; [exact E | split; [exact St | split; [exact Fp | split; [exact R |]]]].
  intros ->. cbn [length app] in *. rewrite Nat.add_0_r in St. subst start rest.
  cbn [read_prefix] in H0. replace (c =? 45) with false in H0 by lia. replace (c =? 43) with false in H0 by lia.
  destruct (c =? 48) eqn:E48.
  - assert (c = 48) by lia. subst c. repeat match type of H0 with (if ?b then _ else _) = _ => destruct b end;
      try (injection H0; intros; try lia; left; congruence).
    + apply prefix_pos in H0; [| exact Hr]. destruct H0 as (sg & pre & E' & St & _). exfalso. apply (f_equal (@length Z)) in E'.
      rewrite !app_length in E'. cbn [length] in E'. lia.
  - destruct (c =? 0) eqn:E0; [right; lia |]. left. congruence.
Qed.

(** A number is read up to the first character that cannot be part of it. *)
Lemma number_plain : forall c body rest before, 48 <= c <= 57 \/ c = 46 -> Forall literal_char body -> ends_here rest ->
  number_end before (c :: body ++ rest) = Some (length (c :: body)).
Proof.
  intros c body rest before Hc F En. unfold number_end.
  destruct (read_prefix no_props 0 (c :: body ++ rest)) as [[p start] u] eqn:Rp.
  apply prefix_nonsign in Rp; [| lia | lia | cbn; lia]. destruct Rp as (pre & E & St & Fp & Hr & Np).
  cbn [Nat.add] in St. subst start.
  assert (Lc : literal_char c) by (unfold literal_char, word_char; lia).
  assert (Fb : Forall literal_char (c :: body)) by (constructor; assumption).
  assert (Fin : forall prev r, continue_read p None prev (length pre) u = Some r -> snd r = length (c :: body)).
  { intros prev [[p' pe] pos'] C. apply continue_pos in C; [| exact Hr | exact I].
    destruct C as (b & t & E2 & Fb2 & En2 & P & _). cbn [snd]. subst u.
    assert (X : (pre ++ b) ++ t = (c :: body) ++ rest) by (rewrite <- app_assoc, <- E; reflexivity).
    apply literal_run in X; [| apply Forall_app; split; [eapply Forall_impl; [exact prefix_literal | exact Fp] | exact Fb2] | exact Fb | exact En2 | exact En].
    destruct X as (X & _). rewrite <- X, app_length. exact P. }
  assert (Ex : exists r, continue_read p None (match length pre with O => before | S k => Some (nth k (c :: body ++ rest) 0) end) (length pre) u = Some r).
  { destruct pre as [| x pre]; [| apply continue_some; exact I].
    cbn [length app] in *. subst u. destruct (Np eq_refl) as [-> | ->]; [| lia]. cbn [continue_read radix no_props].
    destruct (c =? 46) eqn:E46; [apply continue_some; exact I |].
    replace (((c =? 69) || (c =? 101)) && (0 =? 10)) with false by lia.
    replace (((c =? 70) || (c =? 102)) && ((0 =? 10) || (0 =? 0))) with false by lia.
    replace ((c =? 76) || (c =? 108)) with false by lia. replace ((c =? 85) || (c =? 117)) with false by lia.
    replace ((c =? 72) || (c =? 104)) with false by lia. replace (c =? 39) with false by lia.
    replace (is_word c) with true by (symmetry; apply word_iff; unfold word_char; lia).
    apply continue_some. exact I. }
  destruct Ex as ([[p' pe] pos'] & Ex). cbv zeta. rewrite Ex. specialize (Fin _ _ Ex). cbn [snd] in Fin. congruence.
Qed.

Lemma number_signed : forall g c body rest before, g = 43 \/ g = 45 -> 48 <= c <= 57 \/ c = 46 -> Forall literal_char body -> ends_here rest ->
  number_end before (g :: c :: body ++ rest) = Some (length (g :: c :: body)).
Proof.
  intros g c body rest before Hg Hc F En. unfold number_end.
  assert (S1 : exists p1, radix p1 = 0 /\ read_prefix no_props 0 (g :: c :: body ++ rest) = read_prefix p1 1 (c :: body ++ rest)).
  { destruct Hg as [-> | ->]; cbn [read_prefix Z.eqb Pos.eqb]; eexists; (split; [| reflexivity]); reflexivity. }
  destruct S1 as (p1 & R1 & ->).
  destruct (read_prefix p1 1 (c :: body ++ rest)) as [[p start] u] eqn:Rp.
  apply prefix_nonsign in Rp; [| lia | lia | lia]. destruct Rp as (pre & E & St & Fp & Hr & Np).
  cbn [Nat.add] in St. subst start.
  assert (Fb : Forall literal_char (c :: body)) by (constructor; [unfold literal_char, word_char; lia | assumption]).
  assert (Ex : exists r, continue_read p None (Some (nth (length pre) (g :: c :: body ++ rest) 0)) (S (length pre)) u = Some r)
    by (apply continue_some; exact I).
  destruct Ex as ([[p' pe] pos'] & Ex). cbv zeta. rewrite Ex.
  apply continue_pos in Ex; [| exact Hr | exact I]. destruct Ex as (b & t & E2 & Fb2 & En2 & P & _). subst u.
  assert (X : (pre ++ b) ++ t = (c :: body) ++ rest) by (rewrite <- app_assoc, <- E; reflexivity).
  apply literal_run in X; [| apply Forall_app; split; [eapply Forall_impl; [exact prefix_literal | exact Fp] | exact Fb2] | exact Fb | exact En2 | exact En].
  destruct X as (X & _). cbn [length] in *. f_equal. rewrite P. apply (f_equal (@length Z)) in X. rewrite app_length in X. cbn [length] in X. lia.
Qed.

(** Every text is a run of characters of literals and what follows. *)
Lemma run_split : forall s, exists body rest, s = body ++ rest /\ Forall literal_char body /\ ends_here rest.
Proof.
  assert (D : forall c, {literal_char c} + {~ literal_char c}).
  { intros c. destruct (is_word c || (c =? 46) || (c =? 39)) eqn:E.
    - left. unfold literal_char. destruct (is_word c) eqn:W; [left; apply word_iff; exact W | lia].
    - right. intros [H | H]; [apply word_iff in H; rewrite H in E; discriminate | lia]. }
  induction s as [| c s IH].
  - exists [], []. repeat split; constructor.
  - destruct (D c) as [H | H].
    + destruct IH as (b & r & E & F & En). exists (c :: b), r. subst s. repeat split; [constructor; assumption | exact En].
    + exists [], (c :: s). repeat split; [constructor | exact H].
Qed.

(** ** Keywords *)

Lemma starts_with_prefix : forall w s, starts_with s w = true -> ~ In 0 w -> exists rest, s = w ++ rest.
Proof.
  induction w as [| d w IH]; intros s H N; [exists s; reflexivity |]. destruct s as [| c s]; cbn [starts_with] in H.
  - destruct (0 =? d) eqn:E; [| discriminate]. exfalso. apply N. left. lia.
  - apply andb_prop in H. destruct H as (E & H). assert (c = d) by lia. subst.
    destruct (IH s H) as (r & ->); [intros X; apply N; right; exact X |]. exists r. reflexivity.
Qed.

Lemma prefix_starts_with : forall w rest, starts_with (w ++ rest) w = true.
Proof. induction w as [| c w IH]; intros rest; [reflexivity |]. cbn [app starts_with]. rewrite IH, Z.eqb_refl. reflexivity. Qed.

Definition all_words (ws : list (list Z * bool)) : bool := forallb (fun p => forallb is_word (fst p)) ws.

Lemma keywords_words : all_words keywords = true.
Proof. vm_compute. reflexivity. Qed.

Lemma keyword_word : forall w b, In (w, b) keywords -> Forall word_char w.
Proof.
  intros w b H. pose proof keywords_words as K. unfold all_words in K. rewrite forallb_forall in K. specialize (K _ H). cbn [fst] in K.
  rewrite forallb_forall in K. apply Forall_forall. intros c Hc. apply word_iff. apply K. exact Hc.
Qed.

Lemma words_no_zero : forall w, Forall word_char w -> ~ In 0 w.
Proof. intros w F H. rewrite Forall_forall in F. specialize (F _ H). unfold word_char in F. lia. Qed.

Lemma find_keyword_found : forall s ws w b, find_keyword s ws = Some (w, b) -> In (w, b) ws /\ equals_keyword s w = true.
Proof.
  induction ws as [| [k x] ws IH]; intros w b H; cbn [find_keyword] in H; [discriminate |].
  destruct (equals_keyword s k) eqn:E.
  - injection H as <- <-. split; [left; reflexivity | exact E].
  - destruct (IH w b H) as (A & B). split; [right; exact A | exact B].
Qed.

Lemma find_keyword_prefix : forall s w b, find_keyword s keywords = Some (w, b) ->
  In (w, b) keywords /\ exists rest, s = w ++ rest /\ match rest with [] => True | c :: _ => ~ word_char c end.
Proof.
  intros s w b H. apply find_keyword_found in H. destruct H as (A & B). split; [exact A |].
  unfold equals_keyword in B. apply andb_prop in B. destruct B as (B & C).
  destruct (starts_with_prefix w s B (words_no_zero w (keyword_word w b A))) as (r & ->). exists r. split; [reflexivity |].
  rewrite app_nth2, Nat.sub_diag in C by lia. destruct r as [| c r]; [exact I |]. cbn [nth] in C.
  intros X. apply word_iff in X. rewrite X in C. discriminate.
Qed.

(** A whole word is a keyword when it is in the list. *)
Fixpoint lookup (w : list Z) (ws : list (list Z * bool)) : option (list Z * bool) :=
  match ws with
  | [] => None
  | (k, b) :: r => if list_eq_dec Z.eq_dec k w then Some (k, b) else lookup w r
  end.

Lemma whole_word : forall w k rest, Forall word_char w -> Forall word_char k -> match rest with [] => True | c :: _ => ~ word_char c end ->
  equals_keyword (w ++ rest) k = true <-> k = w.
Proof.
  intros w k rest Fw Fk Hr. split.
  - intros H. unfold equals_keyword in H. apply andb_prop in H. destruct H as (A & B).
    destruct (starts_with_prefix k _ A (words_no_zero k Fk)) as (t & E).
    revert k rest t Fk Hr A B E. induction Fw as [| c w Hc Fw IH]; intros k rest t Fk Hr A B E.
    + destruct k as [| d k]; [reflexivity |]. cbn [app] in E. subst rest. apply Forall_cons_iff in Fk. destruct (Hr (proj1 Fk)).
    + destruct k as [| d k].
      * exfalso. cbn [length app nth] in B. apply word_iff in Hc. rewrite Hc in B. discriminate.
      * cbn [app] in E. injection E as <- E. f_equal. apply Forall_cons_iff in Fk.
        apply (IH k rest t); auto. { apply Fk. } { cbn [app starts_with] in A. apply andb_prop in A. apply A. }
  - intros ->. unfold equals_keyword. rewrite prefix_starts_with, app_nth2, Nat.sub_diag by lia. cbn [andb].
    destruct rest as [| c r]; [reflexivity |]. cbn [nth]. destruct (is_word c) eqn:E; [apply word_iff in E; destruct (Hr E) | reflexivity].
Qed.

Lemma find_lookup : forall ws w rest, (forall k b, In (k, b) ws -> Forall word_char k) -> Forall word_char w ->
  match rest with [] => True | c :: _ => ~ word_char c end -> find_keyword (w ++ rest) ws = lookup w ws.
Proof.
  induction ws as [| [k b] ws IH]; intros w rest Fk Fw Hr; [reflexivity |]. cbn [find_keyword lookup].
  pose proof (whole_word w k rest Fw (Fk k b (or_introl eq_refl)) Hr) as W.
  destruct (list_eq_dec Z.eq_dec k w) as [E | N].
  - rewrite (proj2 W E). reflexivity.
  - destruct (equals_keyword (w ++ rest) k) eqn:E; [destruct (N (proj1 W eq_refl)) |]. apply IH; auto.
    intros k' b' H. apply (Fk k' b'). right. exact H.
Qed.

Definition mem (w : list Z) (l : list (list Z)) : bool := existsb (fun k => if list_eq_dec Z.eq_dec k w then true else false) l.

Lemma mem_in : forall w l, mem w l = true <-> In w l.
Proof.
  intros w l. unfold mem. rewrite existsb_exists. split.
  - intros (x & H & E). destruct (list_eq_dec Z.eq_dec x w); [subst; exact H | discriminate].
  - intros H. exists w. split; [exact H |]. destruct (list_eq_dec Z.eq_dec w w); [reflexivity | congruence].
Qed.

Lemma lookup_in : forall w ws k b, lookup w ws = Some (k, b) -> k = w /\ In (w, b) ws.
Proof.
  induction ws as [| [k' b'] ws IH]; intros k b H; cbn [lookup] in H; [discriminate |].
  destruct (list_eq_dec Z.eq_dec k' w).
  - injection H as <- <-. subst. split; [reflexivity | left; reflexivity].
  - destruct (IH k b H) as (A & B). split; [exact A | right; exact B].
Qed.

Lemma lookup_none : forall w ws b, lookup w ws = None -> ~ In (w, b) ws.
Proof.
  induction ws as [| [k' b'] ws IH]; intros b H X; [destruct X |]. cbn [lookup] in H.
  destruct (list_eq_dec Z.eq_dec k' w) as [E | N]; [discriminate |]. destruct X as [X | X]; [congruence |]. exact (IH b H X).
Qed.

(** The two lists of words are those of the code. *)
Lemma lists_agree :
  forallb (fun p : list Z * bool => mem (fst p) (map codes (if snd p then contextual else reserved))) keywords
  && forallb (fun w => match lookup w keywords with Some (_, false) => true | _ => false end) (map codes reserved)
  && forallb (fun w => match lookup w keywords with Some (_, true) => true | _ => false end) (map codes contextual) = true.
Proof. vm_compute. reflexivity. Qed.

Lemma word_lookup : forall w v, word_value w v <->
  v = match lookup w keywords with
      | Some (k, false) => One (Keyword k) | Some (k, true) => Any [Keyword k; Name] | None => One Name
      end.
Proof.
  intros w v. pose proof lists_agree as L. apply andb_prop in L. destruct L as (L & L3). apply andb_prop in L. destruct L as (L1 & L2).
  rewrite forallb_forall in L1, L2, L3. split.
  - intros [H | H | H1 H2].
    + specialize (L2 _ H). destruct (lookup w keywords) as [[k b] |] eqn:E; [| discriminate]. destruct b; [discriminate |].
      apply lookup_in in E. destruct E as (-> & _). reflexivity.
    + specialize (L3 _ H). destruct (lookup w keywords) as [[k b] |] eqn:E; [| discriminate]. destruct b; [| discriminate].
      apply lookup_in in E. destruct E as (-> & _). reflexivity.
    + destruct (lookup w keywords) as [[k b] |] eqn:E; [| reflexivity]. apply lookup_in in E. destruct E as (-> & E).
      specialize (L1 _ E). cbn [fst snd] in L1. apply mem_in in L1. destruct b; [destruct (H2 L1) | destruct (H1 L1)].
  - intros ->. destruct (lookup w keywords) as [[k b] |] eqn:E.
    + apply lookup_in in E. destruct E as (-> & E). specialize (L1 _ E). cbn [fst snd] in L1. apply mem_in in L1.
      destruct b; constructor; exact L1.
    + constructor; intros X.
      * specialize (L2 _ X). rewrite E in L2. discriminate.
      * specialize (L3 _ X). rewrite E in L3. discriminate.
Qed.

(** ** One token *)

Lemma nth_length : forall (s : list Z) n, nth n s 0 <> 0 -> (n < length s)%nat.
Proof. intros s n H. destruct (Nat.lt_ge_cases n (length s)) as [L | L]; [exact L |]. rewrite nth_overflow in H by lia. congruence. Qed.

Lemma symbol_bound : forall c s n v, symbol c s = Some (n, v) -> (n <= length s)%nat.
Proof.
  intros c s n v H. unfold symbol in H. cbv zeta in H.
  pose proof (nth_length s 0) as L0. pose proof (nth_length s 1) as L1.
  repeat match type of H with
         | (if ?b then _ else _) = _ => let E := fresh "E" in destruct b eqn:E
         end; try discriminate; injection H as <- <-; try lia.
Qed.

Lemma symbol_twin : forall c s n ks, symbol c s = Some (n, Any (Right_shift :: ks)) ->
  ks = [Right_angle] /\ n = 1%nat /\ c = 62 /\ nth 0 s 0 = 62.
Proof.
  intros c s n ks H. unfold symbol in H. cbv zeta in H.
  repeat match type of H with
         | (if ?b then _ else _) = _ => let E := fresh "E" in destruct b eqn:E
         end; try discriminate; injection H as <- <-. repeat split; lia.
Qed.

Lemma read_loop_read : forall v o w n d, read_loop v o = Read w n d -> w = v /\ exists u, o = Some ((n, u), d).
Proof.
  intros v [[[m u] d'] |] w n d H; cbn [read_loop] in H; [| discriminate]. injection H as <- <- <-. split; [reflexivity | eauto].
Qed.

Lemma number_bound : forall before c s n, 48 <= c <= 57 \/ ((c = 43 \/ c = 45) /\ (48 <= nth 0 s 0 <= 57 \/ nth 0 s 0 = 46)) ->
  exists m, number_end before (c :: s) = Some m /\ (n = m -> 1 <= n <= S (length s))%nat.
Proof.
  intros before c s n [H | (H & D)].
  - destruct (run_split s) as (b & r & -> & F & En). eexists. split; [apply number_plain; [left; exact H | exact F | exact En] |].
    intros ->. cbn [length]. rewrite app_length. lia.
  - destruct s as [| x s]; [cbn [nth] in D; lia |]. cbn [nth] in D.
    destruct (run_split s) as (b & r & -> & F & En). eexists. split; [apply number_signed; [exact H | exact D | exact F | exact En] |].
    intros ->. cbn [length]. rewrite app_length. lia.
Qed.

Lemma sign_number : forall c d, ((c =? 43) || (c =? 45)) && is_numeric_prefix d = true ->
  (c = 43 \/ c = 45) /\ (48 <= d <= 57 \/ d = 46).
Proof. intros c d H. apply andb_prop in H. destruct H as (A & B). apply numeric_prefix_iff in B. split; [lia | exact B]. Qed.

Lemma digit_only : forall c s, is_numeric_prefix c = true -> symbol c s = None -> 48 <= c <= 57.
Proof.
  intros c s H N. apply numeric_prefix_iff in H. destruct H as [H | ->]; [exact H |]. exfalso. unfold symbol in N. cbv zeta in N.
  cbn [Z.eqb Pos.eqb] in N. destruct ((nth 0 s 0 =? 46) && (nth 1 s 0 =? 46)); discriminate.
Qed.

Lemma read_token_total : forall before last c s, c <> 0 -> (c = 39 -> ~ unclosed s) ->
  exists least v n d, forall f, (least <= f)%nat -> read_token f before last c s = Read v n d.
Proof.
  intros before last c s Nz U. unfold read_token. cbv zeta.
  destruct (find_keyword (c :: s) keywords) as [[w [|]] |]; [exists 0%nat; eauto | exists 0%nat; eauto |].
  destruct (((c =? 43) || (c =? 45)) && is_numeric_prefix (nth 0 s 0)) eqn:E1.
  { apply sign_number in E1. destruct (sign_allowed last) eqn:E2; cbn [andb].
    - destruct (number_bound before c s 0 (or_intror E1)) as (m & M & _). exists 0%nat. do 3 eexists. intros f _.
      unfold read_number. rewrite M. reflexivity.
    - destruct E1 as ([-> | ->] & D); exists 0%nat; cbn [symbol Z.eqb Pos.eqb andb orb]; do 3 eexists; intros f _;
        cbn [symbol Z.eqb Pos.eqb andb orb]; unfold symbol; cbv zeta; cbn [Z.eqb Pos.eqb];
        replace (nth 0 s 0 =? 43) with false by lia; replace (nth 0 s 0 =? 45) with false by lia;
        replace (nth 0 s 0 =? 61) with false by lia; reflexivity. }
  cbn [andb].
  assert (Loop : forall A (step : A -> A + (spot * datum)) a v, (exists r, ends step a r) ->
    exists least w n d, forall f, (least <= f)%nat -> read_loop v (repeat_step step f a) = Read w n d).
  { intros A step a v (([n u] & d) & least & K). exists least, v, n, d. intros f L. rewrite (K f L). reflexivity. }
  destruct ((c =? 47) && (nth 0 s 0 =? 47)); [apply Loop, line_comment_ends |].
  destruct ((c =? 47) && (nth 0 s 0 =? 42)); [apply Loop, block_comment_ends |].
  destruct (symbol c s) as [[n v] |] eqn:Sy; [exists 0%nat; eauto |].
  destruct (c =? 34); [apply Loop, string_ends |].
  destruct ((c =? 64) && (nth 0 s 0 =? 34)); [apply Loop, verbatim_ends |].
  destruct ((c =? 64) && is_name_prefix (nth 0 s 0)); [apply Loop, name_ends |].
  destruct (c =? 39) eqn:E39; [apply Loop, closed_ends; apply U; lia |].
  destruct (is_numeric_prefix c) eqn:En.
  { apply digit_only with (s := s) in En; [| exact Sy]. destruct (number_bound before c s 0 (or_introl En)) as (m & M & _).
    exists 0%nat. do 3 eexists. intros f _. unfold read_number. rewrite M. reflexivity. }
  destruct (is_name_prefix c); [apply Loop, name_ends | apply Loop, unknown_ends].
Qed.

Lemma read_token_inside : forall f before last c s, read_token f before last c s <> Outside.
Proof.
  intros f before last c s H. unfold read_token in H. cbv zeta in H.
  destruct (find_keyword (c :: s) keywords) as [[w [|]] |]; try discriminate.
  destruct (((c =? 43) || (c =? 45)) && is_numeric_prefix (nth 0 s 0)) eqn:E1.
  { destruct (sign_allowed last) eqn:E2; cbn [andb] in H.
    - apply sign_number in E1. destruct (number_bound before c s 0 (or_intror E1)) as (m & M & _).
      unfold read_number in H. rewrite M in H. discriminate.
    - apply sign_number in E1. destruct E1 as ([-> | ->] & D); cbn [Z.eqb Pos.eqb andb] in H;
        unfold symbol in H; cbv zeta in H; cbn [Z.eqb Pos.eqb] in H;
        repeat match type of H with context [if ?b then _ else _] => destruct b end; discriminate. }
  cbn [andb] in H.
  assert (Loop : forall v o, read_loop v o <> Outside) by (intros v [[[n u] d] |]; discriminate).
  destruct ((c =? 47) && (nth 0 s 0 =? 47)); [exact (Loop _ _ H) |].
  destruct ((c =? 47) && (nth 0 s 0 =? 42)); [exact (Loop _ _ H) |].
  destruct (symbol c s) as [[n v] |] eqn:Sy; [discriminate |].
  destruct (c =? 34); [exact (Loop _ _ H) |].
  destruct ((c =? 64) && (nth 0 s 0 =? 34)); [exact (Loop _ _ H) |].
  destruct ((c =? 64) && is_name_prefix (nth 0 s 0)); [exact (Loop _ _ H) |].
  destruct (c =? 39) eqn:E39; [exact (Loop _ _ H) |].
  destruct (is_numeric_prefix c) eqn:En.
  { apply digit_only with (s := s) in En; [| exact Sy]. destruct (number_bound before c s 0 (or_introl En)) as (m & M & _).
    unfold read_number in H. rewrite M in H. discriminate. }
  destruct (is_name_prefix c); exact (Loop _ _ H).
Qed.

(** The value, the extent and the data of a token. *)
Definition good_reading (c : Z) (s : list Z) (v : value) (n : nat) (d : datum) : Prop :=
  (1 <= n)%nat /\ ((n <= S (length s))%nat \/ (v = One Comment /\ d = Bad /\ n = S (S (length s))))
  /\ (forall ks, v = Any (Right_shift :: ks) -> ks = [Right_angle] /\ c = 62 /\ nth 0 s 0 = 62).

Lemma read_token_span : forall f before last c s v n d, read_token f before last c s = Read v n d -> good_reading c s v n d.
Proof.
  intros f before last c s v n d H. unfold read_token in H. cbv zeta in H.
  destruct (find_keyword (c :: s) keywords) as [[w b] |] eqn:K.
  { apply find_keyword_prefix in K. destruct K as (I & r & E & _).
    assert (Ln : (1 <= length w <= S (length s))%nat).
    { apply (f_equal (@length Z)) in E. cbn [length] in E. rewrite app_length in E. split; [| lia].
      destruct w; [| cbn; lia]. exfalso. clear - I.
      assert (X : existsb (fun p : list Z * bool => match fst p with [] => true | _ => false end) keywords = true).
      { apply existsb_exists. exists ([], b). split; [exact I | reflexivity]. }
      vm_compute in X. discriminate. }
    destruct b; injection H as <- <- <-; (split; [lia | split; [left; lia | intros ks X; discriminate]]). }
  assert (Num : forall m, read_number before (c :: s) = Read v n d ->
    (48 <= c <= 57 \/ ((c = 43 \/ c = 45) /\ (48 <= nth 0 s 0 <= 57 \/ nth 0 s 0 = 46))) -> m = 0%nat -> good_reading c s v n d).
  { intros _ R C _. destruct (number_bound before c s n C) as (m & M & B). unfold read_number in R. rewrite M in R.
    injection R as <- <- <-. specialize (B eq_refl). split; [lia | split; [left; lia | intros ks X; discriminate]]. }
  assert (Go : forall v0 d0 p q, v = v0 -> d = d0 -> ahead p q -> n = fst q -> (1 <= fst p)%nat -> (fst p + length (snd p) <= S (length s))%nat ->
    (forall ks, v0 <> Any (Right_shift :: ks)) -> good_reading c s v n d).
  { intros v0 d0 p q -> -> A -> L1 L2 N. apply ahead_bound in A. split; [lia | split; [left; lia | intros ks X; destruct (N ks X)]]. }
  destruct (((c =? 43) || (c =? 45)) && is_numeric_prefix (nth 0 s 0)) eqn:E1.
  { destruct (sign_allowed last) eqn:E2; cbn [andb] in H.
    - apply sign_number in E1. apply (Num 0%nat H); [right; exact E1 | reflexivity].
    - apply sign_number in E1.
      assert (E47 : c =? 47 = false) by lia. rewrite E47 in H. cbn [andb] in H.
      destruct (symbol c s) as [[k v'] |] eqn:Sy.
      + injection H as <- <- <-. pose proof (symbol_bound _ _ _ _ Sy). split; [lia | split; [left; lia |]].
        intros ks ->. apply symbol_twin in Sy. tauto.
      + exfalso. destruct E1 as ([-> | ->] & D); unfold symbol in Sy; cbv zeta in Sy; cbn [Z.eqb Pos.eqb] in Sy;
          repeat match type of Sy with context [if ?b then _ else _] => destruct b end; discriminate. }
  cbn [andb] in H.
  assert (Tl : forall x, nth 0 s 0 = x -> x <> 0 -> (S (length (tl s)) = length s)%nat).
  { intros x X Nx. destruct s as [| y s']; [cbn in X; congruence | reflexivity]. }
  destruct ((c =? 47) && (nth 0 s 0 =? 47)) eqn:E2.
  { apply read_loop_read in H. destruct H as (-> & u & H). apply line_comment_ahead in H.
    apply (Go _ _ _ _ eq_refl eq_refl H eq_refl); cbn [fst snd]; try lia. { pose proof (Tl 47 ltac:(lia) ltac:(lia)). lia. } discriminate. }
  destruct ((c =? 47) && (nth 0 s 0 =? 42)) eqn:E3.
  { apply read_loop_read in H. destruct H as (-> & u & H). apply block_comment_ahead in H.
    pose proof (Tl 42 ltac:(lia) ltac:(lia)) as T. destruct H as [H | (-> & H)].
    - apply (Go _ _ _ _ eq_refl eq_refl H eq_refl); cbn [fst snd]; try lia. discriminate.
    - cbn [fst snd] in H. split; [lia | split; [right; repeat split; lia | discriminate]]. }
  destruct (symbol c s) as [[k v'] |] eqn:Sy.
  { injection H as <- <- <-. pose proof (symbol_bound _ _ _ _ Sy). split; [lia | split; [left; lia |]].
    intros ks ->. apply symbol_twin in Sy. tauto. }
  destruct (c =? 34).
  { apply read_loop_read in H. destruct H as (-> & u & H). apply string_ahead in H.
    apply (Go _ _ _ _ eq_refl eq_refl H eq_refl); cbn [fst snd]; try lia. discriminate. }
  destruct ((c =? 64) && (nth 0 s 0 =? 34)) eqn:E4.
  { apply read_loop_read in H. destruct H as (-> & u & H). apply verbatim_ahead in H.
    apply (Go _ _ _ _ eq_refl eq_refl H eq_refl); cbn [fst snd]; try lia. { pose proof (Tl 34 ltac:(lia) ltac:(lia)). lia. } discriminate. }
  destruct ((c =? 64) && is_name_prefix (nth 0 s 0)) eqn:E5.
  { apply read_loop_read in H. destruct H as (-> & u & H). apply name_ahead in H.
    apply (Go _ _ _ _ eq_refl eq_refl H eq_refl); cbn [fst snd]; try lia. discriminate. }
  destruct (c =? 39) eqn:E39.
  { apply read_loop_read in H. destruct H as (-> & u & H). apply char_ahead in H.
    apply (Go _ _ _ _ eq_refl eq_refl H eq_refl); cbn [fst snd]; try lia. discriminate. }
  destruct (is_numeric_prefix c) eqn:En.
  { apply digit_only with (s := s) in En; [| exact Sy]. apply (Num 0%nat H); [left; exact En | reflexivity]. }
  destruct (is_name_prefix c).
  { apply read_loop_read in H. destruct H as (-> & u & H). apply name_ahead in H.
    apply (Go _ _ _ _ eq_refl eq_refl H eq_refl); cbn [fst snd]; try lia. discriminate. }
  apply read_loop_read in H. destruct H as (-> & u & H). apply unknown_ahead in H.
  apply (Go _ _ _ _ eq_refl eq_refl H eq_refl); cbn [fst snd]; try lia. discriminate.
Qed.

(** ** Calls of next *)

Lemma skipn_cons : forall (s : list Z) n c r, skipn n s = c :: r -> (n < length s)%nat /\ nth n s 0 = c /\ skipn (S n) s = r.
Proof.
  induction s as [| x s IH]; intros n c r H; [destruct n; discriminate |].
  destruct n as [| n]; [cbn in H; injection H as -> ->; cbn; repeat split; lia |].
  cbn [skipn] in H. apply IH in H. cbn [length nth]. destruct H as (A & B & C). repeat split; [lia | exact B | exact C].
Qed.

Lemma skipn_plus : forall (s : list Z) m n, skipn n (skipn m s) = skipn (m + n) s.
Proof.
  induction s as [| x s IH]; intros m n; [rewrite !skipn_nil; reflexivity |]. destruct m as [| m]; [reflexivity |]. cbn [Nat.add skipn]. apply IH.
Qed.

Lemma skipn_blank : forall (s : list Z) p ws rest, skipn p s = ws ++ rest -> Forall white ws -> blank s p (p + length ws).
Proof.
  intros s p ws. revert s p. induction ws as [| c ws IH]; intros s p rest E F k Hk; [cbn in Hk; lia |].
  apply Forall_cons_iff in F. cbn [app] in E. apply skipn_cons in E. destruct E as (L & N & E).
  destruct (Nat.eq_dec k p) as [-> | Ne]; [rewrite N; apply F |].
  apply (IH s (S p) rest E (proj2 F)). cbn [length] in Hk. lia.
Qed.

Definition second_of (v : value) (p0 k : nat) : option token :=
  match v with Any (Right_shift :: _) => Some (Token (Any [Empty; Right_angle]) p0 k No_data) | _ => None end.
Definition last_of_value (v : value) : value :=
  match v with Any (Right_shift :: _) => Any [Empty; Right_angle] | _ => v end.
Definition before_at (s : list Z) (p : nat) : option Z := match p with O => None | S k => Some (nth k s 0) end.

(** What a call of [next] finds. *)
Lemma next_found : forall f r r' t, pending r = None -> next f r = Next r' t ->
  exists c u v n d, skipn (token_start t) (source r) = c :: u /\ ~ white c /\ c <> 0
    /\ (position r <= token_start t)%nat /\ blank (source r) (position r) (token_start t)
    /\ read_token f (before_at (source r) (token_start t)) (last_value r) c u = Read v n d
    /\ t = Token v (token_start t) n d
    /\ r' = Reader (source r) (token_start t + n) (Some (last_of_value v)) (second_of v (token_start t) n).
Proof.
  intros f r r' t P H. unfold next in H. rewrite P in H. cbv zeta in H.
  destruct (repeat_step whitespace_step f (0%nat, skipn (position r) (source r))) as [[[n u] b] |] eqn:W; [| discriminate].
  apply whitespace_found in W. destruct W as (ws & E & En & Fw & Hb). cbn [fst snd Nat.add] in *. subst n.
  destruct b; [| discriminate]. destruct u as [| c u]; [discriminate |]. unfold at_spot in Hb. cbn [snd front hd] in Hb.
  assert (Sk : skipn (position r + length ws) (source r) = c :: u).
  { rewrite <- skipn_plus, E, skipn_app, skipn_all, Nat.sub_diag. reflexivity. }
  fold (before_at (source r) (position r + length ws)) in H.
  destruct (read_token f (before_at (source r) (position r + length ws)) (last_value r) c u) as [v n d | |] eqn:R; try discriminate.
  fold (second_of v (position r + length ws) n) in H.
  injection H as <- <-. cbn [token_start]. exists c, u, v, n, d.
  split; [exact Sk | split; [apply Hb | split; [apply Hb | split; [lia | split; [| split; [exact R | split; [reflexivity |]]]]]]].
  - apply (skipn_blank _ _ _ _ E Fw).
  - f_equal. f_equal. unfold second_of, last_of_value. destruct v as [k | [| k ks] |]; try reflexivity. destruct k; reflexivity.
Qed.

(** The other way: the token after whitespace. *)
Lemma next_gives : forall r ws c u v n d least, pending r = None -> remaining r = ws ++ c :: u -> Forall white ws -> ~ white c -> c <> 0 ->
  (forall f, (least <= f)%nat -> read_token f (before_at (source r) (position r + length ws)) (last_value r) c u = Read v n d) ->
  gives r (Token v (position r + length ws) n d)
    (Reader (source r) (position r + length ws + n) (Some (last_of_value v)) (second_of v (position r + length ws) n)).
Proof.
  intros r ws c u v n d least P E Fw Nw Nz R.
  destruct (whitespace_skip ws 0 (c :: u) Fw Nw) as (l1 & K). exists (max least l1). intros f L.
  unfold next. rewrite P. cbv zeta. fold (remaining r). rewrite E. rewrite (K f ltac:(lia)).
  cbn [front hd]. replace (c =? 0) with false by lia. cbn [negb Nat.add].
  fold (before_at (source r) (position r + length ws)). rewrite (R f ltac:(lia)).
  f_equal. f_equal. f_equal. unfold last_of_value. destruct v as [k | [| k ks] |]; try reflexivity. destruct k; reflexivity.
Qed.

Lemma next_end : forall r ws s, pending r = None -> remaining r = ws ++ s -> Forall white ws -> front s = 0 ->
  exists least, forall f, (least <= f)%nat -> next f r = End_of_text.
Proof.
  intros r ws s P E Fw Fr.
  assert (Nw : match s with [] => True | c :: _ => ~ white c end).
  { destruct s as [| c s]; [exact I |]. cbn in Fr. subst c. unfold white. lia. }
  destruct (whitespace_skip ws 0 s Fw Nw) as (l1 & K). exists l1. intros f L.
  unfold next. rewrite P. cbv zeta. fold (remaining r). rewrite E, (K f L). rewrite Fr. reflexivity.
Qed.

Lemma white_split : forall s, exists ws u, s = ws ++ u /\ Forall white ws /\ match u with [] => True | c :: _ => ~ white c end.
Proof.
  assert (D : forall c, {white c} + {~ white c}).
  { intros c. unfold white. destruct (Z.eq_dec c 32); [left; lia |]. destruct (Z.eq_dec c 9); [left; lia |].
    destruct (Z.eq_dec c 13); [left; lia |]. destruct (Z.eq_dec c 10); [left; lia | right; lia]. }
  induction s as [| c s (ws & u & E & F & H)].
  - exists [], []. repeat split; constructor.
  - destruct (D c) as [W | W].
    + exists (c :: ws), u. subst s. repeat split; [constructor; assumption | exact H].
    + exists [], (c :: s). repeat split; [constructor | exact W].
Qed.

(** ** Termination *)


Definition work (r : reader) : nat := (2 * (length (source r) - position r) + match pending r with Some _ => 1 | None => 0 end)%nat.

Definition finishes (r : reader) : Prop :=
  exists f0 c0 ts, forall f c, (f0 <= f)%nat -> (c0 <= c)%nat -> read_all f c r = Tokens ts.

Lemma finishes_end : forall r, (exists least, forall f, (least <= f)%nat -> next f r = End_of_text) -> finishes r.
Proof.
  intros r (l & K). exists l, 1%nat, []. intros f [| c] Lf Lc; [lia |]. cbn [read_all]. rewrite (K f Lf). reflexivity.
Qed.

Lemma finishes_next : forall r r' t, gives r t r' -> finishes r' -> finishes r.
Proof.
  intros r r' t (l & K) (f0 & c0 & ts & H). exists (max l f0), (S c0), (t :: ts). intros f [| c] Lf Lc; [lia |].
  cbn [read_all]. rewrite (K f ltac:(lia)), (H f c ltac:(lia) ltac:(lia)). reflexivity.
Qed.

Lemma always_finishes : forall m r, (work r <= m)%nat -> (forall ts r', after r ts r' -> ~ stuck r') -> finishes r.
Proof.
  induction m as [m IH] using (well_founded_induction lt_wf). intros r W Q.
  destruct (pending r) as [t |] eqn:P.
  { apply (finishes_next r (Reader (source r) (position r) (last_value r) None) t).
    - exists 0%nat. intros f _. unfold next. rewrite P. reflexivity.
    - unfold work in W. rewrite P in W. apply (IH (m - 1)%nat); [lia | unfold work; cbn [source position pending]; lia |].
      intros ts r' A. apply (Q (t :: ts)). eapply After_more; [| exact A]. exists 0%nat. intros f _. unfold next. rewrite P. reflexivity. }
  destruct (white_split (remaining r)) as (ws & u & E & Fw & Nw).
  destruct u as [| c u]; [apply finishes_end; exact (next_end r ws [] P E Fw eq_refl) |].
  destruct (Z.eq_dec c 0) as [-> | Nz]; [apply finishes_end; exact (next_end r ws (0 :: u) P E Fw eq_refl) |].
  assert (Sk : skipn (position r + length ws) (source r) = c :: u).
  { rewrite <- skipn_plus. fold (remaining r). rewrite E, skipn_app, skipn_all, Nat.sub_diag. reflexivity. }
  pose proof (skipn_cons _ _ _ _ Sk) as (Lt & Nth & Sk1).
  destruct (read_token_total (before_at (source r) (position r + length ws)) (last_value r) c u Nz) as (least & v & n & d & R).
  { intros -> U. apply (Q [] r (After_none r)). exists ws, u. repeat split; assumption. }
  pose proof (next_gives r ws c u v n d least P E Fw Nw Nz R) as G0. eapply finishes_next; [exact G0 |].
  pose proof (read_token_span _ _ _ _ _ _ _ _ (R least (le_n _))) as (G & _ & _).
  unfold work in W. rewrite P in W.
  eapply (IH (m - 1)%nat); [lia | | intros ts r' A; eapply Q; eapply After_more; [exact G0 | exact A]].
  unfold work. cbn [source position pending]. destruct (second_of v (position r + length ws) n); lia.
Qed.

Lemma terminates_if : forall s, (forall ts r, after (start_reader s) ts r -> ~ stuck r) -> exists ts, reads s ts.
Proof.
  intros s Q. destruct (always_finishes (work (start_reader s)) (start_reader s) (le_n _) Q) as (f0 & c0 & ts & H).
  exists ts, f0, c0. apply H; lia.
Qed.

Lemma loop_more : forall (A : Type) (step : A -> A + (spot * datum)) v f g a, read_loop v (repeat_step step f a) <> Loops -> (f <= g)%nat ->
  read_loop v (repeat_step step g a) = read_loop v (repeat_step step f a).
Proof.
  intros A step v f g a H L. destruct (repeat_step step f a) as [x |] eqn:E; [| cbn in H; congruence].
  rewrite (repeat_more _ _ _ _ _ _ E _ L). reflexivity.
Qed.

Lemma token_more : forall f g before last c s, (f <= g)%nat -> read_token f before last c s <> Loops ->
  read_token g before last c s = read_token f before last c s.
Proof.
  intros f g before last c s L H. unfold read_token in *. destruct (find_keyword (c :: s) keywords) as [[w [|]] |]; try reflexivity. cbv zeta in *.
  repeat match goal with |- context [if ?b then _ else _] => destruct b; [first [reflexivity | apply loop_more; assumption] |] end.
  destruct (symbol c s) as [[n v] |]; [reflexivity |].
  repeat match goal with |- context [if ?b then _ else _] => destruct b; [first [reflexivity | apply loop_more; assumption] |] end.
  apply loop_more; assumption.
Qed.

Lemma next_more : forall f g r, (f <= g)%nat -> next f r <> Endless -> next g r = next f r.
Proof.
  intros f g r L H. unfold next in *. destruct (pending r); [reflexivity |]. cbv zeta in *.
  destruct (repeat_step whitespace_step f (0%nat, skipn (position r) (source r))) as [x |] eqn:E; [| congruence].
  rewrite (repeat_more _ _ _ _ _ _ E _ L). destruct x as [[n u] [|]]; [| reflexivity]. destruct u as [| c u]; [reflexivity |].
  rewrite (token_more f g); [reflexivity | exact L |]. intros X. rewrite X in H. congruence.
Qed.

(** Nothing outside of the buffer is read. *)
Lemma never_outside : forall c f r, read_all f c r <> Out_of_bounds.
Proof.
  induction c as [| c IH]; intros f r H; cbn [read_all] in H; [discriminate |].
  destruct (next f r) as [| r' t | |] eqn:N; try discriminate.
  - destruct (read_all f c r') eqn:R; try discriminate. exact (IH f r' R).
  - unfold next in N. destruct (pending r); [discriminate |]. cbv zeta in N.
    destruct (repeat_step whitespace_step f (0%nat, skipn (position r) (source r))) as [[[n [| x u]] [|]] |]; try discriminate.
    match type of N with (match ?x with _ => _ end) = _ => destruct x eqn:R end; try discriminate.
    exact (read_token_inside _ _ _ _ _ R).
Qed.

(** ** The extent of the tokens *)

Lemma spans_all : forall c f r ts, pending r = None -> read_all f c r = Tokens ts -> spans (source r) (position r) ts.
Proof.
  induction c as [c IH] using (well_founded_induction lt_wf). intros f r ts P H.
  destruct c as [| c]; cbn [read_all] in H; [discriminate |].
  destruct (next f r) as [| r' t | |] eqn:N; try discriminate.
  - injection H as <-. unfold next in N. rewrite P in N. cbv zeta in N.
    destruct (repeat_step whitespace_step f (0%nat, skipn (position r) (source r))) as [[[n u] b] |] eqn:W; [| discriminate].
    apply whitespace_found in W. destruct W as (ws & E & En & Fw & Hb). cbn [fst snd Nat.add] in *. subst n.
    assert (Fr : front u = 0).
    { destruct b; [| exact Hb]. destruct u as [| x u]; [reflexivity |]. exfalso.
      match type of N with (match ?x with _ => _ end) = _ => destruct x eqn:R end; discriminate. }
    apply (Spans_end _ _ (position r + length ws)); [lia | apply (skipn_blank _ _ _ _ E Fw) |].
    destruct u as [| x u].
    + left. apply (f_equal (@length Z)) in E. rewrite skipn_length, app_length in E. cbn [length] in E. lia.
    + right. cbn in Fr. subst x.
      assert (Sk : skipn (position r + length ws) (source r) = 0 :: u).
      { rewrite <- skipn_plus, E, skipn_app, skipn_all, Nat.sub_diag. reflexivity. }
      apply skipn_cons in Sk. apply Sk.
  - destruct (read_all f c r') as [ts' | |] eqn:R; try discriminate. injection H as <-.
    destruct (next_found f r r' t P N) as (x & u & v & n & d & Sk & Nw & Nz & Le & Bl & Rt & Et & Er).
    pose proof (skipn_cons _ _ _ _ Sk) as (Lt & Nth & Sk1).
    pose proof (read_token_span _ _ _ _ _ _ _ _ Rt) as (G1 & G2 & G3).
    assert (Ls : length (skipn (token_start t) (source r)) = S (length u)) by (rewrite Sk; reflexivity).
    rewrite skipn_length in Ls.
    assert (Tv : token_value t = v /\ token_length t = n /\ token_data t = d) by (rewrite Et; repeat split).
    destruct Tv as (Tv & Tn & Td).
    assert (Tok : forall tl, spans (source r) (token_start t + token_length t) tl -> spans (source r) (position r) (t :: tl)).
    { intros tl Hs. apply Spans_token; auto.
      - rewrite Nth. exact Nw.
      - rewrite Nth. exact Nz.
      - rewrite Tn. exact G1.
      - rewrite Tn, Tv, Td. destruct G2 as [G2 | (G2 & G4 & G5)]; [left; lia | right; repeat split; [exact G2 | exact G4 | lia]]. }
    destruct (second_of v (token_start t) n) as [u2 |] eqn:S2.
    + assert (V : v = Any [Right_shift; Right_angle] /\ u2 = Token (Any [Empty; Right_angle]) (token_start t) n No_data /\ x = 62 /\ nth 0 u 0 = 62).
      { unfold second_of in S2. destruct v as [| [| [] ks] |]; try discriminate. injection S2 as <-.
        destruct (G3 ks eq_refl) as (-> & -> & D). repeat split. exact D. }
      destruct V as (V & -> & -> & D). subst r'.
      destruct c as [| c]; cbn [read_all] in R; [discriminate |].
      unfold next in R. cbn [pending] in R. cbn [source position last_value] in R.
      match type of R with (match read_all f c ?q with _ => _ end) = _ => destruct (read_all f c q) as [ts2 | |] eqn:R2; try discriminate;
        apply (IH c ltac:(lia)) in R2; [| reflexivity] end.
      injection R as <-. cbn [source position] in R2.
      apply Spans_twin; cbn [token_value token_start token_length]; auto; try congruence.
      * rewrite Sk. destruct u as [| y u]; [cbn in D; lia |]. cbn in D. subst y. exists u. reflexivity.
      * apply Tok. rewrite Tn. exact R2.
    + subst r'. apply (IH c ltac:(lia)) in R; [| reflexivity]. cbn [source position] in R. apply Tok. rewrite Tn. exact R.
Qed.

Lemma reads_spans : forall s ts, reads s ts -> spans s 0 ts.
Proof. intros s ts (f & c & H). apply (spans_all c f (start_reader s) ts); [reflexivity | exact H]. Qed.

(** ** Signs after operands *)


Lemma sign_token : forall f before last c s v n d, read_token f before last c s = Read v n d -> sign_allowed last = false ->
  (c = 45 -> minus_values v) /\ (c = 43 -> plus_values v).
Proof.
  intros f before last c s v n d H L.
  assert (K : c = 45 \/ c = 43 -> find_keyword (c :: s) keywords = None).
  { intros C. destruct (find_keyword (c :: s) keywords) as [[w b] |] eqn:K; [| reflexivity]. exfalso.
    apply find_keyword_prefix in K. destruct K as (I & r & E & _). pose proof (keyword_word w b I) as F.
    destruct w as [| x w].
    - assert (X : existsb (fun p : list Z * bool => match fst p with [] => true | _ => false end) keywords = true).
      { apply existsb_exists. exists ([], b). split; [exact I | reflexivity]. }
      vm_compute in X. discriminate.
    - cbn [app] in E. injection E as <- _. apply Forall_cons_iff in F. unfold word_char in F. lia. }
  unfold read_token in H. cbv zeta in H. rewrite L, andb_false_r in H.
  split; intros ->; rewrite (K ltac:(lia)) in H; cbn [Z.eqb Pos.eqb andb] in H; unfold symbol in H; cbv zeta in H;
    cbn [Z.eqb Pos.eqb] in H; unfold minus_values, plus_values;
    repeat match type of H with context [if ?b then _ else _] => destruct b end; injection H; intros; subst; tauto.
Qed.

Lemma after_operand : forall c f r ts i t1 t2, pending r = None -> read_all f c r = Tokens ts ->
  nth_error ts i = Some t1 -> nth_error ts (S i) = Some t2 -> operand t1 ->
  (nth (token_start t2) (source r) 0 = 45 -> minus_values (token_value t2))
  /\ (nth (token_start t2) (source r) 0 = 43 -> plus_values (token_value t2)).
Proof.
  induction c as [c IH] using (well_founded_induction lt_wf). intros f r ts i t1 t2 P H N1 N2 O.
  destruct c as [| c]; cbn [read_all] in H; [discriminate |].
  destruct (next f r) as [| r1 a | |] eqn:E1; try discriminate.
  { injection H as <-. destruct i; discriminate. }
  destruct (read_all f c r1) as [ts1 | |] eqn:R1; try discriminate. injection H as <-.
  destruct (next_found f r r1 a P E1) as (x & u & v & n & d & Sk & Nw & Nz & Le & Bl & Rt & Et & Er).
  destruct (second_of v (token_start a) n) as [u2 |] eqn:S2.
  - (* two tokens *)
    assert (V : exists ks, v = Any (Right_shift :: ks)).
    { unfold second_of in S2. destruct v as [| [| [] ks] |]; try discriminate. eauto. }
    destruct V as (ks & ->). subst r1.
    destruct c as [| c]; cbn [read_all] in R1; [discriminate |].
    unfold next in R1. cbn [pending source position last_value] in R1.
    match type of R1 with (match read_all f c ?q with _ => _ end) = _ => destruct (read_all f c q) as [ts2 | |] eqn:R2; try discriminate end.
    injection R1 as <-.
    destruct i as [| [| i]].
    + cbn in N1. injection N1 as <-. exfalso. rewrite Et in O. destruct O as [O | O]; discriminate.
    + cbn in N1. injection N1 as <-. exfalso. cbn [second_of] in S2. injection S2 as <-. destruct O as [O | O]; discriminate.
    + cbn [nth_error] in N1, N2. refine (IH c ltac:(lia) f _ ts2 i t1 t2 _ R2 N1 N2 O); reflexivity.
  - destruct i as [| i].
    + cbn in N1. injection N1 as <-. cbn [nth_error] in N2.
      assert (Pd : pending r1 = None) by (subst r1; reflexivity).
      assert (Lv : sign_allowed (last_value r1) = false).
      { subst r1. cbn [last_value]. rewrite Et in O. unfold operand in O. cbn [token_value] in O. destruct O as [-> | ->]; reflexivity. }
      destruct c as [| c]; cbn [read_all] in R1; [discriminate |].
      destruct (next f r1) as [| r2 b | |] eqn:E2; try discriminate.
      { injection R1 as <-. discriminate. }
      destruct (read_all f c r2) as [ts2 | |] eqn:R2; try discriminate. injection R1 as <-. cbn in N2. injection N2 as <-.
      destruct (next_found f r1 r2 b Pd E2) as (x2 & w2 & v2 & n2 & d2 & Sk2 & _ & _ & _ & _ & Rt2 & Et2 & _).
      assert (Src : source r1 = source r) by (subst r1; reflexivity). rewrite Src in Sk2.
      apply skipn_cons in Sk2. destruct Sk2 as (_ & Nx & _). rewrite Nx.
      rewrite Et2. cbn [token_value]. exact (sign_token _ _ _ _ _ _ _ _ Rt2 Lv).
    + cbn [nth_error] in N1. change (nth_error (a :: ts1) (S (S i))) with (nth_error ts1 (S i)) in N2.
      assert (Pd : pending r1 = None) by (subst r1; reflexivity).
      assert (Src : source r1 = source r) by (subst r1; reflexivity). rewrite <- Src.
      exact (IH c ltac:(lia) f r1 ts1 i t1 t2 Pd R1 N1 N2 O).
Qed.

Lemma sign_after_operand : forall s ts i t1 t2, reads s ts -> nth_error ts i = Some t1 -> nth_error ts (S i) = Some t2 -> operand t1 ->
  (nth (token_start t2) s 0 = 45 -> minus_values (token_value t2))
  /\ (nth (token_start t2) s 0 = 43 -> plus_values (token_value t2)).
Proof.
  intros s ts i t1 t2 (f & c & H) N1 N2 O. exact (after_operand c f (start_reader s) ts i t1 t2 eq_refl H N1 N2 O).
Qed.

(** ** Strings *)

Lemma until_zero_id : forall s, ~ In 0 s -> until_zero s = s.
Proof.
  induction s as [| c s IH]; intros N; [reflexivity |]. cbn [until_zero].
  destruct (c =? 0) eqn:E; [exfalso; apply N; left; lia |]. rewrite IH; [reflexivity |]. intros X. apply N. right. exact X.
Qed.

Lemma escape_known : forall e c, In (e, c) escapes -> e <> 102 -> escape_char e = Some c /\ e <> 0.
Proof.
  intros e c H N. unfold escapes in H. cbn [In] in H.
  repeat match type of H with _ \/ _ => destruct H as [H | H] end; try (injection H as <- <-; first [split; [reflexivity | lia] | congruence]); destruct H.
Qed.

Lemma string_loop : forall src str, denotes (fun e => e <> 48 /\ e <> 102) src str -> forall n acc rest,
  ends string_step ((n, src ++ 34 :: rest), acc, true) ((n + S (length src))%nat, rest, String (until_zero (rev acc ++ str)) true).
Proof.
  intros src str D. induction D as [| c src str N1 N2 N3 D IH | e c src str Hin (N1 & N2) D IH]; intros n acc rest.
  - cbn [app length]. apply ends_done. unfold string_step, at_spot. cbn [snd front hd Z.eqb Pos.eqb]. unfold string_end, advance.
    cbn [tl]. rewrite app_nil_r. replace (n + 1)%nat with (S n) by lia. reflexivity.
  - cbn [app length]. apply (ends_step _ _ _ _ ((S n, src ++ 34 :: rest), c :: acc, true)).
    + unfold string_step, at_spot. cbn [snd front hd advance tl]. replace (c =? 92) with false by lia. replace (c =? 34) with false by lia.
      replace (c =? 0) with false by lia. reflexivity.
    + specialize (IH (S n) (c :: acc) rest). replace (n + S (S (length src)))%nat with (S n + S (length src))%nat by lia.
      cbn [rev] in IH. rewrite <- app_assoc in IH. exact IH.
  - destruct (escape_known e c Hin N2) as (Ec & Ez).
    cbn [app length]. apply (ends_step _ _ _ _ ((S (S n), src ++ 34 :: rest), c :: acc, true)).
    + unfold string_step, at_spot. cbn [snd front hd advance tl Z.eqb Pos.eqb]. replace (e =? 0) with false by lia. rewrite Ec. reflexivity.
    + specialize (IH (S (S n)) (c :: acc) rest). replace (n + S (S (S (length src))))%nat with (S (S n) + S (length src))%nat by lia.
      cbn [rev] in IH. rewrite <- app_assoc in IH. exact IH.
Qed.

Lemma denotes_no_zero : forall src str, denotes (fun e => e <> 48 /\ e <> 102) src str -> ~ In 0 str.
Proof.
  intros src str D. induction D as [| c src str N1 N2 N3 D IH | e c src str Hin (N1 & N2) D IH]; intros H.
  - destruct H.
  - destruct H as [H | H]; [congruence | exact (IH H)].
  - destruct H as [H | H]; [| exact (IH H)]. subst c. unfold escapes in Hin. cbn [In] in Hin.
    repeat match type of Hin with _ \/ _ => destruct Hin as [Hin | Hin] end; try (injection Hin; lia); destruct Hin.
Qed.

Lemma not_keyword : forall c s, ~ word_char c -> find_keyword (c :: s) keywords = None.
Proof.
  intros c s N. destruct (find_keyword (c :: s) keywords) as [[w b] |] eqn:K; [| reflexivity]. exfalso.
  apply find_keyword_prefix in K. destruct K as (I & r & E & _). pose proof (keyword_word w b I) as F.
  destruct w as [| x w].
  - assert (X : existsb (fun p : list Z * bool => match fst p with [] => true | _ => false end) keywords = true).
    { apply existsb_exists. exists ([], b). split; [exact I | reflexivity]. }
    vm_compute in X. discriminate.
  - cbn [app] in E. injection E as <- _. apply Forall_cons_iff in F. exact (N (proj1 F)).
Qed.

Definition read_as (before : option Z) (last : option value) (c : Z) (s : list Z) (v : value) (n : nat) (d : datum) : Prop :=
  exists least, forall f, (least <= f)%nat -> read_token f before last c s = Read v n d.

Lemma string_token : forall before last src str rest, denotes (fun e => e <> 48 /\ e <> 102) src str ->
  read_as before last 34 (src ++ 34 :: rest) (One Value) (S (S (length src))) (String str true).
Proof.
  intros before last src str rest D. destruct (string_loop src str D 1 [] rest) as (l & K). exists l. intros f L.
  unfold read_token. rewrite not_keyword by (unfold word_char; lia). cbv zeta. cbn [Z.eqb Pos.eqb andb orb].
  unfold symbol. cbv zeta. cbn [Z.eqb Pos.eqb]. rewrite (K f L). cbn [read_loop rev app].
  rewrite until_zero_id by (apply (denotes_no_zero src); exact D). reflexivity.
Qed.

Lemma verbatim_loop : forall str n acc rest, ~ In 34 str -> ~ In 0 str -> front rest <> 34 ->
  ends verbatim_step ((n, str ++ 34 :: rest), acc, true) ((n + S (length str))%nat, rest, String (until_zero (rev acc ++ str)) true).
Proof.
  induction str as [| c str IH]; intros n acc rest N1 N2 N3.
  - cbn [app length]. apply ends_done. unfold verbatim_step, at_spot. cbn [snd front hd advance tl Z.eqb Pos.eqb].
    replace (front rest =? 34) with false by lia. unfold string_end. rewrite app_nil_r.
    replace (n + 1)%nat with (S n) by lia. reflexivity.
  - cbn [app length]. apply (ends_step _ _ _ _ ((S n, str ++ 34 :: rest), c :: acc, true)).
    + unfold verbatim_step, at_spot. cbn [snd front hd advance tl].
      replace (c =? 34) with false by (cbn in N1; lia). replace (c =? 0) with false by (cbn in N2; lia). reflexivity.
    + assert (M1 : ~ In 34 str) by (intros X; apply N1; right; exact X). assert (M2 : ~ In 0 str) by (intros X; apply N2; right; exact X).
      specialize (IH (S n) (c :: acc) rest M1 M2 N3). replace (n + S (S (length str)))%nat with (S n + S (length str))%nat by lia.
      cbn [rev] in IH. rewrite <- app_assoc in IH. exact IH.
Qed.

Lemma verbatim_token : forall before last str rest, ~ In 34 str -> ~ In 0 str -> front rest <> 34 ->
  read_as before last 64 (34 :: str ++ 34 :: rest) (One Value) (S (S (S (length str)))) (String str true).
Proof.
  intros before last str rest N1 N2 N3. destruct (verbatim_loop str 2 [] rest N1 N2 N3) as (l & K). exists l. intros f L.
  unfold read_token. rewrite not_keyword by (unfold word_char; lia). cbv zeta. cbn [nth Z.eqb Pos.eqb andb orb].
  unfold symbol. cbv zeta. cbn [Z.eqb Pos.eqb tl]. rewrite (K f L). cbn [read_loop rev app].
  rewrite until_zero_id by exact N2. reflexivity.
Qed.

Lemma doubled_id : forall str, ~ In 34 str -> doubled str = str.
Proof.
  induction str as [| c s IH]; intros N; [reflexivity |]. cbn [doubled]. replace (c =? 34) with false by (cbn in N; lia).
  rewrite IH; [reflexivity |]. intros X. apply N. right. exact X.
Qed.

(** At a reader. *)
Lemma token_gives : forall r ws c u v n d, pending r = None -> remaining r = ws ++ c :: u -> Forall white ws -> ~ white c -> c <> 0 ->
  read_as (before_at (source r) (position r + length ws)) (last_value r) c u v n d ->
  gives r (Token v (position r + length ws) n d)
    (Reader (source r) (position r + length ws + n) (Some (last_of_value v)) (second_of v (position r + length ws) n)).
Proof. intros r ws c u v n d P E Fw Nw Nz (l & K). exact (next_gives r ws c u v n d l P E Fw Nw Nz K). Qed.

Lemma string_ok : forall r ws src str rest, pending r = None -> remaining r = ws ++ 34 :: src ++ 34 :: rest -> Forall white ws ->
  denotes (fun e => e <> 48 /\ e <> 102) src str ->
  gives r (Token (One Value) (position r + length ws) (S (S (length src))) (String str true))
    (Reader (source r) (position r + length ws + S (S (length src))) (Some (One Value)) None).
Proof.
  intros r ws src str rest P E Fw D.
  refine (token_gives r ws 34 (src ++ 34 :: rest) (One Value) _ _ P E Fw _ _ (string_token _ _ src str rest D)); unfold white; lia.
Qed.

Lemma verbatim_ok : forall r ws str rest, pending r = None -> remaining r = ws ++ 64 :: 34 :: doubled str ++ 34 :: rest -> Forall white ws ->
  ~ In 34 str -> ~ In 0 str -> front rest <> 34 ->
  gives r (Token (One Value) (position r + length ws) (S (S (S (length (doubled str))))) (String str true))
    (Reader (source r) (position r + length ws + S (S (S (length (doubled str))))) (Some (One Value)) None).
Proof.
  intros r ws str rest P E Fw N1 N2 N3. rewrite doubled_id in * by exact N1.
  refine (token_gives r ws 64 (34 :: str ++ 34 :: rest) (One Value) _ _ P E Fw _ _ (verbatim_token _ _ str rest N1 N2 N3)); unfold white; lia.
Qed.

Lemma stuck_endless : forall r f, stuck r -> next f r = Endless.
Proof.
  intros r f (ws & u & P & E & Fw & U). destruct (next f r) as [| r' t | |] eqn:N; try reflexivity; exfalso.
  all: destruct (whitespace_skip ws 0 (39 :: u) Fw ltac:(unfold white; cbn; lia)) as (l1 & K).
  all: assert (N' : next (max f l1) r = next f r) by (apply next_more; [lia | rewrite N; discriminate]).
  all: rewrite N in N'; unfold next in N'; rewrite P in N'; cbv zeta in N'; fold (remaining r) in N'; rewrite E, (K (max f l1) ltac:(lia)) in N'.
  all: cbn [front hd Z.eqb negb] in N'; unfold read_token in N'; rewrite (not_keyword 39 u) in N' by (unfold word_char; lia); cbv zeta in N'.
  all: cbn [Z.eqb Pos.eqb orb andb symbol] in N'; cbv zeta in N'; cbn [Z.eqb Pos.eqb orb andb] in N'.
  all: unfold symbol in N'; cbv zeta in N'; cbn [Z.eqb Pos.eqb orb andb] in N'; rewrite (unclosed_loops u U) in N'; cbn [read_loop] in N'; discriminate.
Qed.

Lemma stuck_never : forall r ts r', after r ts r' -> stuck r' -> forall f c ts', read_all f c r <> Tokens ts'.
Proof.
  intros r ts r' A S0. induction A as [r | r t r' ts r'' G A IH]; intros f c ts' H.
  - destruct c as [| c]; [discriminate |]. cbn [read_all] in H. rewrite (stuck_endless r f S0) in H. discriminate.
  - destruct c as [| c]; [discriminate |]. cbn [read_all] in H. destruct G as (l & K).
    destruct (next f r) as [| r1 t1 | |] eqn:N; try discriminate.
    + assert (N' : next (max f l) r = next f r) by (apply next_more; [lia | rewrite N; discriminate]).
      rewrite (K (max f l) ltac:(lia)), N in N'. discriminate.
    + assert (N' : next (max f l) r = next f r) by (apply next_more; [lia | rewrite N; discriminate]).
      rewrite (K (max f l) ltac:(lia)), N in N'. injection N' as <- <-.
      destruct (read_all f c r') as [ts1 | |] eqn:R; try discriminate. exact (IH S0 f c ts1 R).
Qed.

(** Tokenising ends unless a character literal that is not closed is met, and then it does not. *)
Lemma terminates_iff : forall s, (exists ts, reads s ts) <-> (forall ts r, after (start_reader s) ts r -> ~ stuck r).
Proof.
  intros s. split; [| apply terminates_if]. intros (ts & f & c & H) ts' r A S0. exact (stuck_never _ _ _ A S0 f c ts H).
Qed.

Lemma gives_source : forall r t r', gives r t r' -> source r' = source r.
Proof.
  intros r t r' (l & K). specialize (K l (le_n _)). unfold next in K. destruct (pending r); [injection K as <- _; reflexivity |]. cbv zeta in K.
  destruct (repeat_step whitespace_step l (0%nat, skipn (position r) (source r))) as [[[n u] [|]] |]; try discriminate.
  destruct u as [| c u]; [discriminate |].
  match type of K with match ?x with _ => _ end = _ => destruct x end; try discriminate. injection K as <- _. reflexivity.
Qed.

(** Without quotes it always ends. *)
Lemma terminates_plain : forall s, ~ In 39 s -> exists ts, reads s ts.
Proof.
  intros s N. apply terminates_if. intros ts r A (ws & u & P & E & Fw & U). apply N.
  assert (Es : forall r0 ts r, after r0 ts r -> source r = source r0).
  { clear. intros r0 ts r A. induction A as [r | r t r' ts r'' G A IH]; [reflexivity |]. rewrite IH. exact (gives_source _ _ _ G). }
  specialize (Es _ _ _ A). cbn [source start_reader] in Es. unfold remaining in E. rewrite Es in E.
  rewrite <- (firstn_skipn (position r) s), E. apply in_or_app. right. apply in_or_app. right. left. reflexivity.
Qed.
