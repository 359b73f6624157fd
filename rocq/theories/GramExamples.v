(* Cases for PropertiesGram.v. *)
From Coq Require Import ZArith List Bool Lia Relations.
From Verif Require Import XilModel NetModel NetSpec NetExamples GramModel GramSpec GramMarkProofs GramProofs.
Import ListNotations.
Local Open Scope nat_scope.

(* 0 = $3      1 = n | "(" $3 ")" | $2      2 = "!"* s ","?      3 = $1 ("+" $1)* *)
Definition sums : grammar :=
  [ (0%Z, Or (Then (Ref 3) Once Done) NoMore);
    (1%Z, Or (Then (Tok 110) Once Done)
         (Or (Then (Tok 40) Once (Then (Ref 3) Once (Then (Tok 41) Once Done)))
         (Or (Then (Ref 2) Once Done) NoMore)));
    (2%Z, Or (Then (Tok 33) Star (Then (Tok 115) Once (Then (Tok 44) Question Done))) NoMore);
    (3%Z, Or (Then (Ref 1) Once (Then (Group (Or (Then (Tok 43) Once (Then (Ref 1) Once Done)) NoMore)) Star Done)) NoMore) ].

Definition sums_root : alts := Or (Then (Ref 3) Once Done) NoMore.

Definition no_net : net := Net (fun _ => Node (KToken 0) [] None true false) (fun _ => None).
Definition net_made (R : grammar) : net := match build 20 R with Ok g => g | _ => no_net end.

Definition succeeds {T} (o : outcome T) : bool := match o with Ok _ => true | _ => false end.

Lemma made : forall R, succeeds (build 20 R) = true -> build 20 R = Ok (net_made R).
Proof. intros R H. unfold net_made. destruct (build 20 R); [reflexivity|discriminate..]. Qed.

Definition sums_net : net := net_made sums.

Lemma sums_built : build 20 sums = Ok sums_net.
Proof. apply made. vm_compute. reflexivity. Qed.

Ltac no_empty := repeat match goal with
  | H : Once = Star \/ _ |- _ => destruct H; discriminate
  | H : says _ (TElem (Tok _)) [] |- _ => inversion H
  | H : says _ (TAlts NoMore) _ |- _ => inversion H
  | H : says _ (TItem _ Once) [] |- _ => inversion H; clear H; subst
  | H : says _ (TParts (Then _ _ _)) [] |- _ => inversion H; clear H; subst
  | H : says _ (TAlts (Or _ _)) [] |- _ => inversion H; clear H; subst
  | H : ?a ++ ?b = [] |- _ => apply app_eq_nil in H; destruct H; subst
  | H : empty _ _ |- _ => unfold empty in H
  end.

Lemma rule2_full : ~ empty sums (TElem (Ref 2)).
Proof. intro H. unfold empty in H. inversion H as [|b a w B S| | | | | | | | |]; subst. cbn in B. injection B as <-. no_empty. Qed.

Lemma rule1_full : ~ empty sums (TElem (Ref 1)).
Proof.
  intro H. unfold empty in H. inversion H as [|b a w B S| | | | | | | | |]; subst. cbn in B. injection B as <-. no_empty.
  now apply rule2_full.
Qed.

Lemma rule3_full : ~ empty sums (TElem (Ref 3)).
Proof.
  intro H. unfold empty in H. inversion H as [|b a w B S| | | | | | | | |]; subst. cbn in B. injection B as <-. no_empty.
  now apply rule1_full.
Qed.

Lemma sums_body : forall b a, body sums b = Some a ->
  (b = 0%Z /\ a = sums_root) \/
  (b = 1%Z /\ a = Or (Then (Tok 110) Once Done)
         (Or (Then (Tok 40) Once (Then (Ref 3) Once (Then (Tok 41) Once Done)))
         (Or (Then (Ref 2) Once Done) NoMore))) \/
  (b = 2%Z /\ a = Or (Then (Tok 33) Star (Then (Tok 115) Once (Then (Tok 44) Question Done))) NoMore) \/
  (b = 3%Z /\ a = Or (Then (Ref 1) Once (Then (Group (Or (Then (Tok 43) Once (Then (Ref 1) Once Done)) NoMore)) Star Done)) NoMore).
Proof.
  intros b a H. unfold sums in H. cbn [body] in H.
  destruct (Z.eqb 0 b) eqn:E0; [injection H as <-; apply Z.eqb_eq in E0; left; auto|].
  destruct (Z.eqb 1 b) eqn:E1; [injection H as <-; apply Z.eqb_eq in E1; right; left; auto|].
  destruct (Z.eqb 2 b) eqn:E2; [injection H as <-; apply Z.eqb_eq in E2; right; right; left; auto|].
  destruct (Z.eqb 3 b) eqn:E3; [injection H as <-; apply Z.eqb_eq in E3; right; right; right; auto|discriminate].
Qed.

Ltac no_again := repeat (match goal with
  | H : begins_again _ _ (TAlts NoMore) |- _ => inversion H
  | H : begins_again _ _ (TAlts (Or _ _)) |- _ => inversion H; clear H; subst
  | H : begins_again _ _ (TParts (Then _ _ _)) |- _ => inversion H; clear H; subst
  | H : begins_again _ _ (TItem _ _) |- _ => inversion H; clear H; subst
  | H : begins_again _ _ (TElem (Tok _)) |- _ => inversion H
  | H : begins_again _ _ (TElem (Ref _)) |- _ => inversion H
  | H : Once = _ \/ _ |- _ => destruct H; discriminate
  | H : begins_with _ _ (TParts Done) |- _ => inversion H
  end; no_empty).

Lemma sums_well_made : well_made sums.
Proof.
  constructor.
  - repeat constructor; cbn; intuition discriminate.
  - intros b a H. apply sums_body in H. destruct H as [[_ ->]|[[_ ->]|[[_ ->]|[_ ->]]]]; cbn; repeat split; discriminate.
  - intros b a H L. apply sums_body in H. destruct H as [[-> ->]|[[-> ->]|[[-> ->]|[-> ->]]]]; cbn.
    + split; [|exact Logic.I]. intro E. no_empty. now apply rule3_full.
    + repeat split; intro E; no_empty. now apply rule2_full.
    + exfalso. assert (N : forall c, ~ mentions sums 2 c).
      { intros c [a [B O]]. cbn in B. injection B as <-. cbn in O. intuition discriminate. }
      assert (Q : forall u v, clos_trans Z (mentions sums) u v -> u = 2%Z -> False).
      { intros u v C. induction C; intros ->; [now apply (N y)|auto]. }
      exact (Q 2%Z 2%Z L eq_refl).
    + split; [|exact Logic.I]. intro E. no_empty. now apply rule1_full.
  - intros b a k H AG LT. apply sums_body in H. destruct H as [[-> ->]|[[-> ->]|[[-> ->]|[-> ->]]]].
    + unfold sums_root in AG. no_again.
    + no_again.
    + assert (K : k = KToken 33 \/ k = KToken 115).
      { inversion AG as [| | | | |s0 a0 H1|s0 a0 H1]; subst; [|inversion H1].
        inversion H1 as [| | |e r s H2|e r s E H2| |]; subst.
        - inversion H2 as [|e r H3|e r L H3| | | |]; subst; [inversion H3|inversion H3; auto].
        - inversion H2 as [| | | |e r s H3|e r s E3 H3| |]; subst.
          + inversion H3 as [| | |e r H4| | | |]; subst. inversion H4; auto.
          + exfalso. no_empty. }
      inversion LT as [| | | | |s0 a0 H1|s0 a0 H1]; subst; [|inversion H1].
      inversion H1 as [| |e r s H2|e r s E H2|e r s H2| |]; subst.
      * inversion H2 as [|e r H3| | | | |]; subst. inversion H3.
      * apply E. apply says_none. auto.
      * inversion H2 as [| |e r s H3|e r s E H3|e r s H3| |]; subst.
        -- inversion H3 as [|e r H4| | | | |]; subst. inversion H4.
        -- cbn in H3. destruct K as [->| ->]; intuition discriminate.
        -- inversion H3 as [| |e r s H4|e r s E H4|e r s H4| |]; subst.
           ++ inversion H4 as [|e r H5| | | | |]; subst. inversion H5.
           ++ exact H4.
           ++ inversion H4.
    + no_again. now apply rule1_full.
Qed.

(* n + ( ! s ) *)
Definition sums_word : list key := [KToken 110; KToken 43; KToken 40; KToken 33; KToken 115; KToken 41].

Lemma rule1_paren : forall w, says sums (TElem (Ref 3)) w -> says sums (TElem (Ref 1)) ([KToken 40] ++ w ++ [KToken 41]).
Proof.
  intros w H. eapply says_rule; [reflexivity|]. apply says_other, says_this. apply says_then; [repeat constructor|].
  apply says_then; [now apply says_once|]. apply (says_then _ _ _ _ [KToken 41] []); repeat constructor.
Qed.

Lemma rule3_one : forall w, says sums (TElem (Ref 1)) w -> says sums (TElem (Ref 3)) w.
Proof.
  intros w H. eapply says_rule; [reflexivity|]. apply says_this. rewrite <- (app_nil_r w). apply says_then; [now apply says_once|].
  apply (says_then _ _ _ _ [] []); [|constructor]. apply says_none. auto.
Qed.

Lemma rule3_two : forall w1 w2, says sums (TElem (Ref 1)) w1 -> says sums (TElem (Ref 1)) w2 ->
  says sums (TElem (Ref 3)) (w1 ++ [KToken 43] ++ w2).
Proof.
  intros w1 w2 H1 H2. eapply says_rule; [reflexivity|]. apply says_this. apply says_then; [now apply says_once|].
  rewrite <- (app_nil_r ([KToken 43] ++ w2)). apply says_then; [|constructor]. apply says_once, says_group, says_this.
  apply says_then; [repeat constructor|]. rewrite <- (app_nil_r w2). apply says_then; [now apply says_once|constructor].
Qed.

Lemma sums_says : says sums (TAlts sums_root) sums_word.
Proof.
  unfold sums_root. apply says_this. rewrite <- (app_nil_r sums_word). apply says_then; [apply says_once|constructor].
  apply (rule3_two [KToken 110] [KToken 40; KToken 33; KToken 115; KToken 41]).
  - eapply says_rule; [reflexivity|]. apply says_this. apply (says_then _ _ _ _ [KToken 110] []); repeat constructor.
  - apply (rule1_paren [KToken 33; KToken 115]). apply rule3_one. eapply says_rule; [reflexivity|].
    apply says_other, says_other, says_this. apply (says_then _ _ _ _ [KToken 33; KToken 115] []); [|constructor].
    apply says_once. eapply says_rule; [reflexivity|]. apply says_this.
    apply (says_then sums (Tok 33) Star _ [KToken 33] [KToken 115]); [repeat constructor|].
    apply (says_then sums (Tok 115) Once _ [KToken 115] []); [repeat constructor|].
    apply (says_then sums (Tok 44) Question Done [] []); [|constructor]. apply says_none. auto.
Qed.

Lemma tokens_elementary : forall R w, (forall k, In k w -> exists v, k = KToken v) -> elementary R w.
Proof. intros R w H b I1. destruct (H _ I1). discriminate. Qed.

(* ---- grammars whose nets say something else ---- *)

(* 0 = a+ a c : the two nodes for a are made one. *)
Definition twice : grammar := [(0%Z, Or (Then (Tok 97) Plus (Then (Tok 97) Once (Then (Tok 99) Once Done))) NoMore)].

Lemma twice_built : build 20 twice = Ok (net_made twice).
Proof. apply made. vm_compute. reflexivity. Qed.

Lemma twice_sentence : sentence (net_made twice) (numbered [KToken 97; KToken 99]) 2 [].
Proof.
  exists 3. split; [|vm_compute; reflexivity].
  change (numbered [KToken 97; KToken 99]) with ([(0, KToken 97)] ++ [(1, KToken 99)]).
  change (@nil report) with (@nil report ++ []).
  apply (walk_next _ 0%Z 1 3).
  - apply walk_start; [exists [1]; split; [vm_compute; reflexivity|now left]|]. exact (match_element (net_made twice) 1 0 1).
  - vm_compute. auto.
  - exact (match_element (net_made twice) 3 1 2).
Qed.

Lemma inv_once : forall R e w, says R (TItem e Once) w -> says R (TElem e) w.
Proof. intros R e w H. inversion H as [| | | |e0 r0 w0 K|e0 r0 L|e0 r0 w1 w2 L| | | |]; subst; [exact K|destruct L; discriminate|destruct L; discriminate]. Qed.
Lemma inv_maybe : forall R e w, says R (TItem e Question) w -> w = [] \/ says R (TElem e) w.
Proof. intros R e w H. inversion H as [| | | |e0 r0 w0 K|e0 r0 L|e0 r0 w1 w2 L| | | |]; subst; [now right|now left|destruct L; discriminate]. Qed.
Lemma inv_tok : forall R v w, says R (TElem (Tok v)) w -> w = [KToken v].
Proof. intros R v w H. now inversion H. Qed.
Lemma inv_group : forall R a w, says R (TElem (Group a)) w -> says R (TAlts a) w.
Proof. intros R a w H. now inversion H. Qed.
Lemma inv_then : forall R e r s w, says R (TParts (Then e r s)) w ->
  exists w1 w2, w = w1 ++ w2 /\ says R (TItem e r) w1 /\ says R (TParts s) w2.
Proof. intros R e r s w H. inversion H; subst. eauto. Qed.
Lemma inv_done : forall R w, says R (TParts Done) w -> w = [].
Proof. intros R w H. now inversion H. Qed.
Lemma inv_or : forall R s a w, says R (TAlts (Or s a)) w -> says R (TParts s) w \/ says R (TAlts a) w.
Proof. intros R s a w H. inversion H; auto. Qed.
Lemma inv_no : forall R w, says R (TAlts NoMore) w -> False.
Proof. intros R w H. inversion H. Qed.

Ltac take_apart := repeat match goal with
  | H : says _ (TAlts NoMore) _ |- _ => destruct (inv_no _ _ H)
  | H : says _ (TParts Done) _ |- _ => apply inv_done in H; subst
  | H : says _ (TElem (Tok _)) _ |- _ => apply inv_tok in H; subst
  | H : says _ (TItem _ Once) _ |- _ => apply inv_once in H
  | H : says _ (TItem _ Question) _ |- _ => apply inv_maybe in H; destruct H as [H|H]; subst
  | H : says _ (TElem (Group _)) _ |- _ => apply inv_group in H
  | H : says _ (TAlts (Or _ _)) _ |- _ => apply inv_or in H; destruct H as [H|H]
  | H : says _ (TParts (Then _ _ _)) _ |- _ =>
      let w1 := fresh "w" in let w2 := fresh "w" in let E := fresh "E" in let K := fresh "K" in
      apply inv_then in H; destruct H as [w1 [w2 [E [K H]]]]; subst
  end.

Lemma plus_word : forall R v w, says R (TItem (Tok v) Plus) w -> exists n, w = repeat (KToken v) (S n).
Proof.
  intros R v w H. remember (TItem (Tok v) Plus) as t eqn:T. revert T.
  induction H; intro T; try discriminate; injection T as -> ->.
  - inversion H; subst. now exists 0.
  - destruct H; discriminate.
  - inversion H0; subst. destruct (IHsays2 eq_refl) as [n ->]. now exists (S n).
Qed.

Lemma twice_not : forall a, body twice root_value = Some a -> ~ says twice (TAlts a) [KToken 97; KToken 99].
Proof.
  intros a B H. cbn in B. injection B as <-. take_apart.
  match goal with K : says _ (TItem _ Plus) _ |- _ => apply plus_word in K; destruct K as [n ->] end.
  destruct n as [|n]; cbn [repeat app] in *; discriminate.
Qed.

(* -129 = a? (b $-129 | c?) d      0 = $-129 : whether the rule can be empty is asked when
   the node of a has links into the group already, and the end of the group is
   taken for the end of the rule. *)
Definition inside_rule : alts :=
  Or (Then (Tok 97) Question
     (Then (Group (Or (Then (Tok 98) Once (Then (Ref (-129)) Once Done)) (Or (Then (Tok 99) Question Done) NoMore))) Once
     (Then (Tok 100) Once Done))) NoMore.

Definition inside_itself : grammar := [((-129)%Z, inside_rule); (0%Z, Or (Then (Ref (-129)) Once Done) NoMore)].

Lemma inside_built : build 20 inside_itself = Ok (net_made inside_itself).
Proof. apply made. vm_compute. reflexivity. Qed.

Lemma inside_sentence : sentence (net_made inside_itself) (numbered [KToken 98; KToken 100]) 2 [Report (-129) 0 2].
Proof.
  exists 11. split; [|vm_compute; reflexivity].
  change (numbered [KToken 98; KToken 100]) with ([(0, KToken 98)] ++ [(1, KToken 100)]).
  apply walk_start; [exists [11]; split; [vm_compute; reflexivity|now left]|].
  change [Report (-129) 0 2] with (([] ++ []) ++ [Report (-129) (first ([(0, KToken 98)] ++ [(1, KToken 100)]) 2) 2]).
  apply (match_branch _ 11 (-129)%Z 8); [vm_compute; reflexivity| |vm_compute; reflexivity].
  apply (walk_next _ (-129)%Z 3 8).
  - apply walk_start; [exists [1; 3; 6; 8]; split; [vm_compute; reflexivity|cbn; auto]|].
    exact (match_element (net_made inside_itself) 3 0 1).
  - vm_compute. auto.
  - exact (match_element (net_made inside_itself) 8 1 2).
Qed.

Lemma inside_full : ~ empty inside_itself (TElem (Ref (-129))).
Proof.
  intro H. unfold empty in H. inversion H as [|b a w B S| | | | | | | | |]; subst. cbn in B. injection B as <-. unfold inside_rule in S.
  take_apart; match goal with E : [] = _ |- _ => symmetry in E; repeat (apply app_eq_nil in E; destruct E as [? E]); discriminate end.
Qed.

Lemma inside_not : forall a, body inside_itself root_value = Some a -> ~ says inside_itself (TAlts a) [KToken 98; KToken 100].
Proof.
  intros a B H. cbn in B. injection B as <-. apply inv_or in H. destruct H as [H|H]; [|destruct (inv_no _ _ H)].
  apply inv_then in H. destruct H as [w1 [w2 [E [K H]]]]. apply inv_done in H. subst w2. rewrite app_nil_r in E. subst w1.
  apply inv_once in K. inversion K as [|b a w B S| | | | | | | | |]; subst. cbn in B. injection B as <-. unfold inside_rule in S.
  clear K. take_apart; cbn [app] in *; try discriminate.
  match goal with K : says _ (TElem (Ref (-129))) ?w |- _ => destruct w as [|x [|y w']] end.
  - now apply inside_full.
  - discriminate.
  - match goal with E : _ = _ |- _ => cbn [app] in E; injection E as E1 E; destruct w'; discriminate end.
Qed.

(* 0 = a ( | b) : the empty alternative is lost. *)
Definition nothing_or : grammar :=
  [(0%Z, Or (Then (Tok 97) Once (Then (Group (Or Done (Or (Then (Tok 98) Once Done) NoMore))) Once Done)) NoMore)].

Definition nothing_root : alts := Or (Then (Tok 97) Once (Then (Group (Or Done (Or (Then (Tok 98) Once Done) NoMore))) Once Done)) NoMore.

Lemma nothing_built : build 20 nothing_or = Ok (net_made nothing_or).
Proof. apply made. vm_compute. reflexivity. Qed.

Lemma nothing_says : says nothing_or (TAlts nothing_root) [KToken 97].
Proof.
  apply says_this. apply (says_then _ _ _ _ [KToken 97] []); [repeat constructor|].
  apply (says_then _ _ _ _ [] []); repeat constructor.
Qed.

Lemma matches_some : forall g n next rs, ~ matches g n [] next rs.
Proof.
  intros g.
  assert (Q : forall b n w next rs, walks g b n w next rs -> w = [] -> False).
  { fix IH 6. intros b n w next rs W. destruct W as [b n w next rs B M|b m n w1 w2 next rs1 rs2 W N M]; intro E.
    - destruct M as [|n b' m w next rs K W EN]; [discriminate|]. exact (IH _ _ _ _ _ W E).
    - apply app_eq_nil in E. destruct E as [E _]. exact (IH _ _ _ _ _ W E). }
  intros n next rs M. inversion M; subst. eauto.
Qed.

Lemma nothing_not : forall rs, ~ sentence (net_made nothing_or) (numbered [KToken 97]) 1 rs.
Proof.
  intros rs [n [W E]]. change (numbered [KToken 97]) with [(0, KToken 97)] in W.
  inversion W as [b n0 w next rs0 [s [B I1]] M|b m n0 w1 w2 next rs1 rs2 W1 N M]; subst.
  - vm_compute in B. injection B as <-. destruct I1 as [<-|[]]. vm_compute in E. discriminate.
  - assert (Q : w2 <> []) by (intros ->; now apply matches_some in M).
    destruct w1 as [|x w1].
    + inversion W1 as [b n1 w next rs0 B M1|b m1 n1 v1 v2 next rs3 rs4 W2 N1 M1]; subst.
      * now apply matches_some in M1.
      * match goal with K : _ ++ _ = [] |- _ => apply app_eq_nil in K; destruct K; subst end. now apply matches_some in M1.
    + match goal with K : _ ++ _ = _ |- _ => cbn [app] in K; injection K as _ K; apply app_eq_nil in K; now destruct K end.
Qed.

(* What the grammars above do meet. *)
Lemma one_body : forall a0 b a, body [(0%Z, a0)] b = Some a -> b = 0%Z /\ a = a0.
Proof.
  intros a0 b a H. cbn [body] in H. destruct (Z.eqb 0 b) eqn:E; [|discriminate]. apply Z.eqb_eq in E. injection H as <-. auto.
Qed.

Lemma no_leads : forall R, (forall b c, ~ mentions R b c) -> forall b c, ~ leads R b c.
Proof. intros R N b c L. induction L; [now apply (N x y)|assumption]. Qed.

Lemma one_name : forall a0 : alts, NoDup (map fst [(0%Z, a0)]).
Proof. intro a0. repeat constructor; easy. Qed.

Lemma twice_full : forall b a, body twice b = Some a -> full_alts a.
Proof. intros b a H. apply one_body in H. destruct H as [_ ->]. cbn. repeat split; discriminate. Qed.

Lemma twice_firm : forall b a, body twice b = Some a -> leads twice b b -> firm twice a.
Proof.
  intros b a _ L. exfalso. revert L. apply no_leads. intros x y [a' [B O]]. apply one_body in B. destruct B as [_ ->].
  cbn in O. intuition discriminate.
Qed.

Lemma inside_names : NoDup (map fst inside_itself).
Proof. repeat constructor; cbn; intuition discriminate. Qed.

Lemma inside_body : forall b a, body inside_itself b = Some a ->
  a = Or (Then (Ref (-129)) Once Done) NoMore \/ a = inside_rule.
Proof.
  intros b a H. unfold inside_itself in H. cbn [body] in H.
  destruct (Z.eqb (-129) b); [injection H as <-; now right|]. destruct (Z.eqb 0 b); [injection H as <-; now left|discriminate].
Qed.

Lemma inside_full_alts : forall b a, body inside_itself b = Some a -> full_alts a.
Proof.
  intros b a H. apply inside_body in H. destruct H as [-> | ->]; unfold inside_rule; cbn; repeat split; discriminate.
Qed.

Ltac inv_begin := repeat match goal with
  | H : begins_again _ _ (TAlts NoMore) |- _ => inversion H
  | H : begins_again _ _ (TAlts (Or _ _)) |- _ => inversion H; clear H; subst
  | H : begins_again _ _ (TParts Done) |- _ => inversion H
  | H : begins_again _ _ (TParts (Then _ _ _)) |- _ => inversion H; clear H; subst
  | H : begins_again _ _ (TItem _ _) |- _ => inversion H; clear H; subst
  | H : begins_again _ _ (TElem (Tok _)) |- _ => inversion H
  | H : begins_again _ _ (TElem (Ref _)) |- _ => inversion H
  | H : begins_again _ _ (TElem (Group _)) |- _ => inversion H; clear H; subst
  | H : Once = _ \/ _ |- _ => destruct H; discriminate
  | H : Question = Star \/ Question = Plus |- _ => destruct H; discriminate
  | H : begins_with _ _ (TAlts NoMore) |- _ => inversion H
  | H : begins_with _ _ (TAlts (Or _ _)) |- _ => inversion H; clear H; subst
  | H : begins_with _ _ (TParts Done) |- _ => inversion H
  | H : begins_with _ _ (TParts (Then _ _ _)) |- _ => inversion H; clear H; subst
  | H : begins_with _ _ (TItem _ _) |- _ => inversion H; clear H; subst
  | H : begins_with _ _ (TElem (Group _)) |- _ => inversion H; clear H; subst
  | H : begins_with _ _ (TElem (Tok _)) |- _ => inversion H; clear H; subst
  | H : begins_with _ _ (TElem (Ref _)) |- _ => inversion H; clear H; subst
  | H : empty _ (TItem (Tok _) Once) |- _ => unfold empty in H; apply inv_once in H; inversion H
  end.

Ltac inv_later := repeat match goal with
  | H : occurs_later _ _ (TAlts NoMore) |- _ => inversion H
  | H : occurs_later _ _ (TAlts (Or _ _)) |- _ => inversion H; clear H; subst
  | H : occurs_later _ _ (TParts Done) |- _ => inversion H
  | H : occurs_later _ _ (TParts (Then _ _ _)) |- _ => inversion H; clear H; subst
  | H : occurs_later _ _ (TItem _ _) |- _ => inversion H; clear H; subst
  | H : occurs_later _ _ (TElem (Tok _)) |- _ => inversion H
  | H : occurs_later _ _ (TElem (Ref _)) |- _ => inversion H
  | H : occurs_later _ _ (TElem (Group _)) |- _ => inversion H; clear H; subst
  | H : ~ empty _ (TItem (Tok _) Question) |- _ => exfalso; apply H; apply says_none; now right
  end.

Lemma inside_group_empty : empty inside_itself (TItem (Group (Or (Then (Tok 98) Once (Then (Ref (-129)) Once Done)) (Or (Then (Tok 99) Question Done) NoMore))) Once).
Proof.
  apply says_once, says_group, says_other, says_this. apply (says_then _ _ _ _ [] []); [|constructor]. apply says_none. auto.
Qed.

Lemma inside_begin : forall b a k, body inside_itself b = Some a ->
  begins_again inside_itself k (TAlts a) -> ~ occurs_later inside_itself k (TAlts a).
Proof.
  intros b a k H AG LT. apply inside_body in H. destruct H as [-> | ->]; [inv_begin; now apply inside_full|]. unfold inside_rule in *.
  assert (K : k <> KRef (-129)) by (intros ->; inv_begin; discriminate).
  assert (L : k = KRef (-129)); [|contradiction].
  inv_later; cbn in *; try (now intuition); try (exfalso; now apply inside_group_empty || idtac).
  all: try match goal with N : ~ empty _ (TItem (Group _) Once) |- _ => destruct (N inside_group_empty) end.
Qed.

Lemma nothing_firm : forall b a, body nothing_or b = Some a -> leads nothing_or b b -> firm nothing_or a.
Proof.
  intros b a _ L. exfalso. revert L. apply no_leads. intros x y [a' [B O]]. apply one_body in B. destruct B as [_ ->].
  cbn in O. intuition discriminate.
Qed.

Lemma nothing_begin : forall b a k, body nothing_or b = Some a ->
  begins_again nothing_or k (TAlts a) -> ~ occurs_later nothing_or k (TAlts a).
Proof. intros b a k H AG LT. apply one_body in H. destruct H as [_ ->]. inv_begin. Qed.

(* What a rule of the sums says never starts with a plus. *)
Definition not_plus (w : list key) : Prop := exists k w', w = k :: w' /\ k <> KToken 43.

Lemma not_plus_app : forall w w', not_plus w -> not_plus (w ++ w').
Proof. intros w w' [k [u [-> N]]]. exists k, (u ++ w'). auto. Qed.

Lemma star_word : forall R v w, says R (TItem (Tok v) Star) w -> exists n, w = repeat (KToken v) n.
Proof.
  intros R v w H. remember (TItem (Tok v) Star) as t eqn:T. revert T.
  induction H; intro T; try discriminate; injection T as -> ->.
  - inversion H; subst. now exists 1.
  - now exists 0.
  - inversion H0; subst. destruct (IHsays2 eq_refl) as [n ->]. now exists (S n).
Qed.

Lemma inv_ref : forall R b w, says R (TElem (Ref b)) w ->
  (exists a, body R b = Some a /\ says R (TAlts a) w) \/ body R b = None /\ w = [KRef b].
Proof. intros R b w H. inversion H; subst; eauto. Qed.

Lemma rule2_plus : forall w, says sums (TElem (Ref 2)) w -> not_plus w.
Proof.
  intros w H. apply inv_ref in H. destruct H as [[a [B H]]|[B _]]; [|discriminate]. cbn in B. injection B as <-.
  take_apart;
    match goal with K : says _ (TItem _ Star) _ |- _ => apply star_word in K; destruct K as [[|n] ->] end;
    cbn; eexists; eexists; (split; [reflexivity|discriminate]).
Qed.

Lemma rule1_plus : forall w, says sums (TElem (Ref 1)) w -> not_plus w.
Proof.
  intros w H. apply inv_ref in H. destruct H as [[a [B H]]|[B _]]; [|discriminate]. cbn in B. injection B as <-.
  take_apart; try (cbn; eexists; eexists; (split; [reflexivity|discriminate])).
  apply not_plus_app. now apply rule2_plus.
Qed.

Lemma sums_plus_not : ~ says sums (TAlts sums_root) [KToken 43].
Proof.
  intro H. assert (N : not_plus [KToken 43]).
  { unfold sums_root in H. apply inv_or in H. destruct H as [H|H]; [|destruct (inv_no _ _ H)].
    apply inv_then in H. destruct H as [w1 [w2 [-> [K _]]]]. apply not_plus_app. apply inv_once in K.
    apply inv_ref in K. destruct K as [[a [B K]]|[B _]]; [|discriminate]. cbn in B. injection B as <-.
    apply inv_or in K. destruct K as [K|K]; [|destruct (inv_no _ _ K)].
    apply inv_then in K. destruct K as [u1 [u2 [-> [K _]]]]. apply not_plus_app. apply inv_once in K. now apply rule1_plus. }
  destruct N as [k [w' [E N]]]. injection E as <- _. now apply N.
Qed.

(* ---- the end of the analysis ---- *)

(* 0 = $1      1 = $1 | x : a rule that can be nothing but itself. *)
Definition unit_rule : grammar :=
  [(0%Z, Or (Then (Ref 1) Once Done) NoMore); (1%Z, Or (Then (Ref 1) Once Done) (Or (Then (Tok 120) Once Done) NoMore))].
Definition unit_net : net := net_made unit_rule.

Lemma unit_built : build 20 unit_rule = Ok unit_net.
Proof. apply made. vm_compute. reflexivity. Qed.

Lemma unit_pop : forall fuel i c n s acts, n = 4 \/ n = 6 ->
  pop fuel unit_net i (Frame (At n) s 0) [Frame Top [Top] c] acts = Overflow.
Proof.
  intros fuel i c. induction fuel as [|f IH]; intros n s acts Hn; [destruct Hn as [-> | ->]; vm_compute; reflexivity |].
  destruct f as [|f]; [destruct Hn as [-> | ->]; vm_compute; reflexivity |].
  assert (E : pop (S (S f)) unit_net i (Frame (At n) s 0) [Frame Top [Top] c] acts =
    (ls <- each (fun u =>
              let acts1 := Matched 1 c i :: acts in
              if Nat.eqb (u_step u) 0
              then pop (S f) unit_net i (Frame (to_place u) [At 1; At 4] c) [] acts1
              else pop (S f) unit_net i (Frame (to_place u) [At 1; At 4] 0) [Frame Top [Top] c] acts1)
            [Unit (ToNode 1) []; Unit (ToNode 4) [1%Z]] ;; Ok (concat ls)))
    by (destruct Hn as [-> | ->]; reflexivity).
  rewrite E. clear E. cbn [each]. cbn beta zeta.
  change (Nat.eqb (u_step (Unit (ToNode 1) [])) 0) with true.
  change (Nat.eqb (u_step (Unit (ToNode 4) [1%Z])) 0) with false.
  cbn [to_place u_to].
  rewrite (IH 4 [At 1; At 4] (Matched 1 c i :: acts) (or_introl eq_refl)).
  reflexivity.
Qed.

Lemma unit_overflow : forall fuel, analyze fuel unit_net plain_world [One (KToken 120)] = Overflow.
Proof.
  intros [|[|f]]; [vm_compute; reflexivity | vm_compute; reflexivity |].
  assert (E : go_all (S (S f)) unit_net plain_world 0 [One (KToken 120)] start =
              Ok (State [Leaf (Frame (At 6) [At 6] 0) [Frame Top [Top] 0] []] [])) by reflexivity.
  unfold analyze. rewrite E. cbn [bind]. unfold go_end. cbn [s_leaves each l_top l_rest l_acts].
  rewrite (unit_pop (S (S f)) _ 0 6 [At 6] [] (or_intror eq_refl)). reflexivity.
Qed.

(* $: $1;   $1: ($2: $1 x) | y;   the named group $2 is read after $1 was begun
   and before the reference to it: 0 root, 1 $1, 2 end, 3 rule 1, 4 rule 2, 5 $1,
   6 x, 7 end, 8 $2, 9 end, 10 y, 11 end. *)
Definition named_inside : grammar :=
  [(0%Z, Or (Then (Ref 1) Once Done) NoMore);
   (1%Z, Or (Then (Ref 2) Once Done) (Or (Then (Tok 121) Once Done) NoMore));
   (2%Z, Or (Then (Ref 1) Once (Then (Tok 120) Once Done)) NoMore)].

Definition named_numbers : numbers :=
  Numbers (fun b => if Z.eqb b 1 then 3 else if Z.eqb b 2 then 4 else 0)
          (fun n => nth n [0; 1; 2; 3; 8; 9; 10; 11; 4; 5; 6; 7] n).

Definition named_net : net := match build_as named_numbers 20 named_inside with Ok g => g | _ => no_net end.

Lemma named_built : build_as named_numbers 20 named_inside = Ok named_net.
Proof.
  unfold named_net. assert (S : succeeds (build_as named_numbers 20 named_inside) = true) by (vm_compute; reflexivity).
  destruct (build_as named_numbers 20 named_inside); [reflexivity|discriminate..].
Qed.

Lemma named_apart : forall b b', body named_inside b <> None -> body named_inside b' <> None ->
  num_rule named_numbers b = num_rule named_numbers b' -> b = b'.
Proof.
  assert (Q : forall b, body named_inside b <> None -> b = 0%Z \/ b = 1%Z \/ b = 2%Z).
  { intros b H. unfold named_inside in H. cbn [body] in H. destruct (Z.eqb_spec 0 b); [auto|]. destruct (Z.eqb_spec 1 b); [auto|].
    destruct (Z.eqb_spec 2 b); [auto|congruence]. }
  intros b b' H H' E. destruct (Q b H) as [->|[->| ->]], (Q b' H') as [->|[->| ->]]; try reflexivity; discriminate E.
Qed.

Lemma named_expand : forall fuel path b, b = 1%Z \/ b = 2%Z ->
  expand fuel named_net path (if Z.eqb b 1 then [4; 6] else [9]) = Overflow.
Proof.
  induction fuel as [|f IH]; intros path b Hb; [destruct Hb as [-> | ->]; reflexivity |].
  destruct Hb as [-> | ->].
  - pose proof (IH (path ++ [2%Z]) 2%Z (or_intror eq_refl)) as H.
    change (if Z.eqb 2 1 then [4; 6] else [9]) with [9] in H.
    change (if Z.eqb 1 1 then [4; 6] else [9]) with [4; 6].
    change (expand (S f) named_net path [4; 6]) with
      (deeper <- expand f named_net (path ++ [2%Z]) [9] ;;
       rest <- Ok [Unit (ToNode 6) path] ;; Ok (Unit (ToNode 4) path :: deeper ++ rest)).
    rewrite H. reflexivity.
  - pose proof (IH (path ++ [1%Z]) 1%Z (or_introl eq_refl)) as H.
    change (if Z.eqb 1 1 then [4; 6] else [9]) with [4; 6] in H.
    change (if Z.eqb 2 1 then [4; 6] else [9]) with [9].
    change (expand (S f) named_net path [9]) with
      (deeper <- expand f named_net (path ++ [1%Z]) [4; 6] ;;
       rest <- Ok [] ;; Ok (Unit (ToNode 9) path :: deeper ++ rest)).
    rewrite H. reflexivity.
Qed.

Lemma named_overflow : forall fuel w e els, keys_of e <> [] -> analyze fuel named_net w (e :: els) = Overflow.
Proof.
  intros fuel w e els NE. unfold analyze. cbn [go_all]. unfold go_element, start. cbn [s_leaves each].
  unfold push_leaf. cbn [l_top l_rest l_acts f_place f_set].
  assert (E : forall k, units_of fuel named_net Top k = Overflow).
  { intros k. unfold units_of, reachable. change (links named_net Top) with [1].
    destruct fuel as [|f]; [reflexivity |].
    change (expand (S f) named_net [] [1]) with
      (deeper <- expand f named_net [1%Z] [4; 6] ;;
       rest <- Ok [] ;; Ok (Unit (ToNode 1) [] :: deeper ++ rest)).
    pose proof (named_expand f [1%Z] 1%Z (or_introl eq_refl)) as H.
    change (if Z.eqb 1 1 then [4; 6] else [9]) with [4; 6] in H. rewrite H. reflexivity. }
  unfold items_of. destruct (keys_of e) as [|k ks]; [exfalso; apply NE; reflexivity |].
  cbn [each]. unfold item_of at 1. unfold enter. cbn [each]. rewrite E. reflexivity.
Qed.

Lemma built_begins : forall N fuel R g, build_as N fuel R = Ok g ->
  forall b n, begins g b n -> In b (map fst R) /\ exists s, nt_start g b = Some s /\ In n s.
Proof.
  intros N fuel R g H b n B. split; [|exact B]. destruct (build_as_alike N fuel R g H) as [m [E AL]].
  apply (net_of_rules R m). rewrite <- (proj2 AL b). destruct B as [s [S _]]. congruence.
Qed.

Lemma plain_begins : forall fuel R g, build fuel R = Ok g ->
  forall b n, begins g b n -> In b (map fst R).
Proof. intros fuel R g H b n B. exact (proj1 (built_begins (places R) fuel R g H b n B)). Qed.

Lemma three_units : forall g, (forall b n, begins g b n -> In b [0; 1; 2]%Z) ->
  nt_start g 0 = Some [1] -> nt_start g 1 = Some [4; 6] -> nt_start g 2 = Some [9] ->
  nd_key (nt_node g 1) = KRef 1 -> nd_key (nt_node g 4) = KRef 2 -> nd_key (nt_node g 6) = KToken 121 ->
  nd_end (nt_node g 9) = None -> no_unit_cycle g 3.
Proof.
  intros g BG S0 S1 S2 K1 K4 K6 E9. exists (fun b => if Z.eqb b 0 then 3 else if Z.eqb b 1 then 2 else 1). split.
  - intro b. destruct (Z.eqb b 0); [lia|]. destruct (Z.eqb b 1); lia.
  - intros b n b' B K E. pose proof (BG b n B) as I1. destruct B as [s [S I2]].
    destruct I1 as [<-|[<-|[<-|[]]]]; rewrite ?S0, ?S1, ?S2 in S; injection S as <-.
    + destruct I2 as [<-|[]]. rewrite K1 in K. injection K as <-. cbn. lia.
    + destruct I2 as [<-|[<-|[]]]; rewrite ?K4, ?K6 in K; [|discriminate]. injection K as <-. cbn. lia.
    + destruct I2 as [<-|[]]. rewrite E9 in E. now destruct E.
Qed.

Lemma named_units : no_unit_cycle named_net 3.
Proof.
  apply three_units; [intros b n B; exact (proj1 (built_begins _ _ _ _ named_built b n B))| | | | | | | ]; vm_compute; reflexivity.
Qed.

(* A left recursive grammar: 0 = $1      1 = $1 + n | n *)
Definition left_sums : grammar :=
  [(0%Z, Or (Then (Ref 1) Once Done) NoMore);
   (1%Z, Or (Then (Ref 1) Once (Then (Tok 43) Once (Then (Tok 110) Once Done))) (Or (Then (Tok 110) Once Done) NoMore))].
Definition left_net : net := net_made left_sums.

Lemma left_built : build 20 left_sums = Ok left_net.
Proof. apply made. vm_compute. reflexivity. Qed.

Lemma two_units : forall g, (forall b n, begins g b n -> In b [0; 1]%Z) ->
  nt_start g 0 = Some [1] -> nt_start g 1 = Some [4; 8] ->
  nd_key (nt_node g 1) = KRef 1 -> nd_key (nt_node g 8) = KToken 110 ->
  nd_end (nt_node g 4) = None -> no_unit_cycle g 2.
Proof.
  intros g BG S0 S1 K1 K8 E4. exists (fun b => if Z.eqb b 0 then 2 else 1). split.
  - intro b. destruct (Z.eqb b 0); lia.
  - intros b n b' B K E. pose proof (BG b n B) as I1. destruct B as [s [S I2]].
    destruct I1 as [<-|[<-|[]]]; rewrite ?S0, ?S1 in S; injection S as <-.
    + destruct I2 as [<-|[]]. rewrite K1 in K. injection K as <-. cbn. lia.
    + destruct I2 as [<-|[<-|[]]]; [rewrite E4 in E; now destruct E|rewrite K8 in K; discriminate].
Qed.

Lemma left_units : no_unit_cycle left_net 2.
Proof.
  apply two_units; [intros b n B; exact (plain_begins _ _ _ left_built b n B)| | | | | ]; vm_compute; reflexivity.
Qed.
