(* From grammars to sentences and programs: the lemmas of PropertiesGram.v. *)
From Coq Require Import ZArith List Bool Lia Relations.
From Verif Require Import NetModel NetSpec NetProofs NetTotalProofs GramModel GramSpec GramLayProofs GramPathProofs GramRuleProofs
  GramNetProofs GramReviseProofs GramTidyProofs GramMarkProofs.
Import ListNotations.
Local Open Scope nat_scope.

Lemma elementary_revise : forall R w, elementary R w -> elementary (revise R) w.
Proof. intros R w H b I1. rewrite body_revise. now rewrite (H b I1). Qed.

Lemma build_as_tidy : forall N fuel R g, build_as N fuel R = Ok g -> tidy g.
Proof.
  intros N fuel R g H. destruct (build_as_alike N fuel R g H) as [m [E A]].
  exact (alike_tidy _ _ A (links_tidy fuel R m E)).
Qed.

Lemma build_tidy : forall fuel R g, build fuel R = Ok g -> tidy g.
Proof. intros fuel R g. apply build_as_tidy. Qed.

Lemma build_as_words : forall N R fuel g a wd next, well_made R -> body R root_value = Some a -> build_as N fuel R = Ok g ->
  elementary R (map snd wd) ->
  (exists rs, sentence g wd next rs) <-> wd <> [] /\ says R (TAlts a) (map snd wd).
Proof.
  intros N R fuel g a wd next WM B H EL. destruct (build_as_alike N fuel R g H) as [m [E AL]]. clear H.
  unfold exchange_grammar in E. cbv zeta in E.
  pose proof (revise_well_made R WM) as WM'.
  assert (B' : body (revise R) root_value = Some (revise_alts Once a)) by (now rewrite body_revise, B).
  pose proof (net_sentence (revise R) WM' m (exchange_all_rules (revise R) WM' fuel m E) (revise_alts Once a) wd next B'
             (elementary_revise R _ EL)) as NS.
  pose proof (proj1 (proj2 (proj2 (revise_same (revise R))) a (wm_full R WM _ _ B)) (map snd wd)) as S.
  rewrite (revise_says R (wm_full R WM)), <- S, <- NS.
  split; intros [rs Q]; exists rs; now apply (alike_sentence _ _ AL).
Qed.

Lemma build_words : forall R fuel g a wd next, well_made R -> body R root_value = Some a -> build fuel R = Ok g ->
  elementary R (map snd wd) ->
  (exists rs, sentence g wd next rs) <-> wd <> [] /\ says R (TAlts a) (map snd wd).
Proof. intros R fuel. apply build_as_words. Qed.

Lemma numbered_keys : forall w, map snd (numbered w) = w.
Proof.
  intro w. unfold numbered. enough (H : forall l i, map snd (combine (seq i (length l)) l) = l) by apply H.
  induction l as [|k l IH]; intro i; cbn [length seq combine map snd]; [reflexivity|]. now rewrite IH.
Qed.

Lemma build_sentences : forall N R fuel g a w, well_made R -> body R root_value = Some a -> build_as N fuel R = Ok g ->
  elementary R w ->
  (exists rs, sentence g (numbered w) (length w) rs) <-> w <> [] /\ says R (TAlts a) w.
Proof.
  intros NU R fuel g a w WM B H EL.
  rewrite (build_as_words NU R fuel g a (numbered w) (length w) WM B H); [|now rewrite numbered_keys].
  rewrite numbered_keys. split; intros [N S]; (split; [|exact S]).
  - intros ->. now apply N.
  - intro E. apply N. rewrite <- (numbered_keys w), E. reflexivity.
Qed.

Lemma reads_keys : forall inv i els wd ch, NetSpec.reads inv i els wd ch ->
  (forall e k, In e els -> In k (keys_of e) -> exists v, k = KToken v) ->
  forall k, In k (map snd wd) -> exists v, k = KToken v.
Proof.
  intros inv i els wd ch H. induction H as [i|i e k els w c K R IH|i e k els w c K V R IH]; intros T k' I1.
  - easy.
  - cbn [map snd] in I1. destruct I1 as [<-|I1]; [apply (T e); auto; now left|].
    apply IH; auto. intros e' k2 I2. apply T. now right.
  - apply IH; auto. intros e' k2 I2. apply T. now right.
Qed.

Lemma build_program : forall N R fuel g a w fuel' els s, well_made R -> body R root_value = Some a -> build_as N fuel R = Ok g ->
  (forall e k, In e els -> In k (keys_of e) -> exists v, k = KToken v) ->
  analyze fuel' g w els = Ok s -> s_leaves s <> [] ->
  exists wd ch, NetSpec.reads (w_invisible w) 0 els wd ch /\ says R (TAlts a) (map snd wd).
Proof.
  intros NU R fuel g a w fuel' els s WM B H T AN N.
  destruct (analyze_ok g w (build_as_tidy NU fuel R g H) fuel' els s AN N) as [wd [rs [ch [RD [SE _]]]]].
  exists wd, ch. split; [exact RD|].
  assert (EL : elementary R (map snd wd)).
  { intros b I1. destruct (reads_keys _ _ _ _ _ RD T _ I1). discriminate. }
  apply (build_as_words NU R fuel g a wd (length els) WM B H EL). eauto.
Qed.

(* The analysis ends. *)
Lemma net_of_rules : forall R m b, nt_start (net_of (lay_rules 0 (revise R)) m) b <> None -> In b (map fst R).
Proof.
  intros R m b H. cbn [net_of nt_start] in H.
  destruct (rule_of (lay_rules 0 (revise R)) b) as [x|] eqn:E; [|congruence].
  destruct (rule_of_some (revise R) b x E) as [a [B _]]. rewrite body_revise in B.
  assert (K : body R b <> None) by (destruct (body R b); [discriminate|discriminate B]). clear - K.
  induction R as [|[c a] R IH]; cbn [body map fst] in *; [congruence|].
  destruct (Z.eqb c b) eqn:E; [apply Z.eqb_eq in E; now left|right; auto].
Qed.

Lemma net_of_unknown : forall R m n b, nd_key (nt_node (net_of (lay_rules 0 (revise R)) m) n) = KRef b ->
  nt_start (net_of (lay_rules 0 (revise R)) m) b = None ->
  nd_expandable (nt_node (net_of (lay_rules 0 (revise R)) m) n) = false.
Proof.
  intros R m n b K D. cbn [net_of nt_node nt_start nd_key nd_expandable] in *. rewrite K.
  destruct (rule_of (lay_rules 0 (revise R)) b); [discriminate|reflexivity].
Qed.

Lemma build_as_down : forall N fuel R g,
  (forall b b', body R b <> None -> body R b' <> None -> num_rule N b = num_rule N b' -> b = b') ->
  (forall b n b', begins g b n -> nd_key (nt_node g n) = KRef b' ->
     num_rule N b < num_rule N b' < num_node N n -> ~ clos_refl_trans Z (starts_with g) b' b) ->
  build_as N fuel R = Ok g ->
  exists rank : Z -> nat,
    (forall b, rank b <= length R) /\
    forall b n b', begins g b n -> nd_key (nt_node g n) = KRef b' -> nd_expandable (nt_node g n) = true -> rank b' < rank b.
Proof.
  intros N fuel R g NI IN H. unfold build_as in H. cbv zeta in H.
  destruct (refs_known (lay_rules 0 (revise R))); [|discriminate].
  destruct (exchange_grammar fuel R) as [m| | |] eqn:E; try discriminate. cbn [bind] in H.
  rewrite <- (map_length fst R).
  apply (marked_down fuel N (map fst R) (net_of (lay_rules 0 (revise R)) m) g H (links_tidy fuel R m E)).
  - apply net_of_rules.
  - apply net_of_unknown.
  - assert (Q : forall b, nt_start (net_of (lay_rules 0 (revise R)) m) b <> None -> body R b <> None).
    { intros b D. cbn [net_of nt_start] in D. destruct (rule_of (lay_rules 0 (revise R)) b) as [x|] eqn:X; [|congruence].
      destruct (rule_of_some (revise R) b x X) as [a [B _]]. rewrite body_revise in B. destruct (body R b); [discriminate|discriminate B]. }
    intros b b' D D'. apply NI; auto.
  - exact IN.
Qed.

Lemma build_down : forall fuel R g, build fuel R = Ok g ->
  exists rank : Z -> nat,
    (forall b, rank b <= length R) /\
    forall b n b', begins g b n -> nd_key (nt_node g n) = KRef b' -> nd_expandable (nt_node g n) = true -> rank b' < rank b.
Proof.
  intros fuel R g H. unfold build in H. destruct (build_as_alike _ _ _ _ H) as [m [E AL]].
  assert (P : forall b, body R b <> None -> exists x a, rule_of (lay_rules 0 (revise R)) b = Some x /\
            at_ (lay_rules 0 (revise R)) x = CRule b a).
  { intros b B. destruct (rule_of (lay_rules 0 (revise R)) b) as [x|] eqn:X.
    - destruct (rule_of_some (revise R) b x X) as [a [_ AX]]. exists x, a. auto.
    - apply (rule_of_none (revise R)) in X. rewrite body_revise in X. destruct (body R b); [discriminate|congruence]. }
  apply (build_as_down (places R) fuel R g); [| |exact H]; cbn [places num_rule num_node].
  - intros b b' B B' Q. destruct (P b B) as [x [a [X AX]]], (P b' B') as [x' [a' [X' AX']]]. rewrite X, X' in Q.
    subst x'. rewrite AX in AX'. now injection AX'.
  - intros b n b' B K [L1 L2] C. clear C. pose proof (begins_alike _ _ (alike_sym _ _ AL) _ _ B) as B0.
    destruct (rule_of (lay_rules 0 (revise R)) b') as [x'|] eqn:X'; [|lia].
    destruct (rule_of (lay_rules 0 (revise R)) b) as [x|] eqn:X.
    + destruct (rule_of_some (revise R) b' x' X') as [a' [_ AX']].
      pose proof (links_places fuel R m E b n x x' b' a' B0 X AX' (Nat.lt_le_incl _ _ L2)). lia.
    + destruct B0 as [s [F _]]. cbn [net_of nt_start] in F. rewrite X in F. discriminate.
Qed.

Lemma down_ends : forall (R : grammar) g m w els fuel, tidy g ->
  (exists rank : Z -> nat,
    (forall b, rank b <= length R) /\
    forall b n b', begins g b n -> nd_key (nt_node g n) = KRef b' -> nd_expandable (nt_node g n) = true -> rank b' < rank b) ->
  no_unit_cycle g m -> length R <= m -> (length els + 2) * (m + 2) <= fuel ->
  (exists s, analyze fuel g w els = Ok s) \/ analyze fuel g w els = FormatError.
Proof.
  intros R g m w els fuel T [rank [R1 R2]] [rk [U1 U2]] L F. apply (analyze_ends g m); auto.
  split; [exists rank|exists rk]; (split; [|assumption]); [|exact U1]. intro b. specialize (R1 b). lia.
Qed.

Lemma build_ends : forall fuel R g m w els fuel', build fuel R = Ok g ->
  no_unit_cycle g m -> length R <= m -> (length els + 2) * (m + 2) <= fuel' ->
  (exists s, analyze fuel' g w els = Ok s) \/ analyze fuel' g w els = FormatError.
Proof.
  intros fuel R g m w els fuel' H. apply (down_ends R); [exact (build_tidy _ _ _ H)|exact (build_down _ _ _ H)].
Qed.

Lemma build_as_ends : forall N fuel R g m w els fuel',
  (forall b b', body R b <> None -> body R b' <> None -> num_rule N b = num_rule N b' -> b = b') ->
  (forall b n b', begins g b n -> nd_key (nt_node g n) = KRef b' ->
     num_rule N b < num_rule N b' < num_node N n -> ~ clos_refl_trans Z (starts_with g) b' b) ->
  build_as N fuel R = Ok g ->
  no_unit_cycle g m -> length R <= m -> (length els + 2) * (m + 2) <= fuel' ->
  (exists s, analyze fuel' g w els = Ok s) \/ analyze fuel' g w els = FormatError.
Proof.
  intros N fuel R g m w els fuel' NI IN H. apply (down_ends R); [exact (build_as_tidy _ _ _ _ H)|].
  exact (build_as_down _ _ _ _ NI IN H).
Qed.
