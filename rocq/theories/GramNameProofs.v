(* Names without a rule in grammars: what is reported for them. *)
From Coq Require Import ZArith List Bool Lia.
From Verif Require Import NetModel NetSpec GramModel GramSpec GramLayProofs GramReviseProofs.
Import ListNotations.
Local Open Scope nat_scope.

(* ---- nothing but the check of references reports ---- *)

Definition calm {T} (o : outcome T) : Prop := o <> FormatError.

Lemma calm_ok : forall T (x : T), calm (Ok x).
Proof. discriminate. Qed.

Lemma calm_bind : forall T U (o : outcome T) (f : T -> outcome U), calm o -> (forall x, calm (f x)) -> calm (x <- o ;; f x).
Proof. intros T U [x| | |] f C F; cbn [bind]; [apply F|contradiction|discriminate|discriminate]. Qed.

Lemma calm_all : forall T (f : memory -> T -> outcome memory) l m, (forall m x, calm (f m x)) -> calm (all_of f m l).
Proof.
  intros T f l. induction l as [|x r IH]; intros m C; cbn [all_of]; [discriminate|].
  apply calm_bind; [apply C|intro m'; now apply IH].
Qed.

Lemma calm_append : forall A l n, calm (append A l n).
Proof. intros. unfold append. destruct (mem n l); [discriminate|]. destruct (is_end A n && existsb (is_end A) l); discriminate. Qed.

Lemma calm_judge : forall A deep m n, (forall m v l, calm (deep m v l)) -> calm (judge A deep m n).
Proof.
  intros A deep m n D. unfold judge. destruct (empty_rep (m_rep m n)); [discriminate|].
  destruct (match at_ A n with CPart (Group _) _ _ _ => Some n | CPart (Ref b) _ _ _ => rule_of A b | _ => None end) as [g|]; [|discriminate].
  destruct (known (m_known m) g); [discriminate|]. apply calm_bind; [apply D|]. intros [[v vis] m']. discriminate.
Qed.

Lemma calm_scan : forall A deep l m vis, (forall m v l, calm (deep m v l)) -> calm (scan A deep m vis l).
Proof.
  intros A deep l. induction l as [|n r IH]; intros m vis D; cbn [scan]; [discriminate|].
  destruct (is_end A n); [discriminate|]. apply calm_bind; [now apply calm_judge|]. intros [v m1].
  destruct v; [|now apply IH]. destruct (mem n vis); [now apply IH|]. apply calm_bind; [apply D|].
  intros [[v2 vis2] m2]. destruct v2; [discriminate|now apply IH].
Qed.

Lemma calm_illusory : forall A fuel m vis l, calm (illusory fuel A m vis l).
Proof. intros A fuel. induction fuel as [|f IH]; intros m vis l; cbn [illusory]; [discriminate|]. apply calm_scan. exact IH. Qed.

Lemma calm_link : forall A m p n, calm (link A m p n).
Proof. intros. unfold link. apply calm_bind; [apply calm_append|discriminate]. Qed.

Lemma calm_join : forall A fuel p m u, calm (join fuel A p m u).
Proof.
  intros A fuel. induction fuel as [|f IH]; intros p m u; cbn [join]; [discriminate|].
  apply calm_bind.
  - destruct (at_ A u) as [e r s o|o|b a|]; try discriminate.
    + destruct e; try (apply calm_bind; [apply calm_link|discriminate]). apply calm_all. exact (IH p).
    + destruct (at_ A o); try apply calm_link;
        (apply calm_bind; [apply calm_all; exact (IH p)|intro m'; destruct (loops (m_rep m' o)); [apply calm_all; exact (IH p)|discriminate]]).
  - intro m1. destruct ((p =? u) || is_end A u); [discriminate|].
    assert (J : calm (q <- judge A (illusory f A) m1 u ;; (let '(v, m2) := q in
       if v then all_of (join f A p) m2 (filter (fun n => negb (n =? u)) (m_links m2 u)) else Ok m2))).
    { apply calm_bind; [apply calm_judge; apply calm_illusory|]. intros [v m2]. destruct v; [apply calm_all; exact (IH p)|discriminate]. }
    destruct (repetition A m1 u); try exact J; apply calm_all; exact (IH p).
Qed.

Lemma calm_exchange : forall A fuel m n, calm (exchange fuel A m n).
Proof.
  intros. unfold exchange. apply calm_bind; [apply calm_all; apply calm_join|].
  intro m1. destruct (loops (repetition A m1 n)); [apply calm_join|discriminate].
Qed.

Lemma calm_exchange_all : forall A fuel turns m, calm (exchange_all turns fuel A m).
Proof.
  intros A fuel turns. induction turns as [|t IH]; intro m; cbn [exchange_all]; destruct (m_queue m); try discriminate.
  apply calm_bind; [apply calm_exchange|exact IH].
Qed.

Lemma calm_exchange_grammar : forall fuel R, calm (exchange_grammar fuel R).
Proof.
  intros. unfold exchange_grammar. apply calm_all. intros m x. unfold exchange_rule. apply calm_bind; [|discriminate].
  unfold exchange_branch. apply calm_bind; [apply calm_all; apply calm_join|]. intro m1.
  apply calm_bind; [apply calm_exchange_all|discriminate].
Qed.

Lemma calm_leads : forall g hit v fuel seen n b, calm (leads_back fuel g hit v seen n b).
Proof.
  intros g hit v fuel. induction fuel as [|f IH]; intros seen n b; cbn [leads_back];
    destruct (nt_start g b) as [s|]; try discriminate; destruct (Z.eqb v b); try discriminate;
    destruct (existsb (Z.eqb b) seen); try discriminate.
  generalize (b :: seen). induction s as [|k r IHs]; intro seen'; [discriminate|].
  destruct (nd_key (nt_node g k)); [apply IHs|]. apply calm_bind; [apply IH|].
  intros [h s2]. cbn [fst snd]. destruct h; [discriminate|apply IHs].
Qed.

Lemma calm_flags : forall fuel N g v n, calm (flags fuel N g v n).
Proof.
  intros. unfold flags. destruct (nd_key (nt_node g n)) as [z|b]; [discriminate|]. apply calm_bind; [apply calm_leads|]. intro x.
  destruct (nt_start g b); [|discriminate]. apply calm_bind; [apply calm_leads|discriminate].
Qed.

Lemma calm_mark : forall fuel N vs g, calm (mark_rules fuel N vs g).
Proof.
  intros fuel N vs. induction vs as [|v r IH]; intro g; cbn [mark_rules]; [discriminate|]. apply calm_bind; [|exact IH].
  generalize (match nt_start g v with Some s => s | None => [] end) as l. intro l. revert g.
  induction l as [|n l IHl]; intro g; cbn [mark_nodes]; [discriminate|]. apply calm_bind; [apply calm_flags|].
  intro f. apply IHl.
Qed.

(* ---- the references that are written are those of the nodes ---- *)

Definition ref_cell (c : Z) (x : cell) : Prop := exists r s o, x = CPart (Ref c) r s o.

Lemma lay_refs : forall c,
  (forall e base, (exists x, In x (lay_elem base e) /\ ref_cell c x) <-> match e with Group a => occurs_alts (KRef c) a | _ => False end) /\
  (forall s base o, (exists x, In x (lay_parts base o s) /\ ref_cell c x) <-> occurs_parts (KRef c) s) /\
  (forall a base o, (exists x, In x (lay_alts base o a) /\ ref_cell c x) <-> occurs_alts (KRef c) a).
Proof.
  intro c. apply gram_mind.
  - intros v base. cbn [lay_elem]. split; [intros [x [[] _]]|easy].
  - intros b base. cbn [lay_elem]. split; [intros [x [[] _]]|easy].
  - intros a IH base. cbn [lay_elem]. apply IH.
  - intros base o. cbn [lay_parts occurs_parts]. split; [|easy]. intros [x [[<-|[]] [r [s [o' E]]]]]. discriminate.
  - intros e IHe r s IHs base o. cbn [lay_parts occurs_parts]. split.
    + intros [x [I1 RC]]. cbn [In] in I1. rewrite in_app_iff in I1. destruct I1 as [E|[I1|I1]].
      * left. subst x. destruct RC as [r' [s' [o' E]]]. injection E as -> _ _ _. reflexivity.
      * left. assert (Q := proj1 (IHe base) (ex_intro _ x (conj I1 RC))). destruct e; [easy|easy|exact Q].
      * right. exact (proj1 (IHs _ _) (ex_intro _ x (conj I1 RC))).
    + intros [O|O].
      * destruct e as [v|b|a]; cbn [occurs_elem] in O; [discriminate| |].
        -- injection O as <-. eexists. split; [now left|]. red. eauto.
        -- destruct (proj2 (IHe base) O) as [x [I1 RC]]. exists x. split; [|exact RC]. right. apply in_app_iff. now left.
      * destruct (proj2 (IHs (base + size_elem e) o) O) as [x [I1 RC]]. exists x. split; [|exact RC]. right. apply in_app_iff. now right.
  - intros base o. cbn [lay_alts occurs_alts]. split; [intros [x [[] _]]|easy].
  - intros s IHs a IHa base o. cbn [lay_alts occurs_alts]. destruct s as [|e r s]; cbn [is_done].
    + rewrite IHa. cbn [occurs_parts]. tauto.
    + split.
      * intros [x [I1 RC]]. apply in_app_iff in I1. destruct I1 as [I1|I1].
        -- left. exact (proj1 (IHs _ _) (ex_intro _ x (conj I1 RC))).
        -- right. exact (proj1 (IHa _ _) (ex_intro _ x (conj I1 RC))).
      * intros [O|O].
        -- destruct (proj2 (IHs base o) O) as [x [I1 RC]]. exists x. split; [|exact RC]. apply in_app_iff. now left.
        -- destruct (proj2 (IHa (base + size_parts (Then e r s)) o) O) as [x [I1 RC]]. exists x. split; [|exact RC]. apply in_app_iff. now right.
Qed.

Lemma lay_rules_refs : forall c R base,
  (exists x, In x (lay_rules base R) /\ ref_cell c x) <-> exists b a, In (b, a) R /\ occurs_alts (KRef c) a.
Proof.
  intros c R. induction R as [|[b a] R IH]; intro base; cbn [lay_rules].
  - split; [intros [x [[] _]]|intros [b [a [[] _]]]].
  - split.
    + intros [x [I1 RC]]. cbn [In] in I1. rewrite in_app_iff in I1. destruct I1 as [E|[I1|I1]].
      * subst x. destruct RC as [r [s [o E]]]. discriminate.
      * exists b, a. split; [now left|]. exact (proj1 (proj2 (proj2 (lay_refs c)) a _ _) (ex_intro _ x (conj I1 RC))).
      * destruct (proj1 (IH _) (ex_intro _ x (conj I1 RC))) as [b' [a' [I2 O]]]. exists b', a'. split; [now right|exact O].
    + intros [b' [a' [[E|I1] O]]].
      * injection E as -> ->. destruct (proj2 (proj2 (proj2 (lay_refs c)) a' (S base) base) O) as [x [I2 RC]].
        exists x. split; [|exact RC]. right. apply in_app_iff. now left.
      * destruct (proj2 (IH (base + S (size_alts a))) (ex_intro _ b' (ex_intro _ a' (conj I1 O)))) as [x [I2 RC]].
        exists x. split; [|exact RC]. right. apply in_app_iff. now right.
Qed.

Lemma revise_keeps : forall k,
  (forall e, match e with Group a => forall o, occurs_alts k a -> occurs_alts k (revise_alts o a) | _ => True end) /\
  (forall s, forall o, occurs_parts k s -> occurs_parts k (revise_parts o s)) /\
  (forall a, forall o, occurs_alts k a -> occurs_alts k (revise_alts o a)).
Proof.
  intro k. apply gram_mind; try exact (fun _ => Logic.I); auto.
  - intros e IHe r s IHs o H. cbn [revise_parts].
    destruct e as [v|b|a]; cbn [occurs_parts occurs_elem] in *; auto.
    destruct (lone a); cbn [occurs_parts occurs_elem]; destruct H as [H|H]; auto.
  - intros s IHs a IHa o [H|H]; cbn [revise_alts occurs_alts]; auto.
Qed.

Lemma refs_known_spec : forall R, refs_known (lay_rules 0 (revise R)) = true <->
  forall b a c, In (b, a) R -> occurs_alts (KRef c) a -> c <> root_value /\ (body R c = None -> (0 <= c)%Z).
Proof.
  intro R. unfold refs_known. rewrite forallb_forall. split.
  - intros K b a c I1 O.
    assert (P : exists b a, In (b, a) (revise R) /\ occurs_alts (KRef c) a).
    { exists b, (revise_alts Once a). split; [|now apply (proj2 (proj2 (revise_keeps (KRef c))))].
      unfold revise. apply in_map_iff. exists (b, a). auto. }
    apply (lay_rules_refs c (revise R) 0) in P. destruct P as [x [I2 [r [s [o E]]]]].
    destruct (In_nth _ _ CNone I2) as [n [L X]].
    specialize (K n). rewrite filter_In, in_seq in K.
    assert (At : at_ (lay_rules 0 (revise R)) n = CPart (Ref c) r s o) by (unfold at_; now rewrite X).
    assert (Q : known_ref (lay_rules 0 (revise R)) n = true) by (apply K; split; [lia|unfold is_leaf; now rewrite At]).
    unfold known_ref, leaf_key in Q. rewrite At in Q. apply andb_true_iff in Q. destruct Q as [Q1 Q2].
    split.
    + intro E0. rewrite E0 in Q1. discriminate.
    + intro B. destruct (rule_of (lay_rules 0 (revise R)) c) as [z|] eqn:RO.
      * destruct (rule_of_some (revise R) c z RO) as [a' [B' _]]. rewrite body_revise, B in B'. discriminate.
      * apply negb_true_iff, Z.ltb_ge in Q2. exact Q2.
  - intros K n I1. rewrite filter_In, in_seq in I1. destruct I1 as [[_ L] LF]. unfold known_ref.
    unfold is_leaf in LF. unfold leaf_key. destruct (at_ (lay_rules 0 (revise R)) n) as [e r s o|o|b a|] eqn:At; try discriminate.
    destruct e as [v|c|a]; try discriminate; [reflexivity|].
    assert (P : exists x, In x (lay_rules 0 (revise R)) /\ ref_cell c x).
    { exists (CPart (Ref c) r s o). split; [|red; eauto]. rewrite <- At. apply nth_In. lia. }
    apply lay_rules_refs in P. destruct P as [b [a [I2 O]]]. unfold revise in I2. apply in_map_iff in I2.
    destruct I2 as [[b' a'] [E I2]]. injection E as <- <-. cbn [fst snd] in O.
    apply (proj2 (proj2 (revise_occurs (KRef c)))) in O. destruct (K b' a' c I2 O) as [N0 B].
    apply andb_true_iff. split; [apply negb_true_iff, Z.eqb_neq, N0|].
    destruct (rule_of (lay_rules 0 (revise R)) c) eqn:RO; [reflexivity|]. apply (rule_of_none (revise R)) in RO.
    rewrite body_revise in RO. destruct (body R c) eqn:BC; [discriminate|]. apply negb_true_iff, Z.ltb_ge. auto.
Qed.

(* A grammar is reported exactly when it refers to the root or to a name nothing
   defines. *)
Lemma build_reported : forall N fuel R, build_as N fuel R = FormatError <->
  exists b a c, In (b, a) R /\ occurs_alts (KRef c) a /\ (c = root_value \/ (c < 0)%Z /\ body R c = None).
Proof.
  intros N fuel R. unfold build_as. destruct (refs_known (lay_rules 0 (revise R))) eqn:K.
  - split.
    + intro H. exfalso. revert H. apply calm_bind; [apply calm_exchange_grammar|]. intro m. apply calm_mark.
    + intros [b [a [c [I1 [O U]]]]]. destruct (proj1 (refs_known_spec R) K b a c I1 O) as [N0 B].
      destruct U as [E|[L E]]; [contradiction|]. specialize (B E). lia.
  - split; [intros _|reflexivity].
    destruct (existsb (fun n => negb (known_ref (lay_rules 0 (revise R)) n)) (filter (is_leaf (lay_rules 0 (revise R))) (seq 0 (length (lay_rules 0 (revise R)))))) eqn:X.
    + apply existsb_exists in X. destruct X as [n [I1 U]]. rewrite filter_In, in_seq in I1. destruct I1 as [[_ L] LF].
      unfold known_ref, leaf_key in U. unfold is_leaf in LF.
      destruct (at_ (lay_rules 0 (revise R)) n) as [e r s o|o|b a|] eqn:At; try discriminate.
      destruct e as [v|c|a]; try discriminate.
      assert (P : exists x, In x (lay_rules 0 (revise R)) /\ ref_cell c x).
      { exists (CPart (Ref c) r s o). split; [|red; eauto]. rewrite <- At. apply nth_In. lia. }
      apply lay_rules_refs in P. destruct P as [b [a [I2 O]]]. unfold revise in I2. apply in_map_iff in I2.
      destruct I2 as [[b' a'] [E I2]]. injection E as <- <-. cbn [fst snd] in O.
      apply (proj2 (proj2 (revise_occurs (KRef c)))) in O. exists b', a', c. split; [exact I2|]. split; [exact O|].
      apply negb_true_iff, andb_false_iff in U. destruct U as [U|U].
      * left. now apply negb_false_iff, Z.eqb_eq in U.
      * right. destruct (rule_of (lay_rules 0 (revise R)) c) eqn:RO; [discriminate|]. apply negb_false_iff, Z.ltb_lt in U.
        split; [exact U|]. apply (rule_of_none (revise R)) in RO. rewrite body_revise in RO. destruct (body R c); [discriminate|reflexivity].
    + exfalso. enough (refs_known (lay_rules 0 (revise R)) = true) by congruence. unfold refs_known. apply forallb_forall.
      intros n I1. destruct (known_ref (lay_rules 0 (revise R)) n) eqn:Q; [reflexivity|].
      assert (T : existsb (fun n => negb (known_ref (lay_rules 0 (revise R)) n)) (filter (is_leaf (lay_rules 0 (revise R))) (seq 0 (length (lay_rules 0 (revise R))))) = true)
        by (apply existsb_exists; exists n; split; [exact I1|now rewrite Q]).
      congruence.
Qed.
