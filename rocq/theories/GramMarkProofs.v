(* The flags for left recursion: what they do not change, and that the expansion
   of references comes to an end. *)
From Coq Require Import ZArith List Bool Lia Relations.
From Verif Require Import XilModel NetModel NetSpec GramModel GramSpec GramLayProofs.
Import ListNotations.
Local Open Scope nat_scope.

(* Nets that differ in their flags only. *)
Definition alike_links (g g' : net) : Prop :=
  (forall n, nd_key (nt_node g' n) = nd_key (nt_node g n) /\ nd_next (nt_node g' n) = nd_next (nt_node g n) /\
             nd_end (nt_node g' n) = nd_end (nt_node g n)) /\
  (forall b, nt_start g' b = nt_start g b).

Lemma alike_refl : forall g, alike_links g g.
Proof. intro g. repeat split. Qed.

Lemma alike_trans : forall g1 g2 g3, alike_links g1 g2 -> alike_links g2 g3 -> alike_links g1 g3.
Proof.
  intros g1 g2 g3 [N1 S1] [N2 S2]. split.
  - intro n. destruct (N1 n) as [A1 [B1 C1]], (N2 n) as [A2 [B2 C2]]. repeat split; congruence.
  - intro b. now rewrite S2.
Qed.

Lemma alike_sym : forall g1 g2, alike_links g1 g2 -> alike_links g2 g1.
Proof.
  intros g1 g2 [N1 S1]. split; [|intro b; now rewrite S1].
  intro n. destruct (N1 n) as [A1 [B1 C1]]. auto.
Qed.

Lemma with_flags_alike : forall g n f, alike_links g (with_flags g n f).
Proof.
  intros g n f. unfold with_flags. split; [|reflexivity]. intro k. cbn [nt_node]. destruct (k =? n); repeat split.
Qed.

Lemma mark_nodes_alike : forall fuel N v l g g', mark_nodes fuel N v l g = Ok g' -> alike_links g g'.
Proof.
  intros fuel N v. induction l as [|n l IH]; intros g g' H; cbn [mark_nodes] in H.
  - injection H as <-. apply alike_refl.
  - destruct (flags fuel N g v n) as [f| | |]; try discriminate. cbn [bind] in H. apply IH in H.
    exact (alike_trans _ _ _ (with_flags_alike g n f) H).
Qed.

Lemma mark_rules_alike : forall fuel N vs g g', mark_rules fuel N vs g = Ok g' -> alike_links g g'.
Proof.
  intros fuel N. induction vs as [|v vs IH]; intros g g' H; cbn [mark_rules] in H.
  - injection H as <-. apply alike_refl.
  - destruct (mark_nodes fuel N v (match nt_start g v with Some s => s | None => [] end) g) as [g1| | |] eqn:E; try discriminate.
    cbn [bind] in H. apply IH in H. exact (alike_trans _ _ _ (mark_nodes_alike _ _ _ _ _ _ E) H).
Qed.

Lemma begins_alike : forall g g', alike_links g g' -> forall b n, begins g b n -> begins g' b n.
Proof. intros g g' [_ S] b n [s [E I1]]. exists s. now rewrite S. Qed.

Scheme matches_walks := Induction for matches Sort Prop
  with walks_matches := Induction for walks Sort Prop.

Lemma alike_walks : forall g g', alike_links g g' ->
  forall b n w next rs, walks g b n w next rs -> walks g' b n w next rs.
Proof.
  intros g g' A.
  refine (walks_matches g (fun n w next rs _ => matches g' n w next rs) (fun b n w next rs _ => walks g' b n w next rs) _ _ _ _).
  - intros n i next. rewrite <- (proj1 (proj1 A n)). apply match_element.
  - intros n b m w next rs K W IH E. apply (match_branch g' n b m); auto.
    + now rewrite (proj1 (proj1 A n)).
    + now rewrite (proj2 (proj2 (proj1 A m))).
  - intros b n w next rs B M IH. apply walk_start; auto. now apply (begins_alike g).
  - intros b m n w1 w2 next rs1 rs2 W IH I1 M IH2. apply (walk_next g' b m); auto.
    now rewrite (proj1 (proj2 (proj1 A m))).
Qed.

Lemma alike_sentence : forall g g', alike_links g g' ->
  forall w next rs, sentence g w next rs <-> sentence g' w next rs.
Proof.
  intros g g' A w next rs. split; intros [n [W E]]; exists n.
  - split; [now apply (alike_walks g)|]. now rewrite (proj2 (proj2 (proj1 A n))).
  - split; [apply (alike_walks g' g (alike_sym _ _ A)), W|]. now rewrite <- (proj2 (proj2 (proj1 A n))).
Qed.

Lemma alike_tidy : forall g g', alike_links g g' -> tidy g -> tidy g'.
Proof.
  intros g g' A [own [H1 [H2 H3]]]. exists own. split; [|split].
  - intros b n B. apply H1. exact (begins_alike g' g (alike_sym _ _ A) b n B).
  - intros n m I1. apply H2. now rewrite <- (proj1 (proj2 (proj1 A n))).
  - intros n b E. apply H3. now rewrite <- (proj2 (proj2 (proj1 A n))).
Qed.

Lemma build_as_alike : forall N fuel R g, build_as N fuel R = Ok g ->
  exists m, exchange_grammar fuel R = Ok m /\ alike_links (net_of (lay_rules 0 (revise R)) m) g.
Proof.
  intros N fuel R g H. unfold build_as in H. cbv zeta in H.
  destruct (refs_known (lay_rules 0 (revise R))); [|discriminate].
  destruct (exchange_grammar fuel R) as [m| | |]; try discriminate. cbn [bind] in H.
  exists m. split; [reflexivity|]. exact (mark_rules_alike _ _ _ _ _ H).
Qed.

(* ---- the search ---- *)

Definition chain (g : net) : Z -> Z -> Prop := clos_refl_trans Z (starts_with g).

Section Search.

Variable g : net.
Variable v : Z.

Definition searched (seen seen' : list Z) : Prop :=
  incl seen seen' /\
  forall c, In c seen' -> ~ In c seen ->
    c <> v /\ forall d, starts_with g c d -> d <> v /\ In d seen'.

Lemma searched_refl : forall seen, searched seen seen.
Proof. intro seen. split; [apply incl_refl|]. contradiction. Qed.

Lemma searched_trans : forall s1 s2 s3, searched s1 s2 -> searched s2 s3 -> searched s1 s3.
Proof.
  intros s1 s2 s3 [I1 C1] [I2 C2]. split; [exact (incl_tran I1 I2)|]. intros c H N.
  destruct (in_dec Z.eq_dec c s2) as [H2|H2].
  - destruct (C1 c H2 N) as [NE D]. split; [exact NE|]. intros d S. destruct (D d S). split; auto.
  - now apply C2.
Qed.

Lemma search_none : forall fuel seen n b seen',
  leads_back fuel g (fun _ => true) v seen n b = Ok (false, seen') ->
  searched seen seen' /\ (nt_start g b <> None -> b <> v /\ In b seen').
Proof.
  induction fuel as [|f IH]; intros seen n b seen' H; cbn [leads_back] in H;
    (destruct (nt_start g b) as [s|] eqn:S; [|injection H as <-; split; [apply searched_refl|congruence]]);
    (destruct (Z.eqb v b) eqn:EV; [discriminate|]);
    (destruct (existsb (Z.eqb b) seen) eqn:EX;
      [injection H as <-; split; [apply searched_refl|]; intros _; split; [apply Z.eqb_neq in EV; congruence|];
       apply existsb_exists in EX; destruct EX as [x [I1 E]]; apply Z.eqb_eq in E; now subst|]);
    [discriminate|].
  assert (NV : b <> v) by (apply Z.eqb_neq in EV; congruence).
  assert (Q : forall (s : list nat) seen0 seen1,
    (fix go (s : list nat) (seen : list Z) : outcome (bool * list Z) :=
       match s with
       | [] => Ok (false, seen)
       | k :: r =>
           match nd_key (nt_node g k) with
           | KToken _ => go r seen
           | KRef c =>
               y <- leads_back f g (fun _ => true) v seen k c ;;
               if fst y then Ok (true, snd y) else go r (snd y)
           end
       end) s seen0 = Ok (false, seen1) ->
    searched seen0 seen1 /\
    forall k c, In k s -> nd_key (nt_node g k) = KRef c -> nt_start g c <> None -> c <> v /\ In c seen1).
  { induction s0 as [|k r IHs]; intros seen0 seen1 K.
    - injection K as <-. split; [apply searched_refl|easy].
    - destruct (nd_key (nt_node g k)) as [t|c] eqn:KE.
      + apply IHs in K. destruct K as [K1 K2]. split; [exact K1|]. intros k' c [<-|I1] E D; [congruence|eauto].
      + destruct (leads_back f g (fun _ => true) v seen0 k c) as [[y1 y2]| | |] eqn:L; try discriminate.
        cbn [bind fst snd] in K. destruct y1; [discriminate|]. apply IH in L. destruct L as [L1 L2].
        apply IHs in K. destruct K as [K1 K2]. split; [exact (searched_trans _ _ _ L1 K1)|].
        intros k' c' [<-|I1] E D; [|eauto]. rewrite KE in E. injection E as <-. destruct (L2 D). split; [assumption|].
        now apply (proj1 K1). }
  apply Q in H. destruct H as [[I1 C1] C2].
  assert (IB : In b seen') by (apply I1; now left).
  split; [|auto]. split; [intros c I2; apply I1; now right|].
  intros c I2 NI. destruct (Z.eq_dec c b) as [->|NE].
  - split; [exact NV|]. intros d [n' [[s' [E I3]] [K D]]]. rewrite S in E. injection E as <-. eauto.
  - apply C1; [exact I2|]. intros [<-|I3]; [now apply NE|now apply NI].
Qed.

(* What is not found is not there. *)
Lemma not_found : forall fuel n b seen',
  leads_back fuel g (fun _ => true) v [] n b = Ok (false, seen') -> nt_start g b <> None -> ~ chain g b v.
Proof.
  intros fuel n b seen' H D C. apply search_none in H. destruct H as [[_ C1] C2].
  destruct (C2 D) as [NV IB]. clear C2 D.
  assert (Q : forall x y, clos_refl_trans_1n Z (starts_with g) x y -> In x seen' -> x <> v -> y <> v).
  { intros x y P. induction P as [|x y z S P IH]; intros I1 N1; [exact N1|].
    destruct (C1 x I1 (fun F => F)) as [_ D1]. destruct (D1 y S) as [N2 I2]. auto. }
  apply clos_rt_rt1n in C. exact (Q b v C IB NV eq_refl).
Qed.

(* What is found is there. *)
Lemma found : forall fuel hit seen n b seen', leads_back fuel g hit v seen n b = Ok (true, seen') -> chain g b v.
Proof.
  induction fuel as [|f IH]; intros hit seen n b seen' H; cbn [leads_back] in H;
    (destruct (nt_start g b) as [s|] eqn:S; [|discriminate]);
    (destruct (Z.eqb v b) eqn:EV; [apply Z.eqb_eq in EV; subst; apply rt_refl|]);
    (destruct (existsb (Z.eqb b) seen); [discriminate|]); [discriminate|].
  assert (Q : forall (s0 : list nat) seen0 seen1, incl s0 s ->
    (fix go (s : list nat) (seen : list Z) : outcome (bool * list Z) :=
       match s with
       | [] => Ok (false, seen)
       | k :: r =>
           match nd_key (nt_node g k) with
           | KToken _ => go r seen
           | KRef c =>
               y <- leads_back f g hit v seen k c ;;
               if fst y then Ok (true, snd y) else go r (snd y)
           end
       end) s0 seen0 = Ok (true, seen1) -> chain g b v).
  { induction s0 as [|k r IHs]; intros seen0 seen1 IN K; [discriminate|].
    assert (IR : incl r s) by (intros x I1; apply IN; now right).
    destruct (nd_key (nt_node g k)) as [t|c] eqn:KE; [eauto|].
    destruct (leads_back f g hit v seen0 k c) as [[y1 y2]| | |] eqn:L; try discriminate.
    cbn [bind fst snd] in K. destruct y1; [|eauto].
    assert (D : nt_start g c <> None) by (intro N; destruct f; cbn [leads_back] in L; rewrite N in L; discriminate).
    apply IH in L. apply rt_trans with c; [|exact L]. apply rt_step. exists k. split; [|auto].
    exists s. split; [exact S|]. apply IN. now left. }
  exact (Q s _ _ (incl_refl s) H).
Qed.

End Search.

(* ---- what the flags are ---- *)

Lemma leads_back_alike : forall g g' hit hit', alike_links g g' -> (forall n, hit' n = hit n) ->
  forall fuel v seen n b, leads_back fuel g' hit' v seen n b = leads_back fuel g hit v seen n b.
Proof.
  intros g g' hit hit' [AN AS] HH. induction fuel as [|f IH]; intros v seen n b; cbn [leads_back]; rewrite AS, HH; [reflexivity|].
  destruct (nt_start g b) as [s|]; [|reflexivity]. destruct (Z.eqb v b); [reflexivity|].
  destruct (existsb (Z.eqb b) seen); [reflexivity|].
  generalize (b :: seen). induction s as [|k r IHs]; intro seen0; [reflexivity|].
  rewrite (proj1 (AN k)). destruct (nd_key (nt_node g k)) as [t|c]; [apply IHs|]. rewrite IH.
  destruct (leads_back f g hit v seen0 k c) as [y| | |]; try reflexivity. cbn [bind].
  destruct (fst y); [reflexivity|]. apply IHs.
Qed.

Lemma final_alike : forall g g', alike_links g g' -> forall n, final g' n = final g n.
Proof. intros g g' [AN _] n. unfold final. now rewrite (proj1 (proj2 (AN n))). Qed.

Lemma flags_alike : forall fuel N g g' v n b, alike_links g g' -> nd_key (nt_node g n) = KRef b -> nt_start g b <> None ->
  flags fuel N g' v n = flags fuel N g v n.
Proof.
  intros fuel N g g' v n b A K D. unfold flags. rewrite (proj1 (proj1 A n)), K, (proj2 A b).
  rewrite (leads_back_alike g g' (fun _ => true) (fun _ => true) A (fun _ => eq_refl)).
  rewrite (leads_back_alike g g' (final g) (final g') A (final_alike g g' A)).
  destruct (nt_start g b); [reflexivity|congruence].
Qed.

(* A node that is not visited keeps its flags; one that is has those of a rule
   it is a beginning of. *)
Definition flags_of (g : net) (n : nat) : bool * bool := (nd_expandable (nt_node g n), nd_dead (nt_node g n)).

Lemma with_flags_same : forall g n f, flags_of (with_flags g n f) n = f.
Proof. intros g n [x y]. unfold flags_of, with_flags. cbn [nt_node]. now rewrite Nat.eqb_refl. Qed.

Lemma with_flags_other : forall g n f k, k <> n -> flags_of (with_flags g n f) k = flags_of g k.
Proof. intros g n f k H. unfold flags_of, with_flags. cbn [nt_node]. apply Nat.eqb_neq in H. now rewrite H. Qed.

Lemma mark_nodes_flags : forall fuel N v l g g', mark_nodes fuel N v l g = Ok g' ->
  forall n b, nd_key (nt_node g n) = KRef b -> nt_start g b <> None ->
    (In n l -> flags fuel N g v n = Ok (flags_of g' n)) /\ (~ In n l -> flags_of g' n = flags_of g n).
Proof.
  intros fuel N v. induction l as [|k l IH]; intros g g' H n b K D; cbn [mark_nodes] in H.
  - injection H as <-. split; [easy|reflexivity].
  - destruct (flags fuel N g v k) as [f| | |] eqn:F; try discriminate. cbn [bind] in H.
    pose proof (with_flags_alike g k f) as A.
    assert (K' : nd_key (nt_node (with_flags g k f) n) = KRef b) by (now rewrite (proj1 (proj1 A n))).
    assert (D' : nt_start (with_flags g k f) b <> None) by (now rewrite (proj2 A)).
    destruct (IH _ _ H n b K' D') as [I1 I2]. split.
    + intro I3. destruct (in_dec Nat.eq_dec n l) as [I4|I4].
      * rewrite <- (I1 I4). symmetry. now apply (flags_alike _ _ _ _ _ _ b).
      * destruct I3 as [->|I3]; [|contradiction]. rewrite (I2 I4), with_flags_same. exact F.
    + intro I3. rewrite I2; [|intro I4; apply I3; now right]. apply with_flags_other. intro E. apply I3. now left.
Qed.

Lemma mark_rules_flags : forall fuel N vs g g', mark_rules fuel N vs g = Ok g' ->
  forall n b, nd_key (nt_node g n) = KRef b -> nt_start g b <> None ->
    (exists v, In v vs /\ begins g v n /\ flags fuel N g v n = Ok (flags_of g' n)) \/
    (forall v, In v vs -> ~ begins g v n) /\ flags_of g' n = flags_of g n.
Proof.
  intros fuel N. induction vs as [|v vs IH]; intros g g' H n b K D; cbn [mark_rules] in H.
  - injection H as <-. right. split; [easy|reflexivity].
  - destruct (mark_nodes fuel N v (match nt_start g v with Some s => s | None => [] end) g) as [g1| | |] eqn:E; try discriminate.
    cbn [bind] in H. pose proof (mark_nodes_alike _ _ _ _ _ _ E) as A.
    assert (K' : nd_key (nt_node g1 n) = KRef b) by (now rewrite (proj1 (proj1 A n))).
    assert (D' : nt_start g1 b <> None) by (now rewrite (proj2 A)).
    destruct (mark_nodes_flags _ _ _ _ _ _ E n b K D) as [M1 M2].
    destruct (IH _ _ H n b K' D') as [[u [I1 [B F]]]|[NB F]].
    + left. exists u. split; [now right|]. split; [exact (begins_alike _ _ (alike_sym _ _ A) _ _ B)|].
      now rewrite <- (flags_alike fuel N g g1 u n b A K D).
    + destruct (in_dec Nat.eq_dec n (match nt_start g v with Some s => s | None => [] end)) as [I1|I1].
      * left. exists v. split; [now left|]. split.
        -- destruct (nt_start g v) as [s|] eqn:S; [|destruct I1]. now exists s.
        -- rewrite F. auto.
      * right. split; [|now rewrite F, M2]. intros u [<-|I2] B.
        -- apply I1. destruct B as [s [-> I2]]. exact I2.
        -- exact (NB u I2 (begins_alike _ _ A _ _ B)).
Qed.

(* A reference to a symbol without a rule keeps not being expanded. *)
Lemma mark_nodes_unknown : forall fuel N v l g g', mark_nodes fuel N v l g = Ok g' ->
  forall n b, nd_key (nt_node g n) = KRef b -> nt_start g b = None ->
    nd_expandable (nt_node g n) = false -> nd_expandable (nt_node g' n) = false.
Proof.
  intros fuel N v. induction l as [|k l IH]; intros g g' H n b K D X; cbn [mark_nodes] in H.
  - now injection H as <-.
  - destruct (flags fuel N g v k) as [f| | |] eqn:F; try discriminate. cbn [bind] in H.
    pose proof (with_flags_alike g k f) as A. apply (IH _ _ H n b).
    + now rewrite (proj1 (proj1 A n)).
    + now rewrite (proj2 A).
    + unfold with_flags. cbn [nt_node]. destruct (n =? k) eqn:E; [|exact X]. apply Nat.eqb_eq in E. subst k.
      cbn [nd_expandable]. unfold flags in F. rewrite K, D in F.
      destruct (leads_back fuel g (fun _ => true) v [] n b); try discriminate. cbn [bind] in F. now injection F as <-.
Qed.

Lemma mark_rules_unknown : forall fuel N vs g g', mark_rules fuel N vs g = Ok g' ->
  forall n b, nd_key (nt_node g n) = KRef b -> nt_start g b = None ->
    nd_expandable (nt_node g n) = false -> nd_expandable (nt_node g' n) = false.
Proof.
  intros fuel N. induction vs as [|v vs IH]; intros g g' H n b K D X; cbn [mark_rules] in H.
  - now injection H as <-.
  - destruct (mark_nodes fuel N v (match nt_start g v with Some s => s | None => [] end) g) as [g1| | |] eqn:E; try discriminate.
    cbn [bind] in H. pose proof (mark_nodes_alike _ _ _ _ _ _ E) as A. apply (IH _ _ H n b).
    + now rewrite (proj1 (proj1 A n)).
    + now rewrite (proj2 A).
    + exact (mark_nodes_unknown _ _ _ _ _ _ E n b K D X).
Qed.

(* ---- ranks ---- *)

Section Height.

Variable succ : Z -> list Z.
Variable dom : list Z.

Definition edge (x y : Z) : Prop := In y (succ x).

Hypothesis in_dom : forall x y, edge x y -> In y dom.
Hypothesis acyclic : forall x, ~ clos_trans Z edge x x.

Fixpoint height (k : nat) (x : Z) : nat :=
  match k with
  | O => O
  | S k' => fold_right (fun y h => Nat.max (S (height k' y)) h) 0 (succ x)
  end.

Inductive path : Z -> list Z -> Prop :=
| path_nil x : path x []
| path_cons x y l : edge x y -> path y l -> path x (y :: l).

Lemma max_in : forall (f : Z -> nat) l,
  fold_right (fun y h => Nat.max (S (f y)) h) 0 l = 0 \/
  exists y, In y l /\ fold_right (fun y h => Nat.max (S (f y)) h) 0 l = S (f y).
Proof.
  intros f. induction l as [|y l IH]; [now left|]. right. cbn [fold_right].
  destruct (Nat.max_spec (S (f y)) (fold_right (fun y h => Nat.max (S (f y)) h) 0 l)) as [[L ->]|[L ->]].
  - destruct IH as [IH|[z [I1 IH]]]; [lia|]. exists z. split; [now right|exact IH].
  - exists y. split; [now left|reflexivity].
Qed.

Lemma max_le : forall (f : Z -> nat) l y, In y l -> S (f y) <= fold_right (fun y h => Nat.max (S (f y)) h) 0 l.
Proof.
  intros f. induction l as [|z l IH]; intros y [].
  - subst. cbn [fold_right]. lia.
  - cbn [fold_right]. specialize (IH y H). lia.
Qed.

Lemma height_path : forall k x, exists l, path x l /\ length l = height k x.
Proof.
  induction k as [|k IH]; intro x; [exists []; split; [constructor|reflexivity]|].
  cbn [height]. destruct (max_in (height k) (succ x)) as [E|[y [I1 E]]]; rewrite E.
  - exists []. split; [constructor|reflexivity].
  - destruct (IH y) as [l [P L]]. exists (y :: l). split; [now constructor|]. cbn [length]. now rewrite L.
Qed.

Lemma path_height : forall k x l, path x l -> length l <= k -> length l <= height k x.
Proof.
  induction k as [|k IH]; intros x l P L; [lia|]. destruct P as [|x y l E P]; [cbn; lia|].
  cbn [length height] in *. specialize (IH y l P ltac:(lia)). pose proof (max_le (height k) (succ x) y E). lia.
Qed.

Lemma path_trans : forall x l, path x l -> forall y, In y l -> clos_trans Z edge x y.
Proof.
  intros x l P. induction P as [|x y l E P IH]; intros z I1; [easy|]. destruct I1 as [<-|I1]; [now apply t_step|].
  apply t_trans with y; [now apply t_step|auto].
Qed.

Lemma path_nodup : forall x l, path x l -> NoDup l /\ incl l dom.
Proof.
  intros x l P. induction P as [|x y l E P [IH1 IH2]]; [split; [constructor|easy]|]. split.
  - constructor; [|exact IH1]. intro I1. exact (acyclic y (path_trans y l P y I1)).
  - intros z [<-|I1]; [now apply (in_dom x)|auto].
Qed.

Lemma heights : (forall x, height (length dom) x <= length dom) /\
  forall x y, edge x y -> height (length dom) y < height (length dom) x.
Proof.
  split.
  - intro x. destruct (height_path (length dom) x) as [l [P L]]. rewrite <- L. destruct (path_nodup x l P) as [N I1].
    now apply NoDup_incl_length.
  - intros x y E. destruct (height_path (length dom) y) as [l [P L]]. rewrite <- L.
    assert (Q : path x (y :: l)) by (now constructor). destruct (path_nodup x _ Q) as [N I1].
    exact (path_height (length dom) x (y :: l) Q (NoDup_incl_length N I1)).
Qed.

End Height.

(* ---- the expansion ends ---- *)

Section Marked.

Variable fuel : nat.
Variable N : numbers.
Variable vs : list Z.
Variables g0 g : net.
Hypothesis marked : mark_rules fuel N vs g0 = Ok g.
Hypothesis is_tidy : tidy g0.
Hypothesis rules : forall b, nt_start g0 b <> None -> In b vs.
Hypothesis unknown : forall n b, nd_key (nt_node g0 n) = KRef b -> nt_start g0 b = None -> nd_expandable (nt_node g0 n) = false.
Hypothesis apart : forall b b', nt_start g0 b <> None -> nt_start g0 b' <> None -> num_rule N b = num_rule N b' -> b = b'.
(* no rule can begin with a rule that was read in the middle of it and that can
   begin with it *)
Hypothesis inner : forall b n b', begins g b n -> nd_key (nt_node g n) = KRef b' ->
  num_rule N b < num_rule N b' < num_node N n -> ~ chain g b' b.

Let same : alike_links g0 g := mark_rules_alike fuel N vs g0 g marked.

Definition expanded (b : Z) : list Z :=
  match nt_start g b with
  | None => []
  | Some s => flat_map (fun n => match nd_key (nt_node g n) with
                                 | KRef b' => if nd_expandable (nt_node g n) then [b'] else []
                                 | KToken _ => []
                                 end) s
  end.

Lemma expanded_in : forall b b', In b' (expanded b) <->
  exists n, begins g b n /\ nd_key (nt_node g n) = KRef b' /\ nd_expandable (nt_node g n) = true.
Proof.
  intros b b'. unfold expanded, begins. destruct (nt_start g b) as [s|].
  - rewrite in_flat_map. split.
    + intros [n [I1 I2]]. exists n. split; [eauto|]. destruct (nd_key (nt_node g n)) as [t|c]; [destruct I2|].
      destruct (nd_expandable (nt_node g n)); [|destruct I2]. destruct I2 as [<-|[]]. auto.
    + intros [n [[s' [E I1]] [K X]]]. injection E as <-. exists n. split; [exact I1|]. rewrite K, X. now left.
  - split; [easy|]. intros [n [[s' [E _]] _]]. discriminate.
Qed.

Lemma expanded_known : forall n b, nd_key (nt_node g n) = KRef b -> nd_expandable (nt_node g n) = true -> nt_start g b <> None.
Proof.
  intros n b K X E. rewrite (proj2 same) in E. rewrite (proj1 (proj1 same n)) in K.
  rewrite (mark_rules_unknown fuel N vs g0 g marked n b K E (unknown n b K E)) in X. discriminate.
Qed.

Lemma alike_starts : forall b b', starts_with g b b' -> starts_with g0 b b'.
Proof.
  intros b b' [n [B [K D]]]. exists n. split; [exact (begins_alike _ _ (alike_sym _ _ same) _ _ B)|].
  split; [now rewrite <- (proj1 (proj1 same n))|now rewrite <- (proj2 same)].
Qed.

Lemma alike_chain : forall b b', chain g b b' -> chain g0 b b'.
Proof.
  intros b b' C. induction C as [x y S|x|x y z C1 IH1 C2 IH2]; [apply rt_step, alike_starts, S|apply rt_refl|].
  exact (rt_trans _ _ _ _ _ IH1 IH2).
Qed.

(* A reference that is expanded although its rule leads back goes to a rule with a
   smaller number. *)
Lemma expanded_down : forall b b', In b' (expanded b) -> chain g b' b -> num_rule N b' < num_rule N b.
Proof.
  intros b b' I1 C. apply expanded_in in I1. destruct I1 as [n [B [K X]]].
  pose proof (expanded_known n b' K X) as D.
  pose proof (begins_alike _ _ (alike_sym _ _ same) _ _ B) as B0.
  assert (K0 : nd_key (nt_node g0 n) = KRef b') by (now rewrite <- (proj1 (proj1 same n))).
  assert (D0 : nt_start g0 b' <> None) by (now rewrite <- (proj2 same)).
  assert (DB : nt_start g0 b <> None) by (destruct B0 as [s [E _]]; congruence).
  destruct (mark_rules_flags fuel N vs g0 g marked n b' K0 D0) as [[v [IV [BV F]]]|[NB _]];
    [|destruct (NB b (rules b DB) B0)].
  assert (v = b) as ->.
  { destruct is_tidy as [own [T1 _]]. now rewrite <- (T1 v n BV), <- (T1 b n B0). }
  unfold flags in F. rewrite K0 in F.
  destruct (leads_back fuel g0 (fun _ => true) b [] n b') as [[l seen]| | |] eqn:L; try discriminate. cbn [bind] in F.
  destruct l; [|exfalso; apply (not_found g0 b fuel n b' seen L D0), alike_chain, C].
  assert (SB : exists s', nt_start g0 b' = Some s') by (destruct (nt_start g0 b') as [s'|]; [eauto|congruence]).
  destruct SB as [s' SB]. rewrite SB in F.
  destruct (leads_back fuel g0 (final g0) b [] n b') as [dd| | |]; try discriminate. cbn [bind fst] in F.
  injection F as F _. rewrite X in F. cbn [negb orb] in F. apply andb_true_iff in F. destruct F as [F1 F2].
  apply Nat.ltb_lt in F1. apply negb_true_iff in F2. apply Z.eqb_neq in F2.
  destruct (Nat.lt_trichotomy (num_rule N b') (num_rule N b)) as [L1|[L1|L1]]; [exact L1| |].
  - exfalso. apply F2. symmetry. now apply apart.
  - exfalso. exact (inner b n b' B K (conj L1 F1) C).
Qed.

Lemma expanded_starts : forall b b', In b' (expanded b) -> starts_with g b b'.
Proof.
  intros b b' I1. apply expanded_in in I1. destruct I1 as [n [B [K X]]]. exists n. split; [exact B|]. split; [exact K|].
  exact (expanded_known n b' K X).
Qed.

Lemma expanded_acyclic : forall x, ~ clos_trans Z (edge expanded) x x.
Proof.
  assert (S : forall x y, clos_trans Z (edge expanded) x y -> chain g x y).
  { intros x y C. induction C as [x y E|x y z C1 IH1 C2 IH2]; [apply rt_step, expanded_starts, E|].
    exact (rt_trans _ _ _ _ _ IH1 IH2). }
  assert (Q : forall x y, clos_trans_1n Z (edge expanded) x y -> chain g y x -> num_rule N y < num_rule N x).
  { intros x y C. induction C as [x y E|x y z E C IH]; intro B; [now apply expanded_down|].
    assert (CB : chain g z y) by (apply rt_trans with x; [exact B|apply rt_step, expanded_starts, E]).
    specialize (IH CB). apply (expanded_down x y) in E; [lia|].
    apply rt_trans with z; [|exact B]. apply S. apply clos_t1n_trans, C. }
  intros x C. apply Nat.lt_irrefl with (num_rule N x). apply Q; [now apply clos_trans_t1n|apply rt_refl].
Qed.

Lemma marked_down : exists rank : Z -> nat,
  (forall b, rank b <= length vs) /\
  forall b n b', begins g b n -> nd_key (nt_node g n) = KRef b' -> nd_expandable (nt_node g n) = true -> rank b' < rank b.
Proof.
  assert (D : forall x y, edge expanded x y -> In y vs).
  { intros x y E. apply rules. rewrite <- (proj2 same). apply expanded_in in E. destruct E as [n [_ [K X]]].
    exact (expanded_known n y K X). }
  destruct (heights expanded vs D expanded_acyclic) as [H1 H2].
  exists (height expanded (length vs)). split; [exact H1|]. intros b n b' B K X. apply H2. unfold edge. apply expanded_in. eauto.
Qed.

End Marked.
