(** Proofs about the checks of constraints and base types. *)

From Coq Require Import List Bool Arith Lia Relations.Relation_Operators.
From Verif Require Import CircModel CircSpec.
Import ListNotations.

Lemma existsb_nat : forall x l, existsb (Nat.eqb x) l = true <-> In x l.
Proof.
  intros x l. rewrite existsb_exists. split.
  - intros (y & I & E). apply Nat.eqb_eq in E. subst. exact I.
  - intros I. exists x. split; [exact I | apply Nat.eqb_refl].
Qed.

Lemma existsb_nat_false : forall x l, existsb (Nat.eqb x) l = false <-> ~ In x l.
Proof.
  intros x l. rewrite <- existsb_nat. destruct (existsb (Nat.eqb x) l); intuition congruence.
Qed.

Lemma gtype_eqb_eq : forall a b, gtype_eqb a b = true <-> a = b.
Proof.
  intros [x| | |i c s] [y| | |j d r]; cbn; split; try congruence; intros E; auto.
  - apply Nat.eqb_eq in E. congruence.
  - injection E as ->. apply Nat.eqb_refl.
  - apply andb_true_iff in E. destruct E as [E E3]. apply andb_true_iff in E. destruct E as [E1 E2].
    apply Nat.eqb_eq in E1. apply eqb_prop in E2, E3. congruence.
  - injection E as -> -> ->. rewrite Nat.eqb_refl, !eqb_reflx. reflexivity.
Qed.

Lemma gtype_neqb : forall a b, gtype_eqb a b = false <-> a <> b.
Proof. intros a b. rewrite <- gtype_eqb_eq. destruct (gtype_eqb a b); intuition congruence. Qed.

Lemma existsb_gtype : forall x l, existsb (gtype_eqb x) l = true <-> In x l.
Proof.
  intros x l. rewrite existsb_exists. split.
  - intros (y & I & E). apply gtype_eqb_eq in E. subst. exact I.
  - intros I. exists x. split; [exact I | apply gtype_eqb_eq; reflexivity].
Qed.

(** *** The rules *)

Definition type_ok (c : constraint) (index : nat) (t : gtype) : Prop :=
  (is_class t = true -> t <> GEnum -> cclass c = false /\ cstruct c = false) /\
  t <> GObject /\ is_sealed t = false /\ (is_class t = true -> index = 0).

Fixpoint types_ok (c : constraint) (index : nat) (l : list gtype) : Prop :=
  match l with [] => True | t :: r => type_ok c index t /\ types_ok c (S index) r end.

Definition params_of (l : list gtype) : list name :=
  flat_map (fun t => match t with GParam n => [n] | _ => [] end) l.

Lemma in_params_of : forall n l, In n (params_of l) <-> In (GParam n) l.
Proof.
  intros n l. unfold params_of. rewrite in_flat_map. split.
  - intros (t & I & J). destruct t; try destruct J as [->|[]]; try destruct J. exact I.
  - intros I. exists (GParam n). split; [exact I | left; reflexivity].
Qed.

Lemma check_types_ok : forall c l types index,
  snd (check_types c types index l) = None <->
  types_ok c index l /\ NoDup l /\ forall t, In t l -> ~ In t types.
Proof.
  intros c. induction l as [|t r IH]; intros types index.
  - cbn. split; auto. intros _. repeat split; auto. constructor.
  - cbn [check_types types_ok].
    destruct (existsb (gtype_eqb t) types) eqn:E1.
    { cbn. split; [discriminate|]. intros (_ & _ & N). apply existsb_gtype in E1.
      destruct (N t (or_introl eq_refl) E1). }
    destruct (is_class t && negb (gtype_eqb t GEnum) && (cclass c || cstruct c)) eqn:E2.
    { cbn. split; [discriminate|]. intros (((A & _) & _) & _).
      apply andb_true_iff in E2. destruct E2 as [E2 F]. apply andb_true_iff in E2. destruct E2 as [K E].
      apply negb_true_iff in E. apply gtype_neqb in E. destruct (A K E) as [X Y]. rewrite X, Y in F. discriminate. }
    destruct (gtype_eqb t GObject) eqn:E3.
    { cbn. split; [discriminate|]. intros (((_ & A & _) & _) & _). apply gtype_eqb_eq in E3. contradiction. }
    destruct (is_sealed t) eqn:E4.
    { cbn. split; [discriminate|]. intros (((_ & _ & A & _) & _) & _). rewrite E4 in A. discriminate. }
    destruct (is_class t && (1 <=? index)) eqn:E5.
    { cbn. split; [discriminate|]. intros (((_ & _ & _ & A) & _) & _).
      apply andb_true_iff in E5. destruct E5 as [K L]. rewrite (A K) in L. discriminate. }
    specialize (IH (t :: types) (S index)).
    destruct (check_types c (t :: types) (S index) r) as [d e] eqn:E6. cbn [snd] in *. rewrite IH.
    assert (NT : ~ In t types) by (intros I; apply existsb_gtype in I; congruence).
    split.
    + intros (A & B & C). split; [|split].
      * split; [|exact A]. split; [|split; [|split]].
        -- intros K NE. apply gtype_neqb in NE. rewrite K, NE in E2. cbn in E2.
           destruct (cclass c), (cstruct c); try discriminate; auto.
        -- apply gtype_neqb. exact E3.
        -- exact E4.
        -- intros K. rewrite K in E5. cbn [andb] in E5. destruct index; [reflexivity | discriminate].
      * constructor; [|exact B]. intros I. apply (C t I). left. reflexivity.
      * intros u [->|I]; [exact NT|]. intros J. apply (C u I). right. exact J.
    + intros ((_ & A) & B & C). inversion B as [|? ? NI ND]; subst. split; [exact A|]. split; [exact ND|].
      intros u I [->|J]; [exact (NI I)|]. exact (C u (or_intror I) J).
Qed.

Lemma check_types_deps : forall c l types index d,
  check_types c types index l = (d, None) -> d = params_of l.
Proof.
  intros c. induction l as [|t r IH]; intros types index d E.
  - cbn in E. injection E as <-. reflexivity.
  - cbn [check_types] in E.
    destruct (existsb _ _); [discriminate|]. destruct (_ && (cclass c || cstruct c)); [discriminate|].
    destruct (gtype_eqb t GObject); [discriminate|]. destruct (is_sealed t); [discriminate|].
    destruct (is_class t && _); [discriminate|].
    destruct (check_types c (t :: types) (S index) r) as [d' e] eqn:E6.
    injection E as <- ->. rewrite (IH _ _ _ E6). destruct t; reflexivity.
Qed.

Lemma types_ok_spec : forall c l index, types_ok c index l <->
  (forall t, In t l -> t <> GObject /\ is_sealed t = false /\
     (is_class t = true -> t <> GEnum -> cclass c = false /\ cstruct c = false)) /\
  (forall l1 t l2, l = l1 ++ t :: l2 -> is_class t = true -> index = 0 /\ l1 = []).
Proof.
  intros c. induction l as [|t r IH]; intros index; cbn [types_ok].
  - split; auto. intros _. split; [intros t []|]. intros l1 t l2 E. destruct l1; discriminate.
  - rewrite IH. unfold type_ok. split.
    + intros ((A & B & C & D) & X & Y). split.
      * intros u [<-|I]; auto.
      * intros l1 u l2 E K. destruct l1 as [|a l1]; cbn [app] in E; injection E as -> E.
        -- auto.
        -- destruct (Y _ _ _ E K) as [Z _]. discriminate Z.
    + intros (X & Y). split; [|split].
      * destruct (X t (or_introl eq_refl)) as (A & B & C). split; auto. split; auto. split; auto.
        intros K. exact (proj1 (Y [] t r eq_refl K)).
      * intros u I. exact (X u (or_intror I)).
      * intros l1 u l2 -> K. destruct (Y (t :: l1) u l2 eq_refl K) as [_ Z]. discriminate Z.
Qed.

Lemma is_class_type : forall t, is_class t = true <-> class_type t.
Proof.
  intros t. split.
  - destruct t as [n| | |i [|] s]; intros E; try discriminate; constructor.
  - intros []; reflexivity.
Qed.

Lemma check_one_ok : forall c, snd (check_one c) = None <-> rules c.
Proof.
  intros c. unfold check_one. pose proof (check_types_ok c (ctypes c) [] 0) as H.
  destruct (check_types c [] 0 (ctypes c)) as [d e]. cbn [snd] in *. rewrite types_ok_spec in H.
  split.
  - intros E. destruct e; [discriminate|]. destruct (proj1 H eq_refl) as ((A & B) & ND & _).
    destruct (cclass c && cstruct c) eqn:F1; [discriminate|].
    destruct (cstruct c && cnew c) eqn:F2; [discriminate|].
    constructor; auto.
    + intros I. destruct (A _ I) as [X _]. auto.
    + intros i k I. destruct (A _ I) as (_ & X & _). discriminate X.
    + intros l1 t l2 E1 K. apply is_class_type in K. exact (proj2 (B l1 t l2 E1 K)).
    + intros t I K NE. apply is_class_type in K. destruct (A _ I) as (_ & _ & X). auto.
    + intros [X Y]. rewrite X, Y in F1. discriminate.
    + intros [X Y]. rewrite X, Y in F2. discriminate.
  - intros [R1 R2 R3 R4 R5 R6 R7].
    assert (E : e = None).
    { apply H. split; [|split; [exact R1 | intros t _ []]]. split.
      - intros t I. split; [congruence|]. split; [|intros K NE; apply is_class_type in K; exact (R5 t I K NE)].
        destruct t as [x| | |i k s]; auto. destruct s; [|reflexivity]. destruct (R3 _ _ I).
      - intros l1 t l2 E K. apply is_class_type in K. split; [reflexivity | exact (R4 l1 t l2 E K)]. }
    rewrite E. destruct (cclass c), (cstruct c), (cnew c); auto;
      solve [destruct R6; auto | destruct R7; auto].
Qed.

Lemma check_one_deps : forall c, rules c -> fst (check_one c) = params_of (ctypes c).
Proof.
  intros c R. apply check_one_ok in R. unfold check_one in *.
  destruct (check_types c [] 0 (ctypes c)) as [d e] eqn:E. cbn [fst snd] in *.
  destruct e; [discriminate|]. exact (check_types_deps _ _ _ _ _ E).
Qed.

(** *** All constraints *)

Definition entries (cs : list constraint) : dependencies :=
  flat_map (fun c => match params_of (ctypes c) with [] => [] | d => [(cparam c, d)] end) cs.

Lemma check_each_log : forall cs names D log r log',
  check_each names cs D log = (r, log') -> exists more, log' = log ++ more.
Proof.
  induction cs as [|c cs IH]; intros names D log r log' E; cbn [check_each] in E.
  - injection E as _ <-. exists []. rewrite app_nil_r. reflexivity.
  - destruct (existsb _ _).
    + injection E as _ <-. eexists. reflexivity.
    + destruct (check_one c) as [d e]. destruct (IH _ _ _ _ _ E) as (more & ->).
      eexists. rewrite <- app_assoc. reflexivity.
Qed.

Lemma check_each_ok : forall cs names D r,
  check_each names cs D [] = (r, []) <->
  r = Some (D ++ entries cs) /\ NoDup (map cparam cs) /\ (forall c, In c cs -> ~ In (cparam c) names)
  /\ forall c, In c cs -> rules c.
Proof.
  induction cs as [|c cs IH]; intros names D r; cbn [check_each map].
  - cbn. rewrite app_nil_r. split.
    + intros E. injection E as <-. split; [reflexivity|]. split; [constructor|]. split; intros ? [].
    + intros (-> & _). reflexivity.
  - destruct (existsb (Nat.eqb (cparam c)) names) eqn:E1.
    { split; [discriminate|]. intros (_ & _ & N & _). apply existsb_nat in E1.
      destruct (N c (or_introl eq_refl) E1). }
    apply existsb_nat_false in E1.
    pose proof (check_one_ok c) as OK. pose proof (check_one_deps c) as DE.
    destruct (check_one c) as [d e] eqn:E2. cbn [fst snd] in OK, DE. destruct e as [x|].
    { split.
      - intros E. destruct (check_each_log _ _ _ _ _ _ E) as (more & M). discriminate M.
      - intros (_ & _ & _ & R). specialize (proj2 OK (R c (or_introl eq_refl))). discriminate. }
    cbn [app]. rewrite IH. assert (R := proj1 OK eq_refl). rewrite (DE R).
    match goal with |- context [Some (?X ++ entries cs)] =>
      replace (X ++ entries cs) with (D ++ entries (c :: cs)) end.
    2: { unfold entries at 1. cbn [flat_map]. fold (entries cs).
      destruct (params_of (ctypes c)); [reflexivity|]. rewrite <- app_assoc. reflexivity. }
    split.
    + intros (-> & ND & N & RS). split; [reflexivity|]. split; [|split].
      * constructor; [|exact ND]. intros I. apply in_map_iff in I. destruct I as (c' & Q & I).
        apply (N c' I). left. congruence.
      * intros c' [<-|I]; [exact E1|]. intros J. apply (N c' I). right. exact J.
      * intros c' [<-|I]; auto.
    + intros (-> & ND & N & RS). inversion ND as [|? ? NI ND']; subst.
      split; [reflexivity|]. split; [exact ND'|]. split.
      * intros c' I [Q|J]; [|exact (N c' (or_intror I) J)]. apply NI. rewrite Q. apply in_map. exact I.
      * intros c' I. exact (RS c' (or_intror I)).
Qed.

Lemma lookup_entries : forall cs x, NoDup (map cparam cs) ->
  (forall ns, lookup x (entries cs) = Some ns ->
     exists c, In c cs /\ cparam c = x /\ ns = params_of (ctypes c)) /\
  (forall y, needs cs x y -> exists ns, lookup x (entries cs) = Some ns /\ In y ns).
Proof.
  induction cs as [|c cs IH]; intros x ND.
  - split; [discriminate|]. intros y (c & [] & _).
  - inversion ND as [|? ? NI ND']; subst. destruct (IH x ND') as [A B].
    assert (KN : x = cparam c -> lookup x (entries cs) = None).
    { intros ->. destruct (lookup (cparam c) (entries cs)) as [ns|] eqn:E; [|reflexivity].
      destruct (A _ eq_refl) as (c' & I & Q & _). destruct NI. rewrite <- Q. apply in_map. exact I. }
    unfold entries. cbn [flat_map]. fold (entries cs).
    split.
    + intros ns E. destruct (params_of (ctypes c)) as [|p ps] eqn:Q.
      * cbn [app] in E. destruct (A _ E) as (c' & I & F). exists c'. split; [right; exact I | exact F].
      * cbn [app lookup] in E. destruct (Nat.eqb x (cparam c)) eqn:X.
        -- apply Nat.eqb_eq in X. injection E as <-. exists c. split; [left; reflexivity|]. auto.
        -- destruct (A _ E) as (c' & I & F). exists c'. split; [right; exact I | exact F].
    + intros y (c' & [<-|I] & Q & M).
      * apply in_params_of in M. destruct (params_of (ctypes c)) as [|p ps] eqn:Z; [destruct M|].
        cbn [app lookup]. rewrite Q, Nat.eqb_refl. eauto.
      * destruct (B y) as (ns & E & J); [exists c'; auto|].
        destruct (params_of (ctypes c)) as [|p ps] eqn:Z; cbn [app lookup]; [eauto|].
        destruct (Nat.eqb x (cparam c)) eqn:X; [|eauto].
        apply Nat.eqb_eq in X. rewrite (KN X) in E. discriminate.
Qed.

(** *** The walk *)

Section Walk.

Variable cs : list constraint.
Variable D : dependencies.
Hypothesis look_some : forall x ns, lookup x D = Some ns -> NoDup ns /\ forall y, In y ns <-> needs cs x y.
Hypothesis look_none : forall x, lookup x D = None -> forall y, ~ needs cs x y.

Definition reach (x y : name) : Prop := exists p, way cs x p y.

(* What a walk that went through says of a list of names *)
Definition fine (w : list name) (ns : list name) (w' : list name) : Prop :=
  exists t, w' = t ++ w /\ (forall y, In y t -> ~ In y w) /\
    (forall y, In y t <-> exists x, In x ns /\ reach x y) /\
    (forall x x' p q y, In x ns -> In x' ns -> way cs x p y -> way cs x' q y -> x = x' /\ p = q).

Definition ok (v : list name -> name -> walked) : Prop :=
  forall w x w', v w x = Walked w' -> fine w [x] w'.

Lemma list_fine : forall v, ok v -> forall ns w w', visit_list v w ns = Walked w' -> fine w ns w'.
Proof.
  intros v OK. induction ns as [|x r IH]; intros w w' E; cbn [visit_list] in E.
  - injection E as <-. exists []. split; [reflexivity|]. split; [intros y []|]. split.
    + intros y. split; [intros []|]. intros (x & [] & _).
    + intros x x' p q y [].
  - destruct (v w x) as [|w1|] eqn:V; try discriminate.
    destruct (OK _ _ _ V) as (t1 & -> & N1 & R1 & U1).
    destruct (IH _ _ E) as (t2 & -> & N2 & R2 & U2).
    exists (t2 ++ t1). split; [apply app_assoc|]. split; [|split].
    + intros y I. apply in_app_iff in I. destruct I as [I|I]; [|exact (N1 y I)].
      intros J. apply (N2 y I). apply in_app_iff. right. exact J.
    + intros y. rewrite in_app_iff, R2, R1. split.
      * intros [(z & I & Q)|(z & [<-|[]] & Q)]; [exists z | exists x]; split; auto; [right; exact I | left; reflexivity].
      * intros (z & [<-|I] & Q); [right | left]; [exists x | exists z]; split; auto. left. reflexivity.
    + assert (APART : forall x' p q y, In x' r -> way cs x p y -> way cs x' q y -> False).
      { intros x' p q y I P Q. apply (N2 y).
        - apply R2. exists x'. split; [exact I | exists q; exact Q].
        - apply in_app_iff. left. apply R1. exists x. split; [left; reflexivity | exists p; exact P]. }
      intros a b p q y [<-|I] [<-|J] P Q.
      * apply (U1 x x p q y); auto; left; reflexivity.
      * destruct (APART _ _ _ _ J P Q).
      * destruct (APART _ _ _ _ I Q P).
      * exact (U2 a b p q y I J P Q).
Qed.

Lemma visit_fine : forall n, ok (visit D n).
Proof.
  induction n as [|n IH]; intros w x w' E; [discriminate|]. cbn [visit] in E.
  destruct (existsb (Nat.eqb x) w) eqn:W; [discriminate|]. apply existsb_nat_false in W.
  assert (STEP : forall ns t, (forall y, In y ns <-> needs cs x y) -> w' = t ++ x :: w ->
      (forall y, In y t -> ~ In y (x :: w)) ->
      (forall y, In y t <-> exists x, In x ns /\ reach x y) ->
      (forall x x' p q y, In x ns -> In x' ns -> way cs x p y -> way cs x' q y -> x = x' /\ p = q) ->
      fine w [x] w').
  { intros ns t NS -> N R U. exists (t ++ [x]). split; [rewrite <- app_assoc; reflexivity|].
    split; [|split].
    - intros y I. apply in_app_iff in I. destruct I as [I|[<-|[]]]; [|exact W].
      intros J. apply (N y I). right. exact J.
    - intros y. rewrite in_app_iff, R. split.
      + intros [(z & I & p & P)|[<-|[]]]; exists x; (split; [left; reflexivity|]).
        * exists (z :: p). constructor; [apply NS; exact I | exact P].
        * exists []. constructor.
      + intros (z & [<-|[]] & p & P). inversion P as [|? z ? ? NZ PZ]; subst.
        * right. left. reflexivity.
        * left. exists z. split; [apply NS; exact NZ | exists p0; exact PZ].
    - intros a b p q y [<-|[]] [<-|[]] P Q. split; [reflexivity|].
      assert (BACK : forall z r, needs cs x z -> way cs z r x -> False).
      { intros z r NZ PZ. apply (N x); [|left; reflexivity]. apply R. exists z.
        split; [apply NS; exact NZ | exists r; exact PZ]. }
      inversion P as [|? z p' ? NZ PZ]; subst; inversion Q as [|? u q' ? NU PU]; subst; auto.
      + destruct (BACK _ _ NU PU).
      + destruct (BACK _ _ NZ PZ).
      + destruct (U z u p' q' y) as [-> ->]; auto; apply NS; auto. }
  destruct (lookup x D) as [ns|] eqn:L.
  - destruct (list_fine _ IH _ _ _ E) as (t & -> & N & R & U).
    apply (STEP ns t); auto. exact (proj2 (look_some _ _ L)).
  - injection E as <-. apply (STEP [] []); auto.
    + intros y. split; [intros []|]. intros Q. destruct (look_none _ L y Q).
    + intros y. split; [intros []|]. intros (z & [] & _).
    + intros a b p q y [].
Qed.

(* What a walk that met a name again says *)
Definition again (w : list name) (ns : list name) : Prop :=
  (exists x y, In x ns /\ reach x y /\ In y w) \/
  (exists x x' p q y, In x ns /\ In x' ns /\ way cs x p y /\ way cs x' q y /\ (x <> x' \/ p <> q)).

Lemma list_again : forall v, ok v -> (forall w x, v w x = Again -> again w [x]) ->
  forall ns w, NoDup ns -> visit_list v w ns = Again -> again w ns.
Proof.
  intros v OK AG. induction ns as [|x r IH]; intros w ND E; cbn [visit_list] in E; [discriminate|].
  inversion ND as [|? ? NI ND']; subst.
  destruct (v w x) as [|w1|] eqn:V; try discriminate.
  - destruct (AG _ _ V) as [(z & y & [<-|[]] & R & I)|(a & b & p & q & y & [<-|[]] & [<-|[]] & P & Q & X)].
    + left. exists x, y. split; [left; reflexivity | auto].
    + right. exists x, x, p, q, y. repeat split; auto; left; reflexivity.
  - destruct (OK _ _ _ V) as (t & -> & N & R & U).
    destruct (IH _ ND' E) as [(z & y & I & Q & J)|(a & b & p & q & y & I & J & P & Q & X)].
    + apply in_app_iff in J. destruct J as [J|J].
      * apply R in J. destruct J as (x' & [<-|[]] & (p & P)). destruct Q as (q & Q).
        right. exists x, z, p, q, y. split; [left; reflexivity|]. split; [right; exact I|].
        split; [exact P|]. split; [exact Q|]. left. intros ->. exact (NI I).
      * left. exists z, y. split; [right; exact I | auto].
    + right. exists a, b, p, q, y. split; [right; exact I|]. split; [right; exact J|]. auto.
Qed.

Lemma visit_again : forall n w x, visit D n w x = Again -> again w [x].
Proof.
  induction n as [|n IH]; intros w x E; [discriminate|]. cbn [visit] in E.
  destruct (existsb (Nat.eqb x) w) eqn:W.
  { left. exists x, x. apply existsb_nat in W. split; [left; reflexivity|]. split; [|exact W].
    exists []. constructor. }
  destruct (lookup x D) as [ns|] eqn:L; [|discriminate]. destruct (look_some _ _ L) as [ND NS].
  destruct (list_again _ (visit_fine n) IH _ _ ND E)
    as [(z & y & I & (p & P) & [<-|J])|(a & b & p & q & y & I & J & P & Q & X)].
  - right. exists x, x, [], (z :: p), x. split; [left; reflexivity|]. split; [left; reflexivity|].
    split; [constructor|]. split; [constructor; [apply NS; exact I | exact P]|]. right. discriminate.
  - left. exists x, y. split; [left; reflexivity|]. split; [|exact J]. exists (z :: p).
    constructor; [apply NS; exact I | exact P].
  - right. exists x, x, (a :: p), (b :: q), y. split; [left; reflexivity|]. split; [left; reflexivity|].
    split; [constructor; [apply NS; exact I | exact P]|].
    split; [constructor; [apply NS; exact J | exact Q]|].
    right. intros F. injection F as -> ->. destruct X as [X|X]; apply X; reflexivity.
Qed.

(* The walk is not too deep *)
Definition left_over (w : list name) : nat :=
  length (filter (fun k => negb (existsb (Nat.eqb k) w)) (map fst D)).

Lemma filter_le : forall (A : Type) (f g : A -> bool) l, (forall x, f x = true -> g x = true) ->
  length (filter f l) <= length (filter g l).
Proof.
  intros A f g l H. induction l as [|x r IH]; cbn [filter]; [lia|].
  destruct (f x) eqn:F; [rewrite (H _ F); cbn; lia|]. destruct (g x); cbn; lia.
Qed.

Lemma filter_length : forall (A : Type) (f : A -> bool) l, length (filter f l) <= length l.
Proof. intros A f. induction l as [|x r IH]; cbn [filter]; [lia|]. destruct (f x); cbn; lia. Qed.

Lemma filter_lt : forall (A : Type) (f g : A -> bool) l x, (forall x, f x = true -> g x = true) ->
  In x l -> f x = false -> g x = true -> length (filter f l) < length (filter g l).
Proof.
  intros A f g l x H. induction l as [|y r IH]; intros I F G; [destruct I|]. cbn [filter].
  destruct I as [->|I].
  - rewrite F, G. pose proof (filter_le A f g r H). cbn. lia.
  - specialize (IH I F G). destruct (f y) eqn:E; [rewrite (H _ E); cbn; lia|]. destruct (g y); cbn; lia.
Qed.

Lemma left_over_le : forall w t, left_over (t ++ w) <= left_over w.
Proof.
  intros w t. apply filter_le. intros k E. apply negb_true_iff in E. apply negb_true_iff.
  apply existsb_nat_false. apply existsb_nat_false in E. intros I. apply E. apply in_app_iff. right. exact I.
Qed.

Lemma lookup_key : forall x (E : dependencies) ns, lookup x E = Some ns -> In x (map fst E).
Proof.
  intros x. induction E as [|[y l] r IH]; intros ns L; cbn [lookup] in L; [discriminate|].
  destruct (Nat.eqb x y) eqn:Q.
  - apply Nat.eqb_eq in Q. left. auto.
  - right. exact (IH _ L).
Qed.

Lemma left_over_lt : forall w x, In x (map fst D) -> ~ In x w -> left_over (x :: w) < left_over w.
Proof.
  intros w x K W. apply filter_lt with (x := x).
  - intros k E. apply negb_true_iff in E. apply negb_true_iff.
    apply existsb_nat_false. apply existsb_nat_false in E. intros I. apply E. right. exact I.
  - exact K.
  - apply negb_false_iff. apply existsb_nat. left. reflexivity.
  - apply negb_true_iff. apply existsb_nat_false. exact W.
Qed.

Lemma visit_not_deep : forall n w x, left_over w < n -> visit D n w x <> Deep.
Proof.
  induction n as [|n IH]; intros w x L; [lia|]. cbn [visit].
  destruct (existsb (Nat.eqb x) w) eqn:W; [discriminate|]. apply existsb_nat_false in W.
  destruct (lookup x D) as [ns|] eqn:E; [|discriminate].
  pose proof (left_over_lt w x (lookup_key _ _ _ E) W) as LT.
  assert (G : forall l v, left_over v <= left_over (x :: w) -> visit_list (visit D n) v l <> Deep).
  { induction l as [|y r IHl]; intros v LV; cbn [visit_list]; [discriminate|].
    destruct (visit D n v y) as [|v'|] eqn:V; [discriminate| |].
    - destruct (visit_fine n _ _ _ V) as (t & -> & _). apply IHl.
      pose proof (left_over_le v t). lia.
    - intros _. apply (IH v y); [lia | exact V]. }
  apply G. lia.
Qed.

Lemma left_over_all : left_over [] <= length D.
Proof.
  unfold left_over. etransitivity; [apply filter_length|]. rewrite map_length. lia.
Qed.

Lemma check_circles_ok : forall l,
  check_circles D l = [] <-> forall x p q y, In x (map fst l) -> way cs x p y -> way cs x q y -> p = q.
Proof.
  induction l as [|[x ns] r IH]; cbn [check_circles map].
  - split; [|reflexivity]. intros _ x p q y [].
  - pose proof (visit_not_deep (S (S (length D))) [] x) as ND. pose proof left_over_all as LA.
    destruct (visit D (S (S (length D))) [] x) as [|w|] eqn:V.
    + split; [discriminate|]. intros H. exfalso.
      destruct (visit_again _ _ _ V) as [(a & b & _ & _ & [])|(a & b & p & q & y & [<-|[]] & [<-|[]] & P & Q & X)].
      destruct X as [X|X]; apply X; [reflexivity|]. apply (H x p q y); auto. left. reflexivity.
    + rewrite IH. destruct (visit_fine _ _ _ _ V) as (_ & _ & _ & _ & U). split.
      * intros H a p q y [<-|I] P Q; [|exact (H a p q y I P Q)].
        apply (U x x p q y); auto; left; reflexivity.
      * intros H a p q y I. apply (H a p q y). right. exact I.
    + exfalso. apply ND; [lia | reflexivity].
Qed.

Lemma circles_single : check_circles D D = [] <-> single_ways cs.
Proof.
  rewrite check_circles_ok. split; [|intros H x p q y _; exact (H x y p q)].
  intros H x y p q P Q. destruct (lookup x D) as [ns|] eqn:L.
  - exact (H x p q y (lookup_key _ _ _ L) P Q).
  - inversion P as [|? z ? ? NZ PZ]; subst; [|destruct (look_none _ L _ NZ)].
    inversion Q as [|? u ? ? NU PU]; subst; [reflexivity | destruct (look_none _ L _ NU)].
Qed.

End Walk.

Lemma params_of_nodup : forall l, NoDup l -> NoDup (params_of l).
Proof.
  induction l as [|t r IH]; intros ND; [constructor|]. inversion ND as [|? ? NI ND']; subst.
  unfold params_of. cbn [flat_map]. fold (params_of r).
  destruct t; cbn [app]; auto. constructor; auto. rewrite in_params_of. exact NI.
Qed.

Theorem accepts_exactly : forall cs, check_constraints cs = [] <-> lawful cs /\ single_ways cs.
Proof.
  intros cs. unfold check_constraints.
  assert (CORE : lawful cs -> check_circles (entries cs) (entries cs) = [] <-> single_ways cs).
  { intros [ND R]. apply circles_single.
    - intros x ns L. destruct (lookup_entries cs x ND) as [A B].
      destruct (A _ L) as (c & I & Q & ->). split; [apply params_of_nodup; apply (R c I)|].
      intros y. rewrite in_params_of. split.
      + intros J. exists c. auto.
      + intros J. destruct (B y J) as (ns & L' & K). rewrite L in L'. injection L' as <-.
        apply in_params_of. exact K.
    - intros x L y J. destruct (lookup_entries cs x ND) as [_ B]. destruct (B y J) as (ns & L' & _).
      congruence. }
  destruct (check_each [] cs [] []) as [r log] eqn:E. split.
  - intros H.
    assert (log = []) by (destruct r; [apply app_eq_nil in H; tauto | exact H]). subst log.
    apply check_each_ok in E. cbn [app] in E. destruct E as (-> & ND & _ & R).
    assert (LW : lawful cs) by (split; auto). split; [exact LW|]. apply CORE; auto.
  - intros ([ND R] & U).
    assert (E' : check_each [] cs [] [] = (Some (entries cs), [])).
    { apply check_each_ok. split; [reflexivity|]. split; [exact ND|]. split; [intros c _ []|exact R]. }
    rewrite E' in E. injection E as <- <-. cbn [app]. apply CORE; [split|]; auto.
Qed.

Lemma trans_way : forall cs x y, clos_trans _ (needs cs) x y -> exists p, p <> [] /\ way cs x p y.
Proof.
  intros cs x y H. apply Operators_Properties.clos_trans_t1n in H.
  induction H as [x y N|x y z N _ (p & _ & P)].
  - exists [y]. split; [discriminate|]. econstructor; [exact N | constructor].
  - exists (y :: p). split; [discriminate|]. econstructor; [exact N | exact P].
Qed.

Theorem accepted_no_circle : forall cs, check_constraints cs = [] -> no_circle cs.
Proof.
  intros cs E x H. apply accepts_exactly in E. destruct E as [_ U].
  destruct (trans_way _ _ _ H) as (p & N & P). apply N. symmetry.
  apply (U x x []); [constructor | exact P].
Qed.

(** *** Base types *)

Section Base.

Variable G : types.
Variable T : tid.
Hypothesis CL : closed G.

Definition base_ok (x : tid) : Prop := In x (univ G).

(* Behind a walk that did not lead back: all that is behind the walked types, except behind
   those that are still on the way, is walked *)
Definition complete (w gray : list tid) : Prop :=
  forall a b, In a w -> ~ In a gray -> base G a b -> In b w.

Definition quiet (f : list tid -> tid -> option (bool * list tid)) : Prop :=
  forall w gray s w', f w s = Some (false, w') -> complete w gray -> ~ In T w ->
    (forall y, In y w -> In y w') /\ In (general G s) w' /\ ~ In T w' /\ complete w' gray.

Lemma each_quiet : forall f, quiet f -> forall l w gray w',
  each_super f w l = Some (None, w') -> complete w gray -> ~ In T w ->
  (forall y, In y w -> In y w') /\ (forall s, In s l -> In (general G s) w') /\ ~ In T w' /\ complete w' gray.
Proof.
  intros f Q. induction l as [|s r IH]; intros w gray w' E C NT; cbn [each_super] in E.
  - injection E as <-. repeat split; auto. intros s [].
  - destruct (f w s) as [[[|] w1]|] eqn:F; try discriminate.
    destruct (Q _ gray _ _ F C NT) as (A1 & B1 & N1 & C1).
    destruct (IH _ gray _ E C1 N1) as (A2 & B2 & N2 & C2).
    split; [auto|]. split; [|auto]. intros u [<-|I]; auto.
Qed.

Lemma back_quiet : forall n, quiet (leads_back G T n).
Proof.
  induction n as [|n IH]; intros w gray s w' E C NT; [discriminate|]. cbn [leads_back] in E.
  destruct (existsb (Nat.eqb (general G s)) w) eqn:W.
  { injection E as <-. apply existsb_nat in W. auto. }
  destruct (Nat.eqb (general G s) T) eqn:X; [discriminate|]. apply Nat.eqb_neq in X.
  destruct (each_super (leads_back G T n) (general G s :: w) (supers G (general G s)))
    as [[[u|] w1]|] eqn:F; try discriminate. injection E as <-.
  destruct (each_quiet _ IH _ _ (general G s :: gray) _ F) as (A & B & N & C').
  - intros a b I NG Q. destruct I as [<-|I]; [destruct NG; left; reflexivity|].
    right. apply (C a b I); auto. intros J. apply NG. right. exact J.
  - intros [Q|I]; [exact (X Q) | exact (NT I)].
  - split; [intros y I; apply A; right; exact I|]. split; [apply A; left; reflexivity|].
    split; [exact N|]. intros a b I NG Q.
    destruct (Nat.eq_dec a (general G s)) as [->|NE].
    + destruct Q as (u & J & <-). apply B. exact J.
    + apply (C' a b I); auto. intros [J|J]; [apply NE; auto | exact (NG J)].
Qed.

Lemma each_some : forall f l w s w', each_super f w l = Some (Some s, w') ->
  In s l /\ exists w1, f w1 s = Some (true, w').
Proof.
  intros f. induction l as [|u r IH]; intros w s w' E; cbn [each_super] in E; [discriminate|].
  destruct (f w u) as [[[|] w1]|] eqn:F; try discriminate.
  - injection E as <- <-. split; [left; reflexivity | eauto].
  - destruct (IH _ _ _ E) as [I X]. split; [right; exact I | exact X].
Qed.

Lemma back_leads : forall n w s w', leads_back G T n w s = Some (true, w') ->
  clos_refl_trans _ (base G) (general G s) T.
Proof.
  induction n as [|n IH]; intros w s w' E; [discriminate|]. cbn [leads_back] in E.
  destruct (existsb (Nat.eqb (general G s)) w); [discriminate|].
  destruct (Nat.eqb (general G s) T) eqn:X; [apply Nat.eqb_eq in X; rewrite X; apply rt_refl|].
  destruct (each_super (leads_back G T n) (general G s :: w) (supers G (general G s)))
    as [[[u|] w1]|] eqn:F; try discriminate.
  destruct (each_some _ _ _ _ _ F) as (I & w2 & E2).
  apply rt_trans with (general G u); [apply rt_step; exists u; auto | exact (IH _ _ _ E2)].
Qed.

Lemma closed_rt : forall a b, clos_refl_trans _ (base G) a b -> forall w, complete w [] -> In a w -> In b w.
Proof.
  intros a b H w C. induction H as [a b Q|a|a b c _ IH1 _ IH2]; intros I; auto.
  apply (C a b I); auto.
Qed.

Lemma back_not : forall n s w', leads_back G T n [] s = Some (false, w') ->
  ~ clos_refl_trans _ (base G) (general G s) T.
Proof.
  intros n s w' E H. destruct (back_quiet n [] [] s w' E) as (_ & I & NT & C).
  - intros a b [].
  - intros [].
  - exact (NT (closed_rt _ _ H w' C I)).
Qed.

(* Not too deep *)
Definition room (w : list tid) : nat :=
  length (filter (fun k => negb (existsb (Nat.eqb k) w)) (univ G)).

Lemma room_mono : forall w w', (forall y, In y w -> In y w') -> room w' <= room w.
Proof.
  intros w w' H. apply filter_le. intros k E. apply negb_true_iff in E. apply negb_true_iff.
  apply existsb_nat_false. apply existsb_nat_false in E. auto.
Qed.

Lemma room_lt : forall w x, In x (univ G) -> ~ In x w -> room (x :: w) < room w.
Proof.
  intros w x K W. apply filter_lt with (x := x).
  - intros k E. apply negb_true_iff in E. apply negb_true_iff.
    apply existsb_nat_false. apply existsb_nat_false in E. intros I. apply E. right. exact I.
  - exact K.
  - apply negb_false_iff. apply existsb_nat. left. reflexivity.
  - apply negb_true_iff. apply existsb_nat_false. exact W.
Qed.

Lemma back_grows : forall n w s b w', leads_back G T n w s = Some (b, w') -> forall y, In y w -> In y w'.
Proof.
  induction n as [|n IH]; intros w s b w' E y I; [discriminate|]. cbn [leads_back] in E.
  destruct (existsb (Nat.eqb (general G s)) w); [injection E as <- <-; exact I|].
  destruct (Nat.eqb (general G s) T); [injection E as <- <-; right; exact I|].
  assert (GR : forall l v r v', each_super (leads_back G T n) v l = Some (r, v') ->
               forall z, In z v -> In z v').
  { induction l as [|u l IHl]; intros v r v' F z J; cbn [each_super] in F.
    - injection F as <- <-. exact J.
    - destruct (leads_back G T n v u) as [[[|] v1]|] eqn:H; try discriminate.
      + injection F as <- <-. exact (IH _ _ _ _ H z J).
      + apply (IHl _ _ _ F). exact (IH _ _ _ _ H z J). }
  destruct (each_super (leads_back G T n) (general G s :: w) (supers G (general G s)))
    as [[[u|] w1]|] eqn:F; try discriminate; injection E as <- <-; apply (GR _ _ _ _ F); right; exact I.
Qed.

Lemma back_some : forall n w s, In (general G s) (univ G) -> room w < n -> leads_back G T n w s <> None.
Proof.
  induction n as [|n IH]; intros w s U L; [lia|]. cbn [leads_back].
  destruct (existsb (Nat.eqb (general G s)) w) eqn:W; [discriminate|]. apply existsb_nat_false in W.
  destruct (Nat.eqb (general G s) T); [discriminate|].
  pose proof (room_lt w _ U W) as LT.
  assert (GD : forall l v, (forall u, In u l -> In (general G u) (univ G)) ->
               room v <= room (general G s :: w) -> each_super (leads_back G T n) v l <> None).
  { induction l as [|u l IHl]; intros v UL LV; cbn [each_super]; [discriminate|].
    destruct (leads_back G T n v u) as [[[|] v1]|] eqn:F; [discriminate| |].
    - apply IHl; [intros z I; apply UL; right; exact I|].
      pose proof (room_mono v v1 (back_grows _ _ _ _ _ F)). lia.
    - intros _. apply (IH v u); [apply UL; left; reflexivity | lia | exact F]. }
  assert (UL : forall u, In u (supers G (general G s)) -> In (general G u) (univ G)).
  { intros u I. apply (CL (general G s)); [exact U | exists u; auto]. }
  pose proof (GD _ (general G s :: w) UL (le_n _)) as NN.
  destruct (each_super _ _ _) as [[[u|] w1]|]; congruence.
Qed.

Lemma first_back_spec : forall n l, (forall s, In s l -> In (general G s) (univ G)) ->
  length (univ G) < n ->
  match first_back G T n l with
  | None => False
  | Some None => forall s, In s l -> ~ clos_refl_trans _ (base G) (general G s) T
  | Some (Some s) => exists l1 l2, l = l1 ++ s :: l2 /\ clos_refl_trans _ (base G) (general G s) T /\
      forall u, In u l1 -> ~ clos_refl_trans _ (base G) (general G u) T
  end.
Proof.
  intros n. induction l as [|s r IH]; intros U L; cbn [first_back]; [intros s []|].
  assert (R : room [] < n).
  { apply Nat.le_lt_trans with (length (univ G)); [apply filter_length | exact L]. }
  pose proof (back_some n [] s (U s (or_introl eq_refl)) R) as NN.
  destruct (leads_back G T n [] s) as [[[|] w]|] eqn:F; [| |congruence].
  - exists [], r. split; [reflexivity|]. split; [exact (back_leads _ _ _ _ F) | intros u []].
  - pose proof (back_not _ _ _ F) as NB.
    assert (U' : forall u, In u r -> In (general G u) (univ G)) by (intros u I; apply U; right; exact I).
    specialize (IH U' L). destruct (first_back G T n r) as [[u|]|]; auto.
    + destruct IH as (l1 & l2 & -> & X & Y). exists (s :: l1), l2. split; [reflexivity|]. split; [exact X|].
      intros v [<-|I]; auto.
    + intros u [<-|I]; auto.
Qed.

Theorem circle_base_spec : In T (univ G) ->
  match circle_base G T with
  | None => False
  | Some None => ~ clos_trans _ (base G) T T
  | Some (Some s) => exists l1 l2, supers G T = l1 ++ s :: l2 /\
      clos_refl_trans _ (base G) (general G s) T /\
      forall u, In u l1 -> ~ clos_refl_trans _ (base G) (general G u) T
  end.
Proof.
  intros I. unfold circle_base.
  assert (U : forall s, In s (supers G T) -> In (general G s) (univ G)).
  { intros s J. apply (CL T); [exact I | exists s; auto]. }
  pose proof (first_back_spec (S (length (univ G))) (supers G T) U (le_n _)) as F.
  destruct (first_back G T (S (length (univ G))) (supers G T)) as [[s|]|]; auto.
  intros H. apply Operators_Properties.clos_trans_t1n in H.
  inversion H as [y (s & J & Q)|y z (s & J & Q) R]; subst.
  - apply (F s J). apply rt_refl.
  - apply (F s J). apply Operators_Properties.clos_t1n_trans in R.
    clear - R. induction R; [apply rt_step; auto | eapply rt_trans; eauto].
Qed.

End Base.
