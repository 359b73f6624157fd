(** Proofs about compiling a solution. *)

From Coq Require Import List Bool Arith Lia Permutation Relations.Relation_Operators.
From Verif Require Import BuildModel BuildSpec.
Import ListNotations.

Lemma existsb_nat : forall x l, existsb (Nat.eqb x) l = true <-> In x l.
Proof.
  intros x l. rewrite existsb_exists. split.
  - intros (y & I & E). apply Nat.eqb_eq in E. subst. exact I.
  - intros I. exists x. split; [exact I | apply Nat.eqb_refl].
Qed.

Lemma existsb_nat_false : forall x l, existsb (Nat.eqb x) l = false <-> ~ In x l.
Proof.
  intros x l. rewrite <- existsb_nat. destruct (existsb (Nat.eqb x) l); intuition congruence.
Qed.

Lemma key_eqb_eq : forall a b, key_eqb a b = true <-> a = b.
Proof.
  intros [p k] [q j]. unfold key_eqb. cbn [fst snd]. rewrite andb_true_iff, Nat.eqb_eq.
  destruct p as [x|], q as [y|]; try rewrite Nat.eqb_eq; split; intros H; try (destruct H; congruence);
    try (split; congruence); discriminate || (injection H; intros; subst; auto).
Qed.

Lemma cached_hit : forall k b c, cached k ((k, b) :: c) = Some b.
Proof. intros k b c. cbn. rewrite (proj2 (key_eqb_eq k k) eq_refl). reflexivity. Qed.

Lemma snoc_split : forall (A : Type) (l1 : list A) a l2 l x, l1 ++ a :: l2 = l ++ [x] ->
  (l1 = l /\ a = x /\ l2 = []) \/ (exists r, l2 = r ++ [x] /\ l = l1 ++ a :: r).
Proof.
  intros A l1 a l2 l x E. destruct l2 as [|y l2] using rev_ind.
  - left. apply app_inj_tail in E. destruct E. auto.
  - right. exists l2. rewrite app_comm_cons, app_assoc in E. apply app_inj_tail in E. destruct E as [<- ->]. auto.
Qed.

Lemma NoDup_app_remove_l : forall (A : Type) (l r : list A), NoDup (l ++ r) -> NoDup r.
Proof. intros A. induction l as [|x l IH]; intros r H; [exact H|]. inversion H; auto. Qed.

Lemma NoDup_app_remove_r : forall (A : Type) (l r : list A), NoDup (l ++ r) -> NoDup l.
Proof.
  intros A. induction l as [|x l IH]; intros r H; [constructor|]. inversion H as [|? ? NI ND]; subst.
  constructor; [intros I; apply NI, in_app_iff; left; exact I | exact (IH r ND)].
Qed.

(* Positions *)
Fixpoint index (x : name) (l : list name) : nat :=
  match l with [] => 0 | y :: r => if Nat.eqb x y then 0 else S (index x r) end.

Lemma index_app : forall x l r, ~ In x l -> index x (l ++ r) = length l + index x r.
Proof.
  intros x. induction l as [|y l IH]; intros r N; [reflexivity|]. cbn [index app length].
  destruct (Nat.eqb x y) eqn:E.
  - apply Nat.eqb_eq in E. destruct N. left. auto.
  - rewrite IH; [reflexivity|]. intros I. apply N. right. exact I.
Qed.

Lemma before_index : forall a b l, NoDup l -> before a b l -> index a l < index b l.
Proof.
  intros a b l ND (l1 & l2 & l3 & ->).
  pose proof (NoDup_remove_2 _ _ _ ND) as N1.
  rewrite app_comm_cons, app_assoc in ND. pose proof (NoDup_remove_2 _ _ _ ND) as N2.
  rewrite index_app by (intros I; apply N1, in_app_iff; left; exact I).
  assert (B : ~ In b (l1 ++ a :: l2)) by (intros I; apply N2, in_app_iff; left; exact I).
  assert (E : index b (l1 ++ a :: l2 ++ b :: l3) = length (l1 ++ a :: l2) + index b (b :: l3)).
  { rewrite app_comm_cons, app_assoc. apply index_app. exact B. }
  rewrite E, app_length. cbn [index length]. rewrite Nat.eqb_refl. lia.
Qed.

Section WithSolution.

Variable S0 : solution.
Hypothesis DIST : distinct S0.

Lemma same_project : forall p q, In p (projects S0) -> In q (projects S0) -> pname p = pname q -> p = q.
Proof.
  unfold distinct in DIST. revert DIST. induction (projects S0) as [|x l IH]; intros ND p q I J E; [destruct I|].
  cbn [map] in ND. inversion ND as [|? ? NI ND']; subst.
  destruct I as [<-|I], J as [<-|J]; auto.
  - destruct NI. rewrite E. apply in_map. exact J.
  - destruct NI. rewrite <- E. apply in_map. exact I.
Qed.

Lemma has_event_of : forall p e, In p (projects S0) -> has_event S0 (pname p) e <-> In e (events p).
Proof.
  intros p e I. split.
  - intros (q & J & E & H). rewrite <- (same_project q p J I E). exact H.
  - intros H. exists p. auto.
Qed.

Lemma get_project_some : forall k p, get_project S0 k = Some p -> In p (projects S0) /\ pname p = k.
Proof.
  intros k p E. apply find_some in E. destruct E as [I Q]. apply Nat.eqb_eq in Q. auto.
Qed.

Lemma get_project_none : forall k, get_project S0 k = None -> ~ is_project S0 k.
Proof.
  intros k E (p & I & Q). pose proof (find_none _ _ E p I) as F. cbn in F.
  rewrite Q, Nat.eqb_refl in F. discriminate.
Qed.

Lemma is_ref_in : forall k, is_ref S0 k = true <-> In k (refs S0).
Proof.
  intros k. unfold is_ref. rewrite existsb_exists. split.
  - intros (y & I & E). apply key_eqb_eq in E. subst. exact I.
  - intros I. exists k. split; [exact I | apply key_eqb_eq; reflexivity].
Qed.

Definition outside (package : option name) (k : name) : Prop := ~ (package = None /\ is_project S0 k).

(* How an event of the project [a] was dealt with, when the projects [done] were compiled *)
Definition handled (lg : list error) (done : list name) (a : name) (e : event) : Prop :=
  match e with
  | Fault => In (EFault a) lg
  | Import package k =>
      (package = None /\ k = a /\ In (EItself a) lg) \/
      (package = None /\ is_project S0 k /\ (In k done \/ In (ECircular a k) lg)) \/
      (outside package k /\ In (package, k) (refs S0)) \/
      In (ENotFound a package k) lg
  end.

Lemma handled_mono : forall lg lg' done done' a e,
  (forall x, In x lg -> In x lg') -> (forall x, In x done -> In x done') ->
  handled lg done a e -> handled lg' done' a e.
Proof.
  intros lg lg' done done' a [package k|] L D H; [|exact (L _ H)].
  destruct H as [(A & B & C)|[(A & B & C)|[H|H]]].
  - left. auto.
  - right. left. split; [exact A|]. split; [exact B|]. destruct C; auto.
  - right. right. left. exact H.
  - right. right. right. auto.
Qed.

Fixpoint chained (l : list name) : Prop :=
  match l with
  | a :: r => match r with b :: _ => imports S0 b a | [] => True end /\ chained r
  | [] => True
  end.

Lemma chained_reach : forall l a x, chained (a :: l) -> In x (a :: l) -> clos_refl_trans _ (imports S0) x a.
Proof.
  induction l as [|b l IH]; intros a x C [<-|I]; try apply rt_refl; [destruct I|].
  destruct C as [E C]. apply rt_trans with b; [exact (IH _ _ C I) | apply rt_step; exact E].
Qed.

Record Inv (st : state) : Prop := {
  i_nodup : NoDup (compiling st ++ compiled st);
  i_project : forall k, In k (compiling st ++ compiled st) -> is_project S0 k;
  i_chain : chained (compiling st);
  i_log : forall e, In e (log st) -> justified S0 e;
  i_done : forall l1 a l2, compiled st = l1 ++ a :: l2 ->
             forall e, has_event S0 a e -> handled (log st) l1 a e;
  i_prefix : exists rest, compiled st = written st ++ rest /\ (log st = [] -> rest = []);
  i_good : forall l1 a l2, written st = l1 ++ a :: l2 ->
             forall e, has_event S0 a e -> handled [] l1 a e;
  i_parse : written st <> [] -> parse_errors S0 = 0;
  i_cache : forall package k b, cached (package, k) (cache st) = Some b ->
              (b = true -> (package = None /\ is_project S0 k /\ In k (compiled st)) \/
                           (outside package k /\ In (package, k) (refs S0))) /\
              (b = false -> outside package k /\ ~ In (package, k) (refs S0));
  i_start : parse_errors S0 <> 0 -> In EParse (log st) }.

Definition ext (st st' : state) : Prop :=
  compiling st' = compiling st /\
  (forall x, In x (compiled st) -> In x (compiled st')) /\
  (forall x, In x (log st) -> In x (log st')).

Lemma ext_refl : forall st, ext st st.
Proof. intros st. split; [reflexivity|]. auto. Qed.

Lemma ext_trans : forall a b c, ext a b -> ext b c -> ext a c.
Proof. intros a b c (A & B & C) (D & E & F). split; [congruence|]. auto. Qed.

Lemma log_error_inv : forall st e, Inv st -> justified S0 e -> Inv (log_error st e).
Proof.
  intros st e [A B C D E F G P I J] JE. constructor; cbn [log_error compiling compiled cache log written]; auto.
  - intros x X. apply in_app_iff in X. destruct X as [X|[<-|[]]]; auto.
  - intros l1 a l2 Q x X. apply (handled_mono (log st) _ l1 l1); auto.
    + intros y Y. apply in_app_iff. left. exact Y.
    + exact (E l1 a l2 Q x X).
  - destruct F as (rest & Q & R). exists rest. split; [exact Q|]. intros Z. destruct (log st); discriminate.
  - intros X. apply in_app_iff. left. auto.
Qed.

Lemma log_error_ext : forall st e, ext st (log_error st e).
Proof.
  intros st e. split; [reflexivity|]. split; [auto|]. intros x I. cbn. apply in_app_iff. left. exact I.
Qed.

Lemma store_inv : forall st package k b, Inv st ->
  (b = true -> (package = None /\ is_project S0 k /\ In k (compiled st)) \/
               (outside package k /\ In (package, k) (refs S0))) ->
  (b = false -> outside package k /\ ~ In (package, k) (refs S0)) ->
  Inv (store st (package, k) b).
Proof.
  intros st package k b [A B C D E F G P I J] X Y. constructor; cbn [store compiling compiled cache log written]; auto.
  intros q j c Q. cbn [cached] in Q. destruct (key_eqb (q, j) (package, k)) eqn:K.
  - apply key_eqb_eq in K. injection K as -> ->. injection Q as <-. auto.
  - exact (I q j c Q).
Qed.

Lemma store_ext : forall st k b, ext st (store st k b).
Proof. intros st k b. split; [reflexivity|]. auto. Qed.

(* Compiling a project *)
Definition comp_ok (n : nat) (f : state -> project -> option (bool * state)) : Prop :=
  forall st p, Inv st -> In p (projects S0) -> ~ In (pname p) (compiled st) ->
    match compiling st with a :: _ => imports S0 a (pname p) | [] => True end ->
    length (projects S0) < n + length (compiling st) ->
    exists b st', f st p = Some (b, st') /\ Inv st' /\ ext st st' /\
      (if b then In (pname p) (compiled st') else In (pname p) (compiling st)).

Definition load_ok (st : state) (a : name) (package : option name) (k : name) (r : loaded) (st' : state) : Prop :=
  Inv st' /\ ext st st' /\
  match r with
  | Loaded => (package = None /\ is_project S0 k /\ In k (compiled st')) \/
              (outside package k /\ In (package, k) (refs S0))
  | Null => outside package k /\ ~ In (package, k) (refs S0)
  | Circle => package = None /\ is_project S0 k /\ justified S0 (ECircular a k)
  end.

Lemma load_spec : forall n f, comp_ok n f -> forall st a rest package k,
  Inv st -> compiling st = a :: rest -> has_event S0 a (Import package k) ->
  length (projects S0) < n + length (compiling st) ->
  exists r st', load S0 f st package k = Some (r, st') /\ load_ok st a package k r st'.
Proof.
  intros n f OK st a rest package k IV CO EV LEN. unfold load, load_ok.
  destruct (cached (package, k) (cache st)) as [b|] eqn:CA.
  { destruct (i_cache _ IV _ _ _ CA) as [T F]. destruct b; eexists _, st; (split; [reflexivity|]);
      (split; [exact IV|]); (split; [apply ext_refl|]); auto. }
  assert (FROM : outside package k -> exists r st',
    Some (if is_ref S0 (package, k) then Loaded else Null, store st (package, k) (is_ref S0 (package, k))) = Some (r, st')
    /\ load_ok st a package k r st').
  { intros O. pose proof (is_ref_in (package, k)) as R.
    destruct (is_ref S0 (package, k)); eexists _, _; (split; [reflexivity|]); unfold load_ok.
    - split; [|split; [apply store_ext | right; split; [exact O | apply R; reflexivity]]].
      apply store_inv; auto; [|discriminate]. intros _. right. split; [exact O | apply R; reflexivity].
    - assert (NR : ~ In (package, k) (refs S0)) by (intros I; apply R in I; discriminate).
      split; [|split; [apply store_ext | auto]]. apply store_inv; auto; discriminate. }
  destruct package as [q|].
  { apply FROM. intros [X _]. discriminate X. }
  destruct (existsb (Nat.eqb k) (compiled st)) eqn:CD.
  { apply existsb_nat in CD.
    assert (PK : is_project S0 k) by (apply (i_project _ IV), in_app_iff; right; exact CD).
    eexists _, _. split; [reflexivity|]. split; [|split; [apply store_ext | left; auto]].
    apply store_inv; auto. discriminate. }
  apply existsb_nat_false in CD. destruct (get_project S0 k) as [p|] eqn:GP.
  - destruct (get_project_some _ _ GP) as [IP PN]. rewrite <- PN in CD.
    assert (PK : is_project S0 k) by (exists p; auto).
    assert (IM : imports S0 a k) by (split; auto).
    destruct (OK st p IV IP CD) as (b & st' & E & IV' & EX & R).
    { rewrite CO, PN. exact IM. }
    { exact LEN. }
    rewrite E. destruct b; eexists _, _; (split; [reflexivity|]); rewrite PN in R.
    + split; [|split; [eapply ext_trans; [exact EX | apply store_ext] | left; auto]].
      apply store_inv; auto. discriminate.
    + split; [exact IV'|]. split; [exact EX|]. split; [reflexivity|]. split; [exact PK|].
      split; [exact IM|]. rewrite CO in R. pose proof (i_chain _ IV) as CH. rewrite CO in CH.
      exact (chained_reach _ _ _ CH R).
  - apply FROM. intros [_ X]. exact (get_project_none _ GP X).
Qed.

Lemma walk_spec : forall n f a, comp_ok n f -> forall es st rest,
  Inv st -> compiling st = a :: rest -> (forall e, In e es -> has_event S0 a e) ->
  length (projects S0) < n + length (compiling st) ->
  exists st', walk S0 f a st es = Some st' /\ Inv st' /\ ext st st' /\
    forall e, In e es -> handled (log st') (compiled st') a e.
Proof.
  intros n f a OK. induction es as [|e es IH]; intros st rest IV CO EV LEN.
  { exists st. split; [reflexivity|]. split; [exact IV|]. split; [apply ext_refl|]. intros e []. }
  assert (EVS : forall x, In x es -> has_event S0 a x) by (intros x X; apply EV; right; exact X).
  assert (GO : forall st1, Inv st1 -> ext st st1 -> handled (log st1) (compiled st1) a e ->
    exists st', walk S0 f a st1 es = Some st' /\ Inv st' /\ ext st st' /\
      forall x, In x (e :: es) -> handled (log st') (compiled st') a x).
  { intros st1 IV1 EX1 H1. pose proof EX1 as (C1 & _).
    assert (LEN1 : length (projects S0) < n + length (compiling st1)) by (rewrite C1; exact LEN).
    destruct (IH st1 rest IV1) as (st' & E & IV' & EX & H); auto; try congruence.
    exists st'. split; [exact E|]. split; [exact IV'|]. split; [exact (ext_trans _ _ _ EX1 EX)|].
    intros x [<-|I]; auto. destruct EX as (_ & D & L). exact (handled_mono _ _ _ _ _ _ L D H1). }
  cbn [walk]. destruct e as [package k|].
  - destruct (match package with None => Nat.eqb k a | Some _ => false end) eqn:OWN.
    + destruct package; [discriminate|]. apply Nat.eqb_eq in OWN. subst k.
      apply GO; [apply log_error_inv; auto | apply log_error_ext |].
      * split; [apply EV; left; reflexivity|].
        apply (i_project _ IV), in_app_iff. left. rewrite CO. left. reflexivity.
      * left. split; [reflexivity|]. split; [reflexivity|]. cbn. apply in_app_iff. right. left. reflexivity.
    + destruct (load_spec n f OK st a rest package k IV CO (EV _ (or_introl eq_refl)) LEN)
        as (r & st1 & E & IV1 & EX1 & R).
      rewrite E. destruct r.
      * apply GO; auto. destruct R as [(-> & PK & D)|R]; [right; left | right; right; left]; auto.
      * destruct R as [O NR]. apply GO.
        -- apply log_error_inv; auto. split; [apply EV; left; reflexivity|]. intros [X|X]; auto.
        -- exact (ext_trans _ _ _ EX1 (log_error_ext _ _)).
        -- right. right. right. cbn. apply in_app_iff. right. left. reflexivity.
      * destruct R as (-> & PK & J). apply GO.
        -- apply log_error_inv; auto.
        -- exact (ext_trans _ _ _ EX1 (log_error_ext _ _)).
        -- right. left. split; [reflexivity|]. split; [exact PK|]. right. cbn. apply in_app_iff. right. left. reflexivity.
  - apply GO; [apply log_error_inv; auto; apply EV; left; reflexivity | apply log_error_ext |].
    cbn. apply in_app_iff. right. left. reflexivity.
Qed.

Lemma filter_other : forall x l, ~ In x l -> filter (fun k => negb (Nat.eqb k x)) l = l.
Proof.
  intros x. induction l as [|y l IH]; intros N; [reflexivity|]. cbn [filter].
  destruct (Nat.eqb y x) eqn:E.
  - apply Nat.eqb_eq in E. destruct N. left. exact E.
  - cbn [negb]. f_equal. apply IH. intros I. apply N. right. exact I.
Qed.

Lemma finish_inv : forall st p rest, Inv st -> In p (projects S0) -> compiling st = pname p :: rest ->
  (forall e, In e (events p) -> handled (log st) (compiled st) (pname p) e) ->
  Inv (finish st p) /\ compiling (finish st p) = rest /\
  (forall x, In x (compiled st) -> In x (compiled (finish st p))) /\
  (forall x, In x (log st) -> In x (log (finish st p))) /\ In (pname p) (compiled (finish st p)).
Proof.
  intros st p rest IV IP CO HA. pose proof (i_nodup _ IV) as ND. rewrite CO in ND. cbn [app] in ND.
  inversion ND as [|? ? NI ND']; subst.
  assert (NR : ~ In (pname p) rest) by (intros I; apply NI, in_app_iff; left; exact I).
  assert (CR : compiling (finish st p) = rest).
  { unfold finish. cbn [compiling]. rewrite CO. cbn [filter]. rewrite Nat.eqb_refl. cbn [negb]. apply filter_other. exact NR. }
  assert (LG : forall x, In x (log st) -> In x (log (finish st p))).
  { intros x I. exact I. }
  destruct IV as [A B C D E F G P I J].
  split; [|split; [exact CR|split; [|split; [exact LG|]]]].
  - constructor; try rewrite CR.
    + unfold finish. cbn [compiled]. rewrite app_assoc. apply NoDup_rev in ND. rewrite <- (rev_involutive (_ ++ [pname p])).
      apply NoDup_rev. rewrite rev_app_distr. cbn [rev app].
      constructor; [rewrite <- in_rev; exact NI | apply NoDup_rev; exact ND'].
    + unfold finish. cbn [compiled]. intros k K. rewrite app_assoc in K. apply in_app_iff in K. destruct K as [K|[<-|[]]].
      * apply B. rewrite CO. right. exact K.
      * exists p. auto.
    + rewrite CO in C. exact (proj2 C).
    + exact D.
    + unfold finish at 1. cbn [compiled]. intros l1 a l2 Q e HE.
      symmetry in Q. destruct (snoc_split _ _ _ _ _ _ Q) as [(-> & -> & _)|(r & _ & Q')].
      * apply has_event_of in HE; [|exact IP].
        apply (handled_mono (log st) _ (compiled st) (compiled st)); auto.
      * apply (handled_mono (log st) _ l1 l1); auto. exact (E l1 a r Q' e HE).
    + destruct F as (rs & Q & R). unfold finish. cbn [compiled written log]. destruct (log st) eqn:L.
      * rewrite (R eq_refl), app_nil_r in Q. exists []. rewrite Q, app_nil_r. auto.
      * exists (rs ++ [pname p]). rewrite Q, app_assoc. split; [reflexivity | discriminate].
    + unfold finish. cbn [written]. destruct (log st) eqn:L; [|exact G].
      destruct F as (rs & Q & R). rewrite (R eq_refl), app_nil_r in Q.
      intros l1 a l2 W e HE. symmetry in W. destruct (snoc_split _ _ _ _ _ _ W) as [(-> & -> & _)|(r & _ & W')].
      * rewrite <- Q. apply HA. apply has_event_of in HE; [exact HE | exact IP].
      * exact (G l1 a r W' e HE).
    + unfold finish. cbn [written]. destruct (log st) eqn:L; [|exact P]. intros _.
      destruct (Nat.eq_dec (parse_errors S0) 0) as [Z|Z]; [exact Z|]. destruct (J Z).
    + unfold finish. cbn [cache compiled]. intros package k b K. destruct (I package k b K) as [X Y].
      split; [|exact Y]. intros Z. destruct (X Z) as [(U & V & W)|U]; [left | right; exact U].
      split; [exact U|]. split; [exact V|]. apply in_app_iff. left. exact W.
    + intros Z. apply LG. auto.
  - intros x X. unfold finish. cbn [compiled]. apply in_app_iff. left. exact X.
  - unfold finish. cbn [compiled]. apply in_app_iff. right. left. reflexivity.
Qed.

Lemma names_length : forall l, NoDup l -> (forall k, In k l -> is_project S0 k) -> length l <= length (projects S0).
Proof.
  intros l ND H. rewrite <- (map_length pname). apply NoDup_incl_length; [exact ND|].
  intros k I. destruct (H k I) as (p & J & <-). apply in_map. exact J.
Qed.

Lemma compile_project_ok : forall n, comp_ok n (compile_project S0 n).
Proof.
  induction n as [|n IH]; intros st p IV IP NC TOP LEN.
  { pose proof (i_nodup _ IV) as ND. apply NoDup_app_remove_r in ND.
    pose proof (names_length _ ND (fun k I => i_project _ IV k (proj2 (in_app_iff _ _ _) (or_introl I)))). lia. }
  cbn [compile_project]. destruct (existsb (Nat.eqb (pname p)) (compiling st)) eqn:CG.
  { apply existsb_nat in CG. exists false, st. split; [reflexivity|]. split; [exact IV|].
    split; [apply ext_refl | exact CG]. }
  apply existsb_nat_false in CG.
  set (st1 := {| compiling := pname p :: compiling st; compiled := compiled st; cache := cache st;
                 log := log st; written := written st |}).
  assert (IV1 : Inv st1).
  { destruct IV as [A B C D E F G P I J]. constructor; cbn [st1 compiling compiled cache log written]; auto.
    - cbn [app]. constructor; [|exact A]. intros X. apply in_app_iff in X. tauto.
    - intros k [<-|K]; [exists p; auto | auto].
    - cbn [chained]. split; [exact TOP | exact C]. }
  destruct (walk_spec n _ (pname p) IH (events p) st1 (compiling st) IV1 eq_refl)
    as (st2 & E & IV2 & (C2 & D2 & L2) & HA).
  { intros e I. exists p. auto. }
  { cbn [st1 compiling length]. lia. }
  rewrite E. destruct (finish_inv st2 p (compiling st) IV2 IP C2 HA) as (IV3 & C3 & D3 & L3 & IN).
  exists true, (finish st2 p). split; [reflexivity|]. split; [exact IV3|]. split; [|exact IN].
  split; [exact C3|]. split.
  - intros x X. apply D3, D2. exact X.
  - intros x X. apply L3, L2. exact X.
Qed.

Lemma compile_each_ok : forall n ps st, length (projects S0) < n ->
  (forall p, In p ps -> In p (projects S0)) -> Inv st -> compiling st = [] ->
  exists st', compile_each S0 n st ps = Some st' /\ Inv st' /\ compiling st' = [] /\
    (forall x, In x (compiled st) -> In x (compiled st')) /\
    (forall p, In p ps -> In (pname p) (compiled st')).
Proof.
  intros n. induction ps as [|p r IH]; intros st LEN IP IV CO.
  { exists st. split; [reflexivity|]. split; [exact IV|]. split; [exact CO|]. split; [auto|]. intros p []. }
  assert (IR : forall q, In q r -> In q (projects S0)) by (intros q I; apply IP; right; exact I).
  cbn [compile_each]. rewrite CO. cbn [existsb orb].
  destruct (existsb (Nat.eqb (pname p)) (compiled st)) eqn:CD.
  - apply existsb_nat in CD. destruct (IH st LEN IR IV CO) as (st' & E & IV' & CO' & D & A).
    exists st'. split; [exact E|]. split; [exact IV'|]. split; [exact CO'|]. split; [exact D|].
    intros q [<-|I]; auto.
  - apply existsb_nat_false in CD.
    destruct (compile_project_ok n st p IV (IP p (or_introl eq_refl)) CD) as (b & st1 & E & IV1 & (C1 & D1 & L1) & R).
    { rewrite CO. exact Logic.I. }
    { lia. }
    rewrite E. destruct b; [|rewrite CO in R; destruct R].
    destruct (IH st1 LEN IR IV1) as (st' & E' & IV' & CO' & D & A); [congruence|].
    exists st'. split; [exact E'|]. split; [exact IV'|]. split; [exact CO'|]. split; [auto|].
    intros q [<-|I]; auto.
Qed.

Lemma start_inv : Inv (start S0).
Proof.
  constructor; cbn [start compiling compiled cache log written app].
  - constructor.
  - intros k [].
  - exact Logic.I.
  - intros e I. pose proof (repeat_spec _ _ _ I) as ->. cbn. destruct (parse_errors S0); [destruct I | discriminate].
  - intros l1 a l2 E. destruct l1; discriminate.
  - exists []. auto.
  - intros l1 a l2 E. destruct l1; discriminate.
  - intros X. congruence.
  - intros package k b E. discriminate.
  - intros N. destruct (parse_errors S0); [congruence | left; reflexivity].
Qed.

Lemma compile_inv : exists st, compile S0 = Some st /\ Inv st /\
  forall k, is_project S0 k -> In k (compiled st).
Proof.
  destruct (compile_each_ok (S (length (projects S0))) (projects S0) (start S0))
    as (st & E & IV & CO & _ & A); auto.
  - exact start_inv.
  - exists st. split; [exact E|]. split; [exact IV|]. intros k (p & I & <-). exact (A p I).
Qed.

Lemma compiled_inv : forall st, compile S0 = Some st -> Inv st /\ forall k, is_project S0 k -> In k (compiled st).
Proof. intros st E. destruct compile_inv as (st' & E' & X). rewrite E in E'. injection E' as <-. exact X. Qed.

Lemma compiled_nodup : forall st, Inv st -> NoDup (compiled st).
Proof. intros st IV. exact (NoDup_app_remove_l _ _ _ (i_nodup _ IV)). Qed.

(** *** Results *)

Theorem compiled_once : exists st, compile S0 = Some st /\ Permutation (compiled st) (map pname (projects S0)).
Proof.
  destruct compile_inv as (st & E & IV & ALL). exists st. split; [exact E|].
  apply NoDup_Permutation; [exact (compiled_nodup _ IV) | exact DIST|].
  intros k. split.
  - intros I. destruct (i_project _ IV k) as (p & J & <-); [apply in_app_iff; right; exact I|]. apply in_map. exact J.
  - intros I. apply in_map_iff in I. destruct I as (p & <- & J). apply ALL. exists p. auto.
Qed.

(* An import of a project, as it was dealt with *)
Lemma import_handled : forall st a b, compile S0 = Some st -> imports S0 a b ->
  before b a (compiled st) \/ In (ECircular a b) (log st) \/ (a = b /\ In (EItself a) (log st)).
Proof.
  intros st a b E [EV PB]. destruct (compiled_inv st E) as [IV ALL].
  assert (PA : is_project S0 a) by (destruct EV as (p & I & Q & _); exists p; auto).
  destruct (in_split _ _ (ALL a PA)) as (l1 & l2 & Q).
  destruct (i_done _ IV _ _ _ Q _ EV) as [(_ & -> & X)|[(_ & _ & [X|X])|[(X & _)|X]]]; auto.
  - left. destruct (in_split _ _ X) as (m1 & m2 & ->). exists m1, m2, l2. rewrite Q, <- app_assoc. reflexivity.
  - destruct X. auto.
  - destruct (i_log _ IV _ X) as [_ N]. destruct N. left. auto.
Qed.

Theorem imports_before : forall st a b, compile S0 = Some st ->
  imports S0 a b -> ~ clos_refl_trans _ (imports S0) b a -> before b a (compiled st).
Proof.
  intros st a b E IM N. destruct (compiled_inv st E) as [IV _].
  destruct (import_handled st a b E IM) as [X|[X|(-> & _)]]; auto.
  - destruct (i_log _ IV _ X) as [_ R]. contradiction.
  - destruct N. apply rt_refl.
Qed.

Theorem circles_reported : forall st x, compile S0 = Some st ->
  ~ clos_trans _ (fun a b => imports S0 a b /\ ~ In (ECircular a b) (log st) /\
                             ~ (a = b /\ In (EItself a) (log st))) x x.
Proof.
  intros st x E H. destruct (compiled_inv st E) as [IV _]. pose proof (compiled_nodup _ IV) as ND.
  assert (L : forall a b, clos_trans _ (fun a b => imports S0 a b /\ ~ In (ECircular a b) (log st) /\
                             ~ (a = b /\ In (EItself a) (log st))) a b ->
              index b (compiled st) < index a (compiled st)).
  { intros a b T. induction T as [a b (IM & N1 & N2)|]; [|lia].
    destruct (import_handled st a b E IM) as [X|[X|X]]; try contradiction. exact (before_index _ _ _ ND X). }
  specialize (L x x H). lia.
Qed.

Theorem errors_justified : forall st e, compile S0 = Some st -> In e (log st) -> justified S0 e.
Proof. intros st e E. destruct (compiled_inv st E) as [IV _]. apply (i_log _ IV). Qed.

Lemma clean_nothing : clean S0 -> forall e, ~ justified S0 e.
Proof.
  intros [C1 C2 C3 C4] [|a|a b|a q k|a] J; cbn in J.
  - congruence.
  - apply (C4 a). apply t_step. exact J.
  - destruct J as [I R]. apply (C4 a). clear - I R.
    assert (G : forall c, clos_refl_trans _ (imports S0) b c -> clos_trans _ (imports S0) a c).
    { intros c Q. apply Operators_Properties.clos_rt_rtn1 in Q. induction Q as [|y z S Q IH].
      - apply t_step. exact I.
      - apply t_trans with y; [exact IH | apply t_step; exact S]. }
    exact (G a R).
  - destruct J as [E N]. exact (N (C3 _ _ _ E)).
  - exact (C2 a J).
Qed.

Theorem no_errors_iff : forall st, compile S0 = Some st -> log st = [] <-> clean S0.
Proof.
  intros st E. destruct (compiled_inv st E) as [IV ALL]. split.
  - intros L.
    assert (HA : forall a e, has_event S0 a e -> exists l1, handled [] l1 a e).
    { intros a e EV. assert (PA : is_project S0 a) by (destruct EV as (p & I & Q & _); exists p; auto).
      destruct (in_split _ _ (ALL a PA)) as (l1 & l2 & Q). exists l1. rewrite <- L. exact (i_done _ IV _ _ _ Q _ EV). }
    constructor.
    + destruct (Nat.eq_dec (parse_errors S0) 0) as [Z|Z]; [exact Z|]. pose proof (i_start _ IV Z) as X.
      rewrite L in X. destruct X.
    + intros a EV. destruct (HA a _ EV) as (l1 & []).
    + intros a q k EV. destruct (HA a _ EV) as (l1 & [(_ & _ & [])|[(-> & PK & _)|[(_ & R)|[]]]]); [left | right]; auto.
    + intros a T. apply (circles_reported st a E). rewrite L.
      assert (G : forall x y, clos_trans _ (imports S0) x y ->
        clos_trans _ (fun a b => imports S0 a b /\ ~ In (ECircular a b) [] /\ ~ (a = b /\ In (EItself a) [])) x y).
      { intros x y U. induction U as [x y I|]; [|eapply t_trans; eauto]. apply t_step.
        split; [exact I|]. split; [intros [] | intros [_ []]]. }
      exact (G a a T).
  - intros C. destruct (log st) as [|e r] eqn:L; [reflexivity|].
    exfalso. apply (clean_nothing C e). apply (i_log _ IV). rewrite L. left. reflexivity.
Qed.

Theorem clean_written : forall st, compile S0 = Some st -> clean S0 -> written st = compiled st.
Proof.
  intros st E C. destruct (compiled_inv st E) as [IV _]. apply (no_errors_iff st E) in C.
  destruct (i_prefix _ IV) as (rest & Q & R). rewrite (R C), app_nil_r in Q. auto.
Qed.

(* A written assembly is complete *)
Lemma written_step : forall st a b, compile S0 = Some st -> In a (written st) -> imports S0 a b ->
  In b (written st) /\ before b a (written st).
Proof.
  intros st a b E W [EV PB]. destruct (compiled_inv st E) as [IV _].
  destruct (in_split _ _ W) as (l1 & l2 & Q).
  destruct (i_good _ IV _ _ _ Q _ EV) as [(_ & _ & [])|[(_ & _ & [X|[]])|[(X & _)|[]]]].
  - destruct (in_split _ _ X) as (m1 & m2 & ->). split.
    + rewrite Q. apply in_app_iff. left. exact X.
    + exists m1, m2, l2. rewrite Q, <- app_assoc. reflexivity.
  - destruct X. auto.
Qed.

Lemma written_reach : forall st a b, compile S0 = Some st -> In a (written st) ->
  clos_refl_trans _ (imports S0) a b -> In b (written st).
Proof.
  intros st a b E W R. apply Operators_Properties.clos_rt_rt1n in R.
  induction R as [|a b c I _ IH]; [exact W|]. apply IH. exact (proj1 (written_step st a b E W I)).
Qed.

Lemma written_nodup : forall st, Inv st -> NoDup (written st).
Proof.
  intros st IV. pose proof (compiled_nodup _ IV) as ND. destruct (i_prefix _ IV) as (rest & Q & _).
  rewrite Q in ND. exact (NoDup_app_remove_r _ _ _ ND).
Qed.

Theorem written_complete : forall st a b, compile S0 = Some st -> In a (written st) ->
  clos_refl_trans _ (imports S0) a b ->
  In b (written st) /\ parse_errors S0 = 0 /\ ~ has_event S0 b Fault /\
  (forall package k, has_event S0 b (Import package k) -> found S0 package k) /\
  ~ clos_trans _ (imports S0) b b /\
  (forall c, imports S0 b c -> before c b (written st)).
Proof.
  intros st a b E W R. pose proof (written_reach st a b E W R) as WB. split; [exact WB|].
  destruct (compiled_inv st E) as [IV _]. destruct (in_split _ _ WB) as (l1 & l2 & Q).
  pose proof (i_good _ IV _ _ _ Q) as G.
  split; [apply (i_parse _ IV); intros Z; rewrite Z in WB; destruct WB|].
  split; [intros EV; destruct (G _ EV)|]. split; [|split].
  - intros q k EV. destruct (G _ EV) as [(_ & _ & [])|[(-> & PK & _)|[(_ & X)|[]]]]; [left | right]; auto.
  - intros T. pose proof (written_nodup _ IV) as ND.
    assert (L : forall x y, clos_trans _ (imports S0) x y -> In x (written st) ->
              In y (written st) /\ index y (written st) < index x (written st)).
    { intros x y U. induction U as [x y IM|x y z _ IH1 _ IH2]; intros WX.
      - destruct (written_step st x y E WX IM) as [WY BY]. split; [exact WY | exact (before_index _ _ _ ND BY)].
      - destruct (IH1 WX) as [WY L1]. destruct (IH2 WY) as [WZ L2]. split; [exact WZ | lia]. }
    destruct (L b b T WB). lia.
  - intros c IM. exact (proj2 (written_step st b c E WB IM)).
Qed.

Theorem written_first : forall st, compile S0 = Some st ->
  exists rest, compiled st = written st ++ rest.
Proof.
  intros st E. destruct (compiled_inv st E) as [IV _]. destruct (i_prefix _ IV) as (rest & Q & _). eauto.
Qed.

End WithSolution.
