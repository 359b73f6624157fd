(** Proofs about run-time dispatch: virtual calls. *)
From Coq Require Import ZArith List Bool Lia Permutation.
From Verif Require Import VtblModel VtblSpec.
Import ListNotations.
Local Open Scope nat_scope.

(* ------------------------------------------------------------------ *)
(** * Prototypes *)

Lemma params_match_eq : forall ps qs,
  length qs = length ps -> (params_match ps qs = true <-> ps = qs).
Proof.
  induction ps as [|[k t] ps IH]; intros [|[k' t'] qs] L; cbn [params_match length] in *;
    try discriminate L.
  - split; reflexivity.
  - injection L as L. destruct (Nat.eqb_spec k k'); destruct (Nat.eqb_spec t t'); subst.
    + rewrite (IH qs L). split; intro H; [now subst | now injection H].
    + split; intro H; [discriminate | injection H; congruence].
    + split; intro H; [discriminate | injection H; congruence].
    + split; intro H; [discriminate | injection H; congruence].
Qed.

Lemma compare_to_eq : forall m s, compare_to m s = true <-> m_sig m = s.
Proof.
  intros m [n g r ps]. unfold compare_to. destruct (m_sig m) as [n0 g0 r0 ps0].
  cbn [s_name s_generics s_ret s_params].
  destruct (Nat.eqb_spec n0 n); cbn [negb]; [|split; intro H; [discriminate|injection H; congruence]].
  destruct (Nat.eqb_spec g g0); cbn [negb]; [|split; intro H; [discriminate|injection H; congruence]].
  destruct (Nat.eqb_spec (length ps) (length ps0)) as [L|L]; cbn [negb];
    [|split; intro H; [discriminate|injection H; congruence]].
  destruct (Nat.eqb_spec r r0); cbn [negb]; [|split; intro H; [discriminate|injection H; congruence]].
  rewrite (params_match_eq ps0 ps L). subst. split; intro H; [now subst|now injection H].
Qed.

Lemma compare_to_ne : forall m s, compare_to m s = false <-> m_sig m <> s.
Proof.
  intros m s. rewrite <- compare_to_eq. destruct (compare_to m s); split; intro H; congruence.
Qed.

Lemma clash_ret : forall s s', clash s s' -> s_ret s = s_ret s' -> s = s'.
Proof.
  intros [a b c d] [a' b' c' d'] (A & B & C) R. cbn in *. congruence.
Qed.

Lemma clash_refl : forall s, clash s s.
Proof. intro s. now repeat split. Qed.

Lemma clash_sym : forall s s', clash s s' -> clash s' s.
Proof. intros s s' (A & B & C). unfold clash. auto. Qed.

Lemma clash_trans : forall a b c, clash a b -> clash b c -> clash a c.
Proof. intros a b c (A & B & C) (A' & B' & C'). unfold clash. repeat split; congruence. Qed.

Lemma is_virtual_spec : forall m, is_virtual m = true <-> introducing m.
Proof.
  intro m. unfold is_virtual, introducing.
  destruct (m_virt m), (m_over m), (m_abs m); cbn; intuition congruence.
Qed.

Lemma introducing_dispatched : forall m, introducing m -> dispatched m.
Proof. intros m [H|[H _]]; unfold dispatched; auto. Qed.

Lemma introducing_dec : forall m, introducing m \/ ~ introducing m.
Proof.
  intro m. rewrite <- is_virtual_spec. destruct (is_virtual m); [left|right]; congruence.
Qed.

Lemma dispatched_cases : forall m, dispatched m -> ~ introducing m -> m_over m = true.
Proof.
  intros m D N. unfold dispatched, introducing in *.
  destruct (m_virt m), (m_over m), (m_abs m); intuition congruence.
Qed.

Lemma over_dispatched : forall m, m_over m = true -> dispatched m.
Proof. unfold dispatched; auto. Qed.

(* ------------------------------------------------------------------ *)
(** * The shape of the table of a class *)

Lemma in_all : forall c b m, In m (all_methods (c :: b)) <-> In m (c_methods c) \/ In m (all_methods b).
Proof.
  intros. unfold all_methods. cbn [map concat]. rewrite in_app_iff. reflexivity.
Qed.

Lemma in_all_app : forall a b m, In m (all_methods (a ++ b)) <-> In m (all_methods a) \/ In m (all_methods b).
Proof.
  intros. unfold all_methods. rewrite map_app, concat_app, in_app_iff. reflexivity.
Qed.

Lemma call_type_dispatched : forall m,
  m_static m = false -> m_extern m = false -> dispatched m -> call_type m = 1.
Proof.
  intros m S E D. unfold call_type. rewrite S, E.
  destruct D as [D|[D|D]]; rewrite D; rewrite ?orb_true_r; reflexivity.
Qed.

Lemma call_type_other : forall m, ~ dispatched m -> 2 <= call_type m.
Proof.
  intros m N. unfold call_type, dispatched in *.
  destruct (m_extern m), (m_static m); try lia.
  destruct (m_virt m), (m_over m), (m_abs m); cbn; try lia; exfalso; apply N; auto.
Qed.

Lemma dispatched_dec : forall m, dispatched m \/ ~ dispatched m.
Proof.
  intro m. unfold dispatched.
  destruct (m_virt m), (m_over m), (m_abs m); intuition congruence.
Qed.

Lemma table_split : forall ms,
  call_types_sorted ms ->
  (forall m, In m ms -> dispatched m -> m_static m = false /\ m_extern m = false) ->
  exists ds rest, ms = ds ++ rest /\ Forall dispatched ds /\ Forall (fun m => ~ dispatched m) rest.
Proof.
  induction ms as [|m ms IH]; intros S P.
  - exists [], []. repeat split; constructor.
  - destruct S as [F S].
    destruct (dispatched_dec m) as [D|N].
    + destruct IH as (ds & rest & E & A & B); [exact S| intros; apply P; [now right|assumption] |].
      exists (m :: ds), rest. subst ms. repeat split; auto.
    + exists [], (m :: ms). repeat split; [constructor|].
      constructor; [exact N|]. rewrite Forall_forall in *. intros x X D.
      specialize (F x X). pose proof (call_type_other m N).
      destruct (P x (or_intror X) D) as [Q1 Q2].
      rewrite (call_type_dispatched x Q1 Q2 D) in F. lia.
Qed.

Lemma dispatched_split : forall ds,
  Forall dispatched ds ->
  (forall l1 m l2, ds = l1 ++ m :: l2 -> introducing m -> Forall (fun m' => m_over m' = false) l1) ->
  exists vs os, ds = vs ++ os /\ Forall introducing vs /\
                Forall (fun m => m_over m = true /\ ~ introducing m) os.
Proof.
  induction ds as [|m ds IH]; intros F P.
  - exists [], []. repeat split; constructor.
  - inversion F as [|? ? D F']; subst.
    destruct (introducing_dec m) as [I|N].
    + destruct IH as (vs & os & E & A & B); [exact F'| |].
      { intros l1 x l2 E X. specialize (P (m :: l1) x l2). cbn in P. rewrite E in P.
        specialize (P eq_refl X). now inversion P. }
      exists (m :: vs), os. subst ds. repeat split; auto.
    + exists [], (m :: ds). repeat split; [constructor|].
      rewrite Forall_forall. intros x X.
      assert (NX : ~ introducing x).
      { destruct X as [->|X]; [exact N|]. intro IX.
        destruct (in_split _ _ X) as (l1 & l2 & E).
        specialize (P (m :: l1) x l2). cbn in P. rewrite E in P. specialize (P eq_refl IX).
        inversion P as [|? ? Q _]; subst. rewrite (dispatched_cases m D N) in Q. discriminate. }
      split; [|exact NX]. rewrite Forall_forall in F. apply dispatched_cases; auto.
Qed.

(** The table of a class: methods that introduce, methods that override, the
    others. *)
Lemma table_shape : forall c b,
  accepted (c :: b) -> laid_out (c :: b) -> introducing_first (c :: b) ->
  exists vs os rest, c_methods c = vs ++ os ++ rest /\ Forall introducing vs /\
     Forall (fun m => m_over m = true /\ ~ introducing m) os /\
     Forall (fun m => ~ dispatched m) rest.
Proof.
  intros c b [[A1 A2] A3] L I. inversion L as [|? ? (src & _ & S) _]; subst.
  inversion I as [|? ? P _]; subst.
  destruct (table_split (c_methods c) S) as (ds & rest & E & D & R).
  { intros m M D. exact (proj1 (proj2 (A1 m M)) D). }
  destruct (dispatched_split ds D) as (vs & os & E' & V & O).
  { intros l1 m l2 E' M. apply (P l1 m (l2 ++ rest)); [|exact M]. rewrite E, E', <- app_assoc. reflexivity. }
  exists vs, os, rest. subst ds. rewrite <- app_assoc in E. auto.
Qed.

(* ------------------------------------------------------------------ *)
(** * Slots *)

(** The methods that introduce, in the order of the table: base first. *)
Fixpoint slots (t : ty) : list meth :=
  match t with
  | [] => []
  | c :: b => slots b ++ filter is_virtual (c_methods c)
  end.

Lemma in_slots : forall t r, In r (slots t) <-> In r (all_methods t) /\ introducing r.
Proof.
  induction t as [|c b IH]; intro r; cbn [slots].
  - split; [intros []|intros [[] _]].
  - rewrite in_app_iff, IH, in_all, filter_In, is_virtual_spec. tauto.
Qed.

Lemma slots_app : forall a t, exists l, slots (a ++ t) = slots t ++ l.
Proof.
  induction a as [|c a IH]; intro t; cbn [app slots].
  - exists []. now rewrite app_nil_r.
  - destruct (IH t) as [l ->]. rewrite <- app_assoc. eexists. reflexivity.
Qed.

Lemma filter_all : forall {A} (f : A -> bool) l, Forall (fun x => f x = true) l -> filter f l = l.
Proof.
  intros A f l H. induction H as [|x l Hx H IH]; cbn [filter]; [reflexivity|]. now rewrite Hx, IH.
Qed.

Lemma filter_none : forall {A} (f : A -> bool) l, Forall (fun x => f x = false) l -> filter f l = [].
Proof.
  intros A f l H. induction H as [|x l Hx H IH]; cbn [filter]; [reflexivity|]. now rewrite Hx, IH.
Qed.

Lemma not_introducing_virtual : forall m, ~ introducing m -> is_virtual m = false.
Proof.
  intros m N. destruct (is_virtual m) eqn:E; [|reflexivity]. apply is_virtual_spec in E. contradiction.
Qed.

Lemma slots_shape : forall vs os rest,
  Forall introducing vs -> Forall (fun m => m_over m = true /\ ~ introducing m) os ->
  Forall (fun m => ~ dispatched m) rest ->
  filter is_virtual (vs ++ os ++ rest) = vs.
Proof.
  intros vs os rest V O R. rewrite !filter_app.
  rewrite (filter_all is_virtual vs), (filter_none is_virtual os), (filter_none is_virtual rest).
  - now rewrite !app_nil_r.
  - eapply Forall_impl; [|exact R]. intros m N. apply not_introducing_virtual.
    intro I. apply N. now apply introducing_dispatched.
  - eapply Forall_impl; [|exact O]. intros m [_ N]. now apply not_introducing_virtual.
  - eapply Forall_impl; [|exact V]. intros m I. now apply is_virtual_spec.
Qed.

Lemma own_count_shape : forall vs l,
  Forall introducing vs -> (forall m r, l = m :: r -> ~ introducing m) ->
  own_virtual_count (vs ++ l) = length vs.
Proof.
  intros vs l V L. induction V as [|m vs I V IH]; cbn [app own_virtual_count length].
  - destruct l as [|m r]; [reflexivity|]. cbn [own_virtual_count].
    rewrite (not_introducing_virtual m (L m r eq_refl)). reflexivity.
  - apply is_virtual_spec in I. now rewrite I, IH.
Qed.

Lemma virtual_count_slots : forall t,
  accepted t -> laid_out t -> introducing_first t -> virtual_count t = length (slots t).
Proof.
  induction t as [|c b IH]; intros A L I; [reflexivity|].
  destruct (table_shape c b A L I) as (vs & os & rest & E & V & O & R).
  cbn [virtual_count slots]. rewrite app_length, E, (slots_shape vs os rest V O R).
  rewrite own_count_shape; [|exact V|].
  - rewrite IH; [lia| exact (proj2 A) | now inversion L | now inversion I].
  - intros m r X. destruct os as [|o os]; cbn [app] in X.
    + subst rest. inversion R as [|? ? N _]; subst. intro Q. apply N. now apply introducing_dispatched.
    + injection X as -> _. now inversion O as [|? ? [_ N] _].
Qed.

(** The virtual methods of a hierarchy without reintroduction differ in their
    prototypes. *)
Lemma slots_distinct : forall t,
  accepted t -> no_reintroduction t -> explicit_apart t ->
  forall r r', In r (slots t) -> In r' (slots t) -> clash (m_sig r) (m_sig r') -> r = r'.
Proof.
  induction t as [|c b IH]; intros A N X r r' H H' C; [destruct H|].
  apply in_slots in H. apply in_slots in H'. destruct H as [H I], H' as [H' I'].
  destruct N as [N N']. destruct A as [[A1 A2] A3].
  assert (OW : forall m, In m (all_methods (c :: b)) -> introducing m -> m_owner m = None).
  { intros m M J. destruct (m_owner m) eqn:E; [|reflexivity]. exfalso.
    apply (proj1 (X m M ltac:(congruence))). now apply introducing_dispatched. }
  pose proof (OW r H I) as O1. pose proof (OW r' H' I') as O2.
  apply in_all in H. apply in_all in H'.
  destruct H as [H|H], H' as [H'|H'].
  - apply A2; auto. congruence.
  - exfalso. exact (N r r' H I H' I' C).
  - exfalso. exact (N r' r H' I' H I (clash_sym _ _ C)).
  - apply IH; auto.
    + intros m M E. destruct (X m (proj2 (in_all c b m) (or_intror M)) E) as [Q1 Q2].
      split; [exact Q1|]. intros m' M'. apply Q2. apply in_all. now right.
    + apply in_slots. auto.
    + apply in_slots. auto.
Qed.

Lemma explicit_apart_base : forall a b, explicit_apart (a ++ b) -> explicit_apart b.
Proof.
  intros a b X m M E. destruct (X m (proj2 (in_all_app a b m) (or_intror M)) E) as [Q1 Q2].
  split; [exact Q1|]. intros m' M'. apply Q2. apply in_all_app. now right.
Qed.

Lemma accepted_base : forall a b, accepted (a ++ b) -> accepted b.
Proof. induction a as [|c a IH]; intros b A; [exact A|]. apply IH. exact (proj2 A). Qed.

Lemma no_reintroduction_base : forall a b, no_reintroduction (a ++ b) -> no_reintroduction b.
Proof. induction a as [|c a IH]; intros b A; [exact A|]. apply IH. exact (proj2 A). Qed.

Lemma laid_out_base : forall a b, laid_out (a ++ b) -> laid_out b.
Proof. intros a b L. apply Forall_app in L. exact (proj2 L). Qed.

Lemma introducing_first_base : forall a b, introducing_first (a ++ b) -> introducing_first b.
Proof. intros a b L. apply Forall_app in L. exact (proj2 L). Qed.

Lemma loaded_base : forall at_ a b, loaded at_ (a ++ b) -> loaded at_ b.
Proof.
  intros at_ a b [L N]. split.
  - intros m M. apply L. apply in_all_app. now right.
  - unfold all_methods in *. rewrite map_app, concat_app in N. clear L.
    induction (concat (map c_methods a)) as [|x l IH]; [exact N|].
    apply IH. cbn [app] in N. now inversion N.
Qed.

(* ------------------------------------------------------------------ *)
(** * The overridden method *)

Lemma nearest_suffix : forall t s host m, nearest t s host m ->
  exists a, t = a ++ host /\ exists c b, host = c :: b /\ In m (c_methods c).
Proof.
  intros t s host m H. induction H as [c b s m M O C | c b s host m N H (a & -> & Q)].
  - exists []. split; [reflexivity|]. eauto.
  - exists (c :: a). split; [reflexivity|exact Q].
Qed.

Lemma nearest_facts : forall t s host m, nearest t s host m ->
  m_owner m = None /\ clash (m_sig m) s /\ In m (all_methods t).
Proof.
  intros t s host m H. induction H as [c b s m M O C | c b s host m N H (Q1 & Q2 & Q3)].
  - repeat split; auto; try apply C. apply in_all. auto.
  - repeat split; auto; try apply Q2. apply in_all. auto.
Qed.

Lemma nearest_fun : forall t s host m host' m',
  accepted t -> nearest t s host m -> nearest t s host' m' -> host = host' /\ m = m'.
Proof.
  intros t s host m host' m' A H. revert host' m'.
  induction H as [c b s m M O C | c b s host m N H IH]; intros host' m' H'; inversion H'; subst.
  - split; [reflexivity|]. destruct A as [[_ A2] _]. apply A2; auto; [congruence|].
    eapply clash_trans; [exact C|]. apply clash_sym. assumption.
  - exfalso. match goal with N : forall _, _ -> _ -> ~ _ |- _ => exact (N m M O C) end.
  - exfalso. eapply N; eassumption.
  - apply IH; [exact (proj2 A)|assumption].
Qed.

Lemma introduced_fun : forall host m r r',
  accepted host -> In m (all_methods host) -> introduced host m r -> introduced host m r' -> r = r'.
Proof.
  intros host m r r' A M H. revert r' A M.
  assert (NI : forall t x, accepted t -> In x (all_methods t) -> introducing x -> m_over x = true -> False).
  { induction t as [|c b IH]; intros x A X I O; [destruct X|].
    apply in_all in X. destruct A as [[A1 _] A']. destruct X as [X|X]; [|eauto].
    destruct (A1 x X) as [Q _]. specialize (Q O). destruct I as [I|[_ I]]; congruence. }
  induction H as [host m I | c b m host m' r O N H IH]; intros r' A M H'; inversion H'; subst.
  - reflexivity.
  - exfalso. eapply NI; eassumption.
  - exfalso. eapply NI; eassumption.
  - match goal with N' : nearest b (m_sig m) _ _ |- _ =>
      destruct (nearest_fun _ _ _ _ _ _ (proj2 A) N N') as [<- <-] end.
    destruct (nearest_suffix _ _ _ _ N) as (a & E & c0 & b0 & E0 & M0).
    apply IH; [|subst host; apply in_all; now left|assumption].
    apply (accepted_base a). rewrite <- E. exact (proj2 A).
Qed.

(** Every dispatched method belongs to the chain of one method that
    introduces, with the same prototype. *)
Lemma nearest_introduced : forall t, accepted t -> forall s host m,
  nearest t s host m -> dispatched m ->
  exists r, introduced host m r /\ m_sig r = m_sig m /\ In r (slots t).
Proof.
  induction t as [|c b IH]; intros A s host m H D; inversion H; subst.
  - destruct (introducing_dec m) as [I|N].
    + exists m. repeat split; [now constructor|]. apply in_slots. split; [apply in_all; auto|exact I].
    + pose proof (dispatched_cases m D N) as O.
      destruct A as [[A1 A2] A3]. destruct (A1 m) as (_ & _ & Q); [assumption|].
      destruct (Q O) as (host' & m' & H' & D' & R').
      destruct (IH A3 _ _ _ H' D') as (r & I' & S' & In').
      exists r. repeat split.
      * econstructor; eassumption.
      * rewrite S'. apply clash_ret; [|exact R']. exact (proj1 (proj2 (nearest_facts _ _ _ _ H'))).
      * cbn [slots]. rewrite in_app_iff. now left.
  - destruct (IH (proj2 A) s host m) as (r & I' & S' & In'); auto.
    exists r. repeat split; auto. cbn [slots]. rewrite in_app_iff. now left.
Qed.

Lemma introduced_exists : forall c b m, accepted (c :: b) -> In m (c_methods c) -> dispatched m ->
  exists r, introduced (c :: b) m r /\ m_sig r = m_sig m /\ In r (slots (c :: b)).
Proof.
  intros c b m A M D.
  destruct (introducing_dec m) as [I|N].
  - exists m. repeat split; [now constructor|]. apply in_slots. split; [apply in_all; auto|exact I].
  - pose proof (dispatched_cases m D N) as O.
    destruct A as [[A1 A2] A3]. destruct (A1 m M) as (_ & _ & Q).
    destruct (Q O) as (host' & m' & H' & D' & R').
    destruct (nearest_introduced b A3 _ _ _ H' D') as (r & I' & S' & In').
    exists r. repeat split.
    + econstructor; eassumption.
    + rewrite S'. apply clash_ret; [|exact R']. exact (proj1 (proj2 (nearest_facts _ _ _ _ H'))).
    + cbn [slots]. rewrite in_app_iff. now left.
Qed.

(* ------------------------------------------------------------------ *)
(** * Offsets *)

Lemma same_method_eq : forall at_ t m m', loaded at_ t ->
  In m (all_methods t) -> In m' (all_methods t) -> same_method m m' = true -> m = m'.
Proof.
  intros at_ t m m' [L _] M M' S. unfold same_method in S. apply andb_true_iff in S.
  destruct S as [S1 S2]. apply Z.eqb_eq in S1, S2.
  destruct (L m M) as [Q _]. destruct (L m' M') as [Q' _]. rewrite S1, S2 in Q. congruence.
Qed.

Lemma same_method_refl : forall m, same_method m m = true.
Proof. intro m. unfold same_method. now rewrite !Z.eqb_refl. Qed.

Lemma method_offset_nth : forall at_ t, loaded at_ t -> forall vs l m,
  (forall x, In x (vs ++ l) -> In x (all_methods t)) -> In m vs ->
  nth_error vs (method_offset m (vs ++ l)) = Some m.
Proof.
  intros at_ t L. induction vs as [|x vs IH]; intros l m S M; [destruct M|].
  assert (MA : In m (all_methods t)).
  { apply S. apply in_app_iff. now left. }
  assert (XA : In x (all_methods t)).
  { apply S. now left. }
  cbn [app method_offset].
  destruct (same_method m x) eqn:E.
  - cbn [nth_error]. f_equal. symmetry. exact (same_method_eq _ _ _ _ L MA XA E).
  - cbn [nth_error]. apply IH.
    + intros y Y. apply S. now right.
    + destruct M as [->|M]; [|exact M]. rewrite same_method_refl in E. discriminate.
Qed.

Lemma introducing_offset : forall at_ c b m,
  accepted (c :: b) -> laid_out (c :: b) -> introducing_first (c :: b) -> loaded at_ (c :: b) ->
  In m (c_methods c) -> introducing m ->
  nth_error (slots (c :: b)) (method_offset m (c_methods c) + virtual_count b) = Some m.
Proof.
  intros at_ c b m A L I LD M IM.
  destruct (table_shape c b A L I) as (vs & os & rest & E & V & O & R).
  cbn [slots]. rewrite (virtual_count_slots b);
    [|exact (proj2 A)|now inversion L|now inversion I].
  rewrite nth_error_app2 by lia. rewrite Nat.add_sub.
  rewrite E, (slots_shape vs os rest V O R).
  apply (method_offset_nth at_ (c :: b) LD).
  - intros x X. apply in_all. left. rewrite E. exact X.
  - rewrite E in M. apply in_app_iff in M. destruct M as [M|M]; [exact M|exfalso].
    apply in_app_iff in M. rewrite Forall_forall in O, R. destruct M as [M|M].
    + exact (proj2 (O m M) IM).
    + apply (R m M). now apply introducing_dispatched.
Qed.

Lemma find_first : forall {A} (f : A -> bool) l, find f l = None -> forall x, In x l -> f x = false.
Proof. intros A f l H x X. exact (find_none f l H x X). Qed.

Lemma overridden_offset_spec : forall at_ t b s,
  accepted b -> laid_out b -> introducing_first b -> loaded at_ b ->
  explicit_apart (t ++ b) ->
  (exists m0, In m0 (all_methods (t ++ b)) /\ dispatched m0 /\ m_sig m0 = s) ->
  forall host m r, nearest b s host m -> dispatched m -> s_ret (m_sig m) = s_ret s ->
  introduced host m r ->
  exists k, overridden_offset b s = Some k /\ nth_error (slots b) k = Some r.
Proof.
  intros at_ t b. revert t. induction b as [|c b IH];
    intros t s A L I LD X (m0 & M0 & D0 & S0) host m r H D R IR; [inversion H|].
  cbn [overridden_offset].
  assert (A' := proj2 A). assert (L' : laid_out b) by now inversion L.
  assert (I' : introducing_first b) by now inversion I.
  assert (LD' : loaded at_ b) by exact (loaded_base at_ [c] b LD).
  assert (X' : explicit_apart ((t ++ [c]) ++ b)) by now rewrite <- app_assoc.
  assert (LIFT : forall k, nth_error (slots b) k = Some r -> nth_error (slots (c :: b)) k = Some r).
  { intros k K. cbn [slots]. rewrite nth_error_app1; [exact K|]. apply nth_error_Some. congruence. }
  unfold search_method. destruct (find (fun m => compare_to m s) (c_methods c)) as [x|] eqn:F.
  - apply find_some in F. destruct F as [FI FC]. apply compare_to_eq in FC.
    assert (XA : In x (all_methods (t ++ c :: b))).
    { apply in_all_app. right. apply in_all. now left. }
    assert (XO : m_owner x = None).
    { destruct (m_owner x) eqn:E; [exfalso|reflexivity].
      apply (proj2 (X x XA ltac:(congruence)) m0 M0 D0). rewrite FC, S0. apply clash_refl. }
    assert (NX : nearest (c :: b) s (c :: b) x).
    { constructor; auto. rewrite FC. apply clash_refl. }
    destruct (nearest_fun _ _ _ _ _ _ A H NX) as [-> ->].
    destruct (is_virtual x) eqn:V.
    + apply is_virtual_spec in V. eexists. split; [reflexivity|].
      assert (r = x).
      { eapply introduced_fun; [exact A| |exact IR|constructor; exact V]. apply in_all. now left. }
      subst r. eapply introducing_offset; eassumption.
    + assert (NI : ~ introducing x) by (intro Q; apply is_virtual_spec in Q; congruence).
      pose proof (dispatched_cases x D NI) as O. unfold is_override. rewrite O.
      inversion IR; subst; [contradiction|].
      destruct (proj1 (proj1 A) x FI) as (_ & _ & Q). destruct (Q O) as (hostq & mq & H' & D' & R').
      match goal with N' : nearest b (m_sig x) _ _ |- _ =>
        destruct (nearest_fun _ _ _ _ _ _ A' H' N') as [<- <-] end.
      destruct (IH (t ++ [c]) (m_sig x) A' L' I' LD' X') with (host := hostq) (m := mq) (r := r)
        as (k & K1 & K2); auto.
      { exists m0. rewrite <- app_assoc. auto. }
      exists k. split; [exact K1|]. now apply LIFT.
  - assert (NF : forall x, In x (c_methods c) -> m_sig x <> s).
    { intros x XI. apply compare_to_ne. exact (find_first _ _ F x XI). }
    inversion H; subst.
    + exfalso. apply (NF m); [assumption|]. apply clash_ret; assumption.
    + match goal with N' : nearest b ?s0 host m |- _ =>
      destruct (IH (t ++ [c]) s0 A' L' I' LD' X') with (host := host) (m := m) (r := r)
        as (k & K1 & K2) end; auto.
      { exists m0. rewrite <- app_assoc. auto. }
      exists k. split; [exact K1|]. now apply LIFT.
Qed.

Lemma virtual_offset_spec : forall at_ c b m r,
  accepted (c :: b) -> laid_out (c :: b) -> introducing_first (c :: b) -> loaded at_ (c :: b) ->
  explicit_apart (c :: b) ->
  In m (c_methods c) -> dispatched m -> introduced (c :: b) m r ->
  exists k, virtual_offset (c :: b) m = Some k /\ nth_error (slots (c :: b)) k = Some r.
Proof.
  intros at_ c b m r A L I LD X M D IR. cbn [virtual_offset].
  destruct (is_virtual m) eqn:V.
  - apply is_virtual_spec in V. eexists. split; [reflexivity|].
    assert (r = m).
    { eapply introduced_fun; [exact A| |exact IR|constructor; exact V]. apply in_all. now left. }
    subst r. eapply introducing_offset; eassumption.
  - assert (NI : ~ introducing m) by (intro Q; apply is_virtual_spec in Q; congruence).
    pose proof (dispatched_cases m D NI) as O. unfold is_override. rewrite O.
    inversion IR; subst; [contradiction|].
    destruct (proj1 (proj1 A) m M) as (_ & _ & Q). destruct (Q O) as (hostq & mq & H' & D' & R').
    match goal with N' : nearest b (m_sig m) _ _ |- _ =>
      destruct (nearest_fun _ _ _ _ _ _ (proj2 A) H' N') as [<- <-] end.
    destruct (overridden_offset_spec at_ [c] b (m_sig m)) with (host := hostq) (m := mq) (r := r)
      as (k & K1 & K2); auto.
    + exact (proj2 A).
    + now inversion L.
    + now inversion I.
    + exact (loaded_base at_ [c] b LD).
    + exists m. repeat split; auto. cbn [app]. apply in_all. now left.
    + exists k. split; [exact K1|]. cbn [slots]. rewrite nth_error_app1; [exact K2|].
      apply nth_error_Some. congruence.
Qed.

(* ------------------------------------------------------------------ *)
(** * The functions of the table *)

Definition fits (at_ : Z -> Z -> option meth) (m : meth) : Prop :=
  at_ (m_asm m) (m_idx m) = Some m /\
  (0 <= m_asm m < 2 ^ 11)%Z /\ (0 <= m_idx m < 2 ^ 20)%Z.

Lemma fits_vfun : forall at_ m, fits at_ m -> vfun_of m = (m_asm m, m_idx m).
Proof.
  intros at_ m (_ & A & B). unfold vfun_of. rewrite !Z.mod_small by assumption. reflexivity.
Qed.

Definition update (m : meth) (es : list meth) : list meth :=
  map (fun e => if compare_to e (m_sig m) then m else e) es.

Lemma update_apart : forall m es, (forall e, In e es -> m_sig e <> m_sig m) -> update m es = es.
Proof.
  intros m es H. unfold update. rewrite <- (map_id es) at 2. apply map_ext_in.
  intros e E. rewrite (proj2 (compare_to_ne e (m_sig m)) (H e E)). reflexivity.
Qed.

Lemma replace_first_update : forall at_ m es,
  Forall (fits at_) es -> NoDup (map m_sig es) -> In (m_sig m) (map m_sig es) ->
  replace_first at_ (m_sig m) (vfun_of m) (map vfun_of es) = Built (map vfun_of (update m es)).
Proof.
  intros at_ m es F. induction F as [|e es FE F IH]; intros N I; [destruct I|].
  cbn [map replace_first update]. rewrite (fits_vfun at_ e FE). cbn [fst snd].
  rewrite (proj1 FE). cbn [map] in N. inversion N as [|? ? N1 N2]; subst.
  destruct (compare_to e (m_sig m)) eqn:C.
  - apply compare_to_eq in C. cbn [map]. f_equal. f_equal.
    fold (update m es). rewrite update_apart; [reflexivity|].
    intros e' E' S. apply N1. rewrite C, <- S. now apply in_map.
  - apply compare_to_ne in C. cbn [map] in I. destruct I as [I|I]; [contradiction|].
    rewrite (IH N2 I). cbn [map]. rewrite (fits_vfun at_ e FE). reflexivity.
Qed.

Lemma update_sigs : forall m es, map m_sig (update m es) = map m_sig es.
Proof.
  intros m es. unfold update. rewrite map_map. apply map_ext. intro e.
  destruct (compare_to e (m_sig m)) eqn:C; [|reflexivity]. apply compare_to_eq in C. congruence.
Qed.

Lemma update_fits : forall at_ m es, fits at_ m -> Forall (fits at_) es -> Forall (fits at_) (update m es).
Proof.
  intros at_ m es FM F. unfold update. rewrite Forall_map. eapply Forall_impl; [|exact F].
  intros e FE. cbn beta. destruct (compare_to e (m_sig m)); assumption.
Qed.

Definition stops (l : list meth) : Prop :=
  match l with [] => True | m :: _ => ~ dispatched m end.

Lemma add_stop : forall at_ l vs, stops l -> add_vfunctions at_ l vs = Built vs.
Proof.
  intros at_ [|m l] vs S; cbn [add_vfunctions stops] in *; [reflexivity|].
  assert (V : is_virtual m = false).
  { apply not_introducing_virtual. intro I. apply S. now apply introducing_dispatched. }
  assert (O : is_override m = false).
  { unfold is_override. destruct (m_over m) eqn:E; [|reflexivity]. exfalso. apply S. now apply over_dispatched. }
  now rewrite V, O.
Qed.

Lemma add_overrides : forall at_ rest, stops rest -> forall os es,
  Forall (fun m => m_over m = true /\ ~ introducing m) os ->
  Forall (fits at_) os -> Forall (fits at_) es -> NoDup (map m_sig es) ->
  (forall m, In m os -> In (m_sig m) (map m_sig es)) ->
  add_vfunctions at_ (os ++ rest) (map vfun_of es)
    = Built (map vfun_of (fold_left (fun es m => update m es) os es)).
Proof.
  intros at_ rest ST. induction os as [|m os IH]; intros es O F FE N I.
  - cbn [app fold_left]. now apply add_stop.
  - inversion O as [|? ? [Q1 Q2] O']; subst. inversion F as [|? ? F1 F']; subst.
    cbn [app add_vfunctions fold_left].
    rewrite (not_introducing_virtual m Q2). unfold is_override. rewrite Q1.
    rewrite (replace_first_update at_ m es FE N) by (apply I; now left).
    apply IH; auto.
    + now apply update_fits.
    + now rewrite update_sigs.
    + intros x X. rewrite update_sigs. apply I. now right.
Qed.

Lemma add_introducing : forall at_ l vs acc, Forall introducing vs ->
  add_vfunctions at_ (vs ++ l) acc = add_vfunctions at_ l (acc ++ map vfun_of vs).
Proof.
  intros at_ l vs. induction vs as [|m vs IH]; intros acc V.
  - cbn [app map]. now rewrite app_nil_r.
  - inversion V as [|? ? V1 V2]; subst. cbn [app add_vfunctions map].
    rewrite (proj2 (is_virtual_spec m) V1), (IH _ V2), <- app_assoc. reflexivity.
Qed.

(** What a run of overrides makes of one entry. *)
Definition overriding (os : list meth) (e : meth) : meth :=
  match find (fun m => compare_to m (m_sig e)) os with Some m => m | None => e end.

Lemma fold_update : forall os es,
  (forall m m', In m os -> In m' os -> m_sig m = m_sig m' -> m = m') -> NoDup os ->
  fold_left (fun es m => update m es) os es = map (overriding os) es.
Proof.
  induction os as [|m os IH]; intros es D N.
  - cbn [fold_left]. unfold overriding. cbn [find]. now rewrite map_id.
  - inversion N as [|? ? N1 N2]; subst. cbn [fold_left]. rewrite IH;
      [|intros; apply D; auto; now right|exact N2].
    unfold update. rewrite map_map. apply map_ext. intro e.
    unfold overriding at 2. cbn [find].
    destruct (compare_to e (m_sig m)) eqn:C.
    + apply compare_to_eq in C. rewrite (proj2 (compare_to_eq m (m_sig e))) by congruence.
      unfold overriding. destruct (find (fun m0 => compare_to m0 (m_sig m)) os) as [x|] eqn:F; [|reflexivity].
      apply find_some in F. destruct F as [F1 F2]. apply compare_to_eq in F2.
      exfalso. apply N1. rewrite (D m x); auto; [now left|now right].
    + apply compare_to_ne in C. rewrite (proj2 (compare_to_ne m (m_sig e))) by congruence. reflexivity.
Qed.

Lemma slots_nodup_sigs : forall at_ t,
  accepted t -> no_reintroduction t -> explicit_apart t -> loaded at_ t -> NoDup (map m_sig (slots t)).
Proof.
  intros at_ t A N X [_ LD].
  assert (ND : NoDup (slots t)).
  { clear A N X. induction t as [|c b IH]; cbn [slots]; [constructor|].
    unfold all_methods in LD. cbn [map concat] in LD.
    assert (LDb : NoDup (all_methods b)).
    { clear IH. unfold all_methods. induction (c_methods c) as [|x l IHl]; [exact LD|].
      apply IHl. cbn [app] in LD. now inversion LD. }
    specialize (IH LDb). revert LD. fold (all_methods b). intro LD.
    assert (P : NoDup (all_methods b ++ c_methods c)).
    { eapply Permutation_NoDup; [apply Permutation_app_comm|exact LD]. }
    assert (SUB : forall x, In x (slots b) -> In x (all_methods b)).
    { intros x Q. now apply in_slots in Q. }
    clear LD LDb. revert IH SUB. generalize (slots b) as sb. intros sb IH SUB.
    induction IH as [|x sb NX IH IH']; cbn [app].
    - apply NoDup_filter. clear SUB. induction (all_methods b) as [|y l IHl]; [exact P|].
      apply IHl. cbn [app] in P. now inversion P.
    - constructor.
      + rewrite in_app_iff. intros [Q|Q]; [contradiction|]. apply filter_In in Q. destruct Q as [Q _].
        assert (XB : In x (all_methods b)) by (apply SUB; now left).
        apply in_split in XB. destruct XB as (l1 & l2 & E). rewrite E in P.
        rewrite <- app_assoc in P. cbn [app] in P. apply NoDup_remove_2 in P. apply P.
        rewrite !in_app_iff. auto.
      + apply IH'. intros y Y. apply SUB. now right. }
  pose proof (slots_distinct t A N X) as D.
  induction ND as [|x l NX ND IH]; cbn [map]; constructor.
  - rewrite in_map_iff. intros (y & E & Y). apply NX.
    rewrite (D x y); [exact Y|now left|now right|]. rewrite E. apply clash_refl.
  - apply IH. intros r r' R R'. apply D; now right.
Qed.

Lemma forall2_map_sig : forall (P : meth -> meth -> Prop) rs es,
  Forall2 (fun r e => P r e /\ m_sig e = m_sig r) rs es -> map m_sig es = map m_sig rs.
Proof.
  intros P rs es H. induction H as [|r e rs es [_ S] H IH]; cbn [map]; [reflexivity|]. congruence.
Qed.

Lemma loaded_fits : forall at_ t m, loaded at_ t -> In m (all_methods t) -> fits at_ m.
Proof. intros at_ t m [L _] M. exact (L m M). Qed.

(** The table of a class holds, for every method that introduces, the most
    derived method of its chain. *)
Lemma build_spec : forall at_ t,
  accepted t -> laid_out t -> introducing_first t -> no_reintroduction t -> explicit_apart t ->
  loaded at_ t ->
  exists es, build_vfunctions at_ t = Built (map vfun_of es) /\ Forall (fits at_) es /\
    Forall2 (fun r e => most_derived t r e /\ m_sig e = m_sig r) (slots t) es.
Proof.
  intros at_. induction t as [|c b IH]; intros A L I N X LD.
  - exists []. repeat split; constructor.
  - destruct IH as (es & B & F & M);
      [exact (proj2 A)|now inversion L|now inversion I|exact (proj2 N)
      |exact (explicit_apart_base [c] b X)|exact (loaded_base at_ [c] b LD)|].
    cbn [build_vfunctions]. rewrite B.
    destruct (table_shape c b A L I) as (vs & os & rest & E & V & O & R).
    pose proof (slots_nodup_sigs at_ (c :: b) A N X LD) as ND.
    assert (SH : slots (c :: b) = slots b ++ vs).
    { cbn [slots]. now rewrite E, (slots_shape vs os rest V O R). }
    assert (INC : forall m, In m (vs ++ os ++ rest) -> In m (c_methods c)) by (intro; now rewrite E).
    assert (FA : forall m, In m (vs ++ os ++ rest) -> fits at_ m).
    { intros m Q. apply (loaded_fits at_ (c :: b)); [exact LD|]. apply in_all. left. now apply INC. }
    assert (SG : map m_sig (es ++ vs) = map m_sig (slots (c :: b))).
    { rewrite SH, !map_app. f_equal. exact (forall2_map_sig _ _ _ M). }
    assert (ROOT : forall m, In m os -> exists r, introduced (c :: b) m r /\ m_sig r = m_sig m /\ In r (slots b)).
    { intros m Q. rewrite Forall_forall in O. destruct (O m Q) as [O1 O2].
      assert (MC : In m (c_methods c)) by (apply INC; rewrite !in_app_iff; auto).
      destruct (proj1 (proj1 A) m MC) as (_ & _ & W). destruct (W O1) as (hq & mq & H' & D' & R').
      destruct (nearest_introduced b (proj2 A) _ _ _ H' D') as (r & I' & S' & In').
      exists r. repeat split; auto.
      - econstructor; eassumption.
      - rewrite S'. apply clash_ret; [|exact R']. exact (proj1 (proj2 (nearest_facts _ _ _ _ H'))). }
    assert (OWN : forall m, In m os -> m_owner m = None).
    { intros m Q. destruct (m_owner m) eqn:W; [exfalso|reflexivity].
      rewrite Forall_forall in O. destruct (O m Q) as [O1 O2].
      apply (proj1 (X m ltac:(apply in_all; left; apply INC; rewrite !in_app_iff; auto) ltac:(congruence))).
      now apply over_dispatched. }
    assert (DIS : forall m m', In m os -> In m' os -> m_sig m = m_sig m' -> m = m').
    { intros m m' Q Q' S'. apply (proj2 (proj1 A)).
      - apply INC; rewrite !in_app_iff; auto.
      - apply INC; rewrite !in_app_iff; auto.
      - now rewrite (OWN m Q), (OWN m' Q').
      - rewrite S'. apply clash_refl. }
    assert (NDC : NoDup (c_methods c)).
    { destruct LD as [_ Q]. unfold all_methods in Q. cbn [map concat] in Q.
      clear - Q. induction (c_methods c) as [|x l IHl]; [constructor|].
      cbn [app] in Q. inversion Q as [|? ? Q1 Q2]; subst. constructor; [|auto].
      intro W. apply Q1. rewrite in_app_iff. now left. }
    assert (NDO : NoDup os).
    { rewrite E in NDC. clear - NDC. induction vs as [|x l IHl]; cbn [app] in NDC.
      - induction os as [|x l IHl]; [constructor|]. cbn [app] in NDC.
        inversion NDC as [|? ? Q1 Q2]; subst. constructor; [|auto].
        intro W. apply Q1. rewrite in_app_iff. now left.
      - inversion NDC; auto. }
    exists (map (overriding os) (es ++ vs)). split; [|split].
    + rewrite E, (add_introducing at_ (os ++ rest) vs (map vfun_of es) V), <- map_app.
      rewrite (add_overrides at_ rest).
      * rewrite fold_update by assumption. reflexivity.
      * destruct rest as [|x rest]; [exact Logic.I|]. now inversion R.
      * exact O.
      * apply Forall_forall. intros m Q. apply FA. rewrite !in_app_iff. auto.
      * apply Forall_app. split; [exact F|]. apply Forall_forall. intros m Q. apply FA.
        rewrite !in_app_iff. auto.
      * rewrite SG. exact ND.
      * intros m Q. rewrite SG. destruct (ROOT m Q) as (r & _ & S' & In').
        rewrite <- S', SH, map_app, in_app_iff. left. now apply in_map.
    + rewrite Forall_map. apply Forall_forall. intros e Q. unfold overriding.
      destruct (find (fun m => compare_to m (m_sig e)) os) as [x|] eqn:FX.
      * apply find_some in FX. apply FA. rewrite !in_app_iff. tauto.
      * apply in_app_iff in Q. destruct Q as [Q|Q].
        -- rewrite Forall_forall in F. auto.
        -- apply FA. rewrite !in_app_iff. auto.
    + rewrite SH, map_app. apply Forall2_app.
      * assert (GEN : forall sl es0, Forall2 (fun r e => most_derived b r e /\ m_sig e = m_sig r) sl es0 ->
                  (forall r, In r sl -> In r (slots b)) ->
                  Forall2 (fun r e => most_derived (c :: b) r e /\ m_sig e = m_sig r) sl (map (overriding os) es0)).
        { intros sl es0 G. induction G as [|r e sl es0 [G1 G2] G IHG]; intro SUB; cbn [map]; constructor.
          - unfold overriding. destruct (find (fun m => compare_to m (m_sig e)) os) as [x|] eqn:FX.
            + apply find_some in FX. destruct FX as [FX1 FX2]. apply compare_to_eq in FX2.
              split; [|congruence]. apply most_derived_here.
              * apply INC. rewrite !in_app_iff. auto.
              * destruct (ROOT x FX1) as (r' & Q1 & Q2 & Q3).
                replace r with r'; [exact Q1|].
                apply (slots_distinct b (proj2 A) (proj2 N) (explicit_apart_base [c] b X)); auto.
                -- apply SUB. now left.
                -- rewrite Q2, FX2, G2. apply clash_refl.
            + split; [|exact G2]. apply most_derived_base; [|exact G1].
              intros m' M' Q. assert (RB : In r (slots b)) by (apply SUB; now left).
              apply in_slots in RB. destruct RB as [RB RI].
              inversion Q; subst.
              * destruct LD as [_ LD]. unfold all_methods in LD, RB. cbn [map concat] in LD.
                apply in_split in M'. destruct M' as (l1 & l2 & EM). rewrite EM in LD.
                rewrite <- app_assoc in LD. cbn [app] in LD. apply NoDup_remove_2 in LD. apply LD.
                rewrite !in_app_iff. auto.
              * assert (D' : dispatched m') by (now apply over_dispatched).
                assert (MO : In m' os).
                { rewrite E in M'. rewrite !in_app_iff in M'. destruct M' as [M'|[M'|M']]; [|exact M'|].
                  - exfalso. rewrite Forall_forall in V. specialize (V m' M').
                    destruct (proj1 (proj1 A) m') as (W & _); [apply INC; rewrite !in_app_iff; auto|].
                    destruct V as [V|[_ V]]; [|congruence]. rewrite W in V; [discriminate|assumption].
                  - exfalso. rewrite Forall_forall in R. exact (R m' M' D'). }
                destruct (ROOT m' MO) as (r' & Q1 & Q2 & Q3).
                assert (r' = r).
                { eapply introduced_fun; [exact A| |exact Q1|exact Q]. apply in_all. left.
                  apply INC. rewrite !in_app_iff. auto. }
                subst r'. pose proof (find_first _ _ FX m' MO) as W. cbn beta in W.
                apply compare_to_ne in W. apply W. congruence.
          - apply IHG. intros r' R'. apply SUB. now right. }
        apply GEN; auto.
      * assert (VC : forall r, In r vs -> In r (c_methods c)).
        { intros r Q. apply INC. rewrite !in_app_iff. auto. }
        assert (VO : forall r, In r vs -> m_owner r = None).
        { intros r Q. destruct (m_owner r) eqn:W; [exfalso|reflexivity].
          apply (proj1 (X r ltac:(apply in_all; left; auto) ltac:(congruence))).
          rewrite Forall_forall in V. apply introducing_dispatched. auto. }
        assert (NF : forall r, In r vs -> overriding os r = r).
        { intros r Q. unfold overriding.
          destruct (find (fun m => compare_to m (m_sig r)) os) as [x|] eqn:FX; [|reflexivity].
          apply find_some in FX. destruct FX as [FX1 FX2]. apply compare_to_eq in FX2.
          apply (proj2 (proj1 A)).
          - apply INC. rewrite !in_app_iff. auto.
          - auto.
          - now rewrite (OWN x FX1), (VO r Q).
          - rewrite FX2. apply clash_refl. }
        clear - V VC NF. induction V as [|r vs V1 V IHV]; cbn [map]; constructor.
        -- rewrite NF by now left. split; [|reflexivity]. apply most_derived_here.
           ++ apply VC. now left.
           ++ now constructor.
        -- apply IHV; intros; [apply VC|apply NF]; now right.
Qed.

Lemma most_derived_fun : forall t r m m',
  accepted t -> no_reintroduction t -> explicit_apart t ->
  most_derived t r m -> most_derived t r m' -> m = m'.
Proof.
  intros t r m m' A N X H. revert m' A N X.
  induction H as [c b r m M IR | c b r m NO H IH]; intros m' A N X H'; inversion H'; subst.
  - assert (SG : forall x, In x (c_methods c) -> introduced (c :: b) x r ->
        dispatched x /\ m_sig r = m_sig x /\ m_owner x = None).
    { intros x XI XR.
      assert (D : dispatched x).
      { inversion XR; subst; [now apply introducing_dispatched|now apply over_dispatched]. }
      destruct (introduced_exists c b x A XI D) as (r' & Q1 & Q2 & _).
      assert (r' = r) by (eapply introduced_fun; [exact A| |exact Q1|exact XR]; apply in_all; now left).
      subst r'. repeat split; auto.
      destruct (m_owner x) eqn:W; [exfalso|reflexivity].
      apply (proj1 (X x ltac:(apply in_all; left; auto) ltac:(congruence))). exact D. }
    destruct (SG m M IR) as (_ & S1 & O1).
    match goal with H1 : In m' (c_methods c), H2 : introduced (c :: b) m' r |- _ =>
      destruct (SG m' H1 H2) as (_ & S2 & O2) end.
    apply (proj2 (proj1 A)); auto; [congruence|]. rewrite <- S1, S2. apply clash_refl.
  - exfalso. match goal with Q : forall _, _ -> ~ _ |- _ => exact (Q m M IR) end.
  - exfalso. eapply NO; eassumption.
  - apply IH; auto; [exact (proj2 A)|exact (proj2 N)|exact (explicit_apart_base [c] b X)].
Qed.

Lemma forall2_nth : forall {A B} (P : A -> B -> Prop) l l', Forall2 P l l' ->
  forall k a, nth_error l k = Some a -> exists b, nth_error l' k = Some b /\ P a b.
Proof.
  intros A B P l l' H. induction H as [|x y l l' Hx H IH]; intros [|k] a E; cbn [nth_error] in *;
    try discriminate E.
  - injection E as <-. eauto.
  - eauto.
Qed.

(** The theorem on virtual calls. *)
Lemma virtual_call_spec : forall at_ above c b m,
  accepted (above ++ c :: b) -> laid_out (above ++ c :: b) ->
  introducing_first (above ++ c :: b) -> no_reintroduction (above ++ c :: b) ->
  explicit_apart (above ++ c :: b) -> loaded at_ (above ++ c :: b) ->
  In m (c_methods c) -> dispatched m ->
  exists r m', introduced (c :: b) m r /\ most_derived (above ++ c :: b) r m' /\
    virtual_call at_ (c :: b) m (Some (above ++ c :: b)) = Calls (m_asm m', m_idx m').
Proof.
  intros at_ above c b m A L I N X LD M D.
  set (t := above ++ c :: b) in *.
  pose proof (accepted_base above _ A) as A'.
  destruct (introduced_exists c b m A' M D) as (r & IR & _ & _).
  destruct (virtual_offset_spec at_ c b m r A' (laid_out_base above _ L)
              (introducing_first_base above _ I) (loaded_base at_ above _ LD)
              (explicit_apart_base above _ X) M D IR) as (k & K1 & K2).
  destruct (build_spec at_ t A L I N X LD) as (es & B & F & MD).
  assert (K3 : nth_error (slots t) k = Some r).
  { unfold t. destruct (slots_app above (c :: b)) as [l ->].
    rewrite nth_error_app1; [exact K2|]. apply nth_error_Some. congruence. }
  destruct (forall2_nth _ _ _ MD k r K3) as (e & E1 & E2 & _).
  exists r, e. repeat split; auto.
  unfold virtual_call. rewrite K1, B.
  rewrite (map_nth_error vfun_of k es E1).
  f_equal. apply (fits_vfun at_). rewrite Forall_forall in F. apply F. eapply nth_error_In. exact E1.
Qed.

(* ------------------------------------------------------------------ *)
(** * The size of a table, in any order of its methods *)

Lemma replace_first_length : forall at_ s v vs vs',
  replace_first at_ s v vs = Built vs' -> length vs' = length vs.
Proof.
  intros at_ s v. induction vs as [|f vs IH]; intros vs' H; cbn [replace_first] in H; [discriminate|].
  destruct (at_ (fst f) (snd f)) as [m0|]; [|discriminate]. destruct (compare_to m0 s).
  - injection H as <-. reflexivity.
  - destruct (replace_first at_ s v vs) as [r| |]; try discriminate. injection H as <-.
    cbn [length]. now rewrite (IH r eq_refl).
Qed.

Lemma add_length : forall at_ rest, stops rest -> forall ds vs vs',
  Forall dispatched ds -> add_vfunctions at_ (ds ++ rest) vs = Built vs' ->
  length vs' = length vs + length (filter is_virtual ds).
Proof.
  intros at_ rest ST. induction ds as [|m ds IH]; intros vs vs' D H.
  - cbn [app] in H. rewrite (add_stop at_ rest vs ST) in H. injection H as <-. cbn. lia.
  - inversion D as [|? ? D1 D2]; subst. cbn [app add_vfunctions filter] in *.
    destruct (is_virtual m) eqn:V.
    + rewrite (IH _ _ D2 H), app_length. cbn [length]. lia.
    + assert (O : is_override m = true).
      { apply dispatched_cases; [exact D1|]. intro Q. apply is_virtual_spec in Q. congruence. }
      rewrite O in H. destruct (replace_first at_ (m_sig m) (vfun_of m) vs) as [r| |] eqn:R; try discriminate.
      rewrite (IH _ _ D2 H), (replace_first_length _ _ _ _ _ R). reflexivity.
Qed.

Lemma table_size : forall at_ t vs, accepted t -> laid_out t -> build_vfunctions at_ t = Built vs ->
  length vs = length (filter is_virtual (all_methods t)).
Proof.
  intros at_. induction t as [|c b IH]; intros vs A L H; cbn [build_vfunctions] in H.
  - injection H as <-. reflexivity.
  - destruct (build_vfunctions at_ b) as [ws| |] eqn:B; try discriminate.
    inversion L as [|? ? (src & _ & S) L']; subst.
    destruct (table_split (c_methods c) S) as (ds & rest & E & D & R).
    { intros m M Q. exact (proj1 (proj2 (proj1 (proj1 A) m M)) Q). }
    assert (ST : stops rest) by (destruct rest; [exact I|now inversion R]).
    rewrite E in H. rewrite (add_length at_ rest ST ds ws vs D H).
    rewrite (IH ws (proj2 A) L' eq_refl). unfold all_methods. cbn [map concat].
    rewrite filter_app, app_length, E, filter_app, app_length.
    rewrite (filter_none is_virtual rest); [cbn; lia|].
    eapply Forall_impl; [|exact R]. intros m N. apply not_introducing_virtual.
    intro Q. apply N. now apply introducing_dispatched.
Qed.
