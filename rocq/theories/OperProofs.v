(** Proofs about operators of user types and the types of values. *)
From Coq Require Import List Bool Arith Lia.
From Verif Require Import OverModel OverSpec OverProofs OperModel OperSpec.
Import ListNotations.

Lemma op_code_inj a b : op_code a = op_code b -> a = b.
Proof. destruct a; destruct b; intros E; try reflexivity; discriminate E. Qed.

Lemma op_eqb_eq a b : op_eqb a b = true <-> a = b.
Proof.
  unfold op_eqb. rewrite Nat.eqb_eq. split; [apply op_code_inj | now intros ->].
Qed.

Lemma is_null_spec t : is_null t = true <-> t = TNull.
Proof. destruct t; cbn; split; congruence. Qed.

Lemma object_spec W t : negb (is_null t) && is_object W t = true <-> object W t.
Proof.
  unfold object, is_object. rewrite andb_true_iff, negb_true_iff, orb_true_iff, !vt_eqb_eq.
  assert (N : is_null t = false <-> t <> TNull).
  { rewrite <- is_null_spec. destruct (is_null t); split; congruence. }
  rewrite N. split; intros [A B]; (split; [exact A|]); destruct t; cbn [vtype_of] in *; auto; contradiction.
Qed.

Lemma is_object_spec W t : is_object W t = true <-> object W t.
Proof.
  rewrite <- object_spec. destruct t; cbn [is_null negb andb]; try reflexivity.
Qed.

Lemma void_spec W t : is_void W t = false <-> t = TNull \/ w_vtype W t <> VVoid.
Proof.
  unfold is_void. assert (Q : vt_eqb (vtype_of W t) VVoid = false <-> vtype_of W t <> VVoid).
  { rewrite <- vt_eqb_eq. destruct (vt_eqb _ _); split; congruence. }
  rewrite Q. destruct t; cbn [vtype_of];
    try (split; [intros H; right; exact H | intros [H|H]; [discriminate H | exact H]]).
  split; [now left | discriminate].
Qed.

(** *** Nothing static is kept *)
Lemma gather_not_static W F find ts l m : gather W F find ts = Ok (inl l) -> In (Some m) l ->
  f_static F m = false.
Proof.
  revert l. induction ts as [|t ts IH]; intros l; cbn [gather].
  - intros [= <-] [].
  - destruct (negb (is_object W t)); [apply IH|].
    destruct (find t) as [o| |]; cbn [bind]; try discriminate.
    destruct o as [x xs| | | |]; try discriminate.
    + destruct (f_static F x) eqn:S1; [intros [= <-] []|].
      destruct (gather W F find ts) as [[l'|e]| |]; cbn [bind]; try discriminate.
      intros [= <-] [E|H]; [congruence | exact (IH l' eq_refl H)].
    + destruct (gather W F find ts) as [[l'|e]| |]; cbn [bind]; try discriminate.
      intros [= <-] [E|H]; [congruence | exact (IH l' eq_refl H)].
Qed.

Lemma assign_not_chosen W fuel ts m : walk_assign W fuel ts <> Ok (Chosen m).
Proof.
  unfold walk_assign. destruct ts as [|a [|b [|c ts]]]; try discriminate.
  destruct (is_type_compatible W fuel b a) as [[]|]; discriminate.
Qed.

Lemma not_assign o : overload_of o <> NoCheck -> op_eqb o Assign = false.
Proof. destruct o; intros H; try reflexivity. now destruct H. Qed.

Lemma chosen_not_static W fuel K steps F o ts m :
  walk_op W fuel K steps F o ts = Ok (Chosen m) -> f_static F m = false.
Proof.
  unfold walk_op. destruct (overload_of o); try discriminate;
    (destruct (op_eqb o Assign); [intros E; now apply assign_not_chosen in E|]);
    destruct (negb _); try discriminate; destruct (_ && _); try discriminate.
  destruct (gather W F _ ts) as [[l|e]| |] eqn:G; cbn [bind]; try discriminate.
  destruct l as [|[x|] l]; try discriminate. intros [= <-].
  apply (gather_not_static _ _ _ _ _ _ G). now left.
Qed.

Lemma never_called W fuel K steps F o ts m : compile_op W fuel K steps F o ts <> Ok (Calls m).
Proof.
  unfold compile_op. destruct (walk_op W fuel K steps F o ts) as [v| |] eqn:E; cbn [bind]; try discriminate.
  destruct v; try discriminate. apply chosen_not_static in E.
  unfold check_prototype. rewrite E. cbn [negb].
  destruct (negb (length (m_params m0) =? length ts)); cbn; [discriminate|].
  destruct (negb (length (m_gparams m0) =? 0)); cbn; discriminate.
Qed.

(** *** What walking gives *)
Lemma existsb_object W ts : existsb (fun t => negb (is_null t) && is_object W t) ts = true <->
  exists t, In t ts /\ object W t.
Proof.
  rewrite existsb_exists. split; intros (t & H & O); exists t; (split; [exact H|]); now apply object_spec.
Qed.

Lemma values_builtin W fuel K steps F o ts : Forall (fun t => ~ object W t) ts ->
  walk_op W fuel K steps F o ts = Ok Builtin.
Proof.
  intros H. unfold walk_op.
  assert (E : existsb (fun t => negb (is_null t) && is_object W t) ts = false).
  { destruct (existsb _ ts) eqn:E; [|reflexivity]. apply existsb_object in E.
    destruct E as (t & Ht & O). rewrite Forall_forall in H. now apply H in Ht. }
  rewrite E. cbn [negb]. destruct (overload_of o) eqn:O; try rewrite not_assign by congruence; reflexivity.
Qed.

Lemma null_builtin W fuel K steps F o ts : In TNull ts -> o = Equal \/ o = NotEqual ->
  walk_op W fuel K steps F o ts = Ok Builtin.
Proof.
  intros H O. unfold walk_op.
  assert (E : existsb is_null ts = true) by (apply existsb_exists; exists TNull; now split).
  rewrite E. destruct O as [-> | ->]; cbn [overload_of op_eqb op_code Nat.eqb andb orb];
    destruct (negb _); reflexivity.
Qed.

Lemma logic_refused W fuel K steps F o ts : o = LogicAnd \/ o = LogicOr ->
  (exists t, In t ts /\ object W t) -> walk_op W fuel K steps F o ts = Ok CannotOverload.
Proof.
  intros O H. apply existsb_object in H. unfold walk_op. rewrite H.
  destruct O as [-> | ->]; cbn [overload_of negb op_eqb op_code Nat.eqb orb];
    rewrite andb_false_r; reflexivity.
Qed.

Lemma gather_skip W F find l1 t l2 : Forall (fun u => ~ object W u) l1 ->
  gather W F find (l1 ++ t :: l2) = gather W F find (t :: l2).
Proof.
  induction 1 as [|u l1 N _ IH]; [reflexivity|]. cbn [app gather].
  destruct (is_object W u) eqn:E; [now apply is_object_spec in E|]. exact IH.
Qed.

Lemma overloadable_model o : overloadable o -> overload_of o = Overloadable.
Proof.
  unfold overloadable. destruct o; cbn [overload_of]; intros H; try reflexivity; exfalso; apply H; cbn; tauto.
Qed.

Lemma defined_refused W fuel K steps F o l1 t l2 m xs : overloadable o ->
  Forall (fun u => ~ object W u) l1 -> object W t -> ~ In TNull (l1 ++ t :: l2) ->
  find_operator W fuel K steps o (l1 ++ t :: l2) t = Ok (Found m xs) -> f_static F m = true ->
  walk_op W fuel K steps F o (l1 ++ t :: l2) = Ok NotDefined.
Proof.
  intros O N T NN E S1. unfold walk_op. rewrite (overloadable_model o O).
  rewrite not_assign by (rewrite (overloadable_model o O); discriminate).
  assert (X : existsb (fun u => negb (is_null u) && is_object W u) (l1 ++ t :: l2) = true).
  { apply existsb_object. exists t. split; [|exact T]. apply in_or_app. right. now left. }
  assert (Y : existsb is_null (l1 ++ t :: l2) = false).
  { destruct (existsb is_null (l1 ++ t :: l2)) eqn:Q; [|reflexivity]. apply existsb_exists in Q.
    destruct Q as (u & Hu & Z). apply is_null_spec in Z. subst u. contradiction. }
  rewrite X, Y. cbn [negb andb]. rewrite (gather_skip W F _ l1 t l2 N). cbn [gather].
  apply is_object_spec in T. rewrite T. cbn [negb]. rewrite E. cbn [bind]. rewrite S1. reflexivity.
Qed.

(** *** Declarations *)
Lemma check_operator_spec W F T o m : check_operator W F T o m = [] <-> well_declared W F T o m.
Proof.
  unfold check_operator. split.
  - intros H. apply app_eq_nil in H. destruct H as [H1 H]. apply app_eq_nil in H. destruct H as [H2 H].
    apply app_eq_nil in H. destruct H as [H3 H4].
    destruct (f_static F m) eqn:S1; [|discriminate H1]. destruct (f_public F m) eqn:P1; [|discriminate H1].
    destruct (Nat.eqb_spec (length (m_params m)) (arity o)) as [E|E]; [|discriminate H2].
    destruct (existsb _ (m_params m)) eqn:X; [|discriminate H3].
    apply existsb_exists in X. destruct X as (p & Hp & Q). apply ty_eqb_eq in Q.
    destruct (f_result F m) as [t|] eqn:R; [|discriminate H4].
    destruct (is_void W t) eqn:V; [discriminate H4|]. apply void_spec in V.
    constructor; eauto.
  - intros [S1 P1 E (p & Hp & Q) (t & R & V)]. rewrite S1, P1, E, Nat.eqb_refl, R. cbn [negb orb].
    assert (X : existsb (fun q => ty_eqb (p_type q) T) (m_params m) = true).
    { apply existsb_exists. exists p. split; [exact Hp|]. now apply ty_eqb_eq. }
    rewrite X. apply void_spec in V. now rewrite V.
Qed.

Lemma compatible_all_spec W U fuel ps ts : hierarchy W U -> length U < fuel -> (forall t, In t ts -> In t U) ->
  length ps = length ts ->
  exists b, compatible_all W fuel ps ts = Some b /\
    (b = true <-> Forall2 (fun p t => converts W t (p_type p)) ps ts).
Proof.
  intros HU L. revert ts. induction ps as [|p ps IH]; intros [|t ts] HT E; try discriminate E.
  - exists true. split; [reflexivity|]. split; constructor.
  - cbn [compatible_all].
    destruct (type_compatible_spec W U fuel t (p_type p) HU (HT t (or_introl eq_refl)) L) as (b & -> & B).
    destruct b.
    + destruct (IH ts (fun u H => HT u (or_intror H)) (eq_add_S _ _ E)) as (b' & -> & B').
      exists b'. split; [reflexivity|]. rewrite B'. split.
      * intros H. constructor; [now apply B | exact H].
      * intros H. now inversion H.
    + exists false. split; [reflexivity|]. split; [discriminate|]. intros H. inversion H; subst. tauto.
Qed.

Lemma prototype_spec W U fuel F T o m ts : hierarchy W U -> length U < fuel ->
  (forall t, In t ts -> In t U) -> well_declared W F T o m -> m_gparams m = [] -> length ts = arity o ->
  exists b, check_prototype W fuel F m ts = Some b /\ (b = true <-> takes W m ts).
Proof.
  intros HU L HT [S1 P1 E _ _] G A. unfold check_prototype.
  rewrite E, A, Nat.eqb_refl, G, S1. cbn [length Nat.eqb negb].
  apply (compatible_all_spec W U fuel); auto. congruence.
Qed.

Lemma declared_sign o n : In o [Add; Positive; Sub; Minus] -> n = 1 \/ n = 2 ->
  arity (declared_op o n) = n /\ sign (declared_op o n) = sign o.
Proof.
  intros H [-> | ->]; cbn [In] in H; destruct H as [<-|[<-|[<-|[<-|[]]]]]; split; reflexivity.
Qed.

(** *** Types of values *)
Lemma return_spec W U fuel result v : hierarchy W U -> length U < fuel -> In v U ->
  exists b, return_ok W fuel result (Some (Some v)) = Some b /\
    (b = true <-> exists t, returns W result t /\ converts W v t).
Proof.
  intros HU L Hv. unfold return_ok, returns. destruct result as [t|].
  - destruct (is_void W t) eqn:V.
    + exists false. split; [reflexivity|]. split; [discriminate|].
      intros (u & ([= <-] & N) & _). apply void_spec in N. congruence.
    + destruct (type_compatible_spec W U fuel v t HU Hv L) as (b & -> & B). exists b.
      split; [reflexivity|]. rewrite B. apply void_spec in V. split.
      * intros C. exists t. auto.
      * intros (u & ([= <-] & _) & C). exact C.
  - exists false. split; [reflexivity|]. split; [discriminate|]. now intros (t & (E & _) & _).
Qed.

Lemma return_nothing W fuel result :
  return_ok W fuel result None = Some true <-> ~ exists t, returns W result t.
Proof.
  unfold return_ok, returns. destruct result as [t|].
  - destruct (is_void W t) eqn:V.
    + split; [|reflexivity]. intros _ (u & [= <-] & N). apply void_spec in N. congruence.
    + apply void_spec in V. split; [discriminate|]. intros H. exfalso. apply H. now exists t.
  - split; [|reflexivity]. now intros _ (t & E & _).
Qed.
