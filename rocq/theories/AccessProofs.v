From Coq Require Import List Arith Bool PeanoNat Relations Lia.
Import ListNotations.
From Verif Require Import OverModel OverSpec OverProofs AccessModel AccessSpec.

Lemma type_access_value_spec D i : type_access D i (type_access_value D i).
Proof.
  unfold type_access, type_access_value. destruct (d_access D i) eqn:E; [left; reflexivity|].
  right. split; [reflexivity|]. destruct (d_host D i) eqn:H; [right|left; split; reflexivity].
  eexists. split; reflexivity.
Qed.

Lemma type_access_fun D i a : type_access D i a -> a = type_access_value D i.
Proof.
  unfold type_access, type_access_value. intros [H|[H [[H1 H2]|(h & H1 & H2)]]]; rewrite H; [reflexivity| |];
    rewrite H1; assumption.
Qed.

Lemma member_access_value_spec D h w : member_access D h w (member_access_value D h w).
Proof. unfold member_access, member_access_value. destruct w; [left; reflexivity|right; split; reflexivity]. Qed.

Lemma member_access_fun D h w a : member_access D h w a -> a = member_access_value D h w.
Proof. unfold member_access, member_access_value. intros [H|[H H1]]; subst w; [reflexivity|exact H1]. Qed.

Lemma to_general_declared D t i : to_general D t = TGeneral i <-> declared D t i.
Proof.
  split.
  - unfold declared. destruct t; cbn; intros H; try discriminate H.
    + left. congruence.
    + right; left. exists args. congruence.
    + right; right. exists t, dim. split; [reflexivity|congruence].
  - intros [->|[(args & ->)|(e & n & -> & ->)]]; reflexivity.
Qed.

Section Access.
Variables (D : decls) (U : list ty) (depth : nat -> nat) (fuel : nat).
Hypothesis WD : well_declared D U depth.
Hypothesis EN : enough U depth fuel.

Lemma super_value from host : In (TGeneral from) U ->
  exists b c, has_super_type (d_world D) fuel [] (TGeneral from) (TGeneral host) = Some (b, c) /\
    (b = true <-> inherits (d_world D) (TGeneral from) (TGeneral host)).
Proof. intros HI. exact (has_super_type_spec (d_world D) U fuel _ _ (wd_hierarchy _ _ _ WD) HI (proj1 EN)). Qed.

Lemma inside_trans a b c : inside D a b -> inside D b c -> inside D a c.
Proof. induction 1; intros H1; [exact H1|]. eapply inside_host; [eassumption|auto]. Qed.

Lemma inside_assembly a b : inside D a b -> d_assembly D a = d_assembly D b.
Proof. induction 1; [reflexivity|]. rewrite (wd_assembly _ _ _ WD _ _ H). assumption. Qed.

Lemma encloses_spec f : forall a b, depth a < f ->
  exists r, encloses D f a b = Some r /\ (r = true <-> inside D a b).
Proof.
  induction f as [|f IH]; intros a b L; [lia|]. cbn [encloses].
  destruct (Nat.eqb_spec a b) as [->|NE].
  { exists true. split; [reflexivity|]. split; [intros _; constructor|reflexivity]. }
  destruct (d_host D a) as [h|] eqn:E.
  - assert (L1 := wd_nesting _ _ _ WD _ _ E). destruct (IH h b) as (r & E1 & H1); [lia|].
    exists r. split; [exact E1|]. rewrite H1. split; intros H.
    + eapply inside_host; eassumption.
    + inversion H; subst; [congruence|]. rewrite E in H0. injection H0 as <-. assumption.
  - exists false. split; [reflexivity|]. split; [discriminate|]. intros H. inversion H; subst; congruence.
Qed.

(* What __check_member_access decides, when [from] is not inside [host]. *)
Definition code_visible (from host : nat) (av : access) : Prop :=
  let same := d_assembly D from = d_assembly D host in
  let derived := inherits (d_world D) (TGeneral from) (TGeneral host) in
  match av with
  | Public => True
  | Private => False
  | Internal => same
  | Protected => derived
  | ProtectedOrInternal => derived \/ same
  | ProtectedAndInternal => derived /\ same
  end.

Lemma check_member_access_spec from host av cross : In (TGeneral from) U ->
  (cross = true <-> d_assembly D from <> d_assembly D host) ->
  exists r, check_member_access D fuel from host av cross = Some r /\
            (r = true <-> code_visible from host av).
Proof.
  intros HI HC. unfold check_member_access. destruct (super_value from host HI) as (b & c & E & Hb). rewrite E.
  eexists. split; [reflexivity|]. unfold code_visible.
  destruct cross.
  - assert (N := proj1 HC eq_refl). destruct av; rewrite ?Hb; intuition congruence.
  - assert (Q : d_assembly D from = d_assembly D host).
    { destruct (Nat.eq_dec (d_assembly D from) (d_assembly D host)); [assumption|]. apply HC in n. discriminate. }
    destruct av; rewrite ?Hb; intuition congruence.
Qed.

Lemma code_visible_sound from host av : code_visible from host av -> visible D from host av.
Proof.
  unfold code_visible, visible. 
  assert (F : inherits (d_world D) (TGeneral from) (TGeneral host) ->
              exists e, inside D from e /\ derives D e host).
  { intros H. exists from. split; [constructor|]. right. exists (TGeneral host). split; [exact H|left; reflexivity]. }
  destruct av; intuition.
Qed.

Lemma inside_visible from host av : inside D from host -> visible D from host av.
Proof.
  intros H. assert (A := inside_assembly _ _ H). unfold visible.
  assert (F : exists e, inside D from e /\ derives D e host).
  { exists host. split; [exact H|left; reflexivity]. }
  destruct av; auto.
Qed.

Lemma inside_may_name from n : forall host, depth host < n -> inside D from host -> may_name D from host.
Proof.
  induction n as [|n IH]; intros host L H; [lia|]. destruct (d_host D host) as [k|] eqn:E.
  - assert (L1 := wd_nesting _ _ _ WD _ _ E).
    assert (H1 : inside D from k). { eapply inside_trans; [exact H|]. eapply inside_host; [exact E|constructor]. }
    eapply name_nested; [exact E|apply IH; [lia|exact H1]|apply type_access_value_spec|]. apply inside_visible, H1.
  - apply name_top; [exact E|right]. apply inside_assembly, H.
Qed.

(* What __check_type_access decides. *)
Inductive code_name (from : nat) : nat -> Prop :=
| cn_own t : d_host D t = Some from -> code_name from t
| cn_top t : d_host D t = None ->
    (type_access_value D t = Public \/ d_assembly D from = d_assembly D t) -> code_name from t
| cn_nested t h : d_host D t = Some h -> h <> from -> code_name from h ->
    code_visible from h (type_access_value D t) -> code_name from t.

Lemma check_type_access_spec from cross : In (TGeneral from) U -> forall f t, depth t < f ->
  (cross = true <-> d_assembly D from <> d_assembly D t) ->
  exists r, check_type_access D fuel f from t cross = Some r /\ (r = true <-> code_name from t).
Proof.
  intros HI. induction f as [|f IH]; intros t L HC; [lia|]. cbn [check_type_access].
  destruct (d_host D t) as [h|] eqn:E.
  - assert (L1 := wd_nesting _ _ _ WD _ _ E). assert (A := wd_assembly _ _ _ WD _ _ E).
    destruct (Nat.eqb_spec h from) as [->|NE].
    { exists true. split; [reflexivity|]. split; [intros _; apply cn_own; exact E|reflexivity]. }
    destruct (IH h) as (r & E1 & H1); [lia|rewrite <- A; exact HC|]. rewrite E1. destruct r.
    + destruct (check_member_access_spec from h (type_access_value D t) cross HI) as (r & E2 & H2);
        [rewrite <- A; exact HC|].
      exists r. split; [exact E2|]. rewrite H2. split; intros H.
      * eapply cn_nested; [exact E|exact NE|apply H1; reflexivity|exact H].
      * inversion H; subst; congruence.
    + exists false. split; [reflexivity|]. split; [discriminate|]. intros H. apply H1. inversion H; subst; congruence.
  - destruct cross.
    + eexists. split; [reflexivity|]. split; intros H.
      * apply cn_top; [exact E|left]. destruct (type_access_value D t); congruence.
      * assert (N := proj1 HC eq_refl).
        inversion H; subst; try congruence. destruct H1 as [->|H1]; [reflexivity|contradiction].
    + exists true. split; [reflexivity|]. split; [intros _|reflexivity]. apply cn_top; [exact E|right].
      destruct (Nat.eq_dec (d_assembly D from) (d_assembly D t)); [assumption|]. apply HC in n. discriminate.
Qed.

Lemma code_name_sound from t : code_name from t -> may_name D from t.
Proof.
  induction 1.
  - eapply name_nested; [eassumption| |apply type_access_value_spec|apply inside_visible; constructor].
    apply (inside_may_name from (S (depth from))); [lia|constructor].
  - apply name_top; [assumption|]. destruct H0 as [H0|H0]; [left; rewrite <- H0; apply type_access_value_spec|right; exact H0].
  - eapply name_nested; [eassumption|assumption|apply type_access_value_spec|apply code_visible_sound; assumption].
Qed.

Lemma cross_flag a b : negb (d_assembly D b =? d_assembly D a) = true <-> d_assembly D a <> d_assembly D b.
Proof. rewrite negb_true_iff, Nat.eqb_neq. intuition. Qed.

Definition code_use (from h : nat) (w : option access) : Prop :=
  inside D from h \/ (code_name from h /\ code_visible from h (member_access_value D h w)).

Lemma check_access_member_spec ft m from h : In (TGeneral from) U ->
  declared D ft from -> declared D (m_host m) h ->
  exists r, check_access_member D fuel ft m = Some r /\ (r = true <-> code_use from h (m_access m)).
Proof.
  intros HI H1 H2. apply to_general_declared in H1. apply to_general_declared in H2.
  unfold check_access_member, check_access_value. rewrite H1, H2.
  destruct (encloses_spec fuel from h (proj2 EN from)) as (r & E & Hr). rewrite E.
  destruct r.
  { exists true. split; [reflexivity|]. split; [intros _; left; apply Hr; reflexivity|reflexivity]. }
  assert (NI : ~ inside D from h). { intros X. apply Hr in X. discriminate. }
  destruct (check_type_access_spec from (negb (d_assembly D h =? d_assembly D from)) HI fuel h (proj2 EN h) (cross_flag from h))
    as (r & E1 & H3).
  rewrite E1. destruct r.
  - destruct (check_member_access_spec from h (member_access_value D h (m_access m))
               (negb (d_assembly D h =? d_assembly D from)) HI (cross_flag from h)) as (r & E2 & H4).
    exists r. split; [exact E2|]. rewrite H4. unfold code_use. split; [|tauto].
    intros X. right. split; [apply H3; reflexivity|exact X].
  - exists false. split; [reflexivity|]. split; [discriminate|]. intros [X|[X _]]; [contradiction|]. apply H3. exact X.
Qed.

Lemma code_use_sound from h w : code_use from h w -> may_use D from h w.
Proof.
  intros [H|[H1 H2]]; split.
  - apply (inside_may_name from (S (depth h))); [lia|exact H].
  - exists (member_access_value D h w). split; [apply member_access_value_spec|apply inside_visible, H].
  - apply code_name_sound, H1.
  - exists (member_access_value D h w). split; [apply member_access_value_spec|apply code_visible_sound, H2].
Qed.

(** Sound for members and types. *)
Lemma member_sound ft m from h : In (TGeneral from) U ->
  declared D ft from -> declared D (m_host m) h ->
  check_access_member D fuel ft m = Some true -> may_use D from h (m_access m).
Proof.
  intros HI H1 H2 E. destruct (check_access_member_spec ft m from h HI H1 H2) as (r & E1 & H).
  rewrite E in E1. injection E1 as <-. apply code_use_sound, H. reflexivity.
Qed.

Lemma member_decided ft m from h : In (TGeneral from) U ->
  declared D ft from -> declared D (m_host m) h ->
  check_access_member D fuel ft m <> None.
Proof. intros HI H1 H2. destruct (check_access_member_spec ft m from h HI H1 H2) as (r & E & _). congruence. Qed.

Lemma check_access_type_spec ft tt from t : In (TGeneral from) U ->
  declared D ft from -> declared D tt t ->
  exists r, check_access_type D fuel ft tt = Some r /\ (r = true <-> code_name from t).
Proof.
  intros HI H1 H2. apply to_general_declared in H1. apply to_general_declared in H2.
  unfold check_access_type. rewrite H1, H2.
  apply (check_type_access_spec from _ HI fuel t (proj2 EN t) (cross_flag from t)).
Qed.

Lemma type_sound ft tt from t : In (TGeneral from) U ->
  declared D ft from -> declared D tt t ->
  check_access_type D fuel ft tt = Some true -> may_name D from t.
Proof.
  intros HI H1 H2 E. destruct (check_access_type_spec ft tt from t HI H1 H2) as (r & E1 & H).
  rewrite E in E1. injection E1 as <-. apply code_name_sound, H. reflexivity.
Qed.

(** Complete from a type that is not nested. *)
Lemma top_inside from e : d_host D from = None -> inside D from e -> e = from.
Proof. intros H H1. inversion H1; subst; congruence. Qed.

Lemma top_visible from h av : d_host D from = None -> plain_supers D from ->
  visible D from h av -> from = h \/ code_visible from h av.
Proof.
  intros HT HP. unfold visible, code_visible.
  assert (F : (exists e, inside D from e /\ derives D e h) ->
              from = h \/ inherits (d_world D) (TGeneral from) (TGeneral h)).
  { intros (e & He & Hd). apply (top_inside _ _ HT) in He. subst e.
    destruct Hd as [Hd|(s & Hs & Hd)]; [left; exact Hd|right].
    destruct (HP s Hs) as (i & ->). destruct Hd as [Hd|[(args & Hd)|(e & n & Hd & _)]]; try discriminate Hd.
    injection Hd as ->. exact Hs. }
  destruct av; intros H.
  - right; exact I.
  - apply F, H.
  - left. symmetry. apply (top_inside _ _ HT), H.
  - right; exact H.
  - destruct H as [H|H]; [apply F in H; tauto|right; right; exact H].
  - destruct H as [H H1]. apply F in H. tauto.
Qed.

Lemma top_name from t : d_host D from = None -> plain_supers D from ->
  may_name D from t -> code_name from t.
Proof.
  intros HT HP. induction 1.
  - apply cn_top; [assumption|]. destruct H0 as [H0|H0]; [left; symmetry; apply type_access_fun, H0|right; exact H0].
  - destruct (Nat.eq_dec h from) as [->|NE]; [apply cn_own; assumption|].
    eapply cn_nested; [eassumption|exact NE|assumption|].
    rewrite <- (type_access_fun _ _ _ H1). destruct (top_visible _ _ _ HT HP H2); [congruence|assumption].
Qed.

Lemma member_complete ft m from h : In (TGeneral from) U ->
  declared D ft from -> declared D (m_host m) h ->
  d_host D from = None -> plain_supers D from ->
  may_use D from h (m_access m) -> check_access_member D fuel ft m = Some true.
Proof.
  intros HI H1 H2 HT HP (HN & av & HA & HV).
  destruct (check_access_member_spec ft m from h HI H1 H2) as (r & E & H). rewrite E. f_equal. apply H.
  destruct (top_visible _ _ _ HT HP HV) as [->|HC]; [left; constructor|right].
  split; [apply top_name; assumption|]. rewrite <- (member_access_fun _ _ _ _ HA). exact HC.
Qed.

Lemma type_complete ft tt from t : In (TGeneral from) U ->
  declared D ft from -> declared D tt t ->
  d_host D from = None -> plain_supers D from ->
  may_name D from t -> check_access_type D fuel ft tt = Some true.
Proof.
  intros HI H1 H2 HT HP HN.
  destruct (check_access_type_spec ft tt from t HI H1 H2) as (r & E & H). rewrite E. f_equal. apply H.
  apply top_name; assumption.
Qed.

(** Complete for open types, from anywhere. *)
Lemma open_name from t : open_type D t -> may_name D from t -> code_name from t.
Proof.
  intros HO. induction HO; intros HN.
  - inversion HN; subst; [|congruence]. apply cn_top; [assumption|].
    destruct H1 as [H1|H1]; [left; symmetry; apply type_access_fun, H1|right; exact H1].
  - inversion HN; subst; [congruence|]. rewrite H in H2. injection H2 as <-.
    destruct (Nat.eq_dec h from) as [->|NE]; [apply cn_own; assumption|].
    eapply cn_nested; [eassumption|exact NE|apply IHHO; assumption|].
    rewrite (type_access_fun _ _ _ H4) in H5. rewrite (type_access_fun _ _ _ H0) in H1.
    destruct H1 as [H1|H1]; rewrite H1 in *; [exact I|exact H5].
Qed.

Lemma open_member_complete ft m from h : In (TGeneral from) U ->
  declared D ft from -> declared D (m_host m) h -> open_type D h ->
  (member_access D h (m_access m) Public \/ member_access D h (m_access m) Internal \/
   member_access D h (m_access m) Private) ->
  may_use D from h (m_access m) -> check_access_member D fuel ft m = Some true.
Proof.
  intros HI H1 H2 HO HM (HN & av & HA & HV).
  destruct (check_access_member_spec ft m from h HI H1 H2) as (r & E & H). rewrite E. f_equal. apply H.
  rewrite (member_access_fun _ _ _ _ HA) in HV. unfold code_use.
  destruct HM as [HM|[HM|HM]]; apply member_access_fun in HM; rewrite <- HM in *; cbn in HV |- *.
  - right. split; [apply open_name; assumption|exact I].
  - right. split; [apply open_name; assumption|exact HV].
  - left. exact HV.
Qed.

Lemma open_type_complete ft tt from t : In (TGeneral from) U ->
  declared D ft from -> declared D tt t -> open_type D t ->
  may_name D from t -> check_access_type D fuel ft tt = Some true.
Proof.
  intros HI H1 H2 HO HN.
  destruct (check_access_type_spec ft tt from t HI H1 H2) as (r & E & H). rewrite E. f_equal. apply H.
  apply open_name; assumption.
Qed.

(** Own private members, at any nesting. *)
Lemma inside_allowed ft m from h : In (TGeneral from) U ->
  declared D ft from -> declared D (m_host m) h -> inside D from h ->
  check_access_member D fuel ft m = Some true.
Proof.
  intros HI H1 H2 HO.
  destruct (check_access_member_spec ft m from h HI H1 H2) as (r & E & H). rewrite E. f_equal. apply H.
  left. exact HO.
Qed.

(** Outside any type. *)
Lemma assembly_type_sound asm cross : forall f t, depth t < f ->
  (cross = true <-> asm <> d_assembly D t) ->
  exists r, check_type_access_assembly D f t cross = Some r /\ (r = true -> may_name_outside D asm t).
Proof.
  induction f as [|f IH]; intros t L HC; [lia|]. cbn [check_type_access_assembly].
  destruct (d_host D t) as [h|] eqn:E.
  - assert (L1 := wd_nesting _ _ _ WD _ _ E). assert (A := wd_assembly _ _ _ WD _ _ E).
    destruct (IH h) as (r & E1 & H1); [lia|rewrite <- A; exact HC|]. rewrite E1. destruct r.
    + eexists. split; [reflexivity|]. intros H.
      eapply outside_nested; [exact E|apply H1; reflexivity|apply type_access_value_spec|].
      unfold visible_outside. destruct (type_access_value D t); try discriminate H; [left; reflexivity|].
      right. split; [left; reflexivity|]. rewrite <- A.
      destruct (Nat.eq_dec asm (d_assembly D t)); [assumption|]. apply HC in n. subst cross. discriminate H.
    + exists false. split; [reflexivity|discriminate].
  - destruct cross.
    + eexists. split; [reflexivity|]. intros H. apply outside_top; [exact E|left].
      destruct (type_access_value D t) eqn:V; try discriminate H. rewrite <- V. apply type_access_value_spec.
    + exists true. split; [reflexivity|]. intros _. apply outside_top; [exact E|right].
      destruct (Nat.eq_dec asm (d_assembly D t)); [assumption|]. apply HC in n. discriminate.
Qed.

Lemma outside_type_sound asm tt t : declared D tt t ->
  check_access_type_assembly D fuel asm tt = Some true -> may_name_outside D asm t.
Proof.
  intros H2 E. apply to_general_declared in H2. unfold check_access_type_assembly in E. rewrite H2 in E.
  destruct (assembly_type_sound asm (negb (d_assembly D t =? asm)) fuel t (proj2 EN t)) as (r & E1 & H).
  { rewrite negb_true_iff, Nat.eqb_neq. intuition. }
  rewrite E in E1. injection E1 as <-. apply H. reflexivity.
Qed.

(** From another assembly the answers are exact. *)
Lemma cross_type_complete asm t : may_name_outside D asm t -> forall f, depth t < f ->
  asm <> d_assembly D t -> check_type_access_assembly D f t true = Some true.
Proof.
  induction 1 as [t HN HV|t h av HN H IH HT HV]; intros f L NE;
    (destruct f as [|f]; [lia|]); cbn [check_type_access_assembly]; rewrite HN.
  - destruct HV as [HV|HV]; [|congruence]. apply type_access_fun in HV. rewrite <- HV. reflexivity.
  - assert (L1 := wd_nesting _ _ _ WD _ _ HN). assert (A := wd_assembly _ _ _ WD _ _ HN).
    rewrite (IH f) by (lia || congruence). apply type_access_fun in HT. rewrite <- HT.
    destruct HV as [->|[_ HV]]; [reflexivity|congruence].
Qed.

Lemma cross_type asm tt t : declared D tt t -> asm <> d_assembly D t ->
  (check_access_type_assembly D fuel asm tt = Some true <-> may_name_outside D asm t).
Proof.
  intros H2 NE. split; [apply outside_type_sound; exact H2|]. intros HN.
  apply to_general_declared in H2. unfold check_access_type_assembly. rewrite H2.
  assert (E : negb (d_assembly D t =? asm) = true).
  { rewrite negb_true_iff, Nat.eqb_neq. congruence. }
  rewrite E. apply (cross_type_complete asm t HN fuel (proj2 EN t) NE).
Qed.

Lemma cross_member asm m h : declared D (m_host m) h -> asm <> d_assembly D h ->
  (check_access_member_assembly D fuel asm m = Some true <-> may_use_outside D asm h (m_access m)).
Proof.
  intros H2 NE. assert (HX := cross_type asm (m_host m) h H2 NE).
  apply to_general_declared in H2. unfold check_access_member_assembly. rewrite H2.
  assert (E : negb (d_assembly D h =? asm) = true).
  { rewrite negb_true_iff, Nat.eqb_neq. congruence. }
  cbv zeta. rewrite E. unfold may_use_outside. rewrite <- HX.
  assert (MS := member_access_value_spec D h (m_access m)).
  destruct (member_access_value D h (m_access m)) eqn:V; split; intros H;
    try discriminate H;
    try (destruct H as (H & av & H3 & H4); apply member_access_fun in H3; rewrite V in H3; subst av;
         destruct H4 as [H4|[_ H4]]; congruence).
  split; [exact H|]. exists Public. split; [exact MS|left; reflexivity].
Qed.

(** In the same assembly nothing the language allows is refused, for open types. *)
Lemma open_outside asm t : open_type D t -> forall f, depth t < f -> forall cross,
  (cross = true -> asm <> d_assembly D t) -> may_name_outside D asm t ->
  check_type_access_assembly D f t cross = Some true.
Proof.
  induction 1 as [t HN|t h av HN HT HA HO IH]; intros f L cross HC HM;
    (destruct f as [|f]; [lia|]); cbn [check_type_access_assembly]; rewrite HN.
  - destruct cross; [|reflexivity]. inversion HM; subst; [|congruence].
    destruct H0 as [H0|H0]; [|exfalso; apply (HC eq_refl); exact H0].
    apply type_access_fun in H0. rewrite <- H0. reflexivity.
  - assert (L1 := wd_nesting _ _ _ WD _ _ HN). assert (A := wd_assembly _ _ _ WD _ _ HN).
    inversion HM; subst; [congruence|]. rewrite HN in H. injection H as <-.
    rewrite (IH f) by (lia || (rewrite <- A; exact HC) || assumption).
    apply type_access_fun in HT. apply type_access_fun in H1. rewrite <- HT in *. subst av0.
    destruct HA as [->| ->]; [reflexivity|]. destruct cross; [|reflexivity].
    destruct H2 as [H2|[_ H2]]; [discriminate H2|]. exfalso. apply (HC eq_refl). congruence.
Qed.

Lemma open_type_outside asm tt t : declared D tt t -> open_type D t -> may_name_outside D asm t ->
  check_access_type_assembly D fuel asm tt = Some true.
Proof.
  intros H2 HO HN. apply to_general_declared in H2. unfold check_access_type_assembly. rewrite H2.
  apply (open_outside asm t HO fuel (proj2 EN t)); [|exact HN].
  rewrite negb_true_iff, Nat.eqb_neq. congruence.
Qed.

Lemma open_member_outside asm m h : declared D (m_host m) h -> open_type D h ->
  may_use_outside D asm h (m_access m) -> check_access_member_assembly D fuel asm m = Some true.
Proof.
  intros H2 HO [HN (av & HA & HV)]. assert (HX := open_type_outside asm (m_host m) h H2 HO HN).
  apply to_general_declared in H2. unfold check_access_member_assembly. rewrite H2. cbv zeta.
  apply member_access_fun in HA. rewrite <- HA. rewrite HX.
  destruct HV as [->|[_ HV]]; [destruct (negb _); reflexivity|].
  rewrite HV, Nat.eqb_refl. reflexivity.
Qed.

End Access.
