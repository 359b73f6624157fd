(** Proofs about the checks of generic arguments. *)
From Coq Require Import List Arith Bool PeanoNat Relations Lia.
From Verif Require Import OverModel OverSpec OverProofs CargModel CargSpec.
Import ListNotations.

(* ------------------------------------------------------------------ *)
(** * Types *)

Fixpoint ty_size (t : ty) : nat :=
  match t with
  | TGeneric _ args => S (fold_right (fun a n => ty_size a + n) 0 args)
  | TArray e _ => S (ty_size e)
  | _ => 1
  end.

Lemma arg_size args t : In t args -> ty_size t <= fold_right (fun a n => ty_size a + n) 0 args.
Proof.
  induction args as [|a l IH]; intros H; [destruct H|]. cbn [fold_right].
  destruct H as [<- | H]; [lia | specialize (IH H); lia].
Qed.

Lemma ty_ind' (Q : ty -> Prop) :
  Q TNull -> (forall c, Q (TGeneral c)) -> (forall x, Q (TParam x)) ->
  (forall c args, (forall t, In t args -> Q t) -> Q (TGeneric c args)) ->
  (forall e d, Q e -> Q (TArray e d)) -> forall t, Q t.
Proof.
  intros Hn Hg Hp Hc Ha.
  assert (K : forall n t, ty_size t <= n -> Q t).
  { induction n as [|n IH]; intros t Ht.
    - destruct t; cbn [ty_size] in Ht; lia.
    - destruct t as [|c|x|c args|e d]; auto.
      + apply Hc. intros t Hin. apply IH. apply arg_size in Hin. cbn [ty_size] in Ht. lia.
      + apply Ha. apply IH. cbn [ty_size] in Ht. lia. }
  intros t. apply (K (ty_size t)). lia.
Qed.

Lemma subst_ext r q t : (forall x, occurs x t -> r x = q x) -> subst r t = subst q t.
Proof.
  induction t as [|c|x|c args IH|e d IH] using ty_ind'; intros H; cbn [subst]; auto.
  - apply H. constructor.
  - f_equal. apply map_ext_in. intros a Ha. apply IH; auto.
    intros x Hx. apply H. econstructor; eauto.
  - f_equal. apply IH. intros x Hx. apply H. constructor. exact Hx.
Qed.

Lemma subst_subst r q t : subst r (subst q t) = subst (fun x => subst r (q x)) t.
Proof.
  induction t as [|c|x|c args IH|e d IH] using ty_ind'; cbn [subst]; auto.
  - f_equal. rewrite map_map. apply map_ext_in. auto.
  - f_equal. exact IH.
Qed.

Lemma subst_id t : subst TParam t = t.
Proof.
  induction t as [|c|x|c args IH|e d IH] using ty_ind'; cbn [subst]; auto.
  - f_equal. rewrite <- (map_id args) at 2. apply map_ext_in. auto.
  - f_equal. exact IH.
Qed.

Lemma subst_closed r t : (forall x, ~ occurs x t) -> subst r t = t.
Proof.
  intros H. rewrite <- (subst_id t) at 2. apply subst_ext. intros x Hx. destruct (H x Hx).
Qed.

Lemma transform_subst m r t :
  (forall x, occurs x t -> glookup m x = Some (r x)) -> transform m t = subst r t.
Proof.
  induction t as [|c|x|c args IH|e d IH] using ty_ind'; intros H; cbn [transform subst]; auto.
  - rewrite (H x); [reflexivity | constructor].
  - f_equal. apply map_ext_in. intros a Ha. apply IH; auto.
    intros x Hx. apply H. econstructor; eauto.
  - f_equal. apply IH. intros x Hx. apply H. constructor. exact Hx.
Qed.

(** The map of parameters and arguments. *)
Lemma glookup_combine params : forall args r x,
  NoDup params -> length args = length params -> assigns params args r ->
  In x params -> glookup (combine params args) x = Some (r x).
Proof.
  induction params as [|p ps IH]; intros args r x ND L A Hx; [destruct Hx|].
  destruct args as [|a l]; [discriminate L|]. cbn [combine glookup].
  apply NoDup_cons_iff in ND. destruct ND as [N ND].
  destruct (Nat.eqb_spec x p) as [->|D].
  - f_equal. symmetry. exact (A 0 p a eq_refl eq_refl).
  - apply IH; auto.
    + intros i y t H1 H2. exact (A (S i) y t H1 H2).
    + destruct Hx as [E|Hx]; [congruence | exact Hx].
Qed.

(** There is an assignment for any list of arguments. *)
Definition assign_of (params : list nat) (args : list ty) (x : nat) : ty :=
  match glookup (combine params args) x with Some t => t | None => TParam x end.

Lemma assign_of_assigns params : forall args,
  NoDup params -> assigns params args (assign_of params args).
Proof.
  induction params as [|p ps IH]; intros args ND i x t H1 H2.
  - destruct i; discriminate H1.
  - apply NoDup_cons_iff in ND. destruct ND as [N ND].
    destruct args as [|a l]; [destruct i; discriminate H2|].
    unfold assign_of. cbn [combine glookup]. destruct i as [|i].
    + injection H1 as <-. injection H2 as <-. now rewrite Nat.eqb_refl.
    + cbn [nth_error] in H1, H2. destruct (Nat.eqb_spec x p) as [->|D].
      * destruct N. eapply nth_error_In; eauto.
      * exact (IH l ND i x t H1 H2).
Qed.

Section Program.
Variable P : program.
Hypothesis SO : supers_ok P.

(** The super types of the model are the declared ones. *)
Lemma super_declared t s : proper P t ->
  direct_super (world_of P) t s <-> declared_super P t s.
Proof.
  unfold direct_super, world_of. cbn [w_supers]. intros HP. split.
  - intros H. destruct t as [|c|x|c args|e d]; cbn [supers_of] in H; try destruct H.
    + now constructor.
    + apply in_map_iff in H. destruct H as (s0 & <- & Hs).
      destruct (SO c) as (ND & K). destruct (K s0 Hs) as (_ & _ & O).
      inversion HP as [| |c0 a0 L _ E|]; subst.
      rewrite (transform_subst _ (assign_of (d_params (p_decl P c)) args)).
      * constructor; [now apply assign_of_assigns | exact Hs].
      * intros x Hx. apply glookup_combine; auto. now apply assign_of_assigns.
  - intros H. destruct H as [c s Hs | c args r s A Hs]; cbn [supers_of]; [exact Hs|].
    destruct (SO c) as (ND & K). destruct (K s Hs) as (_ & _ & O).
    inversion HP as [| |c0 a0 L _ E|]; subst.
    apply in_map_iff. exists s. split; [|exact Hs].
    apply transform_subst. intros x Hx. apply glookup_combine; auto.
Qed.

Lemma proper_subst r t :
  (forall x, occurs x t -> proper P (r x)) -> proper P t -> proper P (subst r t).
Proof.
  intros H HP. induction HP as [c E|x|c args L HA IH|e d HE IH]; cbn [subst].
  - now constructor.
  - apply H. constructor.
  - constructor; [now rewrite map_length|]. intros t Ht. apply in_map_iff in Ht.
    destruct Ht as (a & <- & Ha). apply IH; auto. intros x Hx. apply H. econstructor; eauto.
  - constructor. apply IH. intros x Hx. apply H. now constructor.
Qed.

Lemma super_proper t s : proper P t -> declared_super P t s -> proper P s.
Proof.
  intros HP H. destruct H as [c s Hs | c args r s A Hs].
  - now destruct (SO c) as (_ & K); destruct (K s Hs) as (_ & Q & _).
  - destruct (SO c) as (ND & K); destruct (K s Hs) as (_ & Q & O).
    inversion HP as [| |c0 a0 L HA E|]; subst.
    apply proper_subst; [|exact Q]. intros x Hx.
    destruct (In_nth_error _ _ (O x Hx)) as (i & Hi).
    destruct (nth_error args i) as [t|] eqn:Ei.
    + rewrite (A i x t Hi Ei). apply HA. eapply nth_error_In; eauto.
    + apply nth_error_None in Ei. assert (i < length (d_params (p_decl P c))); [|lia].
      apply nth_error_Some. congruence.
Qed.

(** Instances of super types are super types of instances. *)
Lemma super_subst r t s : proper P t -> declared_super P t s ->
  declared_super P (subst r t) (subst r s).
Proof.
  intros HP H. destruct H as [c s Hs | c args q s A Hs].
  - cbn [subst]. rewrite subst_closed.
    + now constructor.
    + intros x Hx. destruct (SO c) as (_ & K). destruct (K s Hs) as (_ & _ & O).
      inversion HP as [c0 E| | |]; subst. specialize (O x Hx). rewrite E in O. destruct O.
  - cbn [subst]. rewrite subst_subst. constructor; [|exact Hs].
    intros i x t H1 H2. rewrite nth_error_map in H2.
    destruct (nth_error args i) as [a|] eqn:Ei; [|discriminate H2].
    injection H2 as <-. f_equal. exact (A i x a H1 Ei).
Qed.

Lemma below_subst r t s : proper P t -> below P t s ->
  below P (subst r t) (subst r s).
Proof.
  intros HP H. apply clos_rt_rt1n in H. revert HP.
  induction H as [t|t u s H1 H IH]; intros HP; [apply rt_refl|].
  apply rt_trans with (subst r u).
  - apply rt_step. now apply super_subst.
  - apply IH. now apply super_proper with t.
Qed.

Lemma inherits_below t s : proper P t -> inherits (world_of P) t s -> below P t s.
Proof.
  intros HP H. apply clos_trans_t1n in H. revert HP.
  induction H as [t s H|t u s H1 H IH]; intros HP.
  - apply rt_step. now apply super_declared.
  - assert (D : declared_super P t u) by now apply super_declared.
    apply rt_trans with u; [now apply rt_step|]. apply IH. now apply super_proper with t.
Qed.

Lemma below_inherits t s : proper P t -> below P t s -> t = s \/ inherits (world_of P) t s.
Proof.
  intros HP H. apply clos_rt_rt1n in H. revert HP.
  induction H as [t|t u s H1 H IH]; intros HP; [now left|]. right.
  assert (D : direct_super (world_of P) t u) by now apply super_declared.
  destruct (IH (super_proper _ _ HP H1)) as [<-|I].
  - now apply t_step.
  - apply t_trans with u; [now apply t_step | exact I].
Qed.

(* ------------------------------------------------------------------ *)
(** * Kinds *)

Lemma object_mobject u r : object_type P u -> vtype_in P (subst r u) = VMobject /\
  is_struct_type P (subst r u) = false /\ subst r u <> TNull.
Proof.
  unfold is_struct_type.
  intros [(c & [-> | (args & ->)] & K & V)|(e & d & ->)]; cbn [subst vtype_in ttype_of];
    (split; [auto|]); (split; [|discriminate]); try reflexivity; destruct K as [-> | ->]; reflexivity.
Qed.

Lemma compat_true f from to : proper P from -> to <> TNull -> vtype_in P to = VMobject ->
  compat P f from to = Val true -> below P from to.
Proof.
  intros HP N V. unfold compat, is_type_compatible.
  destruct (ty_eqb from to) eqn:E.
  - intros _. apply ty_eqb_eq in E. subst. apply rt_refl.
  - destruct from as [|c|x|c args|e d]; [inversion HP| | | |];
    (destruct to as [|c2|x2|c2 args2|e2 d2]; [destruct N; reflexivity| | | |]);
    unfold is_mobject at 2; cbn [vtype_of world_of w_vtype]; rewrite V, orb_true_r;
    unfold is_super_type, has_super_type;
    (destruct (collect _ _ _ _) as [out|] eqn:C; [|discriminate]); intros [= H];
    apply inherits_below; auto; apply (collect_closure _ _ _ _ C); now apply ty_mem_in.
Qed.

Lemma compat_spec U f from to : closed_above P U -> (forall t, In t U -> proper P t) ->
  In from U -> length U < f -> to <> TNull -> vtype_in P to = VMobject ->
  exists b, compat P f from to = Val b /\ (b = true <-> below P from to).
Proof.
  intros CA PU HU Hf N V.
  assert (HP : proper P from) by auto.
  assert (HW : hierarchy (world_of P) U).
  { intros t s Ht Hs. apply (CA t s Ht). apply super_declared; auto. }
  unfold compat, is_type_compatible. destruct (ty_eqb from to) eqn:E.
  - exists true. split; [reflexivity|]. apply ty_eqb_eq in E. subst.
    split; [intros _; apply rt_refl | reflexivity].
  - assert (NE : from <> to) by (intros ->; rewrite (proj2 (ty_eqb_eq to to) eq_refl) in E; discriminate E).
    destruct (is_super_type_spec (world_of P) U f from to HW HU Hf) as (b & Eb & Hb).
    exists b. split.
    + destruct from as [|c|x|c args|e d]; [inversion HP| | | |];
      (destruct to as [|c2|x2|c2 args2|e2 d2]; [destruct N; reflexivity| | | |]);
      unfold is_mobject at 2; cbn [vtype_of world_of w_vtype]; rewrite V, orb_true_r;
      change (mk_world (supers_of P) (vtype_in P)) with (world_of P) in *;
      now rewrite Eb.
    + rewrite Hb. split; [now apply inherits_below|]. intros B.
      destruct (below_inherits _ _ HP B) as [?|I]; [contradiction | exact I].
Qed.

Lemma is_ref_spec t : is_ref_type P t = true <-> reference_type P t.
Proof.
  unfold is_ref_type, reference_type. split.
  - destruct t as [|c|x|c args|e d]; cbn [ttype_of]; try discriminate.
    + intros H. left. exists c. split; [now left|]. destruct (d_kind (p_decl P c)); auto; discriminate H.
    + intros H. left. exists c. split; [right; eauto|]. destruct (d_kind (p_decl P c)); auto; discriminate H.
    + intros _. right. eauto.
  - intros [(c & [-> | (args & ->)] & K)|(e & d & ->)]; cbn [ttype_of]; try reflexivity;
      destruct K as [-> | ->]; reflexivity.
Qed.

Lemma is_value_spec t : proper P t -> (forall x, t <> TParam x) ->
  negb (is_ref_type P t) = true <-> value_type P t.
Proof.
  intros HP HX. unfold is_ref_type, value_type. split.
  - destruct t as [|c|x|c args|e d]; cbn [ttype_of]; try discriminate.
    + inversion HP.
    + intros H. exists c. split; [now left|]. destruct (d_kind (p_decl P c)); auto; discriminate H.
    + destruct (HX x); reflexivity.
    + intros H. exists c. split; [right; eauto|]. destruct (d_kind (p_decl P c)); auto; discriminate H.
  - intros (c & [-> | (args & ->)] & K); cbn [ttype_of]; destruct K as [-> | ->]; reflexivity.
Qed.

Lemma ctor_spec t : ctor_type P t = true <-> creatable P t.
Proof.
  unfold ctor_type, is_class_type, is_struct_type, creatable. split.
  - intros H. apply andb_true_iff in H. destruct H as [K C].
    destruct t as [|c|x|c args|e d]; cbn [ttype_of] in K; try discriminate C.
    + exists c. split; [now left|]. split; [|exact C]. destruct (d_kind (p_decl P c)); auto; discriminate K.
    + exists c. split; [right; eauto|]. split; [|exact C]. destruct (d_kind (p_decl P c)); auto; discriminate K.
  - intros (c & [-> | (args & ->)] & K & C); cbn [ttype_of]; rewrite C; destruct K as [-> | ->]; reflexivity.
Qed.

Lemma reference_subst r t : reference_type P t -> reference_type P (subst r t).
Proof.
  intros [(c & [-> | (args & ->)] & K)|(e & d & ->)]; cbn [subst].
  - left. exists c. split; [now left | exact K].
  - left. exists c. split; [right; eauto | exact K].
  - right. eauto.
Qed.

Lemma value_subst r t : value_type P t -> value_type P (subst r t).
Proof.
  intros (c & [-> | (args & ->)] & K); cbn [subst]; exists c; (split; [|exact K]); [now left | right; eauto].
Qed.

Lemma creatable_subst r t : creatable P t -> creatable P (subst r t).
Proof.
  intros (c & [-> | (args & ->)] & K); cbn [subst]; exists c; (split; [|exact K]); [now left | right; eauto].
Qed.

(** Below a class other than Object and Enum there are classes only. *)
Hypothesis BO : bases_ok P.

Definition solid (t : ty) : Prop :=
  (exists e d, t = TArray e d) \/
  (exists c, declares P t c /\ d_kind (p_decl P c) = KClass /\
     t <> TGeneral (p_object P) /\ t <> TGeneral (p_enum P)).

Lemma solid_up t s : declared_super P t s -> solid s -> solid t.
Proof.
  intros H HS. destruct H as [c s Hs | c args r s A Hs].
  - destruct (SO c) as (_ & K). destruct (K s Hs) as ((b & HB) & _ & _).
    destruct HS as [(e & d & ->)|(b' & HB' & KB & NO & NE)].
    { destruct HB as [HB|(x & HB)]; discriminate HB. }
    right. exists c. split; [now left|].
    destruct (BO c s b' Hs HB' KB NO NE) as (Q1 & Q2 & Q3).
    split; [exact Q1|]. split; congruence.
  - destruct (SO c) as (_ & K). destruct (K s Hs) as ((b & HB) & _ & _).
    assert (Q : d_kind (p_decl P c) = KClass).
    { destruct HS as [(e & d & E)|(b' & HB' & KB & NO & NE)].
      - destruct HB as [->|(x & ->)]; discriminate E.
      - assert (HB2 : declares P s b').
        { destruct HB as [->|(x & ->)]; cbn [subst] in HB'.
          - exact HB'.
          - destruct HB' as [E|(y & E)]; [discriminate E|]. injection E as -> _. right. eauto. }
        destruct (BO c s b' Hs HB2 KB) as (Q1 & _); auto; intros ->; cbn [subst] in *; congruence. }
    right. exists c. split; [right; eauto|]. split; [exact Q|]. split; discriminate.
Qed.

Lemma solid_below t s : below P t s -> solid s -> solid t.
Proof.
  intros H. apply clos_rt_rt1n in H. induction H as [t|t u s H1 H IH]; [auto|].
  intros HS. apply (solid_up t u H1). auto.
Qed.

Lemma solid_reference t : solid t -> reference_type P t.
Proof.
  intros [(e & d & ->)|(c & D & K & _)]; [right; eauto|]. left. exists c. auto.
Qed.

Lemma class_solid r t : class_constraint P t = true -> solid (subst r t).
Proof.
  unfold class_constraint, is_class_type. intros H.
  destruct (ty_eqb t (TGeneral (p_enum P))) eqn:E1; [discriminate H|].
  destruct (ty_eqb t (TGeneral (p_object P))) eqn:E2; [discriminate H|]. cbn [orb] in H.
  assert (N1 : t <> TGeneral (p_enum P))
    by (intros X; apply (proj2 (ty_eqb_eq _ _)) in X; congruence).
  assert (N2 : t <> TGeneral (p_object P))
    by (intros X; apply (proj2 (ty_eqb_eq _ _)) in X; congruence).
  destruct t as [|c|x|c args|e d]; cbn [ttype_of] in H; try discriminate H; cbn [subst].
  - right. exists c. split; [now left|]. split; [|auto]. destruct (d_kind (p_decl P c)); auto; discriminate H.
  - right. exists c. split; [right; eauto|]. split; [|split; discriminate].
    destruct (d_kind (p_decl P c)); auto; discriminate H.
  - left. eauto.
Qed.

(* ------------------------------------------------------------------ *)
(** * The constraints around *)

Lemma search_in_some cs x c : search_in cs x = Some c -> In c cs /\ g_param c = x.
Proof.
  induction cs as [|d cs IH]; cbn [search_in]; [discriminate|].
  destruct (Nat.eqb_spec (g_param d) x) as [E|N].
  - intros [= <-]. split; [now left | exact E].
  - intros H. destruct (IH H) as [A B]. split; [now right | exact B].
Qed.

Fixpoint search_scopes (ss : list scope) (x : nat) : option gcon :=
  match ss with
  | [] => None
  | s :: ss' =>
      match search_in (s_cons s) x with Some c => Some c | None => search_scopes ss' x end
  end.

Lemma search_place pl x o : search_constraint pl x = Val o -> o = search_scopes (scopes pl) x.
Proof.
  unfold search_constraint, scopes. destruct (pl_method pl) as [s|]; [|discriminate].
  cbn [search_scopes]. destruct (search_in (s_cons s) x); intros [= <-]; reflexivity.
Qed.

Lemma search_visible ss x c : NoDup (flat_map s_params ss) ->
  (forall s, In s ss -> scope_ok P s) -> search_scopes ss x = Some c ->
  visible ss c /\ g_param c = x /\ forall u, In u (g_types c) -> proper P u.
Proof.
  induction ss as [|s ss IH]; cbn [search_scopes]; [discriminate|]. intros ND OK.
  destruct (OK s (or_introl eq_refl)) as (_ & OP & PR).
  destruct (search_in (s_cons s) x) as [d|] eqn:E.
  - intros [= <-]. apply search_in_some in E. destruct E as [A B].
    split; [left; auto|]. split; [exact B|]. intros u Hu. eapply PR; eauto.
  - intros H. cbn [flat_map] in ND.
    assert (ND2 : NoDup (flat_map s_params ss)).
    { clear - ND. induction (s_params s) as [|p l IHl]; [exact ND|].
      cbn [app] in ND. apply NoDup_cons_iff in ND. apply IHl, ND. }
    destruct (IH ND2 (fun s' h => OK s' (or_intror h)) H) as (V & G & U).
    split; [|auto]. right. split; [|exact V].
    intros Hin. rewrite G in *.
    assert (Hout : In x (flat_map s_params ss)).
    { rewrite <- G. clear - V OK. assert (OK' : forall s', In s' ss -> scope_ok P s') by (intros; apply OK; now right).
      clear OK. induction ss as [|s' ss IH]; [destruct V|]. cbn [visible flat_map] in *.
      apply in_or_app. destruct V as [[A _]|[_ V]]; [now left|]. right. apply IH; auto.
      intros s0 H0. apply OK'. now right. }
    clear - ND Hin Hout. induction (s_params s) as [|p l IHl]; [destruct Hin|].
    cbn [app] in ND. apply NoDup_cons_iff in ND. destruct ND as [N ND].
    destruct Hin as [->|Hin]; [apply N, in_or_app; now right | auto].
Qed.

Lemma any_compat_true f froms to : any_compat P f froms to = Val true ->
  exists t, In t froms /\ compat P f t to = Val true.
Proof.
  induction froms as [|t l IH]; cbn [any_compat]; [discriminate|].
  destruct (compat P f t to) as [[|]| |] eqn:E; try discriminate.
  - intros _. exists t. split; [now left | exact E].
  - intros H. destruct (IH H) as (u & A & B). exists u. split; [now right | exact B].
Qed.

Section Sound.
Variables (f : nat) (pl : place) (F : scope) (args : list ty) (q r : nat -> ty).
Hypothesis OKp : forall s, In s (scopes pl) -> scope_ok P s.
Hypothesis NS : no_shadowing pl.
Hypothesis OKF : scope_ok P F.
Hypothesis OWN : own_parameters F.
Hypothesis LEN : length args = length (s_params F).
Hypothesis PA : forall t, In t args -> proper P t.
Hypothesis AS : assigns (s_params F) args q.

Lemma arg_lookup x : In x (s_params F) ->
  glookup (combine (s_params F) args) x = Some (q x) /\ In (q x) args.
Proof.
  intros Hx. destruct OKF as (ND & _). split; [now apply glookup_combine|].
  destruct (In_nth_error _ _ Hx) as (i & Hi).
  destruct (nth_error args i) as [t|] eqn:E.
  - rewrite (AS i x t Hi E). eapply nth_error_In; eauto.
  - apply nth_error_None in E. assert (i < length (s_params F)); [|lia].
    apply nth_error_Some. congruence.
Qed.

Lemma arg_transform c u : In c (s_cons F) -> In u (g_types c) ->
  transform (combine (s_params F) args) u = subst q u.
Proof.
  intros Hc Hu. apply transform_subst. intros x Hx. apply arg_lookup. eapply OWN; eauto.
Qed.

Lemma found x c : search_constraint pl x = Val (Some c) ->
  visible (scopes pl) c /\ g_param c = x /\ forall u, In u (g_types c) -> proper P u.
Proof.
  intros H. apply search_place in H. apply search_visible; auto.
Qed.

Hypothesis IN : instance P pl r.

Lemma arg_compatible_true t to : proper P t -> to <> TNull -> vtype_in P to = VMobject ->
  arg_compatible P f pl t to = Val true -> below P (subst r t) (subst r to).
Proof.
  intros HP N V H.
  assert (G : compat P f t to = Val true -> below P (subst r t) (subst r to)).
  { intros C. apply below_subst; auto. eapply compat_true; eauto. }
  destruct t as [|c|x|c a|e d]; cbn [arg_compatible] in H; auto. clear G.
  destruct (search_constraint pl x) as [[c|]| |] eqn:S1; try discriminate H.
  destruct (found x c S1) as (VI & GP & PR).
  destruct (any_compat_true _ _ _ H) as (t & Ht & C).
  destruct (IN c VI) as [ST _ _ _]. specialize (ST t Ht). rewrite GP in ST.
  cbn [subst]. apply rt_trans with (subst r t); [exact ST|].
  apply below_subst; auto. eapply compat_true; eauto.
Qed.

Lemma arg_ref_true t : arg_is_ref P pl t = Val true -> reference_type P (subst r t).
Proof.
  intros H. assert (G : is_ref_type P t = true -> reference_type P (subst r t)).
  { intros K. apply reference_subst. now apply is_ref_spec. }
  destruct t as [|c|x|c a|e d]; cbn [arg_is_ref] in H; try (apply G; congruence). clear G.
  destruct (search_constraint pl x) as [[c|]| |] eqn:S1; try discriminate H.
  destruct (found x c S1) as (VI & GP & PR). destruct (IN c VI) as [ST SC _ _].
  cbn [subst]. rewrite <- GP. destruct (g_class c); [now apply SC|].
  injection H as H. apply existsb_exists in H. destruct H as (t & Ht & C).
  apply solid_reference. apply solid_below with (subst r t); [now apply ST | now apply class_solid].
Qed.

Lemma arg_value_true t : proper P t -> (forall x, t <> TParam x) ->
  arg_is_value P pl t = Val true -> value_type P (subst r t).
Proof.
  intros HP NX H. unfold arg_is_value in H. apply value_subst. apply is_value_spec; auto.
  destruct t as [|c|x|c a|e d]; cbn [arg_is_ref] in H; congruence.
Qed.

Lemma arg_ctor_true t : arg_has_ctor P pl t = Val true -> creatable P (subst r t).
Proof.
  intros H. assert (G : ctor_type P t = true -> creatable P (subst r t)).
  { intros K. apply creatable_subst. now apply ctor_spec. }
  destruct t as [|c|x|c a|e d]; cbn [arg_has_ctor] in H; try (apply G; congruence). clear G.
  destruct (search_constraint pl x) as [[c|]| |] eqn:S1; try discriminate H.
  destruct (found x c S1) as (VI & GP & PR). destruct (IN c VI) as [_ _ _ SN].
  cbn [subst]. rewrite <- GP. apply SN. congruence.
Qed.

Hypothesis OC : object_constraints P F.
Hypothesis SA : struct_arguments pl F q.

Lemma check_types_none c t us : In c (s_cons F) -> proper P t ->
  (forall u, In u us -> In u (g_types c)) ->
  check_types P f pl (combine (s_params F) args) t us = Val None ->
  forall u, In u us -> below P (subst r t) (subst r (subst q u)).
Proof.
  intros Hc HP. induction us as [|v us IH]; intros SUB H u Hu; [destruct Hu|].
  cbn [check_types] in H. assert (Hv : In v (g_types c)) by (apply SUB; now left).
  rewrite (arg_transform c v Hc Hv) in H.
  destruct (object_mobject v q (OC c v Hc Hv)) as (VM & NSt & NN).
  assert (H' : match arg_compatible P f pl t (subst q v) with
               | Val true => check_types P f pl (combine (s_params F) args) t us
               | Val false => Val (Some (NoConversion t (subst q v)))
               | Crash => Crash | Fuel => Fuel end = Val None).
  { destruct (subst q v); [contradiction NN; reflexivity| | | |]; rewrite NSt in H; exact H. }
  destruct (arg_compatible P f pl t (subst q v)) as [[|]| |] eqn:E; try discriminate H'.
  destruct Hu as [<-|Hu].
  - now apply arg_compatible_true.
  - apply IH; auto. intros w Hw. apply SUB. now right.
Qed.

Lemma and_then_none a b : and_then a b = Val None -> a = Val None /\ b = Val None.
Proof. destruct a as [[e|]| |]; cbn [and_then]; auto; discriminate. Qed.

Lemma check_flag_none g a e : check_flag g a e = Val None -> g = true -> a = Val true.
Proof. intros H ->. cbn [check_flag] in H. destruct a as [[|]| |]; auto; discriminate H. Qed.

Lemma constraint_sound c : In c (s_cons F) ->
  check_constraint P f pl (combine (s_params F) args) c = Val None ->
  satisfies P (fun x => subst r (q x)) c.
Proof.
  intros Hc H. unfold check_constraint in H. destruct OKF as (_ & OP & _).
  destruct (arg_lookup (g_param c) (OP c Hc)) as [GL GI]. rewrite GL in H.
  apply and_then_none in H. destruct H as [H1 H].
  apply and_then_none in H. destruct H as [H2 H].
  apply and_then_none in H. destruct H as [H3 H4].
  constructor.
  - intros u Hu. rewrite <- subst_subst.
    apply (check_types_none c (q (g_param c)) (g_types c)); auto.
  - intros G. apply arg_ref_true. eapply check_flag_none; eauto.
  - intros G. pose proof (check_flag_none _ _ _ H3 G) as K.
    assert (HP : proper P (q (g_param c))) by auto.
    destruct (q (g_param c)) as [|k|x|k a|e d] eqn:E;
      [| | |now apply arg_value_true; [| discriminate |]..];
      [inversion HP | now apply arg_value_true; [| discriminate |] |].
    destruct (SA c x Hc G E) as (c' & VI & GP & GS). destruct (IN c' VI) as [_ _ SS _].
    cbn [subst]. rewrite <- GP. now apply SS.
  - intros G. apply arg_ctor_true. eapply check_flag_none; eauto.
Qed.

Lemma checks_none m cs : check_constraints P f pl m cs = Val [] ->
  forall c, In c cs -> check_constraint P f pl m c = Val None.
Proof.
  induction cs as [|d cs IH]; intros H c Hc; [destruct Hc|]. cbn [check_constraints] in H.
  destruct (check_constraint P f pl m d) as [[e|]| |] eqn:E; try discriminate H.
  - destruct (check_constraints P f pl m cs) as [es| |]; discriminate H.
  - destruct Hc as [<-|Hc]; auto.
Qed.

Lemma arguments_sound : check_arguments P f pl F args = Val [] ->
  forall c, In c (s_cons F) -> satisfies P (fun x => subst r (q x)) c.
Proof.
  intros H c Hc. apply constraint_sound; auto. eapply checks_none; eauto.
Qed.

End Sound.

(* ------------------------------------------------------------------ *)
(** * Arguments that are not parameters *)

Section Exact.
Variables (f : nat) (pl : place) (F : scope) (args : list ty) (q : nat -> ty) (U : list ty).
Hypothesis OKF : scope_ok P F.
Hypothesis OWN : own_parameters F.
Hypothesis LEN : length args = length (s_params F).
Hypothesis AS : assigns (s_params F) args q.
Hypothesis NX : forall t x, In t args -> t <> TParam x.
Hypothesis OC : object_constraints P F.
Hypothesis CA : closed_above P U.
Hypothesis PU : forall t, In t U -> proper P t.
Hypothesis AU : forall t, In t args -> In t U.
Hypothesis FU : length U < f.

Lemma check_types_exact c us : In c (s_cons F) -> (forall u, In u us -> In u (g_types c)) ->
  exists o, check_types P f pl (combine (s_params F) args) (q (g_param c)) us = Val o /\
    match o with
    | None => forall u, In u us -> below P (q (g_param c)) (subst q u)
    | Some e => exists u, In u us /\ e = NoConversion (q (g_param c)) (subst q u) /\
                          ~ below P (q (g_param c)) (subst q u)
    end.
Proof.
  intros Hc. pose proof OKF as (_ & OP & _).
  destruct (arg_lookup F args q OKF LEN AS (g_param c) (OP c Hc)) as [_ GI].
  set (t := q (g_param c)) in *.
  induction us as [|v us IH]; intros SUB; cbn [check_types].
  - exists None. split; [reflexivity | intros u []].
  - assert (Hv : In v (g_types c)) by (apply SUB; now left).
    rewrite (arg_transform F args q OKF OWN LEN AS c v Hc Hv).
    destruct (object_mobject v q (OC c v Hc Hv)) as (VM & NSt & NN).
    destruct (compat_spec U f t (subst q v) CA PU (AU t GI) FU NN VM) as (b & Eb & Hb).
    assert (EA : arg_compatible P f pl t (subst q v) = Val b).
    { destruct t as [|k|x|k a|e d] eqn:Et; try exact Eb. destruct (NX (TParam x) x GI); reflexivity. }
    destruct (IH (fun u h => SUB u (or_intror h))) as (o & Eo & Ho).
    exists (if b then o else Some (NoConversion t (subst q v))). split.
    + rewrite Eo. destruct (subst q v); [contradiction NN; reflexivity| | | |];
        rewrite NSt, EA; destruct b; reflexivity.
    + destruct b.
      * destruct o as [e|].
        -- destruct Ho as (u & A & B). exists u. split; [now right | exact B].
        -- intros u [<-|Hu]; [now apply Hb | now apply Ho].
      * exists v. split; [now left|]. split; [reflexivity|]. intros B. apply Hb in B. discriminate B.
Qed.

Lemma constraint_exact c : In c (s_cons F) ->
  exists o, check_constraint P f pl (combine (s_params F) args) c = Val o /\
    match o with
    | None => satisfies P q c
    | Some e => ~ satisfies P q c /\ true_of P q c e
    end.
Proof.
  intros Hc. pose proof OKF as (_ & OP & _). unfold check_constraint.
  destruct (arg_lookup F args q OKF LEN AS (g_param c) (OP c Hc)) as [GL GI]. rewrite GL.
  destruct (check_types_exact c (g_types c) Hc (fun u h => h)) as (o & Eo & Ho). rewrite Eo.
  destruct o as [e|].
  { exists (Some e). split; [reflexivity|]. destruct Ho as (u & A & -> & B).
    split; [intros [ST _ _ _]; apply B, ST, A | now constructor]. }
  cbn [and_then].
  assert (NP : forall x, q (g_param c) <> TParam x) by (intros x; apply NX, GI).
  assert (HP : proper P (q (g_param c))) by (apply PU, AU, GI).
  assert (E1 : arg_is_ref P pl (q (g_param c)) = Val (is_ref_type P (q (g_param c)))).
  { destruct (q (g_param c)) as [|k|x|k a|e d] eqn:E; try reflexivity. destruct (NP x); reflexivity. }
  assert (E2 : arg_is_value P pl (q (g_param c)) = Val (negb (is_ref_type P (q (g_param c)))))
    by (unfold arg_is_value; now rewrite E1).
  assert (E3 : arg_has_ctor P pl (q (g_param c)) = Val (ctor_type P (q (g_param c)))).
  { destruct (q (g_param c)) as [|k|x|k a|e d] eqn:E; try reflexivity. destruct (NP x); reflexivity. }
  rewrite E1, E2, E3.
  pose proof (is_ref_spec (q (g_param c))) as R1.
  pose proof (is_value_spec (q (g_param c)) HP NP) as R2.
  pose proof (ctor_spec (q (g_param c))) as R3.
  destruct (g_class c) eqn:G1; cbn [check_flag].
  { destruct (is_ref_type P (q (g_param c))) eqn:B1.
    2:{ exists (Some (NotReference (q (g_param c)))). split; [reflexivity|].
        assert (K : ~ reference_type P (q (g_param c))) by (intros X; apply R1 in X; discriminate X).
        split; [intros [_ SC _ _]; auto | now constructor]. }
    cbn [and_then negb] in *. destruct (g_struct c) eqn:G2; cbn [check_flag and_then].
    { exists (Some (NotValue (q (g_param c)))). split; [reflexivity|].
      assert (K : ~ value_type P (q (g_param c))) by (intros X; apply R2 in X; discriminate X).
      split; [intros [_ _ SS _]; auto | now constructor]. }
    destruct (g_new c) eqn:G3; cbn [check_flag].
    + destruct (ctor_type P (q (g_param c))) eqn:B3.
      * exists None. split; [reflexivity|]. constructor; auto; try (intros; congruence); intros _; [now apply R1 | now apply R3].
      * exists (Some (NoConstructor (q (g_param c)))). split; [reflexivity|].
        assert (K : ~ creatable P (q (g_param c))) by (intros X; apply R3 in X; discriminate X).
        split; [intros [_ _ _ SN]; auto | now constructor].
    + exists None. split; [reflexivity|]. constructor; auto; try (intros; congruence). intros _. now apply R1. }
  cbn [and_then]. destruct (g_struct c) eqn:G2; cbn [check_flag].
  { destruct (is_ref_type P (q (g_param c))) eqn:B1; cbn [negb and_then] in *.
    { exists (Some (NotValue (q (g_param c)))). split; [reflexivity|].
      assert (K : ~ value_type P (q (g_param c))) by (intros X; apply R2 in X; discriminate X).
      split; [intros [_ _ SS _]; auto | now constructor]. }
    destruct (g_new c) eqn:G3; cbn [check_flag].
    + destruct (ctor_type P (q (g_param c))) eqn:B3.
      * exists None. split; [reflexivity|]. constructor; auto; try (intros; congruence); intros _; [now apply R2 | now apply R3].
      * exists (Some (NoConstructor (q (g_param c)))). split; [reflexivity|].
        assert (K : ~ creatable P (q (g_param c))) by (intros X; apply R3 in X; discriminate X).
        split; [intros [_ _ _ SN]; auto | now constructor].
    + exists None. split; [reflexivity|]. constructor; auto; try (intros; congruence). intros _. now apply R2. }
  cbn [and_then]. destruct (g_new c) eqn:G3; cbn [check_flag].
  + destruct (ctor_type P (q (g_param c))) eqn:B3.
    * exists None. split; [reflexivity|]. constructor; auto; try (intros; congruence); intros _; now apply R3.
    * exists (Some (NoConstructor (q (g_param c)))). split; [reflexivity|].
      assert (K : ~ creatable P (q (g_param c))) by (intros X; apply R3 in X; discriminate X).
      split; [intros [_ _ _ SN]; auto | now constructor].
  + exists None. split; [reflexivity|]. constructor; auto; intros; congruence.
Qed.

Lemma constraints_exact cs : (forall c, In c cs -> In c (s_cons F)) ->
  exists es, check_constraints P f pl (combine (s_params F) args) cs = Val es /\ reports P q cs es.
Proof.
  induction cs as [|c cs IH]; intros SUB; cbn [check_constraints].
  - exists []. split; [reflexivity | constructor].
  - destruct (constraint_exact c (SUB c (or_introl eq_refl))) as (o & Eo & Ho). rewrite Eo.
    destruct (IH (fun d h => SUB d (or_intror h))) as (es & Ees & R). rewrite Ees.
    destruct o as [e|].
    + exists (e :: es). split; [reflexivity|]. destruct Ho. now constructor.
    + exists es. split; [reflexivity|]. now constructor.
Qed.

Lemma arguments_exact :
  exists es, check_arguments P f pl F args = Val es /\ reports P q (s_cons F) es.
Proof. apply constraints_exact. auto. Qed.

End Exact.
End Program.

(* ------------------------------------------------------------------ *)
(** * No null is followed inside methods *)

Section NoCrash.
Variables (P : program) (f : nat) (pl : place).
Hypothesis ME : pl_method pl <> None.

Lemma search_no_crash x : exists o, search_constraint pl x = Val o.
Proof.
  unfold search_constraint. destruct (pl_method pl) as [s|]; [|contradiction].
  destruct (search_in (s_cons s) x); eauto.
Qed.

Lemma compat_no_crash a b : compat P f a b <> Crash.
Proof. unfold compat. destruct (is_type_compatible _ _ _ _); discriminate. Qed.

Lemma any_no_crash l b : any_compat P f l b <> Crash.
Proof.
  induction l as [|a l IH]; cbn [any_compat]; [discriminate|].
  pose proof (compat_no_crash a b) as K.
  destruct (compat P f a b) as [[|]| |]; auto; discriminate.
Qed.

Lemma arg_compatible_no_crash t u : arg_compatible P f pl t u <> Crash.
Proof.
  destruct t as [|c|x|c a|e d]; cbn [arg_compatible]; try apply compat_no_crash.
  destruct (search_no_crash x) as (o & ->). destruct o; [apply any_no_crash | discriminate].
Qed.

Lemma check_types_no_crash m t us : check_types P f pl m t us <> Crash.
Proof.
  induction us as [|u us IH]; cbn [check_types]; [discriminate|].
  pose proof (arg_compatible_no_crash t (transform m u)) as K.
  destruct (transform m u); auto;
    match goal with |- context [is_struct_type P ?z] => destruct (is_struct_type P z) end;
    try discriminate;
    match goal with |- context [arg_compatible P f pl t ?z] =>
      destruct (arg_compatible P f pl t z) as [[|]| |] end; auto; discriminate.
Qed.

Lemma arg_is_ref_val t : exists b, arg_is_ref P pl t = Val b.
Proof.
  destruct t as [|c|x|c a|e d]; cbn [arg_is_ref]; eauto.
  destruct (search_no_crash x) as (o & ->). destruct o; eauto.
Qed.

Lemma arg_has_ctor_val t : exists b, arg_has_ctor P pl t = Val b.
Proof.
  destruct t as [|c|x|c a|e d]; cbn [arg_has_ctor]; eauto.
  destruct (search_no_crash x) as (o & ->). destruct o; eauto.
Qed.

Lemma check_no_crash m c : check_constraint P f pl m c <> Crash.
Proof.
  unfold check_constraint, arg_is_value.
  set (t := match glookup m (g_param c) with Some t => t | None => TNull end).
  pose proof (check_types_no_crash m t (g_types c)) as K.
  destruct (arg_is_ref_val t) as (b1 & ->). destruct (arg_has_ctor_val t) as (b2 & ->).
  destruct (check_types P f pl m t (g_types c)) as [[e|]| |]; cbn [and_then]; auto; try discriminate.
  destruct (g_class c), (g_struct c), (g_new c), b1, b2; cbn; discriminate.
Qed.

Lemma arguments_no_crash F args : check_arguments P f pl F args <> Crash.
Proof.
  unfold check_arguments. induction (s_cons F) as [|c cs IH]; cbn [check_constraints]; [discriminate|].
  pose proof (check_no_crash (combine (s_params F) args) c) as K.
  destruct (check_constraint P f pl (combine (s_params F) args) c) as [[e|]| |]; auto; try discriminate.
  destruct (check_constraints P f pl (combine (s_params F) args) cs) as [es| |]; auto; discriminate.
Qed.

End NoCrash.
