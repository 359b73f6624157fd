(** Proofs about implicit conversions and the choice among overloads. *)
From Coq Require Import List Arith ZArith Lia Bool PeanoNat Relations.
From Verif Require Import OverModel OverSpec.
Import ListNotations.

(* ------------------------------------------------------------------ *)
(** * Numbers *)

Lemma vt_eqb_eq a b : vt_eqb a b = true <-> a = b.
Proof. destruct a, b; cbv; split; intros H; try reflexivity; discriminate. Qed.

Ltac widens_no :=
  let H := fresh in
  intros H; inversion H; subst;
  repeat match goal with
         | E : signed_size _ = Some _ |- _ => cbv in E
         | E : unsigned_size _ = Some _ |- _ => cbv in E
         | E : Some _ = Some _ |- _ => injection E as ?; subst
         | E : None = Some _ |- _ => discriminate E
         end; lia.

Ltac widens_yes :=
  first [ apply widens_float
        | eapply widens_to_float; reflexivity
        | eapply widens_to_double; reflexivity
        | eapply widens_signed; [reflexivity | reflexivity | lia]
        | eapply widens_unsigned; [reflexivity | reflexivity | lia] ].

Lemma vtype_compatible_spec v w :
  is_vtype_compatible v w = true <-> v = w \/ widens v w.
Proof.
  destruct v, w; (split; [intros H; cbv in H; try discriminate H;
    first [left; reflexivity | right; widens_yes]
  | intros [H | H]; [try discriminate H; reflexivity |
      try reflexivity; exfalso; revert H; widens_no]]).
Qed.

Lemma integers_keep_value v w z :
  is_vtype_compatible v w = true -> int_range w <> None ->
  holds_int v z -> holds_int w z.
Proof.
  destruct v, w; cbv [is_vtype_compatible vt_eqb]; cbn; intros H Hw Hz;
    try discriminate H; try (exfalso; apply Hw; reflexivity);
    try (exfalso; exact Hz); unfold holds_int in *; cbn in *; lia.
Qed.

Lemma vtype_compatible_trans a b c :
  is_vtype_compatible a b = true -> is_vtype_compatible b c = true ->
  is_vtype_compatible a c = true.
Proof.
  destruct a, b; intros H; cbv in H; try discriminate H; clear H;
    destruct c; intros H; cbv in H; try discriminate H; reflexivity.
Qed.

Lemma odd_not_float z :
  (2 ^ 24 < Z.abs z)%Z -> Z.odd z = true -> ~ holds_exactly VFloat z.
Proof.
  intros Hb Ho (m & e & He & -> & Hm).
  destruct (Z.eq_dec e 0) as [-> | Hne].
  - rewrite Z.pow_0_r, Z.mul_1_r in Hb. lia.
  - replace e with (Z.succ (e - 1))%Z in Ho by lia.
    rewrite Z.pow_succ_r in Ho by lia.
    replace (m * (2 * 2 ^ (e - 1)))%Z with (2 * (m * 2 ^ (e - 1)))%Z in Ho by ring.
    rewrite Z.odd_mul in Ho. cbn in Ho. discriminate.
Qed.

Lemma narrow_exact v w z :
  is_vtype_compatible v w = true ->
  (v <> VInt64 /\ (v = VInt32 -> w = VDouble) \/ int_range w <> None) ->
  holds_int v z -> holds_exactly w z.
Proof.
  intros H Hc Hz.
  destruct (float_bits w) as [p|] eqn:Ep.
  - unfold holds_exactly. rewrite Ep. exists z, 0%Z. split; [lia|]. split; [lia|].
    destruct Hc as [[Hn H32] | Hc].
    + destruct v, w; cbv in H; try discriminate H; cbv in Ep; try discriminate Ep;
        injection Ep as <-; try (exfalso; apply Hn; reflexivity);
        try (specialize (H32 eq_refl); discriminate H32);
        unfold holds_int in Hz; cbn in Hz |- *; lia.
    + destruct w; cbv in Ep; try discriminate Ep; exfalso; apply Hc; reflexivity.
  - unfold holds_exactly. rewrite Ep. apply (integers_keep_value v w); auto.
    destruct v, w; cbv in H; try discriminate H; cbv in Ep; try discriminate Ep;
      unfold holds_int in Hz; cbn in Hz |- *; try discriminate; try contradiction.
Qed.

(* ------------------------------------------------------------------ *)
(** * Types *)

Fixpoint ty_rect' (P : ty -> Prop) (Hn : P TNull) (Hg : forall i, P (TGeneral i))
  (Hp : forall n, P (TParam n))
  (Hi : forall g args, Forall P args -> P (TGeneric g args))
  (Ha : forall e d, P e -> P (TArray e d)) (t : ty) : P t :=
  match t with
  | TNull => Hn
  | TGeneral i => Hg i
  | TParam n => Hp n
  | TGeneric g args =>
      Hi g args ((fix go (l : list ty) : Forall P l :=
                    match l with
                    | [] => Forall_nil P
                    | x :: l' => Forall_cons x (ty_rect' P Hn Hg Hp Hi Ha x) (go l')
                    end) args)
  | TArray e d => Ha e d (ty_rect' P Hn Hg Hp Hi Ha e)
  end.

Definition tys_eqb : list ty -> list ty -> bool :=
  fix go (xs ys : list ty) : bool :=
    match xs, ys with
    | [], [] => true
    | x :: xs', y :: ys' => ty_eqb x y && go xs' ys'
    | _, _ => false
    end.

Lemma ty_eqb_generic s xs t ys :
  ty_eqb (TGeneric s xs) (TGeneric t ys) = (s =? t) && tys_eqb xs ys.
Proof. reflexivity. Qed.

Lemma ty_eqb_eq a b : ty_eqb a b = true <-> a = b.
Proof.
  revert b. induction a as [|i|n|g args IH|e d IH] using ty_rect'; intros b.
  - destruct b; cbn; split; intros H; try reflexivity; discriminate.
  - destruct b; cbn; split; intros H; try discriminate H.
    + apply Nat.eqb_eq in H. now subst.
    + injection H as ->. apply Nat.eqb_refl.
  - destruct b; cbn; split; intros H; try discriminate H.
    + apply Nat.eqb_eq in H. now subst.
    + injection H as ->. apply Nat.eqb_refl.
  - destruct b as [| | |h ys|]; try (cbn; split; intros H; discriminate H).
    rewrite ty_eqb_generic, andb_true_iff, Nat.eqb_eq.
    assert (E : forall ys, tys_eqb args ys = true <-> args = ys).
    { clear ys. induction IH as [|x xs Hx _ IHl]; intros [|y ys]; cbn [tys_eqb];
        split; intros H; try reflexivity; try discriminate H.
      - apply andb_true_iff in H. destruct H as [H1 H2].
        apply Hx in H1. apply IHl in H2. now subst.
      - injection H as <- <-. apply andb_true_iff. split; [now apply Hx | now apply IHl]. }
    rewrite E. split; [intros [-> ->]; reflexivity | intros H; injection H as -> ->; auto].
  - destruct b as [| | | |f d']; try (cbn; split; intros H; discriminate H).
    cbn [ty_eqb]. rewrite andb_true_iff, Nat.eqb_eq, IH.
    split; [intros [-> ->]; reflexivity | intros H; injection H as -> ->; auto].
Qed.

Lemma ty_eqb_refl a : ty_eqb a a = true.
Proof. now apply ty_eqb_eq. Qed.

Lemma ty_eqb_neq a b : ty_eqb a b = false <-> a <> b.
Proof.
  split.
  - intros H ->. now rewrite ty_eqb_refl in H.
  - intros H. destruct (ty_eqb a b) eqn:E; [|reflexivity].
    apply ty_eqb_eq in E. contradiction.
Qed.

Lemma ty_dec (a b : ty) : {a = b} + {a <> b}.
Proof.
  destruct (ty_eqb a b) eqn:E;
    [left; now apply ty_eqb_eq | right; now apply ty_eqb_neq].
Qed.

Lemma ty_mem_in t l : ty_mem t l = true <-> In t l.
Proof.
  unfold ty_mem. rewrite existsb_exists. split.
  - intros (x & H & E). apply ty_eqb_eq in E. now subst.
  - intros H. exists t. split; [exact H | apply ty_eqb_refl].
Qed.

(** The inner loop of the walk, named. *)
Definition collect_go (W : world) (f : nat) :=
  fix go (l : list ty) (seen : list ty) : option (list ty) :=
    match l with
    | [] => Some seen
    | s :: l' =>
        if ty_mem s seen then go l' seen
        else match collect W f s (s :: seen) with
             | None => None
             | Some seen' => go l' seen'
             end
    end.

Lemma collect_S W f t seen :
  collect W (S f) t seen = collect_go W f (w_supers W t) seen.
Proof. reflexivity. Qed.

(** What the walk guarantees. *)
Definition walk_ok (W : world) (roots seen out : list ty) : Prop :=
  (forall x, In x seen -> In x out) /\
  (forall x, In x roots -> In x out) /\
  (forall x, In x out -> In x seen \/ exists r, In r roots /\ (x = r \/ inherits W r x)) /\
  (forall x y, In x out -> ~ In x seen -> direct_super W x y -> In y out).

Lemma collect_sound W f : forall t seen out,
  collect W f t seen = Some out -> walk_ok W (w_supers W t) seen out.
Proof.
  induction f as [|f IH]; intros t seen out H; [discriminate H|].
  rewrite collect_S in H. revert seen H.
  generalize (w_supers W t) as l. clear t.
  induction l as [|s l IHl]; intros seen H.
  - cbn in H. injection H as <-. repeat split; auto.
    + intros x [].
    + intros x y Hx Hn. contradiction.
  - cbn [collect_go] in H. destruct (ty_mem s seen) eqn:M.
    + apply ty_mem_in in M. destruct (IHl seen H) as (A & B & C & D).
      split; [exact A|]. split.
      { intros x [<- | Hx]; auto. }
      split; [|exact D].
      intros x Hx. destruct (C x Hx) as [Hs | (r & Hr & E)]; [auto|].
      right. exists r. split; [right; exact Hr | exact E].
    + destruct (collect W f s (s :: seen)) as [mid|] eqn:E1; [|discriminate H].
      destruct (IH _ _ _ E1) as (A1 & B1 & C1 & D1).
      destruct (IHl mid H) as (A & B & C & D).
      assert (Hseen : forall x, In x seen -> In x out) by (intros; apply A, A1; right; auto).
      split; [exact Hseen|]. split.
      { intros x [<- | Hx]; [apply A, A1; left; reflexivity | auto]. }
      split.
      * intros x Hx. destruct (C x Hx) as [Hm | (r & Hr & E)].
        -- destruct (C1 x Hm) as [[<- | Hs] | (r & Hr & E)]; [| auto |].
           ++ right. exists s. split; [left; reflexivity | left; reflexivity].
           ++ right. exists s. split; [left; reflexivity|]. right.
              destruct E as [-> | E]; [apply t_step; exact Hr|].
              apply t_trans with r; [apply t_step; exact Hr | exact E].
        -- right. exists r. split; [right; exact Hr | exact E].
      * intros x y Hx Hn Hd.
        destruct (in_dec ty_dec x mid) as [Hm | Hm].
        -- destruct (ty_dec x s) as [-> | Hxs].
           ++ apply A, B1. exact Hd.
           ++ apply A, (D1 x y); [exact Hm | | exact Hd].
              intros [-> | Hin]; [apply Hxs; reflexivity | contradiction].
        -- apply (D x y); auto.
Qed.

Lemma collect_closure W f t out :
  collect W f t [] = Some out -> forall s, In s out <-> inherits W t s.
Proof.
  intros H s. destruct (collect_sound _ _ _ _ _ H) as (_ & B & C & D). split.
  - intros Hs. destruct (C s Hs) as [[] | (r & Hr & [-> | E])].
    + now apply t_step.
    + apply t_trans with r; [now apply t_step | exact E].
  - intros Hi. apply clos_trans_tn1 in Hi. induction Hi as [s Hs | y z Hyz Hi IH].
    + apply B. exact Hs.
    + apply (D y z); [exact IH | intros [] | exact Hyz].
Qed.

(** Enough fuel for a finite hierarchy. *)
Definition unseen (U seen : list ty) : nat :=
  length (filter (fun x => negb (ty_mem x seen)) U).

Lemma unseen_le U a b :
  (forall x, In x a -> In x b) -> unseen U b <= unseen U a.
Proof.
  intros H. unfold unseen. induction U as [|u U IH]; cbn; [lia|].
  destruct (ty_mem u a) eqn:Ea; cbn.
  - assert (Eb : ty_mem u b = true) by (apply ty_mem_in, H, ty_mem_in, Ea).
    rewrite Eb. cbn. exact IH.
  - destruct (ty_mem u b); cbn; lia.
Qed.

Lemma unseen_lt U seen s :
  In s U -> ~ In s seen -> unseen U (s :: seen) < unseen U seen.
Proof.
  intros Hin Hn. unfold unseen. induction U as [|u U IH]; [destruct Hin|].
  cbn [filter].
  pose proof (unseen_le U seen (s :: seen) (fun x h => or_intror h)) as Hle.
  unfold unseen in Hle.
  destruct Hin as [-> | Hin].
  - assert (E1 : ty_mem s (s :: seen) = true) by (apply ty_mem_in; left; reflexivity).
    assert (E2 : ty_mem s seen = false).
    { destruct (ty_mem s seen) eqn:E; [|reflexivity]. apply ty_mem_in in E. contradiction. }
    rewrite E1, E2. cbn [negb length]. lia.
  - specialize (IH Hin).
    destruct (ty_mem u seen) eqn:E; cbn [negb].
    + assert (E1 : ty_mem u (s :: seen) = true)
        by (apply ty_mem_in; right; apply ty_mem_in, E).
      rewrite E1. cbn [negb]. exact IH.
    + destruct (ty_mem u (s :: seen)); cbn [negb length]; lia.
Qed.

Lemma collect_fuel W U (HU : hierarchy W U) f : forall t seen,
  In t U -> unseen U seen < f -> exists out, collect W f t seen = Some out.
Proof.
  induction f as [|f IH]; intros t seen Ht Hf; [lia|].
  rewrite collect_S.
  assert (Hl : forall x, In x (w_supers W t) -> In x U) by (intros x Hx; exact (HU t x Ht Hx)).
  revert seen Hf Hl. generalize (w_supers W t) as l. clear Ht t.
  induction l as [|s l IHl]; intros seen Hf Hl; cbn [collect_go].
  - exists seen. reflexivity.
  - destruct (ty_mem s seen) eqn:M.
    + apply IHl; [exact Hf | intros x Hx; apply Hl; right; exact Hx].
    + assert (Hn : ~ In s seen).
      { intros Hin. apply ty_mem_in in Hin. congruence. }
      pose proof (unseen_lt U seen s (Hl s (or_introl eq_refl)) Hn).
      destruct (IH s (s :: seen) (Hl s (or_introl eq_refl)) ltac:(lia)) as (mid & E).
      rewrite E. apply IHl; [|intros x Hx; apply Hl; right; exact Hx].
      destruct (collect_sound _ _ _ _ _ E) as (A & _).
      pose proof (unseen_le U (s :: seen) mid A). lia.
Qed.

Lemma unseen_nil U : unseen U [] <= length U.
Proof.
  unfold unseen. induction U as [|u U IH]; cbn [filter length]; [lia|].
  destruct (negb (ty_mem u [])); cbn [length]; lia.
Qed.

Lemma collect_finite W U t fuel :
  hierarchy W U -> In t U -> length U < fuel ->
  exists out, collect W fuel t [] = Some out.
Proof.
  intros HU Ht Hf. apply (collect_fuel W U HU); [exact Ht|].
  pose proof (unseen_nil U). lia.
Qed.

Lemma has_super_type_spec W U fuel t s :
  hierarchy W U -> In t U -> length U < fuel ->
  exists b c, has_super_type W fuel [] t s = Some (b, c) /\
              (b = true <-> inherits W t s).
Proof.
  intros HU Ht Hf. destruct (collect_finite W U t fuel HU Ht Hf) as (c & E).
  exists (ty_mem s c), c. unfold has_super_type. rewrite E. split; [reflexivity|].
  rewrite ty_mem_in. apply (collect_closure _ _ _ _ E).
Qed.

Lemma is_super_type_spec W U fuel t s :
  hierarchy W U -> In t U -> length U < fuel ->
  exists b, is_super_type W fuel t s = Some b /\ (b = true <-> inherits W t s).
Proof.
  intros HU Ht Hf. destruct (has_super_type_spec W U fuel t s HU Ht Hf) as (b & c & E & Hb).
  exists b. unfold is_super_type. rewrite E. auto.
Qed.

(** A run of queries under declarations that do not change. *)
Lemma super_queries_spec W U fuel t :
  hierarchy W U -> In t U -> length U < fuel ->
  forall qs stored,
  (stored = [] \/ forall s, In s stored <-> inherits W t s) ->
  exists bs, super_queries fuel stored t (map (fun s => (W, s)) qs) = Some bs /\
             Forall2 (fun s b => b = true <-> inherits W t s) qs bs.
Proof.
  intros HU Ht Hf. induction qs as [|s qs IH]; intros stored Hst.
  - exists []. split; [reflexivity | constructor].
  - cbn [map super_queries].
    assert (H : exists b c, has_super_type W fuel stored t s = Some (b, c) /\
                 (b = true <-> inherits W t s) /\
                 (c = [] \/ forall s, In s c <-> inherits W t s)).
    { destruct stored as [|x st].
      - destruct (collect_finite W U t fuel HU Ht Hf) as (c & E).
        exists (ty_mem s c), c. unfold has_super_type. rewrite E.
        split; [reflexivity|]. rewrite ty_mem_in.
        split; [apply (collect_closure _ _ _ _ E)|].
        right. intros s0. apply (collect_closure _ _ _ _ E).
      - destruct Hst as [Hst | Hst]; [discriminate Hst|].
        exists (ty_mem s (x :: st)), (x :: st). split; [reflexivity|].
        rewrite ty_mem_in. split; [apply Hst | right; exact Hst]. }
    destruct H as (b & c & E & Hb & Hc). rewrite E.
    destruct (IH c Hc) as (bs & E' & F). rewrite E'.
    exists (b :: bs). split; [reflexivity | constructor; assumption].
Qed.

Lemma is_mobject_spec W t : is_mobject W t = true <-> reference W t.
Proof.
  unfold is_mobject, reference. rewrite vt_eqb_eq. destruct t; cbn [vtype_of].
  - split; [discriminate | intros [H _]; contradiction].
  - split; [intros H; split; [discriminate | exact H] | intros [_ H]; exact H].
  - split; [intros H; split; [discriminate | exact H] | intros [_ H]; exact H].
  - split; [intros H; split; [discriminate | exact H] | intros [_ H]; exact H].
  - split; [intros H; split; [discriminate | exact H] | intros [_ H]; exact H].
Qed.

Lemma type_compatible_spec W U fuel from to :
  hierarchy W U -> In from U -> length U < fuel ->
  exists b, is_type_compatible W fuel from to = Some b /\
            (b = true <-> converts W from to).
Proof.
  intros HU Hin Hf. unfold is_type_compatible.
  destruct (ty_eqb from to) eqn:E.
  { apply ty_eqb_eq in E. subst. exists true. split; [reflexivity|].
    split; [intros _; apply converts_same | reflexivity]. }
  apply ty_eqb_neq in E.
  destruct (ty_dec from TNull) as [-> | Hfn].
  { exists true. split; [reflexivity|]. split; [intros _; apply converts_null | reflexivity]. }
  destruct (ty_dec to TNull) as [-> | Htn].
  { exists false. split; [destruct from; try contradiction; reflexivity|].
    split; [discriminate|]. intros H. inversion H; subst; contradiction. }
  assert (R : exists b,
     (if is_mobject W from || is_mobject W to then is_super_type W fuel from to
      else Some (is_vtype_compatible (vtype_of W from) (vtype_of W to))) = Some b /\
     (b = true <-> converts W from to)).
  { destruct (is_mobject W from || is_mobject W to) eqn:M.
    - destruct (is_super_type_spec W U fuel from to HU Hin Hf) as (b & Eb & Hb).
      exists b. split; [exact Eb|]. rewrite Hb.
      apply orb_true_iff in M. rewrite !is_mobject_spec in M.
      split.
      + intros Hi. apply converts_super; auto.
      + intros H. inversion H; subst; try contradiction; [assumption|].
        destruct M; contradiction.
    - exists (is_vtype_compatible (vtype_of W from) (vtype_of W to)).
      split; [reflexivity|].
      apply orb_false_iff in M. destruct M as [M1 M2].
      assert (N1 : ~ reference W from) by (rewrite <- is_mobject_spec; congruence).
      assert (N2 : ~ reference W to) by (rewrite <- is_mobject_spec; congruence).
      rewrite vtype_compatible_spec.
      assert (V1 : vtype_of W from = w_vtype W from) by (destruct from; try contradiction; reflexivity).
      assert (V2 : vtype_of W to = w_vtype W to) by (destruct to; try contradiction; reflexivity).
      rewrite V1, V2. split.
      + intros H. apply converts_value; auto.
      + intros H. inversion H as [| | ? ? ? ? HR | ]; subst; try contradiction; auto.
        destruct HR; contradiction. }
  destruct R as (b & Eb & Hb). exists b. split; [|exact Hb].
  destruct from; try contradiction; destruct to; try contradiction; exact Eb.
Qed.

Lemma reference_conversions_compose W U fuel a b c :
  hierarchy W U -> In a U -> length U < fuel ->
  In b U -> reference W a -> reference W b -> reference W c ->
  is_type_compatible W fuel a b = Some true ->
  is_type_compatible W fuel b c = Some true ->
  is_type_compatible W fuel a c = Some true.
Proof.
  intros HU Ha Hf Hb Ra Rb Rc H1 H2.
  assert (C : forall x y, In x U -> reference W x -> reference W y ->
     (is_type_compatible W fuel x y = Some true <-> x = y \/ inherits W x y)).
  { intros x y Hx Rx Ry. destruct (type_compatible_spec W U fuel x y HU Hx Hf) as (r & E & Hr).
    rewrite E. split.
    - intros H. injection H as ->. destruct (proj1 Hr eq_refl); auto.
      + destruct Rx as [Rx _]. contradiction.
      + contradiction.
    - intros H. f_equal. apply Hr. destruct H as [-> | H]; [apply converts_same|].
      destruct Rx as [Rx Rx']. destruct Ry as [Ry Ry'].
      apply converts_super; auto. left. split; assumption. }
  apply C in H1; auto. apply C in H2; auto. apply C; auto.
  destruct H1 as [-> | H1]; [exact H2|].
  destruct H2 as [<- | H2]; [right; exact H1|].
  right. apply t_trans with b; assumption.
Qed.
