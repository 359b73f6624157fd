(** Proofs about calls with generic methods, base types and duplicates. *)
From Coq Require Import List Arith ZArith Lia Bool PeanoNat Relations.
From Verif Require Import OverModel OverSpec OverProofs OverChoiceProofs.
Import ListNotations.

(* ------------------------------------------------------------------ *)
(** * Replacing generic parameters *)

Lemma instantiate_closed gps ts t : closed t -> instantiate gps ts t = t.
Proof.
  induction t as [|i|n|g args IH|e d IH] using ty_rect'; intros H; try reflexivity.
  - inversion H.
  - inversion H as [| |? ? HF|]; subst. cbn [instantiate]. f_equal. clear H.
    induction IH as [|x l Hx _ IHl]; [reflexivity|]. inversion HF; subst. cbn [map].
    rewrite Hx by assumption. f_equal. apply IHl. assumption.
  - inversion H; subst. cbn [instantiate]. rewrite IH by assumption. reflexivity.
Qed.

Lemma gget_app a b n : gget (a ++ b) n = match gget a n with Some t => Some t | None => gget b n end.
Proof.
  induction a as [|[k t] a IH]; [reflexivity|]. cbn [app gget].
  destruct (n =? k); [reflexivity | exact IH].
Qed.

Lemma gget_explicit gps : forall gs n,
  NoDup gps -> length gs = length gps ->
  gget (rev (combine gps gs)) n = lookup_arg gps gs n.
Proof.
  induction gps as [|g gps IH]; intros [|t gs] n ND L; try discriminate L; [reflexivity|].
  cbn [combine rev lookup_arg]. inversion ND as [|? ? Hn ND']; subst.
  rewrite gget_app, IH by (auto; cbn in L; lia).
  destruct (Nat.eq_dec n g) as [-> | Hne].
  - cbn [gget]. rewrite Nat.eqb_refl.
    destruct (lookup_arg gps gs g) eqn:E; [|reflexivity].
    exfalso. apply Hn. clear - E. revert gs E.
    induction gps as [|h gps IHg]; intros [|u gs] E; try discriminate E.
    cbn in E. destruct (Nat.eq_dec g h) as [-> | _]; [left; reflexivity|].
    right. exact (IHg gs E).
  - cbn [gget]. destruct (n =? g) eqn:E; [apply Nat.eqb_eq in E; contradiction|].
    destruct (lookup_arg gps gs n); reflexivity.
Qed.

Lemma lookup_arg_some gps : forall gs n,
  In n gps -> length gs = length gps -> exists t, lookup_arg gps gs n = Some t.
Proof.
  induction gps as [|g gps IH]; intros [|t gs] n Hin L; try discriminate L; [destruct Hin|].
  cbn [lookup_arg]. destruct (Nat.eq_dec n g) as [-> | Hne]; [eauto|].
  destruct Hin as [-> | Hin]; [contradiction|]. apply IH; [exact Hin | cbn in L; lia].
Qed.

Definition fill_list (m : gmap) : list ty -> res (list ty) :=
  fix go (l : list ty) : res (list ty) :=
    match l with
    | [] => Ok []
    | a :: l' =>
        bind (match a with
              | TParam n => match gget m n with Some u => Ok u | None => Bad end
              | TGeneric _ _ => fill_args m a
              | _ => Ok a
              end)
             (fun u => bind (go l') (fun us => Ok (u :: us)))
    end.

Lemma fill_args_generic m g args :
  fill_args m (TGeneric g args) = bind (fill_list m args) (fun us => Ok (TGeneric g us)).
Proof. reflexivity. Qed.

Lemma fill_args_spec gps gs known t :
  (forall n, In n gps -> gget known n = lookup_arg gps gs n) -> length gs = length gps ->
  fillable gps t -> (forall n, t <> TParam n) ->
  fill_args known t = Ok (instantiate gps gs t).
Proof.
  intros Hk Hl. induction t as [|i|n|g args IH|e d IH] using ty_rect'; intros HF HN;
    try reflexivity.
  - exfalso. exact (HN n eq_refl).
  - rewrite fill_args_generic.
    assert (HFa : Forall (fillable gps) args).
    { inversion HF as [? Hc | | ]; subst; [|assumption]. inversion Hc as [| |? ? HFc|]; subst.
      clear - HFc. induction HFc; constructor; auto. now apply fillable_closed. }
    assert (E : fill_list known args = Ok (map (instantiate gps gs) args)).
    { clear HF HN. induction IH as [|x l Hx _ IHl]; [reflexivity|].
      inversion HFa as [|? ? HFx HFl]; subst.
      assert (Ex : (match x with
                    | TParam n => match gget known n with Some u => Ok u | None => Bad end
                    | TGeneric _ _ => fill_args known x
                    | _ => Ok x
                    end) = Ok (instantiate gps gs x)).
      { destruct x as [|i|n|h ys|e d]; try reflexivity.
        - inversion HFx as [? Hc | ? Hn | ]; subst; [inversion Hc|].
          rewrite (Hk n Hn). cbn [instantiate].
          destruct (lookup_arg_some gps gs n Hn Hl) as (u & E). rewrite E. reflexivity.
        - apply Hx; [exact HFx | intros n; discriminate].
        - inversion HFx as [? Hc | | ]; subst.
          rewrite (instantiate_closed gps gs _ Hc). reflexivity. }
      cbn [fill_list map]. rewrite Ex. cbn [bind]. rewrite (IHl HFl). reflexivity. }
    rewrite E. reflexivity.
  - inversion HF as [? Hc | | ]; subst. cbn [fill_args].
    rewrite (instantiate_closed gps gs _ Hc). reflexivity.
Qed.

Lemma fillable_no_params gps t :
  fillable gps t -> has_generic_params t = false -> (forall n, t <> TParam n) -> closed t.
Proof.
  induction t as [|i|n|g args IH|e d IH] using ty_rect'; intros HF HG HN.
  - constructor.
  - constructor.
  - exfalso. exact (HN n eq_refl).
  - inversion HF as [? Hc | | ? ? HFa]; subst; [exact Hc|]. constructor.
    rewrite has_generic_params_generic in HG. clear HF HN.
    induction IH as [|x l Hx _ IHl]; [constructor|].
    inversion HFa as [|? ? HFx HFl]; subst. rewrite any_params_cons in HG.
    assert (HNx : forall n, x <> TParam n) by (intros n ->; discriminate HG).
    assert (HG' : has_generic_params x = false /\ any_params l = false).
    { destruct x; try (apply orb_false_iff in HG; exact HG). discriminate HG. }
    destruct HG' as (G1 & G2). constructor; [apply Hx; assumption | apply IHl; assumption].
  - inversion HF; subst. assumption.
Qed.

Lemma compatible_true W fuel a b :
  is_type_compatible W fuel a b = Some true -> converts W a b.
Proof.
  unfold is_type_compatible. destruct (ty_eqb a b) eqn:E.
  { intros _. apply ty_eqb_eq in E. subst. apply converts_same. }
  destruct (ty_dec a TNull) as [-> | Ha]; [intros _; apply converts_null|].
  destruct (ty_dec b TNull) as [-> | Hb].
  { destruct a; try contradiction; intros H; discriminate H. }
  intros H.
  assert (R : (if is_mobject W a || is_mobject W b then is_super_type W fuel a b
      else Some (is_vtype_compatible (vtype_of W a) (vtype_of W b))) = Some true).
  { destruct a; try contradiction; destruct b; try contradiction; exact H. }
  clear H. destruct (is_mobject W a || is_mobject W b) eqn:M.
  - apply orb_true_iff in M. rewrite !is_mobject_spec in M.
    unfold is_super_type, has_super_type in R.
    destruct (collect W fuel a []) as [c|] eqn:C; [|discriminate R].
    injection R as R. apply ty_mem_in in R.
    apply converts_super; auto. now apply (collect_closure _ _ _ _ C).
  - apply orb_false_iff in M. destruct M as [M1 M2].
    injection R as R. apply vtype_compatible_spec in R.
    assert (V1 : vtype_of W a = w_vtype W a) by (destruct a; try contradiction; reflexivity).
    assert (V2 : vtype_of W b = w_vtype W b) by (destruct b; try contradiction; reflexivity).
    rewrite V1, V2 in R.
    apply converts_value; auto; rewrite <- is_mobject_spec; congruence.
Qed.

Lemma closed_dec t : closed t \/ ~ closed t.
Proof.
  induction t as [|i|n|g args IH|e d IH] using ty_rect'.
  - left. constructor.
  - left. constructor.
  - right. intros H. inversion H.
  - assert (E : Forall closed args \/ ~ Forall closed args).
    { induction IH as [|x l Hx _ IHl]; [left; constructor|].
      destruct Hx as [Hx | Hx]; [|right; intros H; inversion H; contradiction].
      destruct IHl as [Hl | Hl]; [left; constructor; assumption|].
      right. intros H; inversion H; contradiction. }
    destruct E as [E | E]; [left; constructor; exact E|].
    right. intros H. inversion H. contradiction.
  - destruct IH as [H | H]; [left; constructor; exact H | right; intros X; inversion X; contradiction].
Qed.

Lemma forall2_fits_passes W qs as_ : Forall2 fits qs as_ -> Forall2 (passes W) qs as_.
Proof. intros F. induction F; constructor; [now apply fits_passes | assumption]. Qed.

(* ------------------------------------------------------------------ *)
(** * Calls with written type arguments *)

Section Explicit.
  Variables (W : world) (U : list ty) (fuel name : nat) (gs : list ty) (ms : list method)
            (as_ : list arg) (throw : bool).
  Hypothesis Hready : generic_ready W U fuel name gs ms as_.
  Let c := generic_call name gs as_ throw.
  Let E (m : method) : Prop := Forall2 fits (signature gs m) as_.
  Let A (m : method) : Prop := Forall2 (passes W) (signature gs m) as_.

  Lemma gen_keyed m :
    In m (filter (keyed c (gargs_count c)) ms) <-> generic_candidate name gs ms m.
  Proof.
    rewrite filter_In. unfold keyed, generic_candidate. cbn [c c_name generic_call gargs_count c_gargs].
    split.
    - intros (Hin & H). apply andb_true_iff in H. destruct H as (H & _).
      apply andb_true_iff in H. destruct H as (H1 & H2).
      apply Nat.eqb_eq in H1. apply Nat.eqb_eq in H2. auto.
    - intros (Hin & Hn & Hl). split; [exact Hin|].
      destruct Hready as (_ & _ & _ & HR).
      destruct (HR m (conj Hin (conj Hn Hl))) as (_ & Hk & _).
      rewrite Hn, Hl, Hk, !Nat.eqb_refl. reflexivity.
  Qed.

  Lemma gen_real m p a t :
    generic_candidate name gs ms m -> In p (m_params m) -> In a as_ -> a_type a = Some t ->
    to_real_type W fuel true (rev (combine (m_gparams m) gs)) (p_type p) t =
    Ok (instantiate (m_gparams m) gs (p_type p), None, rev (combine (m_gparams m) gs)).
  Proof.
    intros Hm Hp Ha Ht. destruct Hready as (HU & Hf & Hargs & HR).
    destruct (HR m Hm) as (ND & _ & _ & HF & _ & Hbare).
    destruct Hm as (_ & _ & Hl). symmetry in Hl.
    rewrite Forall_forall in HF. specialize (HF p Hp). cbn beta in HF.
    assert (Hk : forall n, In n (m_gparams m) ->
       gget (rev (combine (m_gparams m) gs)) n = lookup_arg (m_gparams m) gs n)
      by (intros n _; apply gget_explicit; auto).
    destruct (closed_dec (p_type p)) as [Hc | Hc].
    { rewrite to_real_closed by exact Hc. rewrite (instantiate_closed _ _ _ Hc). reflexivity. }
    unfold to_real_type. destruct (p_type p) as [|i|n|g args|e d] eqn:Ep.
    - exfalso. apply Hc. constructor.
    - exfalso. apply Hc. constructor.
    - inversion HF as [? X | ? Hn | ]; subst; [inversion X|].
      rewrite (Hk n Hn). cbn [instantiate].
      destruct (lookup_arg_some (m_gparams m) gs n Hn Hl) as (u & Eu). rewrite Eu. reflexivity.
    - destruct (has_generic_params (TGeneric g args)) eqn:HG.
      2:{ exfalso. apply Hc. apply (fillable_no_params (m_gparams m)); auto. intros n; discriminate. }
      assert (Eraw : (match t with
                      | TGeneral _ => of_fuel (is_type_compatible W fuel t (TGeneral g))
                      | _ => Ok false
                      end) = Ok false).
      { destruct t as [|i|n|h ys|e d]; try reflexivity.
        destruct (type_compatible_spec W U fuel (TGeneral i) (TGeneral g) HU (Hargs a _ Ha Ht) Hf)
          as (b & Eb & Hb).
        rewrite Eb. cbn [of_fuel]. destruct b; [|reflexivity]. exfalso.
        apply (Hbare p a g args i Hp Ha Ep); [rewrite Ep; exact Hc | exact Ht | now apply Hb]. }
      rewrite Eraw. cbn [bind].
      rewrite (fill_args_spec (m_gparams m) gs _ _ Hk Hl HF) by (intros n; discriminate).
      reflexivity.
    - exfalso. inversion HF; subst. contradiction.
  Qed.

  Lemma gen_owner m : In m (filter (keyed c (gargs_count c)) ms) -> m_owner m = c_owner c.
  Proof.
    intros H. apply (proj1 (gen_keyed m)) in H. destruct Hready as (_ & _ & _ & HR).
    destruct (HR m H) as (_ & _ & Ho & _). exact Ho.
  Qed.

  Lemma gen_cmp m : In m (filter (keyed c (gargs_count c)) ms) ->
    exists r, compare_method W fuel m c = Ok (r, []) /\ classify r (E m) (A m).
  Proof.
    intros H. apply (proj1 (gen_keyed m)) in H. pose proof H as Hm.
    pose proof Hready as (HU & Hf & Hargs & HR).
    destruct (HR m Hm) as (ND & _ & _ & HF & Hin & Hbare). pose proof Hm as (_ & _ & Hl).
    apply (compare_method_real W U fuel m c as_ true (rev (combine (m_gparams m) gs))
             (signature gs m)); auto.
    - right. exists gs. split; [reflexivity|]. unfold explicit_map.
      rewrite Hl, Nat.eqb_refl. reflexivity.
    - intros _. unfold signature in Hin |- *.
      assert (G : forall ps, (forall p, In p ps -> In p (m_params m)) ->
        (forall q, In q (map (fun p => mk_param (p_mode p)
            (instantiate (m_gparams m) gs (p_type p))) ps) -> In (p_type q) U) ->
        Forall2 (stands W fuel true (rev (combine (m_gparams m) gs)) U as_) ps
          (map (fun p => mk_param (p_mode p) (instantiate (m_gparams m) gs (p_type p))) ps));
        [|apply G; auto].
      clear Hin. induction ps as [|p ps IH]; intros Hsub Hin; [constructor|].
      cbn [map] in Hin |- *. constructor.
      + split; [reflexivity|]. split; [apply Hin; left; reflexivity|].
        intros a t Ha Ht. cbn [p_type].
        apply (gen_real m p a t Hm); [apply Hsub; left; reflexivity | exact Ha | exact Ht].
      + apply IH; [intros q Hq; apply Hsub; right; exact Hq
                  | intros q Hq; apply Hin; right; exact Hq].
    - unfold signature. apply map_length.
  Qed.

  Lemma gen_EA m : E m -> A m.
  Proof.
    unfold E, A. generalize (signature gs m) as qs. intros qs F.
    exact (forall2_fits_passes W qs as_ F).
  Qed.

  Lemma generic_exact m :
    generic_candidate name gs ms m -> Forall2 fits (signature gs m) as_ ->
    (forall x, generic_candidate name gs ms x -> Forall2 fits (signature gs x) as_ -> x = m) ->
    lookup W fuel c ms = Ok (Found m []).
  Proof.
    intros Hm He Hu.
    apply (choice_exact W fuel c ms E A gen_owner gen_cmp gen_EA); auto.
    - now apply gen_keyed.
    - intros x Hx. apply Hu. now apply gen_keyed.
  Qed.

  Lemma generic_one l1 m l2 :
    (forall x, generic_candidate name gs ms x -> ~ Forall2 fits (signature gs x) as_) ->
    ms = l1 ++ m :: l2 -> generic_candidate name gs ms m ->
    Forall2 (passes W) (signature gs m) as_ ->
    (forall x, In x (l1 ++ l2) -> generic_candidate name gs ms x ->
       ~ Forall2 (passes W) (signature gs x) as_) ->
    lookup W fuel c ms = Ok (Found m []).
  Proof.
    intros N Ems Cm Am No.
    assert (Q : forall x, generic_candidate name gs ms x ->
              (matchy (cls W fuel c) x = true <-> A x)).
    { intros x Hx. apply (matchy_iff W fuel c ms E A gen_cmp).
      - now apply gen_keyed.
      - exact (N x Hx). }
    apply (choice_one W fuel c ms E A eq_refl gen_owner gen_cmp gen_EA).
    - intros x Hx. apply N, gen_keyed, Hx.
    - assert (Z : forall l, (forall x, In x l -> In x (l1 ++ l2)) -> (forall x, In x l -> In x ms) ->
                filter (matchy (cls W fuel c)) (filter (keyed c (gargs_count c)) l) = []).
      { intros l Hs Hi. destruct (filter (matchy (cls W fuel c)) (filter (keyed c (gargs_count c)) l))
          as [|x r] eqn:F; [reflexivity|].
        assert (Hx : In x (filter (matchy (cls W fuel c)) (filter (keyed c (gargs_count c)) l)))
          by (rewrite F; left; reflexivity).
        apply filter_In in Hx. destruct Hx as (Hx & q). apply filter_In in Hx.
        destruct Hx as (Hx & k).
        assert (Cx : generic_candidate name gs ms x) by (apply gen_keyed, filter_In; auto).
        exfalso. apply (No x (Hs x Hx) Cx). now apply Q. }
      pose proof (proj2 (gen_keyed m) Cm) as I. apply filter_In in I. destruct I as (_ & k).
      pose proof (proj2 (Q m Cm) Am) as q.
      rewrite Ems. rewrite !filter_app. cbn [filter]. rewrite k. cbn [filter]. rewrite q.
      rewrite (Z l1), (Z l2); [reflexivity| | | |]; intros x Hx; rewrite ?Ems;
        rewrite in_app_iff; cbn; auto.
  Qed.

  Lemma generic_none :
    gs <> [] ->
    (forall x, generic_candidate name gs ms x -> ~ Forall2 (passes W) (signature gs x) as_) ->
    exists es, lookup W fuel c ms = Ok (if throw then NotMatchError es else Absent) /\
      forall x, In x es <-> generic_candidate name gs ms x.
  Proof.
    intros Hgs N. exists (filter (keyed c (gargs_count c)) ms). split; [|exact gen_keyed].
    apply (choice_none W fuel c ms E A eq_refl gen_owner gen_cmp gen_EA).
    - intros x Hx. apply N, gen_keyed, Hx.
    - cbn. intros L. destruct gs; [contradiction | discriminate L].
  Qed.
End Explicit.

(* ------------------------------------------------------------------ *)
(** * Inferred type arguments *)

Definition extends (m m' : gmap) : Prop :=
  forall n t, gget m n = Some t -> gget m' n = Some t.

Lemma extends_refl m : extends m m.
Proof. intros n t H. exact H. Qed.

Lemma extends_trans a b c : extends a b -> extends b c -> extends a c.
Proof. intros H1 H2 n t H. apply H2, H1, H. Qed.

Lemma extends_gset m n t : gget m n = None -> extends m (gset m n t).
Proof.
  intros H k u E. unfold gset. cbn [gget]. destruct (k =? n) eqn:K; [|exact E].
  apply Nat.eqb_eq in K. subst. congruence.
Qed.

Lemma gget_gset m n t : gget (gset m n t) n = Some t.
Proof. unfold gset. cbn [gget]. now rewrite Nat.eqb_refl. Qed.

(** A choice of type arguments that a map does not contradict. *)
Definition agrees (gps : list nat) (ts : list ty) (m : gmap) : Prop :=
  forall n t, In n gps -> gget m n = Some t -> lookup_arg gps ts n = Some t.

Lemma agrees_extends gps ts m m' : extends m m' -> agrees gps ts m' -> agrees gps ts m.
Proof. intros He Ha n t Hn H. apply Ha; [exact Hn | apply He, H]. Qed.

Definition det_list (known : gmap) : list ty -> list ty -> gmap -> res (option gmap) :=
  fix go (ps as_ : list ty) (m : gmap) : res (option gmap) :=
    match ps, as_ with
    | [], [] => Ok (Some m)
    | p1 :: ps', a1 :: as' =>
        match p1 with
        | TParam n =>
            match (match gget known n with Some t => Some t | None => gget m n end) with
            | None => go ps' as' (gset m n a1)
            | Some t => if ty_eqb t a1 then go ps' as' m else Ok None
            end
        | TGeneric _ _ =>
            match a1 with
            | TGeneric _ _ =>
                bind (determine known m p1 a1)
                     (fun o => match o with Some m' => go ps' as' m' | None => Ok None end)
            | _ => Ok None
            end
        | _ => go ps' as' m
        end
    | _, _ => Bad
    end.

Lemma determine_generic known m tp pargs ta aargs :
  determine known m (TGeneric tp pargs) (TGeneric ta aargs) =
  if tp =? ta then
    if length pargs =? length aargs then det_list known pargs aargs m else Bad
  else Ok None.
Proof. reflexivity. Qed.

(** The map under construction never holds a name the analyser knows. *)
Definition apart (known m : gmap) : Prop :=
  forall n, gget known n <> None -> gget m n = None.

Lemma gmerge_extends known m m' : extends m m' -> apart known m' ->
  extends (gmerge known m) (gmerge known m').
Proof.
  intros He Ha n t H. unfold gmerge in *. rewrite gget_app in *.
  destruct (gget m n) eqn:E.
  - injection H as ->. rewrite (He n t E). reflexivity.
  - rewrite (Ha n) by congruence. exact H.
Qed.

Lemma determine_sound gps known p : open_pattern gps p ->
  forall a m m', determine known m p a = Ok (Some m') -> apart known m ->
  extends m m' /\ apart known m' /\
  forall ts, agrees gps ts (gmerge known m') -> instantiate gps ts p = a.
Proof.
  induction p as [|i|n|g args IH|e d IH] using ty_rect'; intros Ho a m m' H Hap;
    try (destruct a; discriminate H).
  destruct a as [|i|n|ta aargs|e d]; try discriminate H.
  rewrite determine_generic in H.
  destruct (g =? ta) eqn:G; [|discriminate H]. apply Nat.eqb_eq in G. subst ta.
  destruct (length args =? length aargs) eqn:L; [|discriminate H].
  inversion Ho as [|? ? _ HO]; subst.
  assert (R : extends m m' /\ apart known m' /\
    forall ts, agrees gps ts (gmerge known m') -> map (instantiate gps ts) args = aargs).
  { clear L Ho. revert aargs m H Hap HO. induction IH as [|p1 ps Hp1 _ IHl];
      intros [|a1 as1] m H Hap HO; cbn [det_list] in H; try discriminate H.
    - injection H as <-. split; [apply extends_refl|]. split; [exact Hap | reflexivity].
    - inversion HO as [|? ? Ho1 HO']; subst.
      destruct p1 as [|i|n|h ys|e d].
      + inversion Ho1.
      + inversion Ho1.
      + inversion Ho1 as [? Hn|]; subst.
        destruct (gget known n) as [t|] eqn:K.
        * destruct (ty_eqb t a1) eqn:Q; [|discriminate H]. apply ty_eqb_eq in Q. subst t.
          destruct (IHl as1 m H Hap HO') as (X & Y & Z). split; [exact X|]. split; [exact Y|].
          intros ts Hts. cbn [map instantiate]. f_equal; [|apply Z, Hts].
          rewrite (Hts n a1 Hn); [reflexivity|].
          unfold gmerge. rewrite gget_app, (Y n) by congruence. exact K.
        * destruct (gget m n) as [t|] eqn:Km.
          -- destruct (ty_eqb t a1) eqn:Q; [|discriminate H]. apply ty_eqb_eq in Q. subst t.
             destruct (IHl as1 m H Hap HO') as (X & Y & Z). split; [exact X|]. split; [exact Y|].
             intros ts Hts. cbn [map instantiate]. f_equal; [|apply Z, Hts].
             rewrite (Hts n a1 Hn); [reflexivity|].
             unfold gmerge. rewrite gget_app, (X n a1 Km). reflexivity.
          -- assert (Hap' : apart known (gset m n a1)).
             { intros k Hk. unfold gset. cbn [gget]. destruct (k =? n) eqn:E; [|apply Hap, Hk].
               apply Nat.eqb_eq in E. subst. contradiction. }
             destruct (IHl as1 _ H Hap' HO') as (X & Y & Z).
             split; [apply extends_trans with (gset m n a1); [now apply extends_gset | exact X]|].
             split; [exact Y|].
             intros ts Hts. cbn [map instantiate]. f_equal; [|apply Z, Hts].
             rewrite (Hts n a1 Hn); [reflexivity|].
             unfold gmerge. rewrite gget_app, (X n a1 (gget_gset m n a1)). reflexivity.
      + destruct a1 as [|i|n|ta aargs|e d]; try discriminate H.
        destruct (determine known m (TGeneric h ys) (TGeneric ta aargs)) as [[m1|]| |] eqn:D;
          cbn [bind] in H; try discriminate H.
        destruct (Hp1 Ho1 _ _ _ D Hap) as (X1 & Y1 & Z1).
        destruct (IHl as1 m1 H Y1 HO') as (X & Y & Z).
        split; [apply extends_trans with m1; assumption|]. split; [exact Y|].
        intros ts Hts. cbn [map]. f_equal; [|apply Z, Hts].
        apply Z1. apply (agrees_extends gps ts _ (gmerge known m')); [|exact Hts].
        now apply gmerge_extends.
      + inversion Ho1. }
  destruct R as (X & Y & Z). split; [exact X|]. split; [exact Y|].
  intros ts Hts. cbn [instantiate]. now rewrite (Z ts Hts).
Qed.

Lemma matches_of_in known p tmpl ts l t m :
  matches_of known p tmpl ts = Ok l -> In (t, m) l ->
  In t ts /\ determine known [] p t = Ok (Some m).
Proof.
  revert l. induction ts as [|u ts IH]; intros l H Hin; cbn [matches_of] in H.
  - injection H as <-. destruct Hin.
  - destruct (match u with
              | TGeneric v _ => if v =? tmpl
                  then bind (determine known [] p u)
                            (fun o => Ok match o with Some m => [(u, m)] | None => [] end)
                  else Ok []
              | _ => Ok []
              end) as [l1| |] eqn:E1; cbn [bind] in H; try discriminate H.
    destruct (matches_of known p tmpl ts) as [l2| |] eqn:E2; cbn [bind] in H; try discriminate H.
    injection H as <-. apply in_app_iff in Hin. destruct Hin as [Hin | Hin].
    + destruct u as [|i|n|v args|e d]; try (injection E1 as <-; destruct Hin; fail).
      destruct (v =? tmpl); [|injection E1 as <-; destruct Hin].
      destruct (determine known [] p (TGeneric v args)) as [[m0|]| |] eqn:D; cbn [bind] in E1;
        try discriminate E1; injection E1 as <-; [|destruct Hin].
      destruct Hin as [X | []]. injection X as <- <-. split; [left; reflexivity | exact D].
    + destruct (IH l2 eq_refl Hin) as (H1 & H2). split; [right; exact H1 | exact H2].
Qed.

Lemma open_has_params gps g args :
  open_pattern gps (TGeneric g args) -> has_generic_params (TGeneric g args) = true.
Proof.
  intros H. remember (TGeneric g args) as t eqn:Et. revert g args Et H.
  induction t as [|i|n|g0 args0 IH|e d IH] using ty_rect'; intros g args Et H; try discriminate Et.
  clear g args Et. rewrite has_generic_params_generic.
  inversion H as [|? ? Hne HF]; subst.
  destruct args0 as [|x l]; [contradiction|]. inversion HF; subst. inversion IH; subst.
  rewrite any_params_cons. destruct x as [|i|n|h ys|e d]; try (inversion H2; fail); [reflexivity|].
  rewrite (H4 h ys eq_refl H2). reflexivity.
Qed.

Lemma open_not_closed gps t : open_pattern gps t -> ~ closed t.
Proof.
  induction t as [|i|n|g args IH|e d IH] using ty_rect'; intros Ho Hc; try (inversion Ho; fail).
  - inversion Hc.
  - inversion Ho as [|? ? Hne HF]; subst. inversion Hc as [| |? ? HC|]; subst.
    destruct args as [|x l]; [contradiction|].
    exact (Forall_inv IH (Forall_inv HF) (Forall_inv HC)).
Qed.

(** One declared type against one argument. *)
Lemma to_real_sound W fuel gps known p a q settled known' :
  to_real_type W fuel false known p a = Ok (q, settled, known') ->
  inferable gps p ->
  (forall g args i, p = TGeneric g args -> ~ closed p -> a = TGeneral i ->
     ~ converts W (TGeneral i) (TGeneral g)) ->
  extends known known' /\
  match settled with
  | None => forall ts, agrees gps ts known' -> instantiate gps ts p = q
  | Some CAuto => q = a /\ forall ts, agrees gps ts known' -> instantiate gps ts p = a
  | Some CAutoFailed => True
  | Some _ => False
  end.
Proof.
  intros H Hi Hb. destruct Hi as [Hc | Ho].
  { rewrite to_real_closed in H by exact Hc. injection H as <- <- <-.
    split; [apply extends_refl|]. intros ts _. now apply instantiate_closed. }
  destruct p as [|i|n|g args|e d]; try (inversion Ho; fail).
  - inversion Ho as [? Hn|]; subst. unfold to_real_type in H.
    destruct (gget known n) as [t|] eqn:K; injection H as <- <- <-.
    + split; [apply extends_refl|]. intros ts Hts. cbn [instantiate].
      now rewrite (Hts n t Hn K).
    + split; [now apply extends_gset|]. split; [reflexivity|].
      intros ts Hts. cbn [instantiate]. now rewrite (Hts n a Hn (gget_gset known n a)).
  - unfold to_real_type in H. rewrite (open_has_params gps g args Ho) in H.
    destruct (match a with
              | TGeneral _ => of_fuel (is_type_compatible W fuel a (TGeneral g))
              | _ => Ok false
              end) as [raw| |] eqn:R; cbn [bind] in H; try discriminate H.
    destruct raw.
    + exfalso. destruct a as [|i|n|h ys|e d]; try discriminate R.
      destruct (is_type_compatible W fuel (TGeneral i) (TGeneral g)) as [b|] eqn:C;
        cbn [of_fuel] in R; [|discriminate R]. injection R as ->.
      apply (Hb g args i eq_refl (open_not_closed gps _ Ho) eq_refl).
      exact (compatible_true W fuel _ _ C).
    + destruct (matches_of known (TGeneric g args) g (a :: w_supers W a)) as [l| |] eqn:M;
        cbn [bind] in H; try discriminate H.
      destruct l as [|[t m] [|? ?]]; injection H as <- <- <-;
        [split; [apply extends_refl | exact I] | |split; [apply extends_refl | exact I]].
      destruct (matches_of_in _ _ _ _ _ t m M (or_introl eq_refl)) as (_ & D).
      destruct (determine_sound gps known _ Ho _ _ _ D) as (X & Y & Z); [intros n _; reflexivity|].
      split; [|exact Z].
      intros n u E. unfold gmerge. rewrite gget_app, (Y n) by congruence. exact E.
Qed.

Lemma compare_argument_sound W fuel gps known p a r known' :
  compare_argument W fuel false known p a = Ok (r, known') ->
  inferable gps (p_type p) ->
  (forall g args i, p_type p = TGeneric g args -> ~ closed (p_type p) ->
     a_type a = Some (TGeneral i) -> ~ converts W (TGeneral i) (TGeneral g)) ->
  extends known known' /\
  (r = CEquals \/ r = CMatch \/ r = CAuto ->
   forall ts, agrees gps ts known' -> passes_as W gps ts p a).
Proof.
  intros H Hi Hb. unfold compare_argument in H.
  destruct (a_type a) as [t|] eqn:Ea.
  2:{ injection H as <- <-. split; [apply extends_refl|]. intros [X | [X | X]]; discriminate X. }
  destruct (pmode_eqb (p_mode p) (a_mode a)) eqn:PM; cbn [negb] in H.
  2:{ injection H as <- <-. split; [apply extends_refl|]. intros [X | [X | X]]; discriminate X. }
  apply pmode_eqb_eq in PM.
  destruct (to_real_type W fuel false known (p_type p) t) as [[[q settled] k1]| |] eqn:T;
    cbn [bind] in H; try discriminate H.
  destruct (to_real_sound W fuel gps known _ _ _ _ _ T Hi) as (Hex & Hs).
  { intros g args i E1 E2 E3. subst t. exact (Hb g args i E1 E2 eq_refl). }
  unfold passes_as, passes. cbn [p_mode p_type].
  destruct settled as [s|].
  - injection H as -> ->. split; [exact Hex|]. intros Hr ts Hts.
    destruct r; try contradiction; try (destruct Hr as [X | [X | X]]; discriminate X).
    destruct Hs as (-> & Hs). split; [congruence|]. exists t. split; [exact Ea|]. left.
    symmetry. now apply Hs.
  - destruct (ty_eqb q t) eqn:Q.
    { apply ty_eqb_eq in Q. subst q. injection H as <- <-. split; [exact Hex|].
      intros _ ts Hts. split; [congruence|]. exists t. split; [exact Ea|]. left.
      symmetry. now apply Hs. }
    destruct (p_mode p) eqn:P.
    2:{ injection H as <- <-. split; [exact Hex|]. intros [X | [X | X]]; discriminate X. }
    2:{ destruct (is_type_compatible W fuel q t) as [b|] eqn:C; cbn [of_fuel bind] in H;
          [|discriminate H].
        injection H as <- <-. split; [exact Hex|]. intros Hr ts Hts.
        destruct b; [|destruct Hr as [X | [X | X]]; discriminate X].
        split; [congruence|]. exists t. split; [exact Ea|]. right.
        rewrite (Hs ts Hts). exact (compatible_true _ _ _ _ C). }
    all: destruct (is_type_compatible W fuel t q) as [b|] eqn:C; cbn [of_fuel bind] in H;
          [|discriminate H];
         injection H as <- <-; split; [exact Hex|]; intros Hr ts Hts;
         (destruct b; [|destruct Hr as [X | [X | X]]; discriminate X]);
         (split; [congruence|]); exists t; (split; [exact Ea|]); right;
         rewrite (Hs ts Hts); exact (compatible_true _ _ _ _ C).
Qed.

Lemma compare_loop_sound W fuel gps : forall ps as_ known r0 r known',
  compare_loop W fuel false known r0 ps as_ = Ok (r, known') ->
  length as_ = length ps ->
  r <> CNotMatch ->
  Forall (fun p => inferable gps (p_type p)) ps ->
  (forall p a g args i, In p ps -> In a as_ -> p_type p = TGeneric g args ->
     ~ closed (p_type p) -> a_type a = Some (TGeneral i) ->
     ~ converts W (TGeneral i) (TGeneral g)) ->
  extends known known' /\
  forall ts, agrees gps ts known' -> Forall2 (passes_as W gps ts) ps as_.
Proof.
  induction ps as [|p ps IH]; intros [|a as_] known r0 r known' H L Hr Hi Hb; try discriminate L.
  - cbn [compare_loop] in H. injection H as <- <-. split; [apply extends_refl | constructor].
  - cbn [compare_loop] in H. inversion Hi as [|? ? Hi1 Hi2]; subst.
    destruct (compare_argument W fuel false known p a) as [[c1 k1]| |] eqn:C;
      cbn [bind] in H; try discriminate H.
    destruct (compare_argument_sound W fuel gps _ _ _ _ _ C Hi1) as (Hex & Hpass).
    { intros g args i E1 E2 E3. apply (Hb p a g args i); auto; left; reflexivity. }
    assert (Hb' : forall p a g args i, In p ps -> In a as_ -> p_type p = TGeneric g args ->
     ~ closed (p_type p) -> a_type a = Some (TGeneral i) ->
     ~ converts W (TGeneral i) (TGeneral g)).
    { intros p' a' g args i H1 H2. apply (Hb p' a' g args i); right; assumption. }
    injection L as L.
    assert (K : forall r1, compare_loop W fuel false k1 r1 ps as_ = Ok (r, known') ->
              (c1 = CEquals \/ c1 = CMatch \/ c1 = CAuto) ->
              extends known known' /\
              forall ts, agrees gps ts known' -> Forall2 (passes_as W gps ts) (p :: ps) (a :: as_)).
    { intros r1 H1 Hc1. destruct (IH as_ k1 r1 r known' H1 L Hr Hi2 Hb') as (X & Y).
      split; [apply extends_trans with k1; assumption|].
      intros ts Hts. constructor; [|apply Y, Hts].
      apply Hpass; [exact Hc1|]. apply (agrees_extends gps ts k1 known' X Hts). }
    destruct c1; try discriminate H.
    + injection H as <- <-. exfalso. apply Hr. reflexivity.
    + eapply K; eauto.
    + eapply K; eauto.
    + eapply K; eauto.
    + injection H as <- <-. exfalso. apply Hr. reflexivity.
Qed.

Lemma determined_spec m : forall gps ts,
  determined m gps = (ts, true) ->
  length ts = length gps /\ agrees gps ts m /\ forall n, In n gps -> gget m n <> None.
Proof.
  induction gps as [|g gps IH]; intros ts H; cbn [determined] in H.
  - injection H as <-. split; [reflexivity|]. split; [intros n t []|intros n []].
  - destruct (gget m g) as [t|] eqn:E; [|discriminate H].
    destruct (determined m gps) as [ts' ok] eqn:D. injection H as <- ->.
    destruct (IH ts' eq_refl) as (L & Ag & N). split; [cbn; congruence|]. split.
    + intros n u Hn Hu. cbn [lookup_arg]. destruct (Nat.eq_dec n g) as [-> | Hne]; [congruence|].
      destruct Hn as [-> | Hn]; [contradiction|]. now apply Ag.
    + intros n [<- | Hn]; [congruence | now apply N].
Qed.

(** What the entries of the verdicts come from. *)
Definition good (r : cmp) : Prop := r = CEquals \/ r = CAuto \/ r = CMatch \/ r = CSameName.

Definition from (W : world) (fuel : nat) (c : call) (ms : list method) (x : method * list ty) : Prop :=
  In (fst x) ms /\ exists r, compare_method W fuel (fst x) c = Ok (r, snd x) /\ good r.

Lemma analyze_list_from W fuel c ms0 : forall ms v v',
  analyze_list W fuel c v ms = Ok v' ->
  (forall x, In x ms -> In x ms0) ->
  (forall x, v_equal v = Some x -> from W fuel c ms0 x) ->
  (forall x, In x (v_matched v) -> from W fuel c ms0 x) ->
  (forall x, v_equal v' = Some x -> from W fuel c ms0 x) /\
  (forall x, In x (v_matched v') -> from W fuel c ms0 x).
Proof.
  induction ms as [|m ms IH]; intros v v' H Hs He Hm; cbn [analyze_list] in H.
  - injection H as <-. auto.
  - destruct (oty_eqb (m_owner m) (c_owner c)); cbn [negb] in H; [|injection H as <-; auto].
    destruct (compare_method W fuel m c) as [[r ts]| |] eqn:C; cbn [bind] in H; try discriminate H.
    apply (IH _ _ H); [intros x Hx; apply Hs; right; exact Hx| |].
    + intros x Hx. unfold note in Hx. destruct r; cbn [v_equal] in Hx; auto.
      * injection Hx as <-. split; [apply Hs; left; reflexivity|]. exists CEquals.
        split; [exact C | left; reflexivity].
      * injection Hx as <-. split; [apply Hs; left; reflexivity|]. exists CAuto.
        split; [exact C | right; left; reflexivity].
    + intros x Hx. unfold note in Hx. destruct r; cbn [v_matched] in Hx; auto.
      * apply in_app_iff in Hx. destruct Hx as [Hx | [<- | []]]; [auto|].
        split; [apply Hs; left; reflexivity|]. exists CMatch.
        split; [exact C | right; right; left; reflexivity].
      * apply in_app_iff in Hx. destruct Hx as [Hx | [<- | []]]; [auto|].
        split; [apply Hs; left; reflexivity|]. exists CSameName.
        split; [exact C | right; right; right; reflexivity].
Qed.

Lemma lookup_from W fuel c ms m ts :
  lookup W fuel c ms = Ok (Found m ts) ->
  In m ms /\ m_name m = c_name c /\
  exists r, compare_method W fuel m c = Ok (r, ts) /\ good r.
Proof.
  unfold lookup, analyze. intros H.
  set (ms0 := filter (keyed c (gargs_count c)) ms ++ filter (keyed_generic c) ms).
  assert (Hms0 : forall x, In x ms0 -> In x ms /\ m_name x = c_name c).
  { intros x Hx. unfold ms0 in Hx. apply in_app_iff in Hx.
    destruct Hx as [Hx | Hx]; apply filter_In in Hx; destruct Hx as (Hx & k); split; auto;
      apply andb_true_iff in k; destruct k as (k & _);
      apply andb_true_iff in k; destruct k as (k & _); now apply Nat.eqb_eq. }
  destruct (analyze_list W fuel c no_verdicts (filter (keyed c (gargs_count c)) ms))
    as [v| |] eqn:A1; cbn [bind] in H; try discriminate H.
  destruct (analyze_list_from W fuel c ms0 _ _ _ A1) as (E1 & M1).
  { intros x Hx. unfold ms0. apply in_app_iff. left. exact Hx. }
  { intros x Hx. discriminate Hx. }
  { intros x Hx. destruct Hx. }
  assert (R : exists v', (if not_found v && (gargs_count c =? 0)
              then analyze_list W fuel c v (filter (keyed_generic c) ms) else Ok v) = Ok v' /\
              (forall x, v_equal v' = Some x -> from W fuel c ms0 x) /\
              (forall x, In x (v_matched v') -> from W fuel c ms0 x)).
  { destruct (not_found v && (gargs_count c =? 0)).
    - destruct (analyze_list W fuel c v (filter (keyed_generic c) ms)) as [v'| |] eqn:A2;
        cbn [bind] in H; try discriminate H.
      exists v'. split; [reflexivity|].
      apply (analyze_list_from W fuel c ms0 _ _ _ A2); auto.
      intros x Hx. unfold ms0. apply in_app_iff. right. exact Hx.
    - exists v. auto. }
  destruct R as (v' & Ev & E2 & M2). rewrite Ev in H. cbn [bind] in H.
  assert (F : from W fuel c ms0 (m, ts)).
  { injection H as H. unfold get_method in H.
    destruct (v_equal v') as [[x l]|] eqn:Q; [injection H as -> ->; apply E2; reflexivity|].
    destruct (c_exact c); [destruct (c_throw c); discriminate H|].
    destruct (v_matched v') as [|[x l] [|? ?]] eqn:Qm.
    - destruct (v_failed v'); [destruct (c_throw c)|]; discriminate H.
    - injection H as -> ->. apply M2. left. reflexivity.
    - discriminate H. }
  destruct F as (Hin & Hr). destruct (Hms0 m Hin) as (H1 & H2). auto.
Qed.

Lemma inferred_sound W fuel name ms as_ throw m ts :
  lookup W fuel (plain_call name as_ throw) ms = Ok (Found m ts) ->
  as_ <> [] -> m_gparams m <> [] ->
  Forall (fun p => inferable (m_gparams m) (p_type p)) (m_params m) ->
  no_bare_template W as_ m ->
  length ts = length (m_gparams m) /\
  Forall2 (passes_as W (m_gparams m) ts) (m_params m) as_.
Proof.
  intros H Hne Hg Hi Hb.
  destruct (lookup_from _ _ _ _ _ _ H) as (_ & _ & r & C & G).
  unfold compare_method in C. cbn [c_args c_gargs plain_call] in C.
  destruct as_ as [|a0 as0]; [contradiction|]. set (as_ := a0 :: as0) in *.
  destruct (length as_ =? length (m_params m)) eqn:L; cbn [negb] in C.
  2:{ injection C as <- _. destruct G as [X | [X | [X | X]]]; discriminate X. }
  apply Nat.eqb_eq in L. cbn [bind] in C. unfold compare_args in C.
  rewrite L, Nat.eqb_refl in C.
  destruct (compare_loop W fuel false [] CEquals (m_params m) as_) as [[r1 k1]| |] eqn:K;
    cbn [bind] in C; try discriminate C.
  destruct (m_gparams m) as [|g gps] eqn:Eg; [contradiction|]. rewrite <- Eg in *.
  destruct (determined k1 (m_gparams m)) as [ts' [|]] eqn:D.
  2:{ injection C as <- _. destruct G as [X | [X | [X | X]]]; discriminate X. }
  injection C as -> ->.
  destruct (determined_spec _ _ _ D) as (HL & Ag & _). split; [exact HL|].
  assert (Hr : r <> CNotMatch) by (intros ->; destruct G as [X | [X | [X | X]]]; discriminate X).
  destruct (compare_loop_sound W fuel (m_gparams m) _ _ _ _ _ _ K L Hr Hi) as (_ & Y); [|].
  { intros p a g0 args i Hp Ha. exact (Hb p a g0 args i Hp Ha). }
  apply Y, Ag.
Qed.
