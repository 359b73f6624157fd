(** Proofs about exact inference, base types and duplicates. *)
From Coq Require Import List Arith ZArith Lia Bool PeanoNat Relations.
From Verif Require Import OverModel OverSpec OverProofs OverChoiceProofs OverInferProofs.
Import ListNotations.

(* ------------------------------------------------------------------ *)
(** * An exact instance is inferred *)

(** Everything the map says is what the wanted arguments say. *)
Definition inside (gps : list nat) (ts : list ty) (m : gmap) : Prop :=
  forall n t, gget m n = Some t -> lookup_arg gps ts n = Some t.

Lemma inside_gset gps ts m n t :
  inside gps ts m -> lookup_arg gps ts n = Some t -> inside gps ts (gset m n t).
Proof.
  intros H E k u Hk. unfold gset in Hk. cbn [gget] in Hk.
  destruct (k =? n) eqn:Q; [|now apply H].
  apply Nat.eqb_eq in Q. subst. congruence.
Qed.

Lemma inside_app gps ts a b : inside gps ts a -> inside gps ts b -> inside gps ts (a ++ b).
Proof.
  intros Ha Hb n t H. rewrite gget_app in H. destruct (gget a n) eqn:E; [|now apply Hb].
  injection H as ->. now apply Ha.
Qed.

Definition has (m : gmap) (n : nat) : Prop := gget m n <> None.

Lemma extends_has m m' n : extends m m' -> has m n -> has m' n.
Proof.
  unfold has. intros He H. destruct (gget m n) as [t|] eqn:E; [|contradiction].
  rewrite (He n t E). discriminate.
Qed.

Lemma determine_complete gps ts known p :
  length ts = length gps -> inside gps ts known -> open_pattern gps p ->
  (forall n, p <> TParam n) ->
  forall m, inside gps ts m -> apart known m ->
  exists m', determine known m p (instantiate gps ts p) = Ok (Some m') /\
    inside gps ts m' /\ apart known m' /\ extends m m' /\
    forall n, occurs n p -> has known n \/ has m' n.
Proof.
  intros Hl Hk. induction p as [|i|n|g args IH|e d IH] using ty_rect'; intros Ho Hp m Hm Hap;
    try (inversion Ho; fail).
  { exfalso. exact (Hp n eq_refl). }
  cbn [instantiate]. rewrite determine_generic, Nat.eqb_refl, map_length, Nat.eqb_refl.
  inversion Ho as [|? ? _ HO]; subst.
  assert (R : exists m', det_list known args (map (instantiate gps ts) args) m = Ok (Some m') /\
    inside gps ts m' /\ apart known m' /\ extends m m' /\
    forall n a, In a args -> occurs n a -> has known n \/ has m' n).
  { clear Ho Hp. revert m Hm Hap HO. induction IH as [|p1 ps Hp1 _ IHl]; intros m Hm Hap HO.
    - exists m. split; [reflexivity|]. split; [exact Hm|]. split; [exact Hap|].
      split; [apply extends_refl|]. intros n a [].
    - inversion HO as [|? ? Ho1 HO']; subst. cbn [map det_list].
      destruct p1 as [|i|n|h ys|e d]; try (inversion Ho1; fail).
      + inversion Ho1 as [? Hn|]; subst. cbn [instantiate].
        destruct (lookup_arg_some gps ts n Hn Hl) as (u & Eu). rewrite Eu.
        destruct (gget known n) as [t|] eqn:K.
        * pose proof (Hk n t K) as Et. rewrite Eu in Et. injection Et as <-.
          rewrite ty_eqb_refl.
          destruct (IHl m Hm Hap HO') as (m' & E & I1 & I2 & I3 & I4).
          exists m'. split; [exact E|]. split; [exact I1|]. split; [exact I2|]. split; [exact I3|].
          intros k a [<- | Ha] Hoc; [|now apply (I4 k a)].
          inversion Hoc; subst. left. unfold has. congruence.
        * destruct (gget m n) as [t|] eqn:Km.
          -- pose proof (Hm n t Km) as Et. rewrite Eu in Et. injection Et as <-.
             rewrite ty_eqb_refl.
             destruct (IHl m Hm Hap HO') as (m' & E & I1 & I2 & I3 & I4).
             exists m'. split; [exact E|]. split; [exact I1|]. split; [exact I2|]. split; [exact I3|].
             intros k a [<- | Ha] Hoc; [|now apply (I4 k a)].
             inversion Hoc; subst. right. unfold has. rewrite (I3 n u Km). discriminate.
          -- assert (Hap' : apart known (gset m n u)).
             { intros k Hk'. unfold gset. cbn [gget]. destruct (k =? n) eqn:E; [|apply Hap, Hk'].
               apply Nat.eqb_eq in E. subst. contradiction. }
             destruct (IHl _ (inside_gset gps ts m n u Hm Eu) Hap' HO') as (m' & E & I1 & I2 & I3 & I4).
             exists m'. split; [exact E|]. split; [exact I1|]. split; [exact I2|].
             split; [apply extends_trans with (gset m n u); [now apply extends_gset | exact I3]|].
             intros k a [<- | Ha] Hoc; [|now apply (I4 k a)].
             inversion Hoc; subst. right. unfold has. rewrite (I3 n u (gget_gset m n u)). discriminate.
      + assert (Hnp : forall n, TGeneric h ys <> TParam n) by (intros n; discriminate).
        destruct (Hp1 Ho1 Hnp m Hm Hap) as (m1 & E1 & A1 & A2 & A3 & A4).
        cbn [instantiate] in E1 |- *. rewrite E1. cbn [bind].
        destruct (IHl m1 A1 A2 HO') as (m' & E & I1 & I2 & I3 & I4).
        exists m'. split; [exact E|]. split; [exact I1|]. split; [exact I2|].
        split; [apply extends_trans with m1; assumption|].
        intros k a [<- | Ha] Hoc; [|now apply (I4 k a)].
        destruct (A4 k Hoc) as [X | X]; [left; exact X | right; exact (extends_has _ _ _ I3 X)]. }
  destruct R as (m' & E & I1 & I2 & I3 & I4). exists m'. split; [exact E|].
  split; [exact I1|]. split; [exact I2|]. split; [exact I3|].
  intros n Hoc. inversion Hoc; subst. eapply I4; eauto.
Qed.

Lemma matches_none known p g ts :
  (forall s l, In s ts -> s <> TGeneric g l) -> matches_of known p g ts = Ok [].
Proof.
  induction ts as [|t ts IH]; intros H; [reflexivity|]. cbn [matches_of].
  rewrite (IH (fun s l Hs => H s l (or_intror Hs))).
  destruct t as [|i|n|u args|e d]; try reflexivity.
  destruct (u =? g) eqn:E; [|reflexivity].
  apply Nat.eqb_eq in E. subst. exfalso. exact (H _ args (or_introl eq_refl) eq_refl).
Qed.

Lemma to_real_complete W fuel gps ts known p :
  length ts = length gps -> inside gps ts known -> inferable gps p ->
  no_twin W (instantiate gps ts p) ->
  exists q settled known',
    to_real_type W fuel false known p (instantiate gps ts p) = Ok (q, settled, known') /\
    (settled = Some CAuto \/ settled = None /\ q = instantiate gps ts p) /\
    inside gps ts known' /\ extends known known' /\ forall n, occurs n p -> has known' n.
Proof.
  intros Hl Hk Hi Ht. destruct Hi as [Hc | Ho].
  { exists p, None, known. rewrite to_real_closed by exact Hc. split; [reflexivity|].
    split; [right; split; [reflexivity | symmetry; now apply instantiate_closed]|].
    split; [exact Hk|]. split; [apply extends_refl|].
    intros n Hoc. exfalso. revert Hc Hoc. clear.
    induction p as [|i|k|g args IH|e d IH] using ty_rect'; intros Hc Hoc; inversion Hoc; subst.
    - inversion Hc.
    - inversion Hc as [| |? ? HF|]; subst. rewrite Forall_forall in *.
      exact (IH a H1 (HF a H1) H2). }
  destruct p as [|i|n|g args|e d]; try (inversion Ho; fail).
  - inversion Ho as [? Hn|]; subst. cbn [instantiate] in *. unfold to_real_type.
    destruct (lookup_arg_some gps ts n Hn Hl) as (u & Eu). rewrite Eu in *.
    destruct (gget known n) as [t|] eqn:K.
    + pose proof (Hk n t K) as Et. rewrite Eu in Et. injection Et as <-.
      exists u, None, known. split; [reflexivity|]. split; [right; auto|].
      split; [exact Hk|]. split; [apply extends_refl|].
      intros k Hoc. inversion Hoc; subst. unfold has. congruence.
    + exists u, (Some CAuto), (gset known n u). split; [reflexivity|].
      split; [left; reflexivity|]. split; [now apply inside_gset|].
      split; [now apply extends_gset|].
      intros k Hoc. inversion Hoc; subst. unfold has. rewrite gget_gset. discriminate.
  - assert (Hnp : forall n, TGeneric g args <> TParam n) by (intros n; discriminate).
    assert (Hm0 : inside gps ts []) by (intros n t H; discriminate H).
    assert (Ha0 : apart known []) by (intros n _; reflexivity).
    destruct (determine_complete gps ts known _ Hl Hk Ho Hnp [] Hm0 Ha0) as (m' & E & I1 & I2 & _ & I4).
    unfold to_real_type. rewrite (open_has_params gps g args Ho).
    cbn [instantiate] in *. cbn [bind].
    assert (M : matches_of known (TGeneric g args) g
                 (TGeneric g (map (instantiate gps ts) args) ::
                  w_supers W (TGeneric g (map (instantiate gps ts) args))) =
                Ok [(TGeneric g (map (instantiate gps ts) args), m')]).
    { cbn [matches_of]. rewrite Nat.eqb_refl, E. cbn [bind].
      rewrite (matches_none known (TGeneric g args) g); [reflexivity|].
      intros s l Hs. exact (Ht g _ s l eq_refl Hs). }
    rewrite M. cbn [bind].
    eexists _, None, (gmerge known m'). split; [reflexivity|]. split; [right; auto|].
    split; [now apply inside_app|].
    assert (He : extends known (gmerge known m')).
    { intros n t H. unfold gmerge. rewrite gget_app, (I2 n) by congruence. exact H. }
    split; [exact He|]. intros n Hoc.
    destruct (I4 n Hoc) as [X | X]; [exact (extends_has _ _ _ He X)|].
    unfold has, gmerge in *. rewrite gget_app. destruct (gget m' n); [discriminate | contradiction].
Qed.

Lemma compare_loop_complete W fuel gps ts :
  length ts = length gps ->
  forall ps as_ known r0,
  inside gps ts known -> r0 = CEquals \/ r0 = CAuto ->
  Forall (fun p => inferable gps (p_type p)) ps ->
  Forall (fun p => no_twin W (instantiate gps ts (p_type p))) ps ->
  Forall2 (fits_as gps ts) ps as_ ->
  exists r known', compare_loop W fuel false known r0 ps as_ = Ok (r, known') /\
    (r = CEquals \/ r = CAuto) /\ inside gps ts known' /\ extends known known' /\
    forall n p, In p ps -> occurs n (p_type p) -> has known' n.
Proof.
  intros Hl ps. induction ps as [|p ps IH]; intros as_ known r0 Hk Hr Hi Ht HF;
    inversion HF as [|? a ? as' Hfit HF']; subst.
  - exists r0, known. split; [reflexivity|]. split; [exact Hr|]. split; [exact Hk|].
    split; [apply extends_refl|]. intros n p [].
  - inversion Hi as [|? ? Hi1 Hi2]; subst. inversion Ht as [|? ? Ht1 Ht2]; subst.
    destruct (to_real_complete W fuel gps ts known _ Hl Hk Hi1 Ht1)
      as (q & settled & k1 & E & Hs & I1 & I2 & I3).
    destruct Hfit as (Fm & Ft). cbn [p_mode p_type] in Fm, Ft.
    assert (C : exists c, compare_argument W fuel false known p a = Ok (c, k1) /\
                          (c = CEquals \/ c = CAuto)).
    { unfold compare_argument. rewrite Ft.
      assert (PM : pmode_eqb (p_mode p) (a_mode a) = true) by (apply pmode_eqb_eq; congruence).
      rewrite PM. cbn [negb]. rewrite E. cbn [bind].
      destruct Hs as [-> | (-> & ->)]; [eauto|]. rewrite ty_eqb_refl. eauto. }
    destruct C as (c & EC & Hc). cbn [compare_loop]. rewrite EC. cbn [bind].
    assert (K : forall r1, (r1 = CEquals \/ r1 = CAuto) ->
       exists r known', compare_loop W fuel false k1 r1 ps as' = Ok (r, known') /\
        (r = CEquals \/ r = CAuto) /\ inside gps ts known' /\ extends known known' /\
        forall n p', In p' (p :: ps) -> occurs n (p_type p') -> has known' n).
    { intros r1 H1. destruct (IH as' k1 r1 I1 H1 Hi2 Ht2 HF') as (r & k' & E' & A & B & D & F).
      exists r, k'. split; [exact E'|]. split; [exact A|]. split; [exact B|].
      split; [apply extends_trans with k1; assumption|].
      intros n p' [<- | Hp'] Hoc; [exact (extends_has _ _ _ D (I3 n Hoc)) | exact (F n p' Hp' Hoc)]. }
    destruct Hc as [-> | ->]; apply K; auto.
Qed.

Lemma determined_inside m ts0 : forall gps0, inside gps0 ts0 m -> NoDup gps0 ->
  length ts0 = length gps0 ->
  (forall n, In n gps0 -> has m n) -> determined m gps0 = (ts0, true).
Proof.
  revert ts0. intros ts0 gps0 Hin ND L Hh.
  assert (G : forall gps ts pre_g pre_t, gps0 = pre_g ++ gps -> ts0 = pre_t ++ ts ->
            length pre_g = length pre_t -> length ts = length gps ->
            determined m gps = (ts, true)).
  { induction gps as [|g gps IH]; intros ts pg pt Eg Et Lp Lt.
    - destruct ts; [reflexivity | discriminate Lt].
    - destruct ts as [|t ts]; [discriminate Lt|]. cbn [determined].
      assert (Hg : In g gps0) by (rewrite Eg; apply in_app_iff; right; left; reflexivity).
      specialize (Hh g Hg). unfold has in Hh.
      destruct (gget m g) as [u|] eqn:E; [|contradiction].
      pose proof (Hin g u E) as Eu.
      assert (Ht : lookup_arg gps0 ts0 g = Some t).
      { rewrite Eg, Et. rewrite Eg in ND. apply NoDup_remove_2 in ND.
        clear - Lp ND. assert (Hn : ~ In g pg) by (intros H; apply ND, in_app_iff; left; exact H).
        clear ND. revert pt Lp. induction pg as [|h pg IHp]; intros [|x pt] Lp; try discriminate Lp.
        - cbn [app lookup_arg]. destruct (Nat.eq_dec g g); [reflexivity | contradiction].
        - cbn [app lookup_arg]. destruct (Nat.eq_dec g h) as [-> | _];
            [exfalso; apply Hn; left; reflexivity|].
          apply IHp; [intros H; apply Hn; right; exact H | cbn in Lp; lia]. }
      rewrite Ht in Eu. injection Eu as <-.
      rewrite (IH ts (pg ++ [g]) (pt ++ [t])); [reflexivity| | | |].
      + rewrite <- app_assoc. exact Eg.
      + rewrite <- app_assoc. exact Et.
      + rewrite !app_length. cbn. lia.
      + cbn in Lt. lia. }
  apply (G gps0 ts0 [] []); auto.
Qed.

Lemma inferred_exact W fuel name l1 m l2 as_ throw ts :
  m_name m = name -> m_gparams m <> [] -> NoDup (m_gparams m) ->
  m_key_owner m = None -> m_owner m = None ->
  (forall x, In x (l1 ++ l2) -> m_name x <> name) ->
  length ts = length (m_gparams m) ->
  Forall (fun p => inferable (m_gparams m) (p_type p)) (m_params m) ->
  (forall n, In n (m_gparams m) -> exists p, In p (m_params m) /\ occurs n (p_type p)) ->
  Forall (fun p => no_twin W (instantiate (m_gparams m) ts (p_type p))) (m_params m) ->
  Forall2 (fits_as (m_gparams m) ts) (m_params m) as_ ->
  lookup W fuel (plain_call name as_ throw) (l1 ++ m :: l2) = Ok (Found m ts).
Proof.
  intros Hn Hg ND Hk Ho Hother Hl Hi Hoc Ht HF.
  set (c := plain_call name as_ throw).
  assert (E1 : filter (keyed c 0) (l1 ++ m :: l2) = []).
  { assert (Z : forall l, (forall x, In x l -> m_name x <> name) -> filter (keyed c 0) l = []).
    { induction l as [|x l IH]; intros H; [reflexivity|]. cbn [filter].
      unfold keyed at 1. cbn [c c_name plain_call].
      rewrite (proj2 (Nat.eqb_neq _ _) (H x (or_introl eq_refl))). cbn [andb].
      apply IH. intros y Hy. apply H. right. exact Hy. }
    rewrite filter_app. cbn [filter]. unfold keyed at 2. cbn [c c_name plain_call].
    destruct (m_gparams m) eqn:G; [contradiction|]. cbn [length Nat.eqb].
    rewrite andb_false_r. cbn [andb].
    rewrite (Z l1), (Z l2); [reflexivity| |]; intros x Hx; apply Hother, in_app_iff; auto. }
  assert (E2 : filter (keyed_generic c) (l1 ++ m :: l2) = [m]).
  { assert (Z : forall l, (forall x, In x l -> m_name x <> name) -> filter (keyed_generic c) l = []).
    { induction l as [|x l IH]; intros H; [reflexivity|]. cbn [filter].
      unfold keyed_generic at 1. cbn [c c_name plain_call].
      rewrite (proj2 (Nat.eqb_neq _ _) (H x (or_introl eq_refl))). cbn [andb].
      apply IH. intros y Hy. apply H. right. exact Hy. }
    rewrite filter_app. cbn [filter]. unfold keyed_generic at 2. cbn [c c_name plain_call].
    rewrite Hn, Nat.eqb_refl, Hk.
    destruct (m_gparams m) eqn:G; [contradiction|]. cbn [length Nat.eqb negb andb].
    rewrite (Z l1), (Z l2); [reflexivity| |]; intros x Hx; apply Hother, in_app_iff; auto. }
  assert (Hm0 : inside (m_gparams m) ts []) by (intros n t H; discriminate H).
  destruct (compare_loop_complete W fuel (m_gparams m) ts Hl (m_params m) as_ [] CEquals Hm0
              (or_introl eq_refl) Hi Ht HF) as (r & k' & EL & Hr & I1 & _ & I3).
  assert (EC : compare_method W fuel m c = Ok (r, ts)).
  { unfold compare_method. cbn [c c_args c_gargs plain_call].
    pose proof (forall2_length _ _ _ HF) as L.
    destruct as_ as [|a0 as0].
    { destruct (m_gparams m) as [|g gps] eqn:G; [contradiction|].
      destruct (Hoc g (or_introl eq_refl)) as (p & Hp & _).
      destruct (m_params m); [destruct Hp | discriminate L]. }
    rewrite <- L, Nat.eqb_refl. cbn [negb bind]. unfold compare_args. rewrite <- L, Nat.eqb_refl.
    rewrite EL. cbn [bind].
    assert (D : determined k' (m_gparams m) = (ts, true)).
    { apply determined_inside; auto. intros n Hin. destruct (Hoc n Hin) as (p & Hp & Hx).
      exact (I3 n p Hp Hx). }
    destruct (m_gparams m) eqn:G; [contradiction|]. rewrite D. reflexivity. }
  unfold lookup, analyze. change (gargs_count c) with 0. rewrite E1, E2.
  cbn [analyze_list bind not_found no_verdicts v_equal v_matched Nat.eqb andb].
  rewrite Ho. cbn [c c_owner plain_call oty_eqb negb]. fold c. rewrite EC. cbn [bind].
  destruct Hr as [-> | ->]; reflexivity.
Qed.

(* ------------------------------------------------------------------ *)
(** * Base types *)

Lemma try_silent W fuel K c t : silent W fuel K c t -> try_lookup W fuel K c t = Ok Absent.
Proof.
  intros [E | (es & E)]; unfold try_lookup; rewrite E; reflexivity.
Qed.

Lemma try_answers W fuel K c t o : answers W fuel K c t o -> try_lookup W fuel K c t = Ok o.
Proof.
  intros (E & H1 & H2). unfold try_lookup. rewrite E. cbn [bind].
  destruct o; try reflexivity. exfalso. exact (H2 ms eq_refl).
Qed.

Lemma walk_answers W fuel K c : forall path walked t0 u o steps,
  bases K t0 path (Some u) -> Forall (silent W fuel K c) path -> answers W fuel K c u o ->
  NoDup (path ++ [u]) -> (forall x, In x (path ++ [u]) -> ~ In x walked) ->
  length path < steps ->
  walk_bases W fuel K c steps walked t0 = Ok o.
Proof.
  induction path as [|t path IH]; intros walked t0 u o steps HB HS HA ND Hw Hst;
    (destruct steps as [|steps]; [inversion Hst|]); inversion HB; subst; cbn [walk_bases].
  - assert (Hm : ty_mem u walked = false).
    { destruct (ty_mem u walked) eqn:E; [|reflexivity]. apply ty_mem_in in E.
      exfalso. exact (Hw u (or_introl eq_refl) E). }
    rewrite Hm, (try_answers _ _ _ _ _ _ HA). cbn [bind].
    destruct HA as (_ & Hab & _). destruct o; try reflexivity. contradiction.
  - assert (Hm : ty_mem t walked = false).
    { destruct (ty_mem t walked) eqn:E; [|reflexivity]. apply ty_mem_in in E.
      exfalso. exact (Hw t (or_introl eq_refl) E). }
    inversion HS; subst. rewrite Hm, try_silent by assumption. cbn [bind].
    cbn [app] in ND. inversion ND; subst.
    apply (IH _ _ u o); auto.
    + intros x Hx [-> | Hin]; [contradiction|]. exact (Hw x (or_intror Hx) Hin).
    + cbn in Hst. lia.
Qed.

Lemma member_nearest W fuel K c t path u o steps :
  bases K (Some t) path (Some u) -> path <> [] ->
  Forall (silent W fuel K c) path -> answers W fuel K c u o ->
  NoDup (path ++ [u]) -> length path < steps ->
  get_member W fuel K c steps t = Ok o.
Proof.
  intros HB Hne HS HA ND Hst. inversion HB as [|? path' ? HB']; subst; [contradiction|].
  inversion HS; subst. unfold get_member. rewrite try_silent by assumption. cbn [bind].
  cbn [app] in ND. inversion ND as [|? ? Hnin ND']; subst.
  rewrite (walk_answers W fuel K c path' [t] _ u o); auto.
  - cbn [bind]. destruct HA as (_ & Hab & _). destruct o; try reflexivity. contradiction.
  - intros x Hx [<- | []]. contradiction.
  - cbn in Hst. lia.
Qed.

Lemma member_own W fuel K c t o steps :
  answers W fuel K c t o -> get_member W fuel K c steps t = Ok o.
Proof.
  intros HA. unfold get_member. rewrite (try_answers _ _ _ _ _ _ HA). cbn [bind].
  destruct HA as (_ & Hab & _). destruct o; try reflexivity. contradiction.
Qed.

Lemma walk_none W fuel K c : forall path walked t0 steps e,
  bases K t0 path e -> Forall (silent W fuel K c) path ->
  (e = None \/ exists u, e = Some u /\ In u (path ++ walked)) ->
  NoDup path -> (forall x, In x path -> ~ In x walked) ->
  length path < steps ->
  walk_bases W fuel K c steps walked t0 = Ok Absent.
Proof.
  induction path as [|t path IH]; intros walked t0 steps e HB HS He ND Hw Hst;
    (destruct steps as [|steps]; [inversion Hst|]); inversion HB; subst; cbn [walk_bases].
  - destruct He as [-> | (u & -> & Hu)]; [reflexivity|].
    cbn [app] in Hu. apply ty_mem_in in Hu. rewrite Hu. reflexivity.
  - assert (Hm : ty_mem t walked = false).
    { destruct (ty_mem t walked) eqn:E; [|reflexivity]. apply ty_mem_in in E.
      exfalso. exact (Hw t (or_introl eq_refl) E). }
    inversion HS; subst. rewrite Hm, try_silent by assumption. cbn [bind].
    inversion ND; subst. apply (IH _ _ _ e); auto.
    + destruct He as [-> | (u & -> & Hu)]; [left; reflexivity|]. right. exists u.
      split; [reflexivity|]. cbn [app] in Hu. rewrite in_app_iff in *. cbn. cbn in Hu.
      rewrite in_app_iff in Hu. tauto.
    + intros x Hx [-> | Hin]; [contradiction|]. exact (Hw x (or_intror Hx) Hin).
    + cbn in Hst. lia.
Qed.

Lemma member_none W fuel K c t path e steps :
  bases K (Some t) path e -> path <> [] -> Forall (silent W fuel K c) path ->
  (e = None \/ exists u, e = Some u /\ In u path) -> NoDup path ->
  length path < steps ->
  get_member W fuel K c steps t =
  Ok (if c_throw c then NotMatchError [] else Absent).
Proof.
  intros HB Hne HS He ND Hst. inversion HB as [|? path' ? HB']; subst; [contradiction|].
  inversion HS; subst. unfold get_member. rewrite try_silent by assumption. cbn [bind].
  inversion ND as [|? ? Hnin ND']; subst.
  rewrite (walk_none W fuel K c path' [t] _ _ e); auto.
  - destruct He as [-> | (u & -> & Hu)]; [left; reflexivity|]. right. exists u.
    split; [reflexivity|]. rewrite in_app_iff. cbn in *. tauto.
  - intros x Hx [<- | []]. contradiction.
  - cbn in Hst. lia.
Qed.

(* ------------------------------------------------------------------ *)
(** * Duplicates *)

Lemma params_equal_spec gidx : forall ps qs,
  length ps = length qs -> Forall (fun p => closed (p_type p)) ps ->
  exists b, params_equal_loop gidx ps qs = Ok b /\
            (b = true <-> map p_type ps = map p_type qs).
Proof.
  induction ps as [|p ps IH]; intros [|q qs] L Hc; try discriminate L.
  - exists true. split; [reflexivity|]. split; reflexivity.
  - inversion Hc as [|? ? Hp Hc']; subst. injection L as L.
    assert (E : params_equal_loop gidx (p :: ps) (q :: qs) =
                if ty_eqb (p_type p) (p_type q) then params_equal_loop gidx ps qs else Ok false).
    { cbn [params_equal_loop]. destruct (p_type p); try reflexivity. inversion Hp. }
    rewrite E. destruct (ty_eqb (p_type p) (p_type q)) eqn:Q.
    + apply ty_eqb_eq in Q. destruct (IH qs L Hc') as (b & Eb & Hb).
      exists b. split; [exact Eb|]. cbn [map]. rewrite Q, Hb.
      split; [intros ->; reflexivity | intros H; injection H as H; exact H].
    + apply ty_eqb_neq in Q. exists false. split; [reflexivity|]. cbn [map].
      split; [discriminate | intros H; injection H as H _; contradiction].
Qed.

Lemma method_params_equal_spec gidx m x :
  ordinary m -> ordinary x ->
  exists b, method_params_equal gidx m x = Ok b /\ (b = true <-> same_types m x).
Proof.
  intros (G1 & C1 & _) (G2 & _). unfold method_params_equal, same_types. rewrite G1, G2.
  destruct (length (m_params m) =? length (m_params x)) eqn:L; cbn [negb length Nat.eqb].
  - apply Nat.eqb_eq in L. now apply params_equal_spec.
  - apply Nat.eqb_neq in L. exists false. split; [reflexivity|].
    split; [discriminate|]. intros H. apply (f_equal (@length ty)) in H.
    rewrite !map_length in H. contradiction.
Qed.

Lemma search_spec gidx m l2 : forall l1,
  ordinary m -> Forall ordinary l1 -> (forall x, In x l1 -> m_id x <> m_id m) ->
  exists o, search_duplicate gidx m (l1 ++ m :: l2) = Ok o /\
    match o with
    | Some x => In x l1 /\ same_types m x
    | None => forall x, In x l1 -> ~ same_types m x
    end.
Proof.
  induction l1 as [|y l1 IH]; intros Hm Hl Hid; cbn [app search_duplicate].
  - rewrite Nat.eqb_refl. exists None. split; [reflexivity|]. intros x [].
  - inversion Hl as [|? ? Hy Hl']; subst.
    rewrite (proj2 (Nat.eqb_neq _ _) (Hid y (or_introl eq_refl))).
    assert (Eo : oty_eqb (m_owner y) (m_owner m) = true).
    { destruct Hm as (_ & _ & _ & ->). destruct Hy as (_ & _ & _ & ->). reflexivity. }
    rewrite Eo. destruct (method_params_equal_spec gidx m y Hm Hy) as (b & Eb & Hb).
    rewrite Eb. cbn [bind]. destruct b.
    + exists (Some y). split; [reflexivity|]. split; [left; reflexivity | now apply Hb].
    + destruct (IH Hm Hl' (fun x Hx => Hid x (or_intror Hx))) as (o & E & Ho).
      exists o. split; [exact E|]. destruct o as [x|].
      * destruct Ho as (H1 & H2). split; [right; exact H1 | exact H2].
      * intros x [<- | Hx]; [|exact (Ho x Hx)]. intros H. apply Hb in H. discriminate H.
Qed.

Lemma check_duplicate_spec gidx l1 m l2 :
  ordinary_class (l1 ++ m :: l2) ->
  exists o, check_duplicate gidx m (l1 ++ m :: l2) = Ok o /\
    match o with
    | Some x => In x l1 /\ m_name x = m_name m /\ same_types m x
    | None => forall x, In x l1 -> m_name x = m_name m -> ~ same_types m x
    end.
Proof.
  intros (ND & HO). unfold check_duplicate.
  assert (Hm : ordinary m).
  { rewrite Forall_forall in HO. apply HO, in_app_iff. right. left. reflexivity. }
  assert (Hs : forall x, In x (l1 ++ m :: l2) -> (same_name m x = true <-> m_name x = m_name m)).
  { intros x Hx. rewrite Forall_forall in HO. destruct (HO x Hx) as (_ & _ & Hk & _).
    unfold same_name. rewrite Hk, andb_true_r. apply Nat.eqb_eq. }
  rewrite filter_app. cbn [filter].
  rewrite (proj2 (Hs m ltac:(apply in_app_iff; right; left; reflexivity)) eq_refl).
  destruct (search_spec gidx m (filter (same_name m) l2) (filter (same_name m) l1) Hm)
    as (o & E & Ho).
  - rewrite Forall_forall in *. intros x Hx. apply filter_In in Hx.
    apply HO, in_app_iff. left. apply Hx.
  - intros x Hx. apply filter_In in Hx. destruct Hx as (Hx & _).
    rewrite map_app in ND. cbn [map] in ND. apply NoDup_remove_2 in ND.
    intros E. apply ND, in_app_iff. left. rewrite <- E. now apply in_map.
  - exists o. split; [exact E|]. destruct o as [x|].
    + destruct Ho as (H1 & H2). apply filter_In in H1. destruct H1 as (H1 & H3).
      split; [exact H1|]. split; [|exact H2].
      apply Hs; [apply in_app_iff; left; exact H1 | exact H3].
    + intros x Hx Hn. apply Ho, filter_In. split; [exact Hx|].
      apply Hs; [apply in_app_iff; left; exact Hx | exact Hn].
Qed.

(** The same for generic methods. *)
Lemma params_equal_generic gidx : forall ps qs,
  Forall2 (fun p q => (exists n, p_type p = TParam n) -> exists k, p_type q = TParam k) ps qs ->
  exists b, params_equal_loop gidx ps qs = Ok b /\
    (b = true <-> Forall2 (fun p q => same_up_to_index gidx (p_type p) (p_type q)) ps qs).
Proof.
  intros ps qs H. induction H as [|p q ps qs Hpq _ IH].
  - exists true. split; [reflexivity|]. split; [constructor | reflexivity].
  - destruct IH as (b & Eb & Hb).
    assert (D : (same_up_to_index gidx (p_type p) (p_type q) /\
                 params_equal_loop gidx (p :: ps) (q :: qs) = Ok b) \/
                (~ same_up_to_index gidx (p_type p) (p_type q) /\
                 params_equal_loop gidx (p :: ps) (q :: qs) = Ok false)).
    { cbn [params_equal_loop].
      destruct (p_type p) as [|i|n|g args|e d] eqn:Ep.
      3: { destruct (Hpq (ex_intro _ n eq_refl)) as (k & Ek). rewrite Ek. cbn [same_up_to_index].
           destruct (gidx n =? gidx k) eqn:G.
           - left. split; [now apply Nat.eqb_eq | exact Eb].
           - right. split; [now apply Nat.eqb_neq | reflexivity]. }
      all: match goal with |- context [ty_eqb ?a ?c] => destruct (ty_eqb a c) eqn:Q end.
      all: try (left; apply ty_eqb_eq in Q; split; [|exact Eb]; rewrite <- Q; reflexivity).
      all: right; apply ty_eqb_neq in Q; split; [|reflexivity]; intros X; apply Q;
           unfold same_up_to_index in X; destruct (p_type q); try exact X; contradiction. }
    destruct D as [(D1 & D2) | (D1 & D2)]; rewrite D2.
    + exists b. split; [reflexivity|]. rewrite Hb. split; intros X; [now constructor|].
      inversion X; assumption.
    + exists false. split; [reflexivity|]. split; [discriminate|]. intros X.
      inversion X; subst; contradiction.
Qed.

Lemma search_generic gidx m l2 : forall l1,
  m_owner m = None -> Forall (fun x => m_owner x = None) l1 ->
  (forall x, In x l1 -> m_id x <> m_id m) ->
  (forall x, In x l1 -> length (m_params m) = length (m_params x) ->
     length (m_gparams m) = length (m_gparams x) -> aligned m x) ->
  exists o, search_duplicate gidx m (l1 ++ m :: l2) = Ok o /\
    match o with
    | Some x => In x l1 /\ same_generic_types gidx m x
    | None => forall x, In x l1 -> ~ same_generic_types gidx m x
    end.
Proof.
  induction l1 as [|y l1 IH]; intros Hm Hl Hid Ha; cbn [app search_duplicate].
  - rewrite Nat.eqb_refl. exists None. split; [reflexivity|]. intros x [].
  - inversion Hl as [|? ? Hy Hl']; subst.
    rewrite (proj2 (Nat.eqb_neq _ _) (Hid y (or_introl eq_refl))).
    rewrite Hm, Hy. cbn [oty_eqb].
    assert (B : exists b, method_params_equal gidx m y = Ok b /\
                          (b = true <-> same_generic_types gidx m y)).
    { unfold method_params_equal, same_generic_types.
      destruct (length (m_params m) =? length (m_params y)) eqn:L1; cbn [negb].
      - destruct (length (m_gparams m) =? length (m_gparams y)) eqn:L2; cbn [negb].
        + apply Nat.eqb_eq in L1. apply Nat.eqb_eq in L2.
          destruct (params_equal_generic gidx _ _ (Ha y (or_introl eq_refl) L1 L2)) as (b & Eb & Hb).
          exists b. split; [exact Eb|]. rewrite Hb. tauto.
        + apply Nat.eqb_neq in L2. exists false. split; [reflexivity|].
          split; [discriminate | tauto].
      - apply Nat.eqb_neq in L1. exists false. split; [reflexivity|].
        split; [discriminate|]. intros (_ & X). exfalso. apply L1.
        clear - X. induction X as [|? ? ? ? _ _ IHX]; cbn [length]; congruence. }
    destruct B as (b & Eb & Hb). rewrite Eb. cbn [bind]. destruct b.
    + exists (Some y). split; [reflexivity|]. split; [left; reflexivity | now apply Hb].
    + destruct (IH Hm Hl' (fun x Hx => Hid x (or_intror Hx)) (fun x Hx => Ha x (or_intror Hx)))
        as (o & E & Ho).
      exists o. split; [exact E|]. destruct o as [x|].
      * destruct Ho as (H1 & H2). split; [right; exact H1 | exact H2].
      * intros x [<- | Hx]; [|exact (Ho x Hx)]. intros H. apply Hb in H. discriminate H.
Qed.

Lemma check_duplicate_generic gidx l1 m l2 :
  generic_class (l1 ++ m :: l2) ->
  exists o, check_duplicate gidx m (l1 ++ m :: l2) = Ok o /\
    match o with
    | Some x => In x l1 /\ m_name x = m_name m /\ same_generic_types gidx m x
    | None => forall x, In x l1 -> m_name x = m_name m -> ~ same_generic_types gidx m x
    end.
Proof.
  intros (ND & HO & HA). unfold check_duplicate.
  assert (Im : In m (l1 ++ m :: l2)) by (apply in_app_iff; right; left; reflexivity).
  assert (Il : forall x, In x l1 -> In x (l1 ++ m :: l2)) by (intros x Hx; apply in_app_iff; left; exact Hx).
  rewrite Forall_forall in HO.
  assert (Hs : forall x, In x (l1 ++ m :: l2) -> (same_name m x = true <-> m_name x = m_name m)).
  { intros x Hx. destruct (HO x Hx) as (Hk & _).
    unfold same_name. rewrite Hk, andb_true_r. apply Nat.eqb_eq. }
  rewrite filter_app. cbn [filter]. rewrite (proj2 (Hs m Im) eq_refl).
  destruct (search_generic gidx m (filter (same_name m) l2) (filter (same_name m) l1))
    as (o & E & Ho).
  - apply (HO m Im).
  - apply Forall_forall. intros x Hx. apply filter_In in Hx. apply (HO x), Il, Hx.
  - intros x Hx. apply filter_In in Hx. destruct Hx as (Hx & _).
    rewrite map_app in ND. cbn [map] in ND. apply NoDup_remove_2 in ND.
    intros E. apply ND, in_app_iff. left. rewrite <- E. now apply in_map.
  - intros x Hx L1 L2. apply filter_In in Hx. destruct Hx as (Hx & Hn).
    apply HA; [exact Im | now apply Il | | exact L1 | exact L2].
    symmetry. apply Hs; [now apply Il | exact Hn].
  - exists o. split; [exact E|]. destruct o as [x|].
    + destruct Ho as (H1 & H2). apply filter_In in H1. destruct H1 as (H1 & H3).
      split; [exact H1|]. split; [|exact H2]. apply Hs; [now apply Il | exact H3].
    + intros x Hx Hn. apply Ho, filter_In. split; [exact Hx|]. apply Hs; [now apply Il | exact Hn].
Qed.

(** A class none of whose methods is reported has no two of one name and one
    list of parameter types. *)
Lemma accepted_class_distinct gidx ms :
  ordinary_class ms ->
  (forall m, In m ms -> check_duplicate gidx m ms = Ok None) ->
  forall l1 x l2 y l3, ms = l1 ++ x :: l2 ++ y :: l3 -> m_name x = m_name y -> ~ same_types x y.
Proof.
  intros HO HA l1 x l2 y l3 E Hn Hs.
  assert (E' : ms = (l1 ++ x :: l2) ++ y :: l3) by (rewrite E, <- app_assoc; reflexivity).
  rewrite E' in HO. destruct (check_duplicate_spec gidx _ _ _ HO) as (o & Eo & Ho).
  rewrite <- E' in Eo. rewrite (HA y) in Eo.
  - injection Eo as <-. apply (Ho x).
    + apply in_app_iff. right. left. reflexivity.
    + exact Hn.
    + unfold same_types in *. congruence.
  - rewrite E'. apply in_app_iff. right. left. reflexivity.
Qed.

Lemma exact_same_types as_ x y : exact as_ x -> exact as_ y -> same_types x y.
Proof.
  unfold exact, same_types. generalize (m_params x) as ps, (m_params y) as qs.
  intros ps qs H. revert qs. induction H as [|p a ps as' Hp _ IH]; intros qs H'.
  - inversion H'; subst. reflexivity.
  - inversion H' as [|q ? qs' ? Hq H'']; subst. cbn [map]. f_equal; [|now apply IH].
    destruct Hp as (_ & E1). destruct Hq as (_ & E2). congruence.
Qed.

Lemma accepted_exact_call gidx W U fuel name ms as_ throw m :
  ordinary_class ms ->
  (forall x, In x ms -> check_duplicate gidx x ms = Ok None) ->
  well_set W U fuel name ms as_ ->
  In m ms -> m_name m = name -> exact as_ m ->
  lookup W fuel (plain_call name as_ throw) ms = Ok (Found m []).
Proof.
  intros HO HA HS Hm Hn He.
  assert (HP : plain_methods name ms).
  { intros x Hx _ _. destruct HO as (_ & HO). rewrite Forall_forall in HO. exact (HO x Hx). }
  assert (Hg : forall x, In x ms -> m_gparams x = []).
  { intros x Hx. destruct HO as (_ & HO'). rewrite Forall_forall in HO'. apply (HO' x Hx). }
  apply (ordinary_exact W U fuel name ms as_ throw HS HP m); auto.
  - split; [exact Hm|]. split; [exact Hn | exact (Hg m Hm)].
  - intros x (Hx & Hnx & _) Hex.
    destruct (Nat.eq_dec (m_id x) (m_id m)) as [Ei | Ei].
    + destruct HO as (ND & _). clear - ND Hx Hm Ei.
      induction ms as [|z ms IH]; [destruct Hx|]. cbn [map] in ND. inversion ND; subst.
      destruct Hx as [-> | Hx]; destruct Hm as [-> | Hm]; auto.
      * exfalso. apply H1. rewrite Ei. now apply in_map.
      * exfalso. apply H1. rewrite <- Ei. now apply in_map.
    + exfalso. apply in_split in Hx. destruct Hx as (l1 & l2 & E).
      assert (Hm' : In m l1 \/ In m l2).
      { rewrite E in Hm. apply in_app_iff in Hm. destruct Hm as [Hm | [-> | Hm]]; auto. contradiction. }
      destruct Hm' as [Hm' | Hm']; apply in_split in Hm'; destruct Hm' as (k1 & k2 & ->).
      * apply (accepted_class_distinct gidx ms HO HA k1 m k2 x l2).
        -- rewrite E, <- app_assoc. reflexivity.
        -- congruence.
        -- exact (exact_same_types as_ m x He Hex).
      * apply (accepted_class_distinct gidx ms HO HA l1 x k1 m k2 E); [congruence|].
        exact (exact_same_types as_ x m Hex He).
Qed.
