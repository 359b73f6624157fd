(** Proofs about the choice among overloads. *)
From Coq Require Import List Arith ZArith Lia Bool PeanoNat Relations.
From Verif Require Import OverModel OverSpec OverProofs.
Import ListNotations.

(* ------------------------------------------------------------------ *)
(** * Comparing a signature with a call *)

Lemma pmode_eqb_eq a b : pmode_eqb a b = true <-> a = b.
Proof. destruct a, b; cbv; split; intros H; try reflexivity; discriminate. Qed.

Lemma forall2_length {A B} (R : A -> B -> Prop) l m : Forall2 R l m -> length l = length m.
Proof. induction 1; cbn; congruence. Qed.

Definition classify (r : cmp) (E A : Prop) : Prop :=
  (r = CEquals /\ E) \/ (r = CMatch /\ A /\ ~ E) \/ (r = CNotMatch /\ ~ A).

Lemma fits_passes W p a : fits p a -> passes W p a.
Proof. intros [H1 H2]. split; [exact H1|]. exists (p_type p). auto. Qed.

Lemma passes_or_not W U fuel p a :
  hierarchy W U -> length U < fuel -> In (p_type p) U ->
  (forall t, a_type a = Some t -> In t U) ->
  passes W p a \/ ~ passes W p a.
Proof.
  intros HU Hf Hp Ha. unfold passes.
  destruct (pmode_eqb (a_mode a) (p_mode p)) eqn:M.
  2:{ right. intros [E _]. apply pmode_eqb_eq in E. congruence. }
  apply pmode_eqb_eq in M.
  destruct (a_type a) as [t|]; [|right; intros (_ & t & E & _); discriminate E].
  specialize (Ha t eq_refl).
  destruct (ty_dec t (p_type p)) as [E | E].
  { left. split; [exact M|]. exists t. auto. }
  destruct (p_mode p).
  2:{ right. intros (_ & u & Eu & [H | []]). injection Eu as <-. contradiction. }
  2:{ destruct (type_compatible_spec W U fuel (p_type p) t HU Hp Hf) as ([|] & _ & Hb).
      - left. split; [exact M|]. exists t. split; [reflexivity|]. right. now apply Hb.
      - right. intros (_ & u & Eu & [H | H]); injection Eu as <-; [contradiction|].
        apply Hb in H. discriminate. }
  all: destruct (type_compatible_spec W U fuel t (p_type p) HU Ha Hf) as ([|] & _ & Hb);
       [left; split; [exact M|]; exists t; split; [reflexivity|]; right; now apply Hb
       |right; intros (_ & u & Eu & [H | H]); injection Eu as <-; [contradiction|];
        apply Hb in H; discriminate].
Qed.

(** The comparison of one argument, when the declared type stands for [q]
    whatever the argument. *)
Lemma compare_argument_real W U fuel explicit known p q a :
  hierarchy W U -> length U < fuel -> In q U ->
  (forall t, a_type a = Some t -> In t U) ->
  (forall t, a_type a = Some t ->
             to_real_type W fuel explicit known (p_type p) t = Ok (q, None, known)) ->
  exists r, compare_argument W fuel explicit known p a = Ok (r, known) /\
    classify r (fits (mk_param (p_mode p) q) a) (passes W (mk_param (p_mode p) q) a).
Proof.
  intros HU Hf Hq Ha Hr. unfold compare_argument.
  destruct (a_type a) as [t|] eqn:Ea.
  2:{ exists CNotMatch. split; [reflexivity|]. right. right. split; [reflexivity|].
      intros (_ & t & E & _). congruence. }
  specialize (Ha t eq_refl). specialize (Hr t eq_refl).
  destruct (pmode_eqb (p_mode p) (a_mode a)) eqn:M; cbn [negb].
  2:{ exists CNotMatch. split; [reflexivity|]. right. right. split; [reflexivity|].
      intros (E & _). cbn in E. symmetry in E. apply pmode_eqb_eq in E. congruence. }
  apply pmode_eqb_eq in M. rewrite Hr. cbn [bind].
  destruct (ty_eqb q t) eqn:E.
  { apply ty_eqb_eq in E. subst. exists CEquals. split; [reflexivity|].
    left. split; [reflexivity|]. split; cbn; auto. }
  apply ty_eqb_neq in E.
  assert (NF : ~ fits (mk_param (p_mode p) q) a).
  { intros [_ F]. cbn in F. rewrite Ea in F. injection F as F. congruence. }
  destruct (p_mode p) eqn:PM.
  2:{ exists CNotMatch. split; [reflexivity|]. right. right. split; [reflexivity|].
      intros (_ & u & Eu & [H | H]); cbn in H; [|exact H].
      rewrite Ea in Eu. injection Eu as <-. congruence. }
  2:{ destruct (type_compatible_spec W U fuel q t HU Hq Hf) as (b & Eb & Hb).
      rewrite Eb. cbn [of_fuel bind]. destruct b.
      - exists CMatch. split; [reflexivity|]. right. left. split; [reflexivity|].
        split; [|exact NF]. split; [cbn; auto|]. exists t. split; [exact Ea|]. right.
        cbn. now apply Hb.
      - exists CNotMatch. split; [reflexivity|]. right. right. split; [reflexivity|].
        intros (_ & u & Eu & [H | H]); rewrite Ea in Eu; injection Eu as <-; cbn in H;
          [congruence | apply Hb in H; discriminate]. }
  all: destruct (type_compatible_spec W U fuel t q HU Ha Hf) as (b & Eb & Hb);
       rewrite Eb; cbn [of_fuel bind]; destruct b;
       [exists CMatch; split; [reflexivity|]; right; left; split; [reflexivity|];
        split; [|exact NF]; split; [cbn; auto|]; exists t; split; [exact Ea|]; right;
        cbn; now apply Hb
       |exists CNotMatch; split; [reflexivity|]; right; right; split; [reflexivity|];
        intros (_ & u & Eu & [H | H]); rewrite Ea in Eu; injection Eu as <-; cbn in H;
          [congruence | apply Hb in H; discriminate]].
Qed.

(** The parameters of a signature and what they stand for. *)
Definition stands (W : world) (fuel : nat) (explicit : bool) (known : gmap) (U : list ty)
  (as_ : list arg) (p q : param) : Prop :=
  p_mode q = p_mode p /\ In (p_type q) U /\
  forall a t, In a as_ -> a_type a = Some t ->
    to_real_type W fuel explicit known (p_type p) t = Ok (p_type q, None, known).

Lemma param_eta p : mk_param (p_mode p) (p_type p) = p.
Proof. destruct p. reflexivity. Qed.

Lemma stands_sub W fuel explicit known U a as_ p q :
  stands W fuel explicit known U (a :: as_) p q -> stands W fuel explicit known U as_ p q.
Proof.
  intros (H1 & H2 & H3). split; [exact H1|]. split; [exact H2|].
  intros b t Hb. apply H3. right. exact Hb.
Qed.

Lemma compare_loop_real W U fuel explicit known :
  hierarchy W U -> length U < fuel ->
  forall ps qs as_ r0,
  r0 = CEquals \/ r0 = CMatch ->
  length as_ = length ps ->
  args_in U as_ ->
  Forall2 (stands W fuel explicit known U as_) ps qs ->
  exists r, compare_loop W fuel explicit known r0 ps as_ = Ok (r, known) /\
    ((Forall2 fits qs as_ /\ r = r0) \/
     (Forall2 (passes W) qs as_ /\ ~ Forall2 fits qs as_ /\ r = CMatch) \/
     (~ Forall2 (passes W) qs as_ /\ r = CNotMatch)).
Proof.
  intros HU Hf ps. induction ps as [|p ps IH]; intros qs as_ r0 Hr0 Hl Ha Hs.
  - destruct as_; [|discriminate Hl]. inversion Hs; subst. cbn [compare_loop].
    exists r0. split; [reflexivity|]. left. split; [constructor | reflexivity].
  - destruct as_ as [|a as_]; [discriminate Hl|]. injection Hl as Hl.
    inversion Hs as [|? q ? qs' Hpq Hs']; subst. clear Hs.
    destruct Hpq as (Hm & Hin & Hreal).
    cbn [compare_loop].
    destruct (compare_argument_real W U fuel explicit known p (p_type q) a HU Hf Hin) as (r & E & Hc).
    { intros t Ht. apply (Ha a t); [left; reflexivity | exact Ht]. }
    { intros t Ht. apply (Hreal a t); [left; reflexivity | exact Ht]. }
    rewrite <- Hm, param_eta in Hc.
    rewrite E. cbn [bind].
    assert (Ha' : args_in U as_) by (intros b t Hb; apply Ha; right; exact Hb).
    assert (Hs2 : Forall2 (stands W fuel explicit known U as_) ps qs').
    { clear - Hs'. induction Hs'; constructor; auto. eapply stands_sub; eauto. }
    destruct Hc as [(-> & HE) | [(-> & HA & HN) | (-> & HN)]].
    + destruct (IH qs' as_ r0 Hr0 Hl Ha' Hs2) as (r & Er & Hr). exists r. split; [exact Er|].
      destruct Hr as [(F & ->) | [(P & NF & ->) | (NP & ->)]].
      * left. split; [constructor; assumption | reflexivity].
      * right. left. split; [constructor; [now apply fits_passes | exact P]|].
        split; [|reflexivity]. intros F. inversion F; subst. contradiction.
      * right. right. split; [|reflexivity]. intros P. inversion P; subst. contradiction.
    + assert (Em : (match r0 with CAuto => CAuto | _ => CMatch end) = CMatch)
        by (destruct Hr0 as [-> | ->]; reflexivity).
      rewrite Em.
      destruct (IH qs' as_ CMatch (or_intror eq_refl) Hl Ha' Hs2) as (r & Er & Hr).
      exists r. split; [exact Er|].
      assert (NF : ~ Forall2 fits (q :: qs') (a :: as_)).
      { intros F. inversion F; subst. contradiction. }
      destruct Hr as [(F & ->) | [(P & NF' & ->) | (NP & ->)]].
      * right. left. split; [constructor; [exact HA|]|split; [exact NF | reflexivity]].
        clear - F. induction F; constructor; auto. now apply fits_passes.
      * right. left. split; [constructor; assumption | split; [exact NF | reflexivity]].
      * right. right. split; [|reflexivity]. intros P. inversion P; subst. contradiction.
    + exists CNotMatch. split; [reflexivity|]. right. right. split; [|reflexivity].
      intros P. inversion P; subst. contradiction.
Qed.

Lemma compare_method_real W U fuel m c as_ explicit known qs :
  hierarchy W U -> length U < fuel ->
  c_args c = Some as_ ->
  explicit = (match c_gargs c with None => false | Some _ => true end) ->
  (c_gargs c = None /\ m_gparams m = [] /\ known = [] \/
   exists gs, c_gargs c = Some gs /\ explicit_map (m_gparams m) gs = Ok known) ->
  args_in U as_ ->
  (length as_ = length (m_params m) ->
   Forall2 (stands W fuel explicit known U as_) (m_params m) qs) ->
  length qs = length (m_params m) ->
  exists r, compare_method W fuel m c = Ok (r, []) /\
    classify r (Forall2 fits qs as_) (Forall2 (passes W) qs as_).
Proof.
  intros HU Hf Hargs Hex Hkn Ha Hs Hlq. unfold compare_method. rewrite Hargs.
  destruct as_ as [|a0 as0].
  { destruct (m_params m) as [|p ps].
    - destruct qs; [|discriminate Hlq]. exists CEquals. split; [reflexivity|].
      left. split; [reflexivity | constructor].
    - destruct qs as [|q qs]; [discriminate Hlq|]. exists CNotMatch. split; [reflexivity|].
      right. right. split; [reflexivity|]. intros F. inversion F. }
  set (as_ := a0 :: as0) in *.
  destruct (length as_ =? length (m_params m)) eqn:L; cbn [negb].
  2:{ apply Nat.eqb_neq in L. exists CNotMatch. split; [reflexivity|]. right. right.
      split; [reflexivity|]. intros F. apply forall2_length in F. congruence. }
  apply Nat.eqb_eq in L. specialize (Hs L).
  assert (Hk : (match c_gargs c with None => Ok [] | Some gs => explicit_map (m_gparams m) gs end)
               = Ok known).
  { destruct Hkn as [(E1 & E2 & ->) | (gs & E1 & E2)]; rewrite E1; [reflexivity | exact E2]. }
  rewrite Hk. cbn [bind]. rewrite <- Hex.
  unfold compare_args. rewrite L, Nat.eqb_refl.
  destruct (compare_loop_real W U fuel explicit known HU Hf (m_params m) qs as_ CEquals
              (or_introl eq_refl) L Ha Hs) as (r & Er & Hr).
  rewrite Er. cbn [bind]. exists r. split.
  - destruct (m_gparams m) eqn:G; [reflexivity|].
    destruct Hkn as [(E1 & E2 & _) | (gs & E1 & _)]; [discriminate E2|]. rewrite E1. reflexivity.
  - unfold classify. destruct Hr as [(F & ->) | [(P & NF & ->) | (NP & ->)]]; auto.
Qed.

(* ------------------------------------------------------------------ *)
(** * Choosing *)

Definition cls (W : world) (fuel : nat) (c : call) (m : method) : cmp :=
  match compare_method W fuel m c with Ok (r, _) => r | _ => CNotMatch end.

Definition targs (W : world) (fuel : nat) (c : call) (m : method) : list ty :=
  match compare_method W fuel m c with Ok (_, ts) => ts | _ => [] end.

Lemma oty_eqb_eq a b : oty_eqb a b = true <-> a = b.
Proof.
  destruct a, b; cbn; split; intros H; try reflexivity; try discriminate.
  - apply ty_eqb_eq in H. now subst.
  - injection H as ->. apply ty_eqb_refl.
Qed.

Lemma analyze_list_fold W fuel c ms : forall v,
  (forall m, In m ms -> m_owner m = c_owner c) ->
  (forall m, In m ms -> exists x, compare_method W fuel m c = Ok x) ->
  analyze_list W fuel c v ms =
  Ok (fold_left (fun v m => note v m (cls W fuel c m) (targs W fuel c m)) ms v).
Proof.
  induction ms as [|m ms IH]; intros v Ho Hc; [reflexivity|].
  cbn [analyze_list fold_left].
  rewrite (proj2 (oty_eqb_eq _ _) (Ho m (or_introl eq_refl))). cbn [negb].
  destruct (Hc m (or_introl eq_refl)) as ([r ts] & E). rewrite E. cbn [bind].
  rewrite IH.
  - unfold cls, targs. rewrite E. reflexivity.
  - intros x Hx. apply Ho. right. exact Hx.
  - intros x Hx. apply Hc. right. exact Hx.
Qed.

Section Fold.
  Variable k : method -> cmp.
  Variable ts : method -> list ty.

  Definition folded (v : verdicts) (ms : list method) : verdicts :=
    fold_left (fun v m => note v m (k m) (ts m)) ms v.

  Definition matchy (m : method) : bool :=
    match k m with CMatch | CSameName => true | _ => false end.
  Definition failedy (m : method) : bool :=
    match k m with CAutoFailed => true | _ => false end.
  Definition unmatchy (m : method) : bool :=
    match k m with CNotMatch => true | _ => false end.
  Definition equaly (m : method) : bool :=
    match k m with CEquals | CAuto => true | _ => false end.

  Lemma folded_matched ms : forall v,
    v_matched (folded v ms) = v_matched v ++ map (fun m => (m, ts m)) (filter matchy ms).
  Proof.
    induction ms as [|m ms IH]; intros v; [cbn; now rewrite app_nil_r|].
    cbn [folded fold_left filter]. fold (folded (note v m (k m) (ts m)) ms). rewrite IH.
    unfold matchy, note. destruct (k m); cbn; rewrite <- ?app_assoc; reflexivity.
  Qed.

  Lemma folded_failed ms : forall v,
    v_failed (folded v ms) = v_failed v ++ map (fun m => (m, ts m)) (filter failedy ms).
  Proof.
    induction ms as [|m ms IH]; intros v; [cbn; now rewrite app_nil_r|].
    cbn [folded fold_left filter]. fold (folded (note v m (k m) (ts m)) ms). rewrite IH.
    unfold failedy, note. destruct (k m); cbn; rewrite <- ?app_assoc; reflexivity.
  Qed.

  Lemma folded_unmatched ms : forall v,
    v_unmatched (folded v ms) = v_unmatched v ++ map (fun m => (m, ts m)) (filter unmatchy ms).
  Proof.
    induction ms as [|m ms IH]; intros v; [cbn; now rewrite app_nil_r|].
    cbn [folded fold_left filter]. fold (folded (note v m (k m) (ts m)) ms). rewrite IH.
    unfold unmatchy, note. destruct (k m); cbn; rewrite <- ?app_assoc; reflexivity.
  Qed.

  Lemma folded_equal ms : forall v,
    match v_equal (folded v ms) with
    | Some (m, l) => (v_equal v = Some (m, l) \/ In m ms /\ equaly m = true /\ l = ts m)
    | None => v_equal v = None
    end /\
    ((exists m, In m ms /\ equaly m = true) ->
     exists m, In m ms /\ equaly m = true /\ v_equal (folded v ms) = Some (m, ts m)) /\
    ((forall m, In m ms -> equaly m = false) -> v_equal (folded v ms) = v_equal v).
  Proof.
    induction ms as [|m ms IH]; intros v.
    - cbn. split; [destruct (v_equal v) as [[m l]|]; auto|].
      split; [intros (m & [] & _) | reflexivity].
    - cbn [folded fold_left]. fold (folded (note v m (k m) (ts m)) ms).
      destruct (IH (note v m (k m) (ts m))) as (A & B & C).
      assert (Ev : v_equal (note v m (k m) (ts m)) =
                   if equaly m then Some (m, ts m) else v_equal v).
      { unfold note, equaly. destruct (k m); reflexivity. }
      rewrite Ev in A, C. split; [|split].
      + destruct (v_equal (folded (note v m (k m) (ts m)) ms)) as [[x l]|].
        * destruct A as [A | (A1 & A2 & A3)].
          -- destruct (equaly m) eqn:Q; [|left; exact A].
             injection A as <- <-. right. split; [left; reflexivity | auto].
          -- right. split; [right; exact A1 | auto].
        * destruct (equaly m); [discriminate A | exact A].
      + intros (x & Hx & Qx).
        destruct (existsb equaly ms) eqn:X.
        * apply existsb_exists in X. destruct (B X) as (y & Hy & Qy & Ey).
          exists y. split; [right; exact Hy | auto].
        * assert (N : forall y, In y ms -> equaly y = false).
          { intros y Hy. destruct (equaly y) eqn:Q; [|reflexivity].
            assert (existsb equaly ms = true) by (apply existsb_exists; eauto). congruence. }
          destruct Hx as [<- | Hx]; [|rewrite (N x Hx) in Qx; discriminate Qx].
          exists m. split; [left; reflexivity|]. split; [exact Qx|].
          rewrite (C N), Qx. reflexivity.
      + intros N. rewrite C; [|intros y Hy; apply N; right; exact Hy].
        rewrite (N m (or_introl eq_refl)). reflexivity.
  Qed.
End Fold.

(** All about a lookup whose candidates compare as ordinary signatures do. *)
Section Choice.
  Variables (W : world) (fuel : nat) (c : call) (ms : list method).
  Variables (E A : method -> Prop).
  Let cands := filter (keyed c (gargs_count c)) ms.
  Hypothesis Hexact : c_exact c = false.
  Hypothesis Howner : forall m, In m cands -> m_owner m = c_owner c.
  Hypothesis Hcmp : forall m, In m cands ->
    exists r, compare_method W fuel m c = Ok (r, []) /\ classify r (E m) (A m).

  Hypothesis HEA : forall m, E m -> A m.

  Let first := folded (cls W fuel c) (targs W fuel c) no_verdicts cands.

  Lemma cands_class m : In m cands ->
    classify (cls W fuel c m) (E m) (A m) /\ targs W fuel c m = [].
  Proof.
    intros Hm. destruct (Hcmp m Hm) as (r & Er & Hr). unfold cls, targs. rewrite Er. auto.
  Qed.

  Lemma analyze_first :
    analyze_list W fuel c no_verdicts cands = Ok first.
  Proof.
    apply analyze_list_fold; [exact Howner|].
    intros m Hm. destruct (Hcmp m Hm) as (r & Er & _). eauto.
  Qed.

  Lemma equaly_iff m : In m cands -> equaly (cls W fuel c) m = true <-> E m.
  Proof.
    intros Hm. destruct (cands_class m Hm) as (Hc & _). unfold equaly.
    destruct Hc as [(-> & H) | [(-> & _ & H) | (-> & H)]]; split; intros Q;
      try reflexivity; try discriminate Q; auto; try contradiction.
  Qed.

  Lemma matchy_iff m : In m cands -> ~ E m -> (matchy (cls W fuel c) m = true <-> A m).
  Proof.
    intros Hm HE. destruct (cands_class m Hm) as (Hc & _). unfold matchy.
    destruct Hc as [(-> & H) | [(-> & H & _) | (-> & H)]]; split; intros Q;
      try reflexivity; try discriminate Q; auto; contradiction.
  Qed.

  Lemma choice_exact m :
    In m cands -> E m -> (forall x, In x cands -> E x -> x = m) ->
    lookup W fuel c ms = Ok (Found m []).
  Proof.
    intros Hm HE Hu.
    destruct (folded_equal (cls W fuel c) (targs W fuel c) cands no_verdicts) as (_ & B & _).
    destruct B as (x & Hx & Qx & Ex); [exists m; split; [exact Hm | now apply equaly_iff]|].
    fold first in Ex. apply equaly_iff in Qx; [|exact Hx].
    pose proof (Hu x Hx Qx) as ->. rewrite (proj2 (cands_class m Hm)) in Ex.
    unfold lookup, analyze. fold cands. rewrite analyze_first. cbn [bind].
    unfold not_found. rewrite Ex. cbn [andb bind]. unfold get_method. rewrite Ex. reflexivity.
  Qed.

  Lemma first_no_equal :
    (forall x, In x cands -> ~ E x) -> v_equal first = None.
  Proof.
    intros N.
    destruct (folded_equal (cls W fuel c) (targs W fuel c) cands no_verdicts) as (_ & _ & C).
    fold first in C. rewrite C; [reflexivity|].
    intros x Hx. destruct (equaly (cls W fuel c) x) eqn:Q; [|reflexivity].
    apply equaly_iff in Q; [|exact Hx]. exfalso. exact (N x Hx Q).
  Qed.

  Lemma first_matched :
    v_matched first = map (fun m => (m, targs W fuel c m)) (filter (matchy (cls W fuel c)) cands).
  Proof. unfold first. rewrite folded_matched. reflexivity. Qed.

  Lemma choice_conflict :
    (forall x, In x cands -> ~ E x) ->
    2 <= length (filter (matchy (cls W fuel c)) cands) ->
    lookup W fuel c ms = Ok (ConflictError (filter (matchy (cls W fuel c)) cands)).
  Proof.
    intros N L. pose proof (first_no_equal N) as Ee. pose proof first_matched as Em.
    unfold lookup, analyze. fold cands. rewrite analyze_first. cbn [bind].
    unfold not_found. rewrite Ee, Em.
    destruct (filter (matchy (cls W fuel c)) cands) as [|x [|y l]] eqn:F;
      [cbn in L; lia | cbn in L; lia|].
    cbn [map andb bind]. unfold get_method. rewrite Ee, Hexact, Em. cbn [map].
    do 3 f_equal. rewrite map_map. cbn. now rewrite map_id.
  Qed.

  Lemma choice_one m :
    (forall x, In x cands -> ~ E x) ->
    filter (matchy (cls W fuel c)) cands = [m] ->
    lookup W fuel c ms = Ok (Found m []).
  Proof.
    intros N F. pose proof (first_no_equal N) as Ee. pose proof first_matched as Em.
    assert (Hm : In m cands).
    { apply (proj1 (filter_In (matchy (cls W fuel c)) m cands)). rewrite F. left. reflexivity. }
    rewrite F in Em. cbn [map] in Em. rewrite (proj2 (cands_class m Hm)) in Em.
    unfold lookup, analyze. fold cands. rewrite analyze_first. cbn [bind].
    unfold not_found. rewrite Ee, Em. cbn [andb bind]. unfold get_method.
    rewrite Ee, Hexact, Em. reflexivity.
  Qed.

  Lemma choice_none :
    (forall x, In x cands -> ~ A x) ->
    (gargs_count c = 0 -> filter (keyed_generic c) ms = []) ->
    lookup W fuel c ms =
    Ok (if c_throw c then NotMatchError cands else Absent).
  Proof.
    intros N G.
    assert (NE : forall x, In x cands -> ~ E x) by (intros x Hx He; exact (N x Hx (HEA x He))).
    pose proof (first_no_equal NE) as Ee. pose proof first_matched as Em.
    assert (F : filter (matchy (cls W fuel c)) cands = []).
    { destruct (filter (matchy (cls W fuel c)) cands) as [|x l] eqn:F; [reflexivity|].
      assert (Hx : In x (filter (matchy (cls W fuel c)) cands)) by (rewrite F; left; reflexivity).
      apply filter_In in Hx. destruct Hx as (Hx & Q).
      apply matchy_iff in Q; [|exact Hx | exact (NE x Hx)]. exfalso. exact (N x Hx Q). }
    rewrite F in Em. cbn [map] in Em.
    assert (Fu : filter (unmatchy (cls W fuel c)) cands = cands /\
                 filter (failedy (cls W fuel c)) cands = []).
    { assert (K : forall x, In x cands -> cls W fuel c x = CNotMatch).
      { intros x Hx. destruct (cands_class x Hx) as (Hc & _).
        destruct Hc as [(_ & H) | [(_ & H & _) | (Q & _)]]; [| |exact Q].
        - exfalso. exact (NE x Hx H).
        - exfalso. exact (N x Hx H). }
      revert K. clear. unfold unmatchy, failedy. generalize cands as l. clear cands.
      induction l as [|x l IH]; intros K; [split; reflexivity|].
      cbn [filter]. rewrite (K x (or_introl eq_refl)).
      destruct IH as (I1 & I2); [intros y Hy; apply K; right; exact Hy|].
      rewrite I1, I2. split; reflexivity. }
    destruct Fu as (Fu & Ff).
    pose proof (folded_unmatched (cls W fuel c) (targs W fuel c) cands no_verdicts) as Eu.
    fold first in Eu. rewrite Fu in Eu. cbn [no_verdicts v_unmatched app] in Eu.
    pose proof (folded_failed (cls W fuel c) (targs W fuel c) cands no_verdicts) as Ed.
    fold first in Ed. rewrite Ff in Ed. cbn in Ed.
    unfold lookup, analyze. fold cands. rewrite analyze_first. cbn [bind].
    assert (Z : (if not_found first && (gargs_count c =? 0)
                 then analyze_list W fuel c first (filter (keyed_generic c) ms)
                 else Ok first) = Ok first).
    { destruct (gargs_count c =? 0) eqn:Q; [|rewrite andb_false_r; reflexivity].
      apply Nat.eqb_eq in Q. rewrite (G Q). cbn [analyze_list].
      destruct (not_found first && true); reflexivity. }
    rewrite Z. cbn [bind]. unfold get_method. rewrite Ee, Hexact, Em, Ed, Eu.
    rewrite map_map. cbn. rewrite map_id. destruct (c_throw c); reflexivity.
  Qed.
End Choice.

(* ------------------------------------------------------------------ *)
(** * Ordinary methods *)

Definition any_params : list ty -> bool :=
  fix go (l : list ty) : bool :=
    match l with
    | [] => false
    | TParam _ :: _ => true
    | a :: l' => has_generic_params a || go l'
    end.

Lemma has_generic_params_generic g args :
  has_generic_params (TGeneric g args) = any_params args.
Proof. reflexivity. Qed.

Lemma any_params_cons a l :
  any_params (a :: l) = match a with TParam _ => true | _ => has_generic_params a || any_params l end.
Proof. destruct a; reflexivity. Qed.

Lemma closed_no_params t : closed t -> has_generic_params t = false.
Proof.
  induction t as [|i|n|g args IH|e d IH] using ty_rect'; intros H; try reflexivity.
  rewrite has_generic_params_generic. inversion H as [| |? ? HF|]; subst. clear H.
  induction IH as [|x l Hx _ IHl]; [reflexivity|].
  inversion HF; subst. rewrite any_params_cons.
  destruct x; try (rewrite Hx by assumption; cbn [orb]; apply IHl; assumption).
  inversion H1.
Qed.

Lemma to_real_closed W fuel explicit known p t :
  closed p -> to_real_type W fuel explicit known p t = Ok (p, None, known).
Proof.
  intros H. unfold to_real_type. destruct p; try reflexivity.
  - inversion H.
  - rewrite (closed_no_params _ H). reflexivity.
Qed.

Lemma ordinary_compare W U fuel name ms as_ throw m :
  well_set W U fuel name ms as_ -> candidate name ms m -> ordinary m ->
  exists r, compare_method W fuel m (plain_call name as_ throw) = Ok (r, []) /\
            classify r (exact as_ m) (applicable W as_ m).
Proof.
  intros (HU & Hf & Ha & Hp) (Hin & Hn & _) (Hg & Hc & _).
  unfold exact, applicable.
  apply (compare_method_real W U fuel m (plain_call name as_ throw) as_ false [] (m_params m));
    auto.
  - intros _. specialize (Hp m Hin Hn). unfold params_in in Hp.
    revert Hp Hc. generalize (m_params m) as ps. clear - HU.
    induction ps as [|p ps IH]; intros Hp Hc; [constructor|].
    inversion Hc; subst. constructor.
    + split; [reflexivity|]. split; [apply Hp; left; reflexivity|].
      intros a t _ _. now apply to_real_closed.
    + apply IH; [intros q Hq; apply Hp; right; exact Hq | assumption].
Qed.

Lemma in_keyed name as_ throw ms m :
  plain_methods name ms ->
  In m (filter (keyed (plain_call name as_ throw) 0) ms) <-> candidate name ms m.
Proof.
  intros HP. rewrite filter_In. unfold keyed, candidate. cbn [c_name plain_call].
  split.
  - intros (Hin & H). apply andb_true_iff in H. destruct H as (H & _).
    apply andb_true_iff in H. destruct H as (H1 & H2).
    apply Nat.eqb_eq in H1. apply Nat.eqb_eq in H2. apply length_zero_iff_nil in H2. auto.
  - intros (Hin & Hn & Hg). split; [exact Hin|].
    destruct (HP m Hin Hn Hg) as (_ & _ & Hk & _).
    rewrite Hn, Hg, Hk, !Nat.eqb_refl. reflexivity.
Qed.

Lemma exact_applicable W as_ m : exact as_ m -> applicable W as_ m.
Proof.
  unfold exact, applicable. intros F. induction F; constructor; auto. now apply fits_passes.
Qed.

Section Ordinary.
  Variables (W : world) (U : list ty) (fuel name : nat) (ms : list method)
            (as_ : list arg) (throw : bool).
  Hypothesis Hset : well_set W U fuel name ms as_.
  Hypothesis Hplain : plain_methods name ms.
  Let c := plain_call name as_ throw.

  Lemma ord_owner m : In m (filter (keyed c (gargs_count c)) ms) -> m_owner m = c_owner c.
  Proof.
    intros H. apply (proj1 (in_keyed name as_ throw ms m Hplain)) in H.
    destruct H as (H1 & H2 & H3). destruct (Hplain m H1 H2 H3) as (_ & _ & _ & H). exact H.
  Qed.

  Lemma ord_cmp m : In m (filter (keyed c (gargs_count c)) ms) ->
    exists r, compare_method W fuel m c = Ok (r, []) /\
              classify r (exact as_ m) (applicable W as_ m).
  Proof.
    intros H. apply (proj1 (in_keyed name as_ throw ms m Hplain)) in H.
    apply (ordinary_compare W U fuel name ms as_ throw m Hset H).
    destruct H as (H1 & H2 & H3). exact (Hplain m H1 H2 H3).
  Qed.

  Lemma ordinary_exact m :
    candidate name ms m -> exact as_ m ->
    (forall x, candidate name ms x -> exact as_ x -> x = m) ->
    lookup W fuel c ms = Ok (Found m []).
  Proof.
    intros Hm He Hu.
    apply (choice_exact W fuel c ms (exact as_) (applicable W as_) ord_owner ord_cmp
             (exact_applicable W as_)); auto.
    - now apply (in_keyed name as_ throw).
    - intros x Hx. apply Hu. now apply (in_keyed name as_ throw) in Hx.
  Qed.

  Lemma ord_matchy m :
    candidate name ms m -> ~ exact as_ m ->
    (matchy (cls W fuel c) m = true <-> applicable W as_ m).
  Proof.
    intros Hm He.
    apply (matchy_iff W fuel c ms (exact as_) (applicable W as_) ord_cmp); auto.
    now apply (in_keyed name as_ throw).
  Qed.

  Lemma ordinary_conflict l1 m1 l2 m2 l3 :
    (forall x, candidate name ms x -> ~ exact as_ x) ->
    ms = l1 ++ m1 :: l2 ++ m2 :: l3 ->
    candidate name ms m1 -> applicable W as_ m1 ->
    candidate name ms m2 -> applicable W as_ m2 ->
    exists es, lookup W fuel c ms = Ok (ConflictError es) /\
      forall x, In x es <-> candidate name ms x /\ applicable W as_ x.
  Proof.
    intros N Ems C1 A1 C2 A2.
    exists (filter (matchy (cls W fuel c)) (filter (keyed c (gargs_count c)) ms)).
    assert (K : forall x, In x (filter (keyed c (gargs_count c)) ms) <-> candidate name ms x)
      by (intros x; apply in_keyed; exact Hplain).
    split.
    - apply (choice_conflict W fuel c ms (exact as_) (applicable W as_) eq_refl
               ord_owner ord_cmp (exact_applicable W as_)).
      + intros x Hx. apply N, K, Hx.
      + pose proof (proj2 (K m1) C1) as I1. pose proof (proj2 (K m2) C2) as I2.
        apply filter_In in I1. apply filter_In in I2.
        destruct I1 as (_ & k1). destruct I2 as (_ & k2).
        pose proof (proj2 (ord_matchy m1 C1 (N m1 C1)) A1) as q1.
        pose proof (proj2 (ord_matchy m2 C2 (N m2 C2)) A2) as q2.
        revert k1 k2 q1 q2. rewrite Ems. generalize (matchy (cls W fuel c)) as f.
        generalize (keyed c (gargs_count c)) as g. clear.
        intros g f k1 k2 q1 q2. rewrite !filter_app, !app_length. cbn [filter].
        rewrite k1. cbn [filter]. rewrite q1. cbn [length].
        rewrite filter_app, filter_app, app_length. cbn [filter]. rewrite k2. cbn [filter].
        rewrite q2. cbn [length]. lia.
    - intros x. rewrite filter_In, K. split.
      + intros (Hc & Q). split; [exact Hc|]. now apply (ord_matchy x Hc (N x Hc)).
      + intros (Hc & Q). split; [exact Hc|]. now apply (ord_matchy x Hc (N x Hc)).
  Qed.

  Lemma ordinary_one l1 m l2 :
    (forall x, candidate name ms x -> ~ exact as_ x) ->
    ms = l1 ++ m :: l2 -> candidate name ms m -> applicable W as_ m ->
    (forall x, In x (l1 ++ l2) -> candidate name ms x -> ~ applicable W as_ x) ->
    lookup W fuel c ms = Ok (Found m []).
  Proof.
    intros N Ems Cm Am No.
    assert (K : forall x, In x (filter (keyed c (gargs_count c)) ms) <-> candidate name ms x)
      by (intros x; apply in_keyed; exact Hplain).
    apply (choice_one W fuel c ms (exact as_) (applicable W as_) eq_refl
             ord_owner ord_cmp (exact_applicable W as_)).
    - intros x Hx. apply N, K, Hx.
    - assert (Z : forall l, (forall x, In x l -> In x (l1 ++ l2)) -> (forall x, In x l -> In x ms) ->
                filter (matchy (cls W fuel c)) (filter (keyed c (gargs_count c)) l) = []).
      { intros l Hs Hi. destruct (filter (matchy (cls W fuel c)) (filter (keyed c (gargs_count c)) l))
          as [|x r] eqn:F; [reflexivity|].
        assert (Hx : In x (filter (matchy (cls W fuel c)) (filter (keyed c (gargs_count c)) l)))
          by (rewrite F; left; reflexivity).
        apply filter_In in Hx. destruct Hx as (Hx & q). apply filter_In in Hx.
        destruct Hx as (Hx & k).
        assert (Cx : candidate name ms x) by (apply K, filter_In; auto).
        exfalso. apply (No x (Hs x Hx) Cx). now apply (ord_matchy x Cx (N x Cx)). }
      pose proof (proj2 (K m) Cm) as I. apply filter_In in I. destruct I as (_ & k).
      pose proof (proj2 (ord_matchy m Cm (N m Cm)) Am) as q.
      rewrite Ems. rewrite !filter_app. cbn [filter]. rewrite k. cbn [filter]. rewrite q.
      rewrite (Z l1), (Z l2); [reflexivity| | | |]; intros x Hx; rewrite ?Ems;
        rewrite in_app_iff; cbn; auto.
  Qed.

  Lemma ordinary_none :
    (forall x, candidate name ms x -> ~ applicable W as_ x) ->
    (forall x, In x ms -> m_name x = name -> m_gparams x = []) ->
    exists es, lookup W fuel c ms = Ok (if throw then NotMatchError es else Absent) /\
      forall x, In x es <-> In x ms /\ m_name x = name.
  Proof.
    intros N G.
    exists (filter (keyed c (gargs_count c)) ms). split.
    - apply (choice_none W fuel c ms (exact as_) (applicable W as_) eq_refl
               ord_owner ord_cmp (exact_applicable W as_)).
      + intros x Hx. apply N. now apply (in_keyed name as_ throw) in Hx.
      + intros _. destruct (filter (keyed_generic c) ms) as [|x l] eqn:F; [reflexivity|].
        assert (Hx : In x (filter (keyed_generic c) ms)) by (rewrite F; left; reflexivity).
        apply filter_In in Hx. destruct Hx as (Hx & k). unfold keyed_generic in k.
        apply andb_true_iff in k. destruct k as (k & _).
        apply andb_true_iff in k. destruct k as (k1 & k2).
        apply Nat.eqb_eq in k1. rewrite (G x Hx k1) in k2. discriminate k2.
    - intros x. change (gargs_count c) with 0. unfold c. rewrite in_keyed by exact Hplain.
      unfold candidate. split; [intros (H1 & H2 & _); auto|].
      intros (H1 & H2). split; [exact H1|]. split; [exact H2 | exact (G x H1 H2)].
  Qed.
End Ordinary.
