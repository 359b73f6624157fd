(** Lemmas on exit types, code sizes and block tables. *)

From Coq Require Import List Bool Arith Lia.
Import ListNotations.
From Verif Require Import ExcModel ExcSpec.

Section P.
Context {St : Type}.
Implicit Types (s f : @stmt St) (cs : @catches St).

Scheme stmt_mut := Induction for stmt Sort Prop
  with catches_mut := Induction for catches Sort Prop.
Combined Scheme stmt_catches_ind from stmt_mut, catches_mut.

(** *** Types *)

Lemma is_base_type_spec t c : is_base_type t c = true <-> derives t c.
Proof.
  induction t as [i | i t IH]; cbn [is_base_type rt_id]; destruct (Nat.eqb_spec i c) as [->|E].
  - split; auto. intros _. exact (der_here (RRoot c)).
  - split; [discriminate|]. intro H; inversion H; subst; cbn in *; congruence.
  - split; auto. intros _. exact (der_here (RSub c t)).
  - rewrite IH. split; [apply der_base|].
    intro H; inversion H; subst; cbn in *; congruence.
Qed.

Lemma is_base_type_false t c : is_base_type t c = false <-> ~ derives t c.
Proof. rewrite <- is_base_type_spec. destruct (is_base_type t c); split; congruence. Qed.

(** *** Exit types *)

Lemma is_empty_exit s : is_empty s = true -> exit_type s = x_none.
Proof.
  induction s; cbn; intro H; try discriminate; auto.
  apply andb_true_iff in H as [A B]. rewrite IHs1, IHs2 by assumption. reflexivity.
Qed.

Lemma pass_unreached s : pass s = negb (unreached (exit_type s)).
Proof. unfold pass, unreached. destruct (x_is_none _), (x_pass _); reflexivity. Qed.

Definition okx (e : ety) : bool := x_is_none e || x_pass e.

Lemma pass_okx s : pass s = okx (exit_type s).
Proof. reflexivity. Qed.
Lemma unreached_okx e : unreached e = negb (okx e).
Proof. unfold unreached, okx. destruct (x_is_none e), (x_pass e); reflexivity. Qed.

Lemma okx_or a b : okx a = true -> okx b = true -> okx (x_or a b) = true.
Proof.
  unfold okx, x_is_none, x_or.
  destruct a as [pa ra ba ca ta], b as [pb rb bb cb tb]; cbn.
  destruct pa, pb; cbn; rewrite ?orb_true_r; auto.
  destruct ra; cbn; try discriminate. destruct ba; cbn; try discriminate.
  destruct ca; cbn; try discriminate. destruct ta; cbn; try discriminate.
  auto.
Qed.

Lemma okx_del_thr a : okx a = true -> okx (x_del_thr a) = true.
Proof.
  unfold okx, x_is_none. destruct a as [[] [] [] [] []]; cbn; congruence.
Qed.

Lemma okx_if a b : okx a = true \/ okx b = true ->
  okx (let u := x_or a b in
       if (x_is_none a || x_is_none b) && negb (x_is_none u) then x_add_pass u else u) = true.
Proof.
  cbv zeta. intro H.
  destruct ((x_is_none a || x_is_none b) && negb (x_is_none (x_or a b))) eqn:E.
  - unfold okx. cbn [x_add_pass x_pass]. apply orb_true_r.
  - apply andb_false_iff in E as [E|E].
    + apply orb_false_iff in E as [E1 E2]. unfold okx in H. rewrite E1, E2 in H. cbn in H.
      unfold okx. cbn. destruct H as [-> | ->]; cbn; rewrite ?orb_true_r; reflexivity.
    + apply negb_false_iff in E. unfold okx. rewrite E. reflexivity.
Qed.

Lemma no_jump_exit_mut :
  (forall s, no_jump s ->
     x_ret (exit_type s) = false /\ x_brk (exit_type s) = false /\ x_cont (exit_type s) = false)
  /\ (forall cs, no_jump_catches cs -> True).
Proof.
  apply stmt_catches_ind; cbn [no_jump exit_type]; auto; try contradiction.
  - intros a IHa b IHb [A B]. specialize (IHa A). specialize (IHb B).
    destruct (unreached (exit_type a)).
    + cbn. auto.
    + cbv zeta. destruct IHa as (A1 & A2 & A3), IHb as (B1 & B2 & B3).
      destruct (unreached (exit_type b)); cbn; rewrite A1, A2, A3, B1, B2, B3; auto.
  - intros c t IHt e IHe [A B]. destruct (IHt A) as (A1 & A2 & A3), (IHe B) as (B1 & B2 & B3).
    cbv zeta. destruct (_ && _); cbn; rewrite A1, A2, A3, B1, B2, B3; auto.
  - intros c b IH A. destruct (IH A) as (A1 & A2 & A3). cbn. auto.
  - intros b IHb cs _ f IHf (A & _ & B). specialize (IHb A). specialize (IHf B).
    cbv zeta. destruct (unreached _); [exact IHf|]. destruct (negb _); [exact IHb|].
    destruct (catches_root cs); [|exact IHb]. cbn. exact IHb.
Qed.

Lemma catches_root_spec cs : catches_exception cs -> catches_root cs = true.
Proof.
  induction cs as [|ty bi b r IH]; cbn; [contradiction|]. intros [->|H].
  - reflexivity.
  - rewrite IH by assumption. apply orb_true_r.
Qed.

(** A statement whose end can be reached has exit type none or pass. *)
Lemma may_end_pass_mut :
  (forall s prot, tame prot s -> may_end s = true -> pass s = true)
  /\ (forall cs, True).
Proof.
  apply stmt_catches_ind; cbn [tame may_end]; auto; try discriminate.
  - intros a IHa b IHb prot [TA TB] M. apply andb_true_iff in M as [MA MB].
    specialize (IHa _ TA MA). specialize (IHb _ TB MB).
    rewrite pass_okx in IHa, IHb. unfold pass. cbn [exit_type].
    rewrite !unreached_okx, IHa, IHb. cbn [negb]. apply okx_or; assumption.
  - intros c t IHt e IHe prot [TA TB] M. rewrite pass_okx. cbn [exit_type].
    apply okx_if. apply orb_true_iff in M as [M|M]; [left|right]; rewrite <- pass_okx; eauto.
  - intros c b IH prot [M T] _. specialize (IH _ T M). rewrite pass_okx in *. cbn [exit_type].
    revert IH. unfold okx, x_is_none. destruct (exit_type b) as [[] [] [] [] []]; cbn; congruence.
  - intros b IHb cs _ f IHf prot (TB & TC & TF & HC) M.
    apply andb_true_iff in M as [M MF]. specialize (IHf _ TF MF).
    rewrite pass_okx in *. cbn [exit_type]. rewrite unreached_okx, IHf. cbn [negb]. cbv zeta.
    assert (D : may_end b = true \/ (no_jump b /\ catches_exception cs)).
    { apply orb_true_iff in M as [M|M]; auto. }
    destruct D as [D|[D1 D2]].
    + specialize (IHb _ TB D).
      destruct (negb _); [assumption|]. destruct (catches_root cs); [|assumption].
      apply okx_del_thr; assumption.
    + destruct (proj1 no_jump_exit_mut b D1) as (A1 & A2 & A3).
      rewrite (catches_root_spec _ D2).
      destruct (exit_type b) as [ps r k c t]; cbn in A1, A2, A3; subst.
      destruct ps, t; reflexivity.
Qed.

Definition may_end_pass s prot := proj1 may_end_pass_mut s prot.

Lemma selects_may_end e cs bind cb :
  selects e cs bind cb -> may_end cb = true -> may_end_catches cs = true.
Proof.
  induction 1; intro M.
  - change (may_end b || may_end_catches r = true). rewrite M. reflexivity.
  - change (may_end b || may_end_catches r = true).
    rewrite IHselects by assumption. apply orb_true_r.
Qed.

Lemma selects_tame e cs bind cb :
  selects e cs bind cb -> tame_catches cs -> tame true cb.
Proof. induction 1; cbn; intros [A B]; auto. Qed.

Lemma exec_may_end body s st o st' q :
  exec body s st o st' q -> o = ONormal -> may_end s = true.
Proof.
  induction 1; intro E0; cbn [may_end]; auto; try discriminate.
  - rewrite IHexec1, IHexec2 by auto. reflexivity.
  - destruct v; rewrite IHexec by assumption; auto. apply orb_true_r.
  - rewrite IHexec1, IHexec2 by auto. reflexivity.
  - change ((may_end b || may_end_catches cs) && may_end f = true).
    rewrite (selects_may_end _ _ _ _ H0), IHexec3 by auto. rewrite orb_true_r. reflexivity.
Qed.

Lemma exec_pass body s prot st st' q :
  exec body s st ONormal st' q -> tame prot s -> pass s = true.
Proof. intros H T. eapply may_end_pass; eauto. eapply exec_may_end; eauto. Qed.

(** *** Sizes *)

Definition bigt (rm : bool) (b : @stmt St) cs f : Prop :=
  rm && is_empty b = false /\ rm && is_empty f && no_catch cs = false.

Lemma try_cases rm b cs f :
  (rm && is_empty b = true)
  \/ (rm && is_empty b = false /\ rm && is_empty f && no_catch cs = true)
  \/ bigt rm b cs f.
Proof.
  unfold bigt. destruct (rm && is_empty b); auto. right.
  destruct (rm && is_empty f && no_catch cs); auto.
Qed.

Lemma size_try1 rm lv lr b cs f :
  rm && is_empty b = true -> size rm lv lr (STry b cs f) = size rm lv lr f.
Proof. intro H. cbn [size]. rewrite H. reflexivity. Qed.
Lemma size_try2 rm lv lr b cs f :
  rm && is_empty b = false -> rm && is_empty f && no_catch cs = true ->
  size rm lv lr (STry b cs f) = size rm lv lr b.
Proof. intros H1 H2. cbn [size]. rewrite H1, H2. reflexivity. Qed.
Lemma size_try3 rm lv lr b cs f :
  bigt rm b cs f ->
  size rm lv lr (STry b cs f) =
    size rm (lv || negb (is_empty f) || negb (no_catch cs))
            (lr || negb (is_empty f) || negb (no_catch cs)) b
    + b2n (pass b) + csizes rm (lv || negb (is_empty f)) (lr || negb (is_empty f)) cs
    + (if negb (is_empty f) then size rm lv lr f + b2n (pass f) else 0).
Proof. intros [H1 H2]. cbn [size]. rewrite H1, H2. reflexivity. Qed.

Lemma comp_try1 rm c p b cs f :
  rm && is_empty b = true -> comp rm c p (STry b cs f) = comp rm c p f.
Proof. intro H. cbn [comp]. rewrite H. reflexivity. Qed.
Lemma comp_try2 rm c p b cs f :
  rm && is_empty b = false -> rm && is_empty f && no_catch cs = true ->
  comp rm c p (STry b cs f) = comp rm c p b.
Proof. intros H1 H2. cbn [comp]. rewrite H1, H2. reflexivity. Qed.

Lemma blocks_try1 rm lv lr p b cs f :
  rm && is_empty b = true -> blocks rm lv lr p (STry b cs f) = blocks rm lv lr p f.
Proof. intro H. cbn [blocks]. rewrite H. reflexivity. Qed.
Lemma blocks_try2 rm lv lr p b cs f :
  rm && is_empty b = false -> rm && is_empty f && no_catch cs = true ->
  blocks rm lv lr p (STry b cs f) = blocks rm lv lr p b.
Proof. intros H1 H2. cbn [blocks]. rewrite H1, H2. reflexivity. Qed.

(** The numbers of a full try statement. *)
Definition hf_ f := negb (is_empty f).
Definition lvb lv cs f := lv || hf_ f || negb (no_catch cs).
Definition nb_ rm lv lr (b : @stmt St) cs f := size rm (lvb lv cs f) (lvb lr cs f) b.
Definition n1_ rm lv lr (b : @stmt St) cs f := nb_ rm lv lr b cs f + b2n (pass b).
Definition n2_ rm lv lr cs f := csizes rm (lv || hf_ f) (lr || hf_ f) cs.
Definition n3_ rm lv lr f := if hf_ f then size rm lv lr f + b2n (pass f) else 0.

Lemma size_try3' rm lv lr b cs f :
  bigt rm b cs f ->
  size rm lv lr (STry b cs f) =
    n1_ rm lv lr b cs f + n2_ rm lv lr cs f + n3_ rm lv lr f.
Proof. intro H. rewrite size_try3 by assumption. reflexivity. Qed.

Lemma comp_try3 rm c p b cs f :
  bigt rm b cs f ->
  comp rm c p (STry b cs f) =
    let lv := c_leave c in let lr := c_lret c in
    let n1 := n1_ rm lv lr b cs f in let n2 := n2_ rm lv lr cs f in
    let t := p + n1 + n2 + n3_ rm lv lr f in
    comp rm (Cctx (c_brk c) (c_cont c) (lvb lv cs f) (lvb lr cs f)) p b
    ++ exit_jump b (hf_ f) t
    ++ ccomps rm (Cctx (c_brk c) (c_cont c) (lv || hf_ f) (lr || hf_ f)) (hf_ f) t (p + n1) cs
    ++ (if hf_ f then comp rm c (p + n1 + n2) f ++ (if pass f then [IEndFin] else []) else []).
Proof. intros [H1 H2]. cbn [comp]. rewrite H1, H2. reflexivity. Qed.

Lemma blocks_try3 rm lv lr p b cs f :
  bigt rm b cs f ->
  blocks rm lv lr p (STry b cs f) =
    let n1 := n1_ rm lv lr b cs f in let n2 := n2_ rm lv lr cs f in
    blocks rm (lvb lv cs f) (lvb lr cs f) p b
    ++ cblocks rm (lv || hf_ f) (lr || hf_ f) p (p + nb_ rm lv lr b cs f) (p + n1) cs
    ++ (if hf_ f then Blk p (p + n1 + n2) (p + n1 + n2) BFinally
                      :: blocks rm lv lr (p + n1 + n2) f
        else []).
Proof. intros [H1 H2]. cbn [blocks]. rewrite H1, H2. reflexivity. Qed.

Lemma csizes_cons rm lv lr ty bi b r :
  csizes rm lv lr (@CCons St ty bi b r) = 1 + size rm lv lr b + b2n (pass b) + csizes rm lv lr r.
Proof. reflexivity. Qed.
Lemma ccomps_cons rm c hf t p ty bi b r :
  ccomps rm c hf t p (@CCons St ty bi b r) =
  IPop bi :: comp rm c (p + 1) b ++ exit_jump b hf t
  ++ ccomps rm c hf t (p + 1 + size rm (c_leave c) (c_lret c) b + b2n (pass b)) r.
Proof. reflexivity. Qed.
Lemma cblocks_cons rm lv lr ps pe p ty bi b r :
  cblocks rm lv lr ps pe p (@CCons St ty bi b r) =
  Blk ps pe p (BCatch ty) :: blocks rm lv lr (p + 1) b
  ++ cblocks rm lv lr ps pe (p + 1 + size rm lv lr b + b2n (pass b)) r.
Proof. reflexivity. Qed.

Lemma len_exit_jump b hf t : length (@exit_jump St b hf t) = b2n (pass b).
Proof. unfold exit_jump, b2n. destruct (pass b); reflexivity. Qed.

Lemma length_comp_mut :
  (forall s rm c p, length (comp rm c p s) = size rm (c_leave c) (c_lret c) s)
  /\ (forall cs rm c hf t p,
        length (ccomps rm c hf t p cs) = csizes rm (c_leave c) (c_lret c) cs).
Proof.
  apply stmt_catches_ind; try reflexivity.
  - intros a IHa b IHb rm c p. cbn [comp size]. rewrite app_length, IHa.
    destruct (rm && _); [reflexivity|]. rewrite IHb. reflexivity.
  - intros cc t IHt e IHe rm c p. cbn [comp size]. cbn [length].
    rewrite app_length. cbn [length]. rewrite IHt, IHe. lia.
  - intros cc b IH rm c p. cbn [comp size]. cbn [length].
    rewrite app_length. cbn [length]. rewrite IH. reflexivity.
  - intros rm c p. cbn [comp size]. destruct (c_leave c); reflexivity.
  - intros rm c p. cbn [comp size]. destruct (c_leave c); reflexivity.
  - intros g rm c p. cbn [comp size]. destruct (c_lret c); reflexivity.
  - intros b IHb cs IHc f IHf rm c p.
    destruct (try_cases rm b cs f) as [H|[[H1 H2]|H]].
    + rewrite comp_try1, size_try1 by assumption. apply IHf.
    + rewrite comp_try2, size_try2 by assumption. apply IHb.
    + rewrite comp_try3, size_try3' by assumption. cbv zeta.
      rewrite !app_length, IHb, len_exit_jump, IHc. cbn [c_leave c_lret].
      unfold n1_, n2_, n3_, nb_. destruct (hf_ f); [|cbn; lia].
      rewrite app_length, IHf. destruct (pass f); cbn [length b2n]; lia.
  - intros ty bi b IHb r IHr rm c hf t p. rewrite ccomps_cons, csizes_cons. cbn [length].
    rewrite !app_length, IHb, IHr, len_exit_jump. lia.
Qed.
Lemma length_comp s rm c p : length (comp rm c p s) = size rm (c_leave c) (c_lret c) s.
Proof. apply length_comp_mut. Qed.
Lemma length_ccomps cs rm c hf t p :
  length (ccomps rm c hf t p cs) = csizes rm (c_leave c) (c_lret c) cs.
Proof. apply length_comp_mut. Qed.

Lemma csizes_pos rm lv lr cs : no_catch cs = false -> 1 <= csizes rm lv lr cs.
Proof. destruct cs; cbn; [discriminate|lia]. Qed.

(** A statement that writes no code passes. *)
Lemma unreached_size_mut :
  (forall s rm lv lr, unreached (exit_type s) = true -> 1 <= size rm lv lr s)
  /\ (forall cs, True).
Proof.
  apply stmt_catches_ind; auto; try (intros; cbn [size]; lia).
  - intros rm lv lr; cbn. discriminate.
  - intros a IHa b IHb rm lv lr. cbn [exit_type size]. intro U.
    destruct (unreached (exit_type a)) eqn:UA.
    + specialize (IHa rm lv lr eq_refl). lia.
    + rewrite andb_false_r.
      destruct (unreached (exit_type b)) eqn:UB.
      * specialize (IHb rm lv lr eq_refl). lia.
      * exfalso. revert U. cbv zeta. rewrite unreached_okx in *.
        apply negb_false_iff in UA, UB. rewrite okx_or by assumption. discriminate.
  - intros b IHb cs _ f IHf rm lv lr U.
    assert (D : unreached (exit_type f) = true \/ unreached (exit_type b) = true).
    { cbn [exit_type] in U. cbv zeta in U. destruct (unreached (exit_type f)); auto. right.
      destruct (negb _); auto. destruct (catches_root cs); auto.
      rewrite unreached_okx in *. apply negb_true_iff in U. apply negb_true_iff.
      destruct (okx (exit_type b)) eqn:E; auto. rewrite okx_del_thr in U by assumption. discriminate. }
    destruct (try_cases rm b cs f) as [H|[[H1 H2]|H]].
    + rewrite size_try1 by assumption. apply IHf. destruct D as [D|D]; auto.
      apply andb_true_iff in H as [_ H]. rewrite (is_empty_exit _ H) in D. discriminate.
    + rewrite size_try2 by assumption. apply IHb. destruct D as [D|D]; auto.
      apply andb_true_iff in H2 as [H2 _]. apply andb_true_iff in H2 as [_ H2].
      rewrite (is_empty_exit _ H2) in D. discriminate.
    + rewrite size_try3' by assumption. destruct D as [D|D].
      * unfold n3_, hf_. destruct (is_empty f) eqn:EF.
        { rewrite (is_empty_exit _ EF) in D. discriminate. }
        cbn [negb]. specialize (IHf rm lv lr D). lia.
      * unfold n1_, nb_. specialize (IHb rm (lvb lv cs f) (lvb lr cs f) D). lia.
Qed.

Lemma size_pass rm lv lr s : 1 <= size rm lv lr s + b2n (pass s).
Proof.
  rewrite pass_unreached. destruct (unreached (exit_type s)) eqn:U; cbn [negb b2n]; [|lia].
  pose proof (proj1 unreached_size_mut s rm lv lr U). lia.
Qed.

(** *** Block ranges *)

Definition inside (p n : nat) (b : blk) : Prop :=
  p <= b_start b /\ b_start b <= b_end b /\ b_end b < p + n.

Lemma inside_weaken p n p' n' b : inside p n b -> p' <= p -> p + n <= p' + n' -> inside p' n' b.
Proof. unfold inside. lia. Qed.

Lemma Forall_inside p n p' n' l :
  Forall (inside p n) l -> p' <= p -> p + n <= p' + n' -> Forall (inside p' n') l.
Proof. intros H A B. eapply Forall_impl; [|exact H]. intros b I. eapply inside_weaken; eauto. Qed.

Lemma covers_iff b pt : covers b pt = true <-> b_start b <= pt < b_end b.
Proof. unfold covers. rewrite andb_true_iff, Nat.leb_le, Nat.ltb_lt. lia. Qed.

Lemma inside_covers p n b pt : inside p n b -> covers b pt = true -> p <= pt < p + n.
Proof. unfold inside. rewrite covers_iff. lia. Qed.

(* the blocks of catch clauses: a clause covers the try body, the rest lies in the clauses *)
Definition cinside (ps pe p n : nat) (b : blk) : Prop :=
  (b_start b = ps /\ b_end b = pe) \/ inside p n b.

Lemma blocks_inside_mut :
  (forall s rm lv lr p, Forall (inside p (size rm lv lr s)) (blocks rm lv lr p s))
  /\ (forall cs rm lv lr ps pe p,
        Forall (cinside ps pe p (csizes rm lv lr cs)) (cblocks rm lv lr ps pe p cs)).
Proof.
  apply stmt_catches_ind; try (intros; solve [constructor]).
  - intros a IHa b IHb rm lv lr p. cbn [blocks size]. apply Forall_app. split.
    + eapply Forall_inside; [apply IHa| |]; lia.
    + destruct (rm && _); [constructor|]. eapply Forall_inside; [apply IHb| |]; lia.
  - intros c t IHt e IHe rm lv lr p. cbn [blocks size]. apply Forall_app. split.
    + eapply Forall_inside; [apply IHt| |]; lia.
    + eapply Forall_inside; [apply IHe| |]; lia.
  - intros c b IH rm lv lr p. cbn [blocks size]. eapply Forall_inside; [apply IH| |]; lia.
  - intros b IHb cs IHc f IHf rm lv lr p.
    destruct (try_cases rm b cs f) as [H|[[H1 H2]|H]].
    + rewrite blocks_try1, size_try1 by assumption. apply IHf.
    + rewrite blocks_try2, size_try2 by assumption. apply IHb.
    + rewrite blocks_try3, size_try3' by assumption. cbv zeta.
      apply Forall_app. split; [|apply Forall_app; split].
      * eapply Forall_inside; [apply IHb| |]; [lia|]. unfold n1_, nb_. lia.
      * destruct (no_catch cs) eqn:NC.
        { destruct cs; [constructor|discriminate]. }
        pose proof (csizes_pos rm (lv || hf_ f) (lr || hf_ f) cs NC) as PC.
        specialize (IHc rm (lv || hf_ f) (lr || hf_ f) p
                        (p + nb_ rm lv lr b cs f) (p + n1_ rm lv lr b cs f)).
        eapply Forall_impl; [|exact IHc]. intros k [[E1 E2]|I].
        { unfold inside. rewrite E1, E2. unfold n1_, n2_. lia. }
        { eapply inside_weaken; [exact I| |]; [lia|]. unfold n2_. lia. }
      * unfold n3_. destruct (hf_ f) eqn:HF; [|constructor]. constructor.
        { unfold inside. cbn [b_start b_end]. pose proof (size_pass rm lv lr f). lia. }
        { eapply Forall_inside; [apply IHf| |]; lia. }
  - intros ty bi b IHb r IHr rm lv lr ps pe p. rewrite cblocks_cons, csizes_cons. constructor; [left; auto|].
    apply Forall_app. split.
    + eapply Forall_impl; [|apply IHb]. intros k I. right.
      eapply inside_weaken; [exact I| |]; lia.
    + eapply Forall_impl; [|apply IHr]. intros k [I|I]; [left; exact I|right].
      eapply inside_weaken; [exact I| |]; lia.
Qed.
Lemma blocks_inside s rm lv lr p : Forall (inside p (size rm lv lr s)) (blocks rm lv lr p s).
Proof. apply blocks_inside_mut. Qed.
Lemma cblocks_inside cs rm lv lr ps pe p :
  Forall (cinside ps pe p (csizes rm lv lr cs)) (cblocks rm lv lr ps pe p cs).
Proof. apply blocks_inside_mut. Qed.

(** *** Nesting order of tables *)

Definition above (a b : blk) : Prop :=
  forall pt, covers a pt = true -> covers b pt = true -> includes b a = true.

Fixpoint ordered (t : list blk) : Prop :=
  match t with [] => True | a :: r => Forall (above a) r /\ ordered r end.

Lemma ordered_app t u :
  ordered t -> ordered u -> Forall (fun a => Forall (above a) u) t -> ordered (t ++ u).
Proof.
  induction t as [|a t IH]; cbn [ordered app]; intros OT OU F; auto.
  destruct OT as [A OT]. inversion F; subst. split; auto. apply Forall_app. auto.
Qed.

Lemma includes_iff b b' :
  includes b b' = true <-> b_start b <= b_start b' /\ b_end b' <= b_end b.
Proof. unfold includes. rewrite andb_true_iff, !Nat.leb_le. reflexivity. Qed.

Lemma above_disjoint p n p' n' a b :
  inside p n a -> inside p' n' b -> p + n <= p' \/ p' + n' <= p -> above a b.
Proof.
  intros A B D pt C1 C2. exfalso.
  pose proof (inside_covers _ _ _ _ A C1). pose proof (inside_covers _ _ _ _ B C2). lia.
Qed.

Lemma Forall_above_disjoint p n p' n' t u :
  Forall (inside p n) t -> Forall (inside p' n') u -> p + n <= p' \/ p' + n' <= p ->
  Forall (fun a => Forall (above a) u) t.
Proof.
  intros A B D. eapply Forall_impl; [|exact A]. intros a Ia.
  eapply Forall_impl; [|exact B]. intros b Ib. eapply above_disjoint; eauto.
Qed.

Lemma ordered_blocks_mut :
  (forall s rm lv lr p, ordered (blocks rm lv lr p s))
  /\ (forall cs rm lv lr ps pe p, pe <= p -> ordered (cblocks rm lv lr ps pe p cs)).
Proof.
  apply stmt_catches_ind; try (intros; exact I).
  - intros a IHa b IHb rm lv lr p. cbn [blocks]. apply ordered_app; auto.
    + destruct (rm && _); [exact I|apply IHb].
    + destruct (rm && _).
      { eapply Forall_impl; [|apply blocks_inside]. intros; constructor. }
      eapply Forall_above_disjoint; [apply blocks_inside|apply blocks_inside|]. lia.
  - intros c t IHt e IHe rm lv lr p. cbn [blocks]. apply ordered_app; auto.
    eapply Forall_above_disjoint; [apply blocks_inside|apply blocks_inside|]. lia.
  - intros c b IH rm lv lr p. cbn [blocks]. apply IH.
  - intros b IHb cs IHc f IHf rm lv lr p.
    destruct (try_cases rm b cs f) as [H|[[H1 H2]|H]].
    + rewrite blocks_try1 by assumption. apply IHf.
    + rewrite blocks_try2 by assumption. apply IHb.
    + rewrite blocks_try3 by assumption. cbv zeta.
      set (n1 := n1_ rm lv lr b cs f). set (n2 := n2_ rm lv lr cs f).
      set (nb := nb_ rm lv lr b cs f).
      assert (N1 : nb <= n1) by (unfold n1, n1_; fold nb; lia).
      pose proof (blocks_inside b rm (lvb lv cs f) (lvb lr cs f) p) as IB.
      pose proof (cblocks_inside cs rm (lv || hf_ f) (lr || hf_ f) p (p + nb) (p + n1)) as IC.
      pose proof (blocks_inside f rm lv lr (p + n1 + n2)) as IF_.
      change (size rm (lvb lv cs f) (lvb lr cs f) b) with nb in IB.
      change (csizes rm (lv || hf_ f) (lr || hf_ f) cs) with n2 in IC.
      assert (OC : forall t u, Forall (inside p nb) t -> Forall (cinside p (p+nb) (p+n1) n2) u ->
                  Forall (fun a => Forall (above a) u) t).
      { intros t u A B. eapply Forall_impl; [|exact A]. intros x Ix.
        eapply Forall_impl; [|exact B]. intros y [[E1 E2]|Iy].
        - intros pt _ _. apply includes_iff. unfold inside in Ix. lia.
        - eapply above_disjoint; eauto. lia. }
      assert (OF : ordered (if hf_ f then Blk p (p + n1 + n2) (p + n1 + n2) BFinally
                      :: blocks rm lv lr (p + n1 + n2) f else [])).
      { destruct (hf_ f); [|exact I]. split; [|apply IHf].
        eapply Forall_impl; [|exact IF_]. intros y Iy pt C1 C2. exfalso.
        apply covers_iff in C1. cbn in C1. pose proof (inside_covers _ _ _ _ Iy C2). lia. }
      assert (IN : forall t, Forall (inside p nb) t \/ Forall (cinside p (p+nb) (p+n1) n2) t ->
                 Forall (fun a => Forall (above a)
                   (if hf_ f then Blk p (p + n1 + n2) (p + n1 + n2) BFinally
                      :: blocks rm lv lr (p + n1 + n2) f else [])) t).
      { intros t A.
        assert (A' : Forall (fun b => p <= b_start b /\ b_end b <= p + n1 + n2) t).
        { destruct A as [A|A]; eapply Forall_impl; try exact A.
          - intros y Iy. unfold inside in Iy. lia.
          - intros y [[E1 E2]|Iy]; [lia|unfold inside in Iy; lia]. }
        eapply Forall_impl; [|exact A']. intros x [X1 X2].
        destruct (hf_ f); [|constructor]. constructor.
        - intros pt _ _. apply includes_iff. cbn. lia.
        - eapply Forall_impl; [|exact IF_]. intros y Iy pt C1 C2. exfalso.
          apply covers_iff in C1. pose proof (inside_covers _ _ _ _ Iy C2). lia. }
      apply ordered_app; [apply IHb| |].
      * apply ordered_app; [apply IHc; lia|exact OF|]. apply IN. right. exact IC.
      * eapply Forall_impl with
          (P := fun a => Forall (above a) (cblocks rm (lv || hf_ f) (lr || hf_ f) p (p + nb) (p + n1) cs)
             /\ Forall (above a) (if hf_ f then Blk p (p + n1 + n2) (p + n1 + n2) BFinally
                      :: blocks rm lv lr (p + n1 + n2) f else [])).
        { intros x [A B]. apply Forall_app. auto. }
        apply Forall_and; [apply OC; assumption|apply IN; left; exact IB].
  - intros ty bi b IHb r IHr rm lv lr ps pe p LE. rewrite cblocks_cons.
    pose proof (blocks_inside b rm lv lr (p + 1)) as IB.
    pose proof (cblocks_inside r rm lv lr ps pe (p + 1 + size rm lv lr b + b2n (pass b))) as IR.
    assert (Z : Forall (above (Blk ps pe p (BCatch ty)))
                  (cblocks rm lv lr ps pe (p + 1 + size rm lv lr b + b2n (pass b)) r)).
    { eapply Forall_impl; [|exact IR]. intros y [[E1 E2]|Iy] pt C1 C2.
      - apply includes_iff. cbn. lia.
      - exfalso. apply covers_iff in C1. cbn in C1.
        pose proof (inside_covers _ _ _ _ Iy C2). lia. }
    split.
    + apply Forall_app. split; [|exact Z].
      eapply Forall_impl; [|exact IB]. intros y Iy pt C1 C2. exfalso.
      apply covers_iff in C1. cbn in C1. pose proof (inside_covers _ _ _ _ Iy C2). lia.
    + apply ordered_app; [apply IHb|apply IHr; lia|].
      eapply Forall_impl; [|exact IB]. intros x Ix.
      eapply Forall_impl; [|exact IR]. intros y [[E1 E2]|Iy] pt C1 C2; exfalso.
      * pose proof (inside_covers _ _ _ _ Ix C1). apply covers_iff in C2. lia.
      * pose proof (inside_covers _ _ _ _ Ix C1). pose proof (inside_covers _ _ _ _ Iy C2). lia.
Qed.
Lemma ordered_blocks s rm lv lr p : ordered (blocks rm lv lr p s).
Proof. apply ordered_blocks_mut. Qed.

(** *** find_block *)

Lemma first_from_none g i t : first_from g i t = None -> filter g t = [].
Proof.
  revert i. induction t as [|a t IH]; cbn; intros i H; auto.
  destruct (g a); [discriminate|]. eauto.
Qed.

Lemma first_from_some g i t j :
  first_from g i t = Some j ->
  i <= j /\ exists b, nth_error t (j - i) = Some b /\ g b = true
            /\ filter g t = b :: filter g (skipn (S (j - i)) t).
Proof.
  revert i. induction t as [|a t IH]; cbn [first_from]; intros i H; [discriminate|].
  destruct (g a) eqn:G.
  - injection H as <-. split; [lia|]. exists a. rewrite Nat.sub_diag. cbn. rewrite G. auto.
  - apply IH in H as (L & b & N & GB & F). split; [lia|]. exists b.
    replace (j - i) with (S (j - S i)) by lia. cbn [nth_error skipn filter]. rewrite G.
    split; [exact N|]. split; [exact GB|]. exact F.
Qed.

Lemma first_from_ext g h i t : Forall (fun b => g b = h b) t -> first_from g i t = first_from h i t.
Proof.
  intro F. revert i. induction F as [|a t E F IH]; intro i; cbn; auto.
  rewrite E. destruct (h a); auto.
Qed.

Lemma ordered_nth t i a :
  ordered t -> nth_error t i = Some a -> Forall (above a) (skipn (S i) t).
Proof.
  revert i. induction t as [|b t IH]; intros [|i] O N; cbn in *; try discriminate.
  - injection N as ->. destruct t; tauto.
  - destruct O as [_ O]. apply (IH _ O N).
Qed.

Lemma skipn_skipn_S {A} i j (t : list A) : skipn j (skipn (S i) t) = skipn (S (i + j)) t.
Proof.
  revert t. induction i as [|i IH]; intros [|x t]; cbn [skipn].
  - destruct j; reflexivity.
  - cbn. destruct t; reflexivity.
  - destruct j; reflexivity.
  - cbn [Nat.add]. rewrite <- IH. reflexivity.
Qed.

Lemma nth_error_skipn {A} i k (t : list A) : nth_error (skipn i t) k = nth_error t (i + k).
Proof.
  revert t. induction i as [|i IH]; intros [|x t]; cbn; auto. destruct k; reflexivity.
Qed.

Lemma ancestors_spec t pt :
  ordered t ->
  forall fuel i a, nth_error t i = Some a -> covers a pt = true -> length t <= i + fuel ->
  ancestors fuel t i = filter (fun b => covers b pt) (skipn (S i) t).
Proof.
  intros O. induction fuel as [|fuel IH]; intros i a N C L.
  - assert (i < length t) by (apply nth_error_Some; congruence). lia.
  - cbn [ancestors]. unfold parent. rewrite N.
    rewrite (first_from_ext _ (fun b => covers b pt)).
    2:{ pose proof (ordered_nth _ _ _ O N) as F. eapply Forall_impl; [|exact F].
        intros b AB. destruct (covers b pt) eqn:CB.
        - apply AB with pt; assumption.
        - destruct (includes b a) eqn:IB; auto. exfalso.
          apply includes_iff in IB. apply covers_iff in C.
          assert (covers b pt = true) by (apply covers_iff; lia). congruence. }
    destruct (first_from _ (S i) _) as [j|] eqn:FF.
    + apply first_from_some in FF as (LJ & b & NB & CB & F).
      rewrite nth_error_skipn in NB. replace (S i + (j - S i)) with j in NB by lia.
      rewrite NB, F. f_equal. rewrite (IH j b NB CB) by lia.
      rewrite skipn_skipn_S. replace (S (i + S (j - S i))) with (S j) by lia. reflexivity.
    + apply first_from_none in FF. rewrite FF. reflexivity.
Qed.

Lemma find_block_spec t want pt :
  ordered t ->
  find_block true t want pt = Some (filter want (filter (fun b => covers b pt) t)).
Proof.
  intro O. unfold find_block. destruct t as [|t0 tr]; [reflexivity|].
  set (t := t0 :: tr) in *.
  assert (FF2 : forall u, filter want (filter (fun b => covers b pt) u)
              = filter (fun b => want b && covers b pt) u).
  { induction u as [|x u IH]; cbn; auto. destruct (covers x pt); cbn.
    - rewrite IH. destruct (want x); reflexivity.
    - rewrite andb_false_r. exact IH. }
  destruct (first_from _ 0 t) as [i|] eqn:FF.
  - apply first_from_some in FF as (_ & b & NB & CB & F). rewrite Nat.sub_0_r in NB, F.
    rewrite NB, FF2, F. do 2 f_equal.
    apply andb_true_iff in CB as [_ CB].
    rewrite (ancestors_spec t pt O _ _ b NB CB) by lia. apply FF2.
  - apply first_from_none in FF. rewrite FF2, FF. reflexivity.
Qed.

End P.
