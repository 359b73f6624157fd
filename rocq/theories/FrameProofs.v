(** Calls leave the caller's frame as it was. *)

From Coq Require Import List Bool ZArith Lia.
Import ListNotations.
From Verif Require Import FrameModel FrameSpec.
Open Scope Z_scope.

Lemma upd_other mem a u b : b <> a -> upd mem a u b = mem b.
Proof. unfold upd. intro H. apply Z.eqb_neq in H. rewrite H. reflexivity. Qed.
Lemma upd_same mem a u : upd mem a u a = u.
Proof. unfold upd. rewrite Z.eqb_refl. reflexivity. Qed.

Section Frames.
Variable P : program.
Hypothesis HP : sane P.

Definition base (s : vm) : Z := v_lp s - 3 - me_args (P (v_meth s)).
Definition result_top (s : vm) : Z :=
  base s + match me_ret (P (v_meth s)) with RNone => 0 | ROne => 1 | RStruct => -1 end.

(** A command keeps the frame, its stub, and everything below its arguments. *)
Lemma local_keeps c s s' :
  in_frame P c s -> local_cmd P c (advance s) = Some s' ->
  0 <= operands P s ->
  v_lp s' = v_lp s /\ v_meth s' = v_meth s /\ 0 <= operands P s'
  /\ (forall a, a < base s -> v_mem s' a = v_mem s a)
  /\ (forall a, v_lp s - 3 <= a < v_lp s -> v_mem s' a = v_mem s a).
Proof.
  intros IF L O. destruct (HP (v_meth s)) as [HA HL]. unfold base.
  destruct c; cbn [local_cmd in_frame] in *; try discriminate;
    repeat match type of L with
    | (match ?x with _ => _ end) = Some _ => destruct x; try discriminate
    end;
    injection L as <-; unfold push, advance, with_pc, operands, arg_addr in *;
    cbn [v_mem v_top v_lp v_meth v_pc] in *;
    (split; [reflexivity|]; split; [reflexivity|]; split; [lia|]; split;
     intros a R; try reflexivity; apply upd_other; lia).
Qed.

Lemma ret_result s s' :
  operands P s = ret_units (me_ret (P (v_meth s))) ->
  do_ret P (advance s) = Some s' ->
  v_top s' = result_top s
  /\ (me_ret (P (v_meth s)) = ROne -> v_mem s' (base s) = v_mem s (v_top s - 1))
  /\ (forall a, a < base s -> v_mem s' a = v_mem s a)
  /\ v_mem s (v_lp s - 3) = ULp (v_lp s')
  /\ v_mem s (v_lp s - 2) = UCur (v_meth s') (v_pc s').
Proof.
  intros O H. unfold do_ret, stub in H.
  unfold advance, with_pc in H. cbn [v_mem v_top v_lp v_meth v_pc] in H.
  destruct (v_mem s (v_lp s - 3)) eqn:E1; try discriminate.
  destruct (v_mem s (v_lp s - 2)) eqn:E2; try discriminate.
  unfold operands, ret_units, result_top, base in *.
  destruct (me_ret (P (v_meth s))) eqn:ER; injection H as <-;
    cbn [v_mem v_top v_lp v_meth v_pc].
  - repeat split; auto; try lia. discriminate.
  - repeat split; try lia.
    + intros _. replace (v_lp s - 3 - me_args (P (v_meth s))) with
        (v_top s - (me_args (P (v_meth s)) + 3 + me_locals (P (v_meth s))) - 1) by lia.
      rewrite upd_same. f_equal. lia.
    + intros b R. apply upd_other. lia.
  - repeat split; auto; try lia. discriminate.
Qed.

Definition keeps (s s' : vm) : Prop :=
  v_lp s' = v_lp s /\ v_meth s' = v_meth s /\ 0 <= operands P s'
  /\ (forall a, a < base s -> v_mem s' a = v_mem s a)
  /\ (forall a, v_lp s - 3 <= a < v_lp s -> v_mem s' a = v_mem s a).

Lemma keeps_trans a b c : keeps a b -> keeps b c -> keeps a c.
Proof.
  intros (A1 & A2 & A3 & A4 & A5) (B1 & B2 & B3 & B4 & B5). unfold keeps, base in *.
  rewrite A1, A2 in *. repeat split; auto.
  - intros x R. rewrite B4 by lia. apply A4. lia.
  - intros x R. rewrite B5 by lia. apply A5. lia.
Qed.

Definition after_ret (s : vm) (m : nat) (u : unit_) (s' : vm) : Prop :=
  v_lp s' = v_lp s /\ v_meth s' = v_meth s /\ v_pc s' = S (v_pc s)
  /\ v_top s' = v_top s - me_args (P m)
                + match me_ret (P m) with RNone => 0 | ROne => 1 | RStruct => -1 end
  /\ (me_ret (P m) = ROne -> v_mem s' (v_top s - me_args (P m)) = u)
  /\ (forall a, a < v_top s - me_args (P m) -> v_mem s' a = v_mem s a).

Definition after_unwind (s : vm) (m : nat) (s' : vm) : Prop :=
  v_lp s' = v_lp s /\ v_meth s' = v_meth s /\ v_pc s' = S (v_pc s)
  /\ operands P s' = 0
  /\ (forall a, a < v_top s - me_args (P m) -> v_mem s' a = v_mem s a).

(* the callee's frame, as push_calling makes it *)
Lemma callee_view s m s1 :
  keeps (push_calling P m (advance s)) s1 ->
  v_lp s1 = v_top s + 3 /\ v_meth s1 = m
  /\ v_mem s1 (v_lp s1 - 3) = ULp (v_lp s)
  /\ v_mem s1 (v_lp s1 - 2) = UCur (v_meth s) (S (v_pc s))
  /\ (forall a, a < v_top s - me_args (P m) -> v_mem s1 a = v_mem s a).
Proof.
  intros (A1 & A2 & A3 & A4 & A5). destruct (HP m) as [HA HL].
  unfold push_calling, advance, with_pc, base in *.
  cbn [v_mem v_top v_lp v_meth v_pc] in *.
  split; [exact A1|]. split; [exact A2|]. rewrite A1.
  split; [|split].
  - rewrite A5 by lia. replace (v_top s + 3 - 3) with (v_top s) by lia.
    rewrite (upd_other _ (v_top s + 2)) by lia.
    rewrite (upd_other _ (v_top s + 1)) by lia. apply upd_same.
  - rewrite A5 by lia. replace (v_top s + 3 - 2) with (v_top s + 1) by lia.
    rewrite (upd_other _ (v_top s + 2)) by lia. apply upd_same.
  - intros a R. rewrite A4 by lia. rewrite !upd_other by lia. reflexivity.
Qed.

Lemma callee_operands s m : 0 <= operands P (push_calling P m (advance s)).
Proof. unfold operands, push_calling. cbn [v_top v_lp v_meth]. lia. Qed.

Lemma ret_after s m s1 s2 :
  keeps (push_calling P m (advance s)) s1 ->
  at_ret P s1 -> do_ret P (advance s1) = Some s2 ->
  after_ret s m (v_mem s1 (v_top s1 - 1)) s2.
Proof.
  intros K [_ O] R. destruct (HP m) as [HA HL].
  destruct (callee_view _ _ _ K) as (A1 & A2 & A3 & A4 & A5).
  destruct (ret_result _ _ O R) as (B1 & B2 & B3 & B4 & B5).
  rewrite A3 in B4. injection B4 as B4. rewrite A4 in B5. injection B5 as B5 B6.
  unfold after_ret, result_top, base in *. rewrite A1, A2 in *.
  repeat split; auto; try lia.
  - intro E. rewrite <- (B2 E). f_equal. lia.
  - intros a L. rewrite B3 by lia. apply A5. lia.
Qed.

Lemma unwind_after s m s1 s2 :
  keeps (push_calling P m (advance s)) s1 ->
  unwind_frame P s1 = Some s2 -> after_unwind s m s2.
Proof.
  intros K U. destruct (HP m) as [HA HL].
  destruct (callee_view _ _ _ K) as (A1 & A2 & A3 & A4 & A5).
  unfold unwind_frame, stub in U. rewrite A3, A4 in U. injection U as <-.
  unfold after_unwind, operands. cbn [v_mem v_top v_lp v_meth v_pc].
  repeat split; auto; try lia.
Qed.

Lemma after_ret_keeps s m u s' :
  in_frame P (CCall m) s -> 0 <= operands P s -> after_ret s m u s' -> keeps s s'.
Proof.
  intros IF O (A1 & A2 & _ & A4 & _ & A6). cbn [in_frame] in IF.
  destruct (HP m) as [HA HL]. destruct (HP (v_meth s)) as [HA' HL'].
  unfold keeps, base, operands in *. rewrite A1, A2, A4.
  repeat split; auto; try (destruct (me_ret (P m)); lia);
    intros a R; apply A6; destruct (me_ret (P m)); lia.
Qed.

Lemma after_unwind_keeps s m s' :
  in_frame P (CCall m) s -> 0 <= operands P s -> after_unwind s m s' -> keeps s s'.
Proof.
  intros IF O (A1 & A2 & _ & A4 & A6). cbn [in_frame] in IF.
  destruct (HP m) as [HA HL]. destruct (HP (v_meth s)) as [HA' HL'].
  unfold keeps, base. split; [exact A1|]. split; [exact A2|]. split; [lia|].
  unfold operands in IF.
  split; intros a R; apply A6; destruct (me_ret (P m)); lia.
Qed.

Lemma push_keeps s u pc : 0 <= operands P s -> keeps s (with_pc (push s u) pc).
Proof.
  intro O. destruct (HP (v_meth s)) as [HA HL].
  unfold keeps, base, operands, with_pc, push in *. cbn [v_mem v_top v_lp v_meth].
  repeat split; try lia; intros a R; apply upd_other; lia.
Qed.

Lemma running_keeps s s' : running P s s' -> 0 <= operands P s -> keeps s s'.
Proof.
  induction 1 as [s | s c s1 s' F IF L W IH | s m s1 s2 s' F IF W1 IH1 AR R W2 IH2
    | s m s1 s2 u pc s' F IF W1 IH1 U W2 IH2 | s m s1 s2 F IF W1 IH1 U]; intro OP.
  - repeat split; auto.
  - pose proof (local_keeps _ _ _ IF L OP) as K. eapply keeps_trans; [exact K|].
    apply IH. apply K.
  - pose proof (ret_after _ _ _ _ (IH1 (callee_operands s m)) AR R) as A.
    pose proof (after_ret_keeps _ _ _ _ IF OP A) as K.
    eapply keeps_trans; [exact K|]. apply IH2. apply K.
  - pose proof (unwind_after _ _ _ _ (IH1 (callee_operands s m)) U) as A.
    pose proof (after_unwind_keeps _ _ _ IF OP A) as K.
    pose proof (push_keeps s2 u pc ltac:(apply K)) as K2.
    eapply keeps_trans; [exact K|]. eapply keeps_trans; [exact K2|]. apply IH2. apply K2.
  - pose proof (unwind_after _ _ _ _ (IH1 (callee_operands s m)) U) as A.
    eapply after_unwind_keeps; eauto.
Qed.

(** The whole call. *)
Theorem call_restores s m s1 s' :
  running P (push_calling P m (advance s)) s1 ->
  at_ret P s1 -> do_ret P (advance s1) = Some s' ->
  after_ret s m (v_mem s1 (v_top s1 - 1)) s'.
Proof.
  intros W A R. eapply ret_after; eauto. apply running_keeps; [exact W|apply callee_operands].
Qed.

(** The return finds the stub: it is never undefined. *)
Theorem call_returns s m s1 :
  running P (push_calling P m (advance s)) s1 ->
  at_ret P s1 -> exists s', do_ret P (advance s1) = Some s'.
Proof.
  intros W _. pose proof (running_keeps _ _ W (callee_operands s m)) as K.
  destruct (callee_view _ _ _ K) as (A1 & A2 & A3 & A4 & A5).
  unfold do_ret, stub. unfold advance at 1 2 3 4, with_pc. cbn [v_mem v_lp].
  rewrite A3, A4. destruct (me_ret _); eexists; reflexivity.
Qed.

(** A callee that is abandoned because of an exception. *)
Theorem unwind_restores s m s1 s' :
  running P (push_calling P m (advance s)) s1 ->
  unwind_frame P s1 = Some s' -> after_unwind s m s'.
Proof.
  intros W U. eapply unwind_after; eauto. apply running_keeps; [exact W|apply callee_operands].
Qed.

(** A value return whose value was never pushed (see C30): the caller's topmost
    unit below the arguments is overwritten and no result is left. *)
Theorem empty_return_corrupts s s' :
  me_ret (P (v_meth s)) = ROne -> operands P s = 0 ->
  do_ret P (advance s) = Some s' ->
  v_top s' = base s /\ v_mem s' (base s - 1) = v_mem s (v_top s - 1).
Proof.
  intros ER O H. unfold do_ret, stub in H.
  unfold advance, with_pc in H. cbn [v_mem v_top v_lp v_meth v_pc] in H.
  destruct (v_mem s (v_lp s - 3)) eqn:E1; try discriminate.
  destruct (v_mem s (v_lp s - 2)) eqn:E2; try discriminate.
  rewrite ER in H. injection H as <-. cbn [v_mem v_top]. unfold operands, base in *.
  split; [lia|].
  replace (v_lp s - 3 - me_args (P (v_meth s)) - 1) with
    (v_top s - (me_args (P (v_meth s)) + 3 + me_locals (P (v_meth s))) - 1) by lia.
  rewrite upd_same. f_equal. lia.
Qed.

End Frames.

(** ** Expressions *)

(** Commands of the frame only. *)
Inductive lsteps (P : program) : vm -> vm -> Prop :=
| ls_refl s : lsteps P s s
| ls_step s c s1 s' :
    fetch P s = Some c -> in_frame P c s -> local_cmd P c (advance s) = Some s1 ->
    lsteps P s1 s' -> lsteps P s s'.

Lemma lsteps_trans P s1 s2 s3 : lsteps P s1 s2 -> lsteps P s2 s3 -> lsteps P s1 s3.
Proof. intros A. induction A; intros B; [exact B|]. eapply ls_step; eauto. Qed.

Lemma lsteps_running P s s' : lsteps P s s' -> running P s s'.
Proof. intros A. induction A; [apply rn_refl|]. eapply rn_local; eauto. Qed.

Lemma expression_lsteps : forall P loc arg e s pre post,
  sane P -> 0 <= operands P s ->
  me_code (P (v_meth s)) = pre ++ ex_code e ++ post -> v_pc s = length pre ->
  ex_names (P (v_meth s)) e ->
  (forall i, 0 <= i < me_locals (P (v_meth s)) -> v_mem s (v_lp s + i) = UVal (loc i)) ->
  (forall i, 0 <= i < me_args (P (v_meth s)) -> v_mem s (arg_addr P s i) = UVal (arg i)) ->
  exists s', lsteps P s s' /\ v_lp s' = v_lp s /\ v_meth s' = v_meth s /\
    v_pc s' = (length pre + length (ex_code e))%nat /\ v_top s' = v_top s + 1 /\
    v_mem s' (v_top s) = UVal (ex_value loc arg e) /\
    (forall a, a < v_top s -> v_mem s' a = v_mem s a).
Proof.
  intros P loc arg e. induction e as [z|i|i|f a IHa b IHb]; intros s pre post Hs Ho Hc Hp Hn HL HA.
  - cbn [ex_code app] in Hc. eexists. split.
    + eapply ls_step with (c := CConst z); [|exact Logic.I|reflexivity|apply ls_refl].
      unfold fetch. rewrite Hc, Hp, nth_error_app2, Nat.sub_diag by lia. reflexivity.
    + cbn. repeat split; try lia; [apply upd_same|]. intros x Hx. apply upd_other. lia.
  - cbn [ex_code app] in Hc. cbn [ex_names] in Hn. eexists. split.
    + eapply ls_step with (c := CLoadL i); [|exact Hn|reflexivity|apply ls_refl].
      unfold fetch. rewrite Hc, Hp, nth_error_app2, Nat.sub_diag by lia. reflexivity.
    + cbn. repeat split; try lia; [rewrite upd_same; now apply HL|]. intros x Hx. apply upd_other. lia.
  - cbn [ex_code app] in Hc. cbn [ex_names] in Hn. eexists. split.
    + eapply ls_step with (c := CLoadA i); [|exact Hn|reflexivity|apply ls_refl].
      unfold fetch. rewrite Hc, Hp, nth_error_app2, Nat.sub_diag by lia. reflexivity.
    + cbn. repeat split; try lia; [rewrite upd_same; now apply HA|]. intros x Hx. apply upd_other. lia.
  - cbn [ex_names] in Hn. destruct Hn as (Na & Nb). cbn [ex_code] in Hc.
    pose proof (Hs (v_meth s)) as (S1 & S2). pose proof Ho as Ho'. unfold operands in Ho'.
    destruct (IHa s pre (ex_code b ++ [CBin f] ++ post) Hs Ho) as (s1 & R1 & L1 & M1 & P1 & T1 & V1 & U1); auto.
    { rewrite Hc. now rewrite <- !app_assoc. }
    destruct (IHb s1 (pre ++ ex_code a) ([CBin f] ++ post) Hs) as (s2 & R2 & L2 & M2 & P2 & T2 & V2 & U2).
    { unfold operands. rewrite L1, M1, T1. lia. }
    { rewrite M1, Hc. now rewrite <- !app_assoc. }
    { rewrite P1, app_length. reflexivity. }
    { rewrite M1. exact Nb. }
    { intros i Hi. rewrite M1 in Hi. rewrite L1, U1 by lia. now apply HL. }
    { intros i Hi. rewrite M1 in Hi. unfold arg_addr in *. rewrite L1, M1, U1 by lia. now apply HA. }
    assert (Va : v_mem s2 (v_top s) = UVal (ex_value loc arg a)) by (rewrite U2 by lia; exact V1).
    rewrite T1 in T2, V2. eexists. split.
    + eapply lsteps_trans; [exact R1|]. eapply lsteps_trans; [exact R2|].
      eapply ls_step with (c := CBin f); [| | |apply ls_refl].
      * unfold fetch. rewrite M2, M1, Hc, P2.
        replace (pre ++ (ex_code a ++ ex_code b ++ [CBin f]) ++ post)
          with ((pre ++ ex_code a ++ ex_code b) ++ CBin f :: post) by (now rewrite <- !app_assoc).
        rewrite nth_error_app2 by (rewrite !app_length; lia).
        replace (length (pre ++ ex_code a) + length (ex_code b) - length (pre ++ ex_code a ++ ex_code b))%nat
          with 0%nat by (rewrite !app_length; lia). reflexivity.
      * cbn [in_frame]. unfold operands. rewrite M2, M1, L2, L1, T2. lia.
      * cbn [local_cmd]. cbn [advance with_pc v_mem v_top v_lp v_meth v_pc].
        replace (v_top s2 - 2) with (v_top s) by lia.
        replace (v_top s2 - 1) with (v_top s + 1) by lia.
        rewrite Va, V2. reflexivity.
    + cbn [v_mem v_top v_lp v_meth v_pc]. split; [congruence|]. split; [congruence|]. split.
      { rewrite P2. cbn [ex_code]. rewrite !app_length. cbn [length]. lia. }
      split; [lia|]. split; [apply upd_same|].
      intros x Hx. rewrite upd_other by lia. rewrite U2, U1 by lia. reflexivity.
Qed.

Lemma expression_value : forall P loc arg e s pre post,
  sane P -> 0 <= operands P s ->
  me_code (P (v_meth s)) = pre ++ ex_code e ++ post -> v_pc s = length pre ->
  ex_names (P (v_meth s)) e ->
  (forall i, 0 <= i < me_locals (P (v_meth s)) -> v_mem s (v_lp s + i) = UVal (loc i)) ->
  (forall i, 0 <= i < me_args (P (v_meth s)) -> v_mem s (arg_addr P s i) = UVal (arg i)) ->
  exists s', running P s s' /\ v_lp s' = v_lp s /\ v_meth s' = v_meth s /\
    v_pc s' = (length pre + length (ex_code e))%nat /\ v_top s' = v_top s + 1 /\
    v_mem s' (v_top s) = UVal (ex_value loc arg e) /\
    (forall a, a < v_top s -> v_mem s' a = v_mem s a).
Proof.
  intros P loc arg e s pre post Hs Ho Hc Hp Hn HL HA.
  destruct (expression_lsteps P loc arg e s pre post Hs Ho Hc Hp Hn HL HA) as (s' & R & X).
  exists s'. split; [now apply lsteps_running | exact X].
Qed.

(** A method that is one expression: the call leaves its value. *)
Lemma expression_method : forall P m e s arg,
  sane P -> me_locals (P m) = 0 -> me_ret (P m) = ROne -> me_code (P m) = ex_code e ++ [CRet] ->
  ex_names (P m) e ->
  (forall i, 0 <= i < me_args (P m) -> v_mem s (v_top s - me_args (P m) + i) = UVal (arg i)) ->
  exists s1 s', running P (push_calling P m (advance s)) s1 /\ at_ret P s1 /\
    do_ret P (advance s1) = Some s' /\
    v_mem s' (v_top s' - 1) = UVal (ex_value (fun _ => 0) arg e).
Proof.
  intros P m e s arg Hs Hl Hr Hc Hn HA.
  pose proof (Hs m) as (S1 & S2).
  destruct (expression_value P (fun _ => 0) arg e (push_calling P m (advance s)) [] [CRet] Hs)
    as (s1 & R & L & M & Pc & T & V & U).
  - unfold operands. cbn [push_calling advance with_pc v_top v_lp v_meth]. rewrite Hl. lia.
  - exact Hc.
  - reflexivity.
  - exact Hn.
  - cbn [push_calling advance with_pc v_top v_lp v_meth]. intros i Hi. lia.
  - cbn [push_calling advance with_pc v_top v_lp v_meth v_mem]. intros i Hi. unfold arg_addr.
    cbn [push_calling advance with_pc v_top v_lp v_meth v_mem].
    rewrite !upd_other by lia. rewrite <- HA by exact Hi. f_equal. lia.
  - cbn [push_calling advance with_pc v_top v_lp v_meth v_mem] in *. rewrite Hl in *.
    assert (A : at_ret P s1).
    { split.
      - unfold fetch. rewrite M, Pc, Hc. cbn [length Nat.add].
        rewrite nth_error_app2, Nat.sub_diag by lia. reflexivity.
      - unfold operands, ret_units. rewrite M, Hr, Hl, T, L. lia. }
    exists s1.
    destruct (call_returns P Hs s m s1 R A) as (s' & E). exists s'.
    destruct (call_restores P Hs s m s1 s' R A E) as (_ & _ & _ & T' & W & _).
    rewrite Hr in T'. split; [exact R|]. split; [exact A|]. split; [exact E|].
    replace (v_top s' - 1) with (v_top s - me_args (P m)) by lia.
    rewrite (W Hr). replace (v_top s1 - 1) with (v_top s + 3 + 0) by lia. exact V.
Qed.

Definition holds (P : program) (s : vm) (loc arg : Z -> Z) : Prop :=
  (forall i, 0 <= i < me_locals (P (v_meth s)) -> v_mem s (v_lp s + i) = UVal (loc i)) /\
  (forall i, 0 <= i < me_args (P (v_meth s)) -> v_mem s (arg_addr P s i) = UVal (arg i)).

Lemma sets_lsteps : forall P l loc arg s pre post,
  sane P -> 0 <= operands P s ->
  me_code (P (v_meth s)) = pre ++ concat (map set_code l) ++ post -> v_pc s = length pre ->
  Forall (set_names (P (v_meth s))) l -> holds P s loc arg ->
  exists s', lsteps P s s' /\ v_lp s' = v_lp s /\ v_meth s' = v_meth s /\
    v_pc s' = (length pre + length (concat (map set_code l)))%nat /\ v_top s' = v_top s /\
    holds P s' (fst (sets_value loc arg l)) (snd (sets_value loc arg l)) /\
    (forall a, a < v_lp s - 3 - me_args (P (v_meth s)) \/ v_lp s - 3 <= a < v_lp s \/
               v_lp s + me_locals (P (v_meth s)) <= a < v_top s -> v_mem s' a = v_mem s a).
Proof.
  intros P l. induction l as [|[t e] l IH]; intros loc arg s pre post Hs Ho Hc Hp Hn (HL & HA).
  - exists s. split; [apply ls_refl|]. cbn [map concat length sets_value fst snd].
    split; [reflexivity|]. split; [reflexivity|]. split; [lia|]. split; [reflexivity|].
    split; [split; assumption | reflexivity].
  - inversion Hn as [|? ? (Ht & He) Hn']; subst. cbn [fst snd] in Ht, He.
    pose proof (Hs (v_meth s)) as (S1 & S2). pose proof Ho as Ho'. unfold operands in Ho'.
    cbn [map concat] in Hc. unfold set_code at 1 in Hc. cbn [fst snd] in Hc.
    set (st := match t with TLocal i => CStoreL i | TArg i => CStoreA i end) in *.
    destruct (expression_lsteps P loc arg e s pre ([st] ++ concat (map set_code l) ++ post) Hs Ho)
      as (s1 & R1 & L1 & M1 & P1 & T1 & V1 & U1); auto.
    { rewrite Hc. now rewrite <- !app_assoc. }
    set (adr := match t with TLocal i => v_lp s + i | TArg i => arg_addr P s i end).
    set (s2 := Vm (upd (v_mem s1) adr (UVal (ex_value loc arg e))) (v_top s) (v_lp s1) (v_meth s1) (S (v_pc s1))).
    assert (Aa : adr < v_top s) by (unfold adr, arg_addr; destruct t; lia).
    assert (Step : lsteps P s1 s2).
    { eapply ls_step with (c := st); [| | |apply ls_refl].
      - unfold fetch. rewrite M1, Hc, P1.
        replace (pre ++ ((ex_code e ++ [st]) ++ concat (map set_code l)) ++ post)
          with ((pre ++ ex_code e) ++ st :: concat (map set_code l) ++ post) by (now rewrite <- !app_assoc).
        rewrite nth_error_app2 by (rewrite !app_length; lia).
        replace (length pre + length (ex_code e) - length (pre ++ ex_code e))%nat with 0%nat
          by (rewrite app_length; lia). reflexivity.
      - unfold st, operands. destruct t; cbn [in_frame]; unfold operands; rewrite M1, L1, T1; split; lia.
      - unfold s2, adr, st. destruct t; cbn [local_cmd advance with_pc v_mem v_top v_lp v_meth v_pc];
          unfold arg_addr; cbn [advance with_pc v_mem v_top v_lp v_meth v_pc];
          rewrite ?M1, L1, T1; replace (v_top s + 1 - 1) with (v_top s) by lia; rewrite V1; reflexivity. }
    assert (M2 : v_meth s2 = v_meth s) by exact M1.
    assert (L2 : v_lp s2 = v_lp s) by exact L1.
    set (loc' := match t with TLocal i => put loc i (ex_value loc arg e) | _ => loc end).
    set (arg' := match t with TArg i => put arg i (ex_value loc arg e) | _ => arg end).
    assert (Hh : holds P s2 loc' arg').
    { split; intros i Hi.
      - rewrite M2 in Hi. rewrite L2. unfold s2. cbn [v_mem]. unfold loc', adr, put.
        destruct t as [j|j].
        + destruct (Z.eqb_spec i j) as [->|N].
          * apply upd_same.
          * rewrite upd_other by lia. rewrite U1 by lia. now apply HL.
        + rewrite upd_other by (unfold arg_addr; lia). rewrite U1 by lia. now apply HL.
      - rewrite M2 in Hi. unfold arg_addr. rewrite L2, M2. unfold s2. cbn [v_mem]. unfold arg', adr, put, arg_addr.
        destruct t as [j|j].
        + rewrite upd_other by lia. rewrite U1 by lia. now apply HA.
        + destruct (Z.eqb_spec i j) as [->|N].
          * apply upd_same.
          * rewrite upd_other by lia. rewrite U1 by lia. now apply HA. }
    destruct (IH loc' arg' s2 (pre ++ ex_code e ++ [st]) post Hs) as (s3 & R3 & L3 & M3 & P3 & T3 & H3 & U3).
    { unfold operands. rewrite M2, L2. unfold s2. cbn [v_top]. exact Ho'. }
    { rewrite M2, Hc. now rewrite <- !app_assoc. }
    { unfold s2. cbn [v_pc]. rewrite P1, !app_length. cbn [length]. lia. }
    { rewrite M2. exact Hn'. }
    { exact Hh. }
    exists s3. split; [eapply lsteps_trans; [exact R1|]; eapply lsteps_trans; eassumption|].
    split; [congruence|]. split; [congruence|]. split.
    { rewrite P3. cbn [map concat]. unfold set_code at 2. cbn [fst snd].
      rewrite !app_length. cbn [length]. lia. }
    split; [exact T3|]. split.
    { replace (sets_value loc arg ((t, e) :: l)) with (sets_value loc' arg' l); [exact H3|].
      unfold loc', arg'. destruct t; reflexivity. }
    intros a Ha. rewrite U3.
    + unfold s2. cbn [v_mem]. rewrite upd_other by (unfold adr, arg_addr; destruct t; lia).
      apply U1. lia.
    + rewrite L2, M2. unfold s2. cbn [v_top]. exact Ha.
Qed.

Lemma assignments_run : forall P l loc arg s pre post,
  sane P -> 0 <= operands P s ->
  me_code (P (v_meth s)) = pre ++ concat (map set_code l) ++ post -> v_pc s = length pre ->
  Forall (set_names (P (v_meth s))) l ->
  (forall i, 0 <= i < me_locals (P (v_meth s)) -> v_mem s (v_lp s + i) = UVal (loc i)) ->
  (forall i, 0 <= i < me_args (P (v_meth s)) -> v_mem s (arg_addr P s i) = UVal (arg i)) ->
  exists s', running P s s' /\ v_top s' = v_top s /\
    (forall i, 0 <= i < me_locals (P (v_meth s)) ->
       v_mem s' (v_lp s + i) = UVal (fst (sets_value loc arg l) i)) /\
    (forall i, 0 <= i < me_args (P (v_meth s)) ->
       v_mem s' (arg_addr P s i) = UVal (snd (sets_value loc arg l) i)) /\
    (forall a, a < v_lp s - 3 - me_args (P (v_meth s)) -> v_mem s' a = v_mem s a).
Proof.
  intros P l loc arg s pre post Hs Ho Hc Hp Hn HL HA.
  destruct (sets_lsteps P l loc arg s pre post Hs Ho Hc Hp Hn (conj HL HA))
    as (s' & R & L & M & _ & T & (HL' & HA') & U).
  exists s'. split; [now apply lsteps_running|]. split; [exact T|]. split.
  - intros i Hi. rewrite <- L. apply HL'. now rewrite M.
  - split.
    + intros i Hi. replace (arg_addr P s i) with (arg_addr P s' i) by (unfold arg_addr; now rewrite L, M).
      apply HA'. now rewrite M.
    + intros a Ha. apply U. left. exact Ha.
Qed.
