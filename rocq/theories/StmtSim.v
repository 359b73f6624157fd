(** Simulation between source statements and the resolved bytecode. *)
From Coq Require Import List Bool Arith ZArith Lia Permutation Sorted.
From Verif Require Import StmtModel StmtSpec StmtProofs.
Import ListNotations.

Section Sim.
Context {St : Type}.
Notation stmt := (@stmt St).
Notation block := (@block St).
Notation cases := (@cases St).
Notation code := (@code St).
Notation instr := (@instr St).
Notation outcome := (@outcome St).
Notation vm := (@vm St).

(** *** Sizes and label positions *)

Lemma size_app (a b : code) : size_of (a ++ b) = size_of a + size_of b.
Proof. unfold size_of. rewrite filter_app, app_length. reflexivity. Qed.
Lemma size_cons (i : instr) (b : code) :
  size_of (i :: b) = (if is_label i then 0 else 1) + size_of b.
Proof. unfold size_of. cbn [filter]. destruct (is_label i); reflexivity. Qed.
Lemma size_one (i : instr) : size_of [i] = if is_label i then 0 else 1.
Proof. rewrite size_cons. destruct (is_label i); reflexivity. Qed.
Lemma size_nil : size_of (@nil instr) = 0.
Proof. reflexivity. Qed.

Lemma label_index_none (c : code) l : cnt l c = 0 -> label_index c l = None.
Proof.
  induction c as [|i c IH]; cbn [cnt label_index]; intro H; [reflexivity|].
  rewrite IH by lia. destruct i; auto. cbn [lab] in H. destruct (Nat.eqb l l0); [lia|auto].
Qed.
Lemma label_index_some (c : code) l : 1 <= cnt l c -> exists k, label_index c l = Some k.
Proof.
  induction c as [|i c IH]; cbn [cnt label_index]; intro H; [lia|].
  destruct (label_index c l) eqn:E; [eauto|].
  destruct (Nat.eq_dec (cnt l c) 0) as [Z|Z].
  - destruct i; cbn [lab] in H; try lia. destruct (Nat.eqb l l0); [eauto|lia].
  - destruct IH as [k Hk]; [lia|discriminate].
Qed.
Lemma label_index_at (pre post : code) l :
  cnt l (pre ++ ILabel l :: post) <= 1 ->
  label_index (pre ++ ILabel l :: post) l = Some (size_of pre).
Proof.
  induction pre as [|i pre IH]; cbn [app]; intro H.
  - cbn [cnt lab] in H. rewrite Nat.eqb_refl in H.
    cbn [label_index]. rewrite label_index_none by lia. rewrite Nat.eqb_refl. reflexivity.
  - cbn [cnt] in H. cbn [label_index]. rewrite IH by lia. rewrite size_cons.
    destruct (is_label i); reflexivity.
Qed.

(** *** Commit *)

Lemma resolve_rows_exists (p : code) at_ rows :
  (forall l, In l (map snd rows) -> 1 <= cnt l p) ->
  exists r, resolve_rows p at_ rows = Some r.
Proof.
  induction rows as [|[v l] rows IH]; cbn [resolve_rows map In]; intro H; [eauto|].
  destruct (label_index_some p l) as [k ->]; [apply H; auto|].
  destruct IH as [r ->]; [auto|]. eauto.
Qed.

Lemma commit_from_exists (p : code) c at_ :
  (forall l, uses l c -> 1 <= cnt l p) -> exists r, commit_from p at_ c = Some r.
Proof.
  revert at_. induction c as [|i c IH]; intros at_ H; cbn [commit_from]; [eauto|].
  assert (H' : forall l, uses l c -> 1 <= cnt l p)
    by (intros l U; apply H; apply uses_cons; auto).
  destruct (is_label i) eqn:E; [auto|].
  assert (Hr : exists x, resolve p at_ i = Some x).
  { destruct i; cbn [resolve]; eauto; try discriminate.
    - destruct (label_index_some p l) as [k ->]; [|eauto].
      apply H. apply uses_cons. left. reflexivity.
    - destruct (resolve_rows_exists p at_ rows) as [r ->].
      { intros l Hl. apply H. apply uses_cons. left. cbn [uses_i]. auto. }
      destruct (label_index_some p d) as [k ->]; [|eauto].
      apply H. apply uses_cons. left. cbn [uses_i]. auto. }
  destruct Hr as [x ->]. destruct (IH (S at_) H') as [r ->]. eauto.
Qed.

Lemma commit_from_nth (p : code) pre i post at_ C :
  commit_from p at_ (pre ++ i :: post) = Some C -> is_label i = false ->
  exists x, resolve p (at_ + size_of pre) i = Some x /\ nth_error C (size_of pre) = Some x.
Proof.
  revert at_ C. induction pre as [|j pre IH]; intros at_ C H L; cbn [app commit_from] in H.
  - rewrite L in H. rewrite size_nil, Nat.add_0_r.
    destruct (resolve p at_ i) as [x|]; [|discriminate].
    destruct (commit_from p (S at_) post) as [r|]; [|discriminate].
    injection H as <-. eauto.
  - rewrite size_cons. destruct (is_label j) eqn:E.
    + apply IH; auto.
    + destruct (resolve p at_ j) as [y|]; [|discriminate].
      destruct (commit_from p (S at_) (pre ++ i :: post)) as [r|] eqn:Er; [|discriminate].
      injection H as <-. destruct (IH _ _ Er L) as (x & Hx & Hn).
      exists x. cbn [Nat.add nth_error]. split; auto.
      rewrite <- Hx. f_equal. lia.
Qed.

(** *** Sorted rows and binary search *)

Fixpoint assoc {B} (v : Z) (rows : list (Z * B)) : option B :=
  match rows with
  | [] => None
  | (x, b) :: r => if Z.eqb v x then Some b else assoc v r
  end.

Definition keys {B} (rows : list (Z * B)) := map fst rows.

Lemma assoc_none {B} v (rows : list (Z * B)) : ~ In v (keys rows) -> assoc v rows = None.
Proof.
  induction rows as [|[x b] r IH]; cbn [assoc keys map In fst]; intro H; [reflexivity|].
  destruct (Z.eqb_spec v x); [subst; tauto|]. apply IH. tauto.
Qed.
Lemma assoc_in {B} v b (rows : list (Z * B)) :
  NoDup (keys rows) -> (assoc v rows = Some b <-> In (v, b) rows).
Proof.
  induction rows as [|[x b'] r IH]; cbn [assoc keys map In fst]; intro N.
  - split; [discriminate|tauto].
  - inversion N as [|? ? N1 N2]; subst. destruct (Z.eqb_spec v x) as [->|D].
    + split; [intro H; injection H as ->; auto|].
      intros [E|E]; [injection E as ->; reflexivity|].
      exfalso. apply N1. apply (in_map fst) in E. exact E.
    + rewrite (IH N2). split; [auto|]. intros [E|E]; [injection E as ? ?; congruence|auto].
Qed.
Lemma assoc_perm {B} v (a b : list (Z * B)) :
  NoDup (keys a) -> Permutation a b -> assoc v a = assoc v b.
Proof.
  intros N P.
  assert (N' : NoDup (keys b)) by (eapply Permutation_NoDup; [apply Permutation_map, P|exact N]).
  destruct (assoc v a) as [x|] eqn:Ea.
  - apply assoc_in in Ea; auto. symmetry. apply assoc_in; auto. eapply Permutation_in; eauto.
  - destruct (assoc v b) as [x|] eqn:Eb; [|reflexivity].
    apply assoc_in in Eb; auto. apply (Permutation_in _ (Permutation_sym P)) in Eb.
    apply (assoc_in v x a N) in Eb. congruence.
Qed.

Definition lt_key {B} (a b : Z * B) := (fst a < fst b)%Z.

Lemma insert_sorted (r : Z * nat) rows :
  StronglySorted lt_key rows -> ~ In (fst r) (keys rows) ->
  StronglySorted lt_key (insert_row r rows).
Proof.
  induction rows as [|h t IH]; cbn [insert_row]; intros S N; [repeat constructor|].
  inversion S as [|? ? S1 S2]; subst.
  cbn [keys map In] in N.
  destruct (Z.ltb_spec (fst r) (fst h)) as [L|L].
  - constructor; auto. constructor; auto.
    eapply Forall_impl; [|exact S2]. unfold lt_key. cbn beta. intros; lia.
  - constructor; [apply IH; auto|].
    apply Forall_forall. intros x Hx.
    apply (Permutation_in _ (insert_row_perm r t)) in Hx. destruct Hx as [<-|Hx].
    + unfold lt_key. assert (fst h <> fst r) by tauto. lia.
    + rewrite Forall_forall in S2. auto.
Qed.
Lemma sort_sorted rows : NoDup (keys rows) -> StronglySorted lt_key (sort_rows rows).
Proof.
  induction rows as [|r t IH]; cbn [keys map]; intro N; [constructor|].
  inversion N as [|? ? N1 N2]; subst. cbn [sort_rows fold_right]. fold (sort_rows t).
  apply insert_sorted; auto.
  intro H. apply N1.
  apply (Permutation_in _ (Permutation_map fst (sort_rows_perm t))). exact H.
Qed.

Lemma sorted_nth {B} (rows : list (Z * B)) i j a b :
  StronglySorted lt_key rows -> nth_error rows i = Some a -> nth_error rows j = Some b ->
  i < j -> (fst a < fst b)%Z.
Proof.
  intro S. revert i j. induction S as [|h t S IH F]; intros i j Ha Hb L.
  - destruct i; discriminate.
  - destruct j as [|j]; [lia|]. destruct i as [|i]; cbn [nth_error] in Ha, Hb.
    + injection Ha as <-. rewrite Forall_forall in F. apply F. eapply nth_error_In; eauto.
    + eapply IH; eauto; lia.
Qed.

Lemma binary_search_sound (rows : list (Z * Z)) v :
  StronglySorted lt_key rows ->
  forall fuel lo len, len < fuel -> lo + len <= length rows ->
  (forall i a, nth_error rows i = Some a -> i < lo -> (fst a < v)%Z) ->
  (forall i a, nth_error rows i = Some a -> lo + len <= i -> (v < fst a)%Z) ->
  exists r, binary_search fuel rows lo len v = Some r /\
    match r with
    | Some st => In (v, st) rows
    | None => ~ In v (keys rows)
    end.
Proof.
  intro S. induction fuel as [|fuel IH]; intros lo len Hf Hl B A; [lia|].
  cbn [binary_search]. destruct (Nat.eqb_spec len 0) as [->|Hn].
  - exists None. split; [reflexivity|].
    intro H. unfold keys in H. apply in_map_iff in H as (a & Ha & Hi).
    apply In_nth_error in Hi as [i Hi].
    destruct (Nat.lt_ge_cases i lo) as [L|L].
    + specialize (B i a Hi L). lia.
    + specialize (A i a Hi). lia.
  - assert (Hd : len / 2 < len) by (apply Nat.div_lt; lia).
    destruct (nth_error rows (lo + len / 2)) as [[x st]|] eqn:E.
    2:{ apply nth_error_None in E. lia. }
    destruct (Z.ltb_spec v x) as [L|L].
    + apply IH; [lia|lia|exact B|].
      intros i a Ha Hi. destruct (Nat.eq_dec i (lo + len / 2)) as [->|D].
      * rewrite E in Ha. injection Ha as <-. exact L.
      * assert ((x < fst a)%Z) by (apply (sorted_nth rows (lo + len / 2) i (x, st) a S E Ha); lia). lia.
    + destruct (Z.ltb_spec x v) as [L2|L2].
      * apply IH; [lia|lia| |].
        -- intros i a Ha Hi. destruct (Nat.eq_dec i (lo + len / 2)) as [->|D].
           ++ rewrite E in Ha. injection Ha as <-. exact L2.
           ++ assert ((fst a < x)%Z) by (apply (sorted_nth rows i (lo + len / 2) a (x, st) S Ha E); lia). lia.
        -- intros i a Ha Hi. apply (A i a Ha). lia.
      * exists (Some st). split; [reflexivity|].
        assert (x = v) by lia. subst. eapply nth_error_In; eauto.
Qed.

Lemma binary_search_assoc (rows : list (Z * Z)) v :
  StronglySorted lt_key rows ->
  binary_search (S (length rows)) rows 0 (length rows) v = Some (assoc v rows).
Proof.
  intro S.
  assert (N : NoDup (keys rows)).
  { clear v. induction S as [|h t S IH F]; cbn [keys map]; constructor; auto.
    intro H. apply in_map_iff in H as (a & Ha & Hi). rewrite Forall_forall in F.
    specialize (F a Hi). unfold lt_key in F. lia. }
  destruct (binary_search_sound rows v S (Datatypes.S (length rows)) 0 (length rows))
    as (r & -> & Hr); [lia|lia|intros; lia| |].
  - intros i a Ha Hi. apply nth_error_None in Hi. cbn [Nat.add] in *. congruence.
  - destruct r as [st|].
    + apply (assoc_in v st rows N) in Hr. rewrite Hr. reflexivity.
    + rewrite assoc_none; auto.
Qed.

Lemma resolve_rows_spec (p : code) at_ rows rows' :
  resolve_rows p at_ rows = Some rows' ->
  keys rows' = keys rows /\
  forall v, assoc v rows' = match assoc v rows with
            | Some l => match label_index p l with
                        | Some k => Some (Z.of_nat k - Z.of_nat at_)%Z
                        | None => None
                        end
            | None => None
            end.
Proof.
  revert rows'. induction rows as [|[x l] rows IH]; cbn [resolve_rows]; intros rows' H.
  - injection H as <-. split; reflexivity.
  - destruct (label_index p l) as [k|] eqn:E; [|discriminate].
    destruct (resolve_rows p at_ rows) as [r|] eqn:Er; [|discriminate].
    injection H as <-. destruct (IH r eq_refl) as [Hk Ha]. split.
    + cbn [keys map fst]. unfold keys in Hk. rewrite Hk. reflexivity.
    + intro v. cbn [assoc]. destruct (Z.eqb v x); [rewrite E; reflexivity|apply Ha].
Qed.

Lemma sorted_keys {A B} (a : list (Z * A)) (b : list (Z * B)) :
  keys a = keys b -> StronglySorted lt_key a -> StronglySorted lt_key b.
Proof.
  revert b. induction a as [|x a IH]; intros [|y b] H S; cbn [keys map] in H; try discriminate.
  - constructor.
  - injection H as H1 H2. inversion S as [|? ? S1 F]; subst. constructor; [apply IH; auto|].
    apply Forall_forall. intros z Hz. unfold lt_key. rewrite <- H1.
    assert (Hk : In (fst z) (keys a)) by (unfold keys; rewrite H2; apply in_map; exact Hz).
    apply in_map_iff in Hk as (w & Hw & Hi). rewrite Forall_forall in F.
    specialize (F w Hi). unfold lt_key in F. lia.
Qed.

(** *** Running *)

Lemma run_add C a b (x : vm) : run C (a + b) x = run C b (run C a x).
Proof. revert x. induction a as [|a IH]; intro x; cbn [Nat.add run]; auto. Qed.


(** *** When compiling keeps the meaning *)

Definition never_completes (s : stmt) : Prop :=
  forall n st st', exec true n s st <> Some (Completes st').
Definition never_completes_b (b : block) : Prop :=
  forall n st st', exec_block true n b st <> Some (Completes st').

(** The shapes of one-row switches for which the if translation is right. *)
Definition switch_if_ok (o : opts) (e : @sel St) (cs : cases) : Prop :=
  match cs with
  | CNil => True
  | CCons ls b CNil => ls <> []
  | CCons ls1 b1 (CCons ls2 b2 CNil) =>
    number_of_rows cs = 1 /\ ls1 <> [] /\ ls2 <> [] /\
    ((has_default ls1 = false /\ has_default ls2 = true /\
      (o_remove o = true -> (exists z, e = LConst z) -> never_completes_b b1)) \/
     (has_default ls1 = true /\ has_default ls2 = false /\
      never_completes_b b1 /\ never_completes_b b2))
  | _ => False
  end.

Fixpoint ok (o : opts) (s : stmt) : Prop :=
  match s with
  | SGroup b => ok_block o (o_remove o) b
  | SIf _ t e => ok o t /\ ok o e
  | SWhile _ b | SDo b _ | SUntil b _ | SFor _ _ _ b => ok o b
  | SSwitch e cs =>
    ok_cases o cs /\
    (o_switch_if o = true -> number_of_rows cs <= 1 -> switch_if_ok o e cs)
  | _ => True
  end
with ok_block (o : opts) (stop : bool) (b : block) : Prop :=
  match b with
  | BNil => True
  | BCons s r =>
    ok o s /\ ok_block o stop r /\
    (stop = true -> unreached (exit_type s) = true -> never_completes s)
  end
with ok_cases (o : opts) (cs : cases) : Prop :=
  match cs with CNil => True | CCons _ b r => ok_block o false b /\ ok_cases o r end.

(** *** One instruction *)

Section Fixed.
Variable P : code.
Variable C : list (@cmd St).
Hypothesis HC : commit P = Some C.
Hypothesis U : forall l, cnt l P <= 1.

Lemma label_pos pre l post : P = pre ++ ILabel l :: post -> label_index P l = Some (size_of pre).
Proof. intro E. rewrite E. apply label_index_at. rewrite <- E. apply U. Qed.

Lemma fetch pre i post : P = pre ++ i :: post -> is_label i = false ->
  exists x, resolve P (size_of pre) i = Some x /\ nth_error C (size_of pre) = Some x.
Proof.
  intros E L. unfold commit in HC. rewrite E in HC at 2.
  apply (commit_from_nth P pre i post 0 C HC L).
Qed.

Lemma jump_to pc k stk (s : St) : jump pc (Z.of_nat k - Z.of_nat pc)%Z stk s = Run k stk s.
Proof.
  unfold jump. destruct (Z.ltb_spec (Z.of_nat pc + 1 + (Z.of_nat k - Z.of_nat pc - 1)) 0); [lia|].
  f_equal. lia.
Qed.

Lemma do_act pre f post stk s : P = pre ++ IAct f :: post ->
  run C 1 (Run (size_of pre) stk s) = Run (S (size_of pre)) stk (f s).
Proof.
  intro E. destruct (fetch pre _ post E eq_refl) as (x & Hx & Hn).
  cbn [resolve] in Hx. injection Hx as <-. cbn [run vstep]. rewrite Hn. reflexivity.
Qed.
Lemma do_ret pre f post stk s : P = pre ++ IRet f :: post ->
  run C 1 (Run (size_of pre) stk s) = Ret (f s).
Proof.
  intro E. destruct (fetch pre _ post E eq_refl) as (x & Hx & Hn).
  cbn [resolve] in Hx. injection Hx as <-. cbn [run vstep]. rewrite Hn. reflexivity.
Qed.
Lemma do_throw pre f post stk s : P = pre ++ IThrow f :: post ->
  run C 1 (Run (size_of pre) stk s) = Thr (f s).
Proof.
  intro E. destruct (fetch pre _ post E eq_refl) as (x & Hx & Hn).
  cbn [resolve] in Hx. injection Hx as <-. cbn [run vstep]. rewrite Hn. reflexivity.
Qed.
Lemma do_jmp pre l post stk s k : P = pre ++ IJmp JAlways l :: post ->
  label_index P l = Some k ->
  run C 1 (Run (size_of pre) stk s) = Run k stk s.
Proof.
  intros E L. destruct (fetch pre _ post E eq_refl) as (x & Hx & Hn).
  cbn [resolve] in Hx. rewrite L in Hx. injection Hx as <-. cbn [run vstep]. rewrite Hn.
  apply jump_to.
Qed.
(* a condition followed by its jump *)
Lemma do_cond_false pre f l post stk s k :
  P = pre ++ ICond f :: IJmp JFalse l :: post -> label_index P l = Some k ->
  run C 2 (Run (size_of pre) stk s)
  = Run (if fst (f s) then S (S (size_of pre)) else k) stk (snd (f s)).
Proof.
  intros E L. destruct (fetch pre _ _ E eq_refl) as (x & Hx & Hn).
  assert (E2 : P = (pre ++ [ICond f]) ++ IJmp JFalse l :: post) by (rewrite <- app_assoc; exact E).
  destruct (fetch _ _ _ E2 eq_refl) as (y & Hy & Hm).
  rewrite size_app, size_cons in Hy, Hm. cbn [is_label] in Hy, Hm. rewrite size_nil in Hy, Hm.
  replace (size_of pre + (1 + 0)) with (S (size_of pre)) in Hy, Hm by lia.
  cbn [resolve] in Hx, Hy. rewrite L in Hy. injection Hx as <-. injection Hy as <-.
  cbn [run vstep]. rewrite Hn. destruct (f s) as [b s'] eqn:Ef. cbn [vstep fst snd]. rewrite Hm.
  destruct b; [reflexivity|]. rewrite <- jump_to with (pc := S (size_of pre)). reflexivity.
Qed.
Lemma do_cond_true pre f l post stk s k :
  P = pre ++ ICond f :: IJmp JTrue l :: post -> label_index P l = Some k ->
  run C 2 (Run (size_of pre) stk s)
  = Run (if fst (f s) then k else S (S (size_of pre))) stk (snd (f s)).
Proof.
  intros E L. destruct (fetch pre _ _ E eq_refl) as (x & Hx & Hn).
  assert (E2 : P = (pre ++ [ICond f]) ++ IJmp JTrue l :: post) by (rewrite <- app_assoc; exact E).
  destruct (fetch _ _ _ E2 eq_refl) as (y & Hy & Hm).
  rewrite size_app, size_cons in Hy, Hm. cbn [is_label] in Hy, Hm. rewrite size_nil in Hy, Hm.
  replace (size_of pre + (1 + 0)) with (S (size_of pre)) in Hy, Hm by lia.
  cbn [resolve] in Hx, Hy. rewrite L in Hy. injection Hx as <-. injection Hy as <-.
  cbn [run vstep]. rewrite Hn. destruct (f s) as [b s'] eqn:Ef. cbn [vstep fst snd]. rewrite Hm.
  destruct b; [|reflexivity]. rewrite <- jump_to with (pc := S (size_of pre)). reflexivity.
Qed.
(* a selector followed by its switch *)
Lemma do_switch pre f rows d post stk s kd :
  P = pre ++ ISel f :: ISwitch (sort_rows rows) d :: post ->
  NoDup (keys rows) -> label_index P d = Some kd ->
  run C 2 (Run (size_of pre) stk s)
  = Run (match assoc (fst (f s)) rows with
         | Some l => match label_index P l with Some k => k | None => kd end
         | None => kd
         end) stk (snd (f s)).
Proof.
  intros E N L. destruct (fetch pre _ _ E eq_refl) as (x & Hx & Hn).
  assert (E2 : P = (pre ++ [ISel f]) ++ ISwitch (sort_rows rows) d :: post)
    by (rewrite <- app_assoc; exact E).
  destruct (fetch _ _ _ E2 eq_refl) as (y & Hy & Hm).
  rewrite size_app, size_cons in Hy, Hm. cbn [is_label] in Hy, Hm. rewrite size_nil in Hy, Hm.
  replace (size_of pre + (1 + 0)) with (S (size_of pre)) in Hy, Hm by lia.
  cbn [resolve] in Hx, Hy. rewrite L in Hy.
  destruct (resolve_rows P (S (size_of pre)) (sort_rows rows)) as [rows'|] eqn:Er; [|discriminate].
  injection Hx as <-. injection Hy as <-.
  destruct (resolve_rows_spec _ _ _ _ Er) as [Hk Ha].
  cbn [run vstep]. rewrite Hn. destruct (f s) as [z s'] eqn:Ef. cbn [vstep fst snd]. rewrite Hm.
  rewrite binary_search_assoc.
  2:{ eapply sorted_keys; [symmetry; exact Hk|]. apply sort_sorted, N. }
  rewrite Ha.
  assert (Np : NoDup (keys (sort_rows rows))).
  { eapply Permutation_NoDup; [apply Permutation_map, Permutation_sym, sort_rows_perm|exact N]. }
  rewrite (assoc_perm z _ _ Np (sort_rows_perm rows)).
  destruct (assoc z rows) as [l|] eqn:El; [|apply jump_to].
  destruct (label_index P l) as [k|] eqn:Ek; [apply jump_to|].
  apply jump_to.
Qed.

(** *** The simulation relation *)

Definition sim (fuel : nat) (r : option outcome) (pc pce : nat) (bk ct : option nat)
    (stk : list sval) (st : St) : Prop :=
  match r with
  | Some (Completes s') => exists k, run C k (Run pc stk st) = Run pce stk s'
  | Some (Breaks s') => exists l t k, bk = Some l /\ label_index P l = Some t /\ 1 <= k /\
      run C k (Run pc stk st) = Run t stk s'
  | Some (Continues s') => exists l t k, ct = Some l /\ label_index P l = Some t /\ 1 <= k /\
      run C k (Run pc stk st) = Run t stk s'
  | Some (Returns s') => exists k, run C k (Run pc stk st) = Ret s'
  | Some (Throws s') => exists k, run C k (Run pc stk st) = Thr s'
  | None => exists k pc' stk' s', fuel <= k /\ run C k (Run pc stk st) = Run pc' stk' s'
  end.

Lemma sim_prefix fuel r pc pc1 pce bk ct stk st st1 k :
  run C k (Run pc stk st) = Run pc1 stk st1 ->
  sim fuel r pc1 pce bk ct stk st1 -> sim fuel r pc pce bk ct stk st.
Proof.
  intros H S. destruct r as [[s'|s'|s'|s'|s']|]; cbn [sim] in *.
  - destruct S as [k' Hk]. exists (k + k'). rewrite run_add, H. exact Hk.
  - destruct S as (l & t & k' & ? & ? & ? & Hk). exists l, t, (k + k').
    rewrite run_add, H. repeat split; auto; lia.
  - destruct S as (l & t & k' & ? & ? & ? & Hk). exists l, t, (k + k').
    rewrite run_add, H. repeat split; auto; lia.
  - destruct S as [k' Hk]. exists (k + k'). rewrite run_add, H. exact Hk.
  - destruct S as [k' Hk]. exists (k + k'). rewrite run_add, H. exact Hk.
  - destruct S as (k' & p & q & s' & ? & Hk). exists (k + k'), p, q, s'.
    rewrite run_add, H. split; auto; lia.
Qed.

Definition sim_then (r : option outcome) (next : St -> option outcome) : option outcome :=
  match r with Some (Completes s) => next s | o => o end.

Lemma sim_bind fuel r next pc pcm pce bk ct stk st :
  sim fuel r pc pcm bk ct stk st ->
  (forall s, r = Some (Completes s) -> sim fuel (next s) pcm pce bk ct stk s) ->
  sim fuel (sim_then r next) pc pce bk ct stk st.
Proof.
  intros S H. destruct r as [[s'|s'|s'|s'|s']|]; cbn [sim_then]; auto.
  destruct S as [k Hk]. eapply sim_prefix; [exact Hk|]. auto.
Qed.

(** Loops. *)
Lemma do_loop_sim fuel (body : St -> option outcome) (tst : St -> bool * St) pcl pct pcb bk ct lb lc :
  label_index P lb = Some pcb -> label_index P lc = Some pcl ->
  (forall st stk, sim fuel (body st) pcl pct (Some lb) (Some lc) stk st) ->
  (forall st stk, if fst (tst st)
     then exists k, 1 <= k /\ run C k (Run pct stk st) = Run pcl stk (snd (tst st))
     else exists k, run C k (Run pct stk st) = Run pcb stk (snd (tst st))) ->
  forall m stk st, m <= fuel ->
  sim m (do_loop true m body tst st) pcl pcb bk ct stk st.
Proof.
  intros Lb Lc Hb Ht. induction m as [|m IH]; intros stk st Hm; cbn [do_loop].
  - cbn [sim]. exists 0, pcl, stk, st. split; [lia|reflexivity].
  - specialize (Hb st stk). destruct (body st) as [[s1|s1|s1|s1|s1]|]; cbn [sim] in Hb.
    + destruct Hb as [k Hk]. specialize (Ht s1 stk). destruct (tst s1) as [b s2].
      cbn [fst snd] in Ht. destruct b.
      * destruct Ht as (k2 & Hk2 & Hr).
        assert (Hm' : m <= fuel) by lia. specialize (IH stk s2 Hm').
        assert (R : run C (k + k2) (Run pcl stk st) = Run pcl stk s2) by (rewrite run_add, Hk; auto).
        destruct (do_loop true m body tst s2) as [oo|] eqn:El;
          [eapply sim_prefix in IH; [exact IH|exact R]|].
        cbn [sim] in *. destruct IH as (k3 & p & q & s' & Hle & H3).
        exists (k + k2 + k3), p, q, s'. split; [lia|]. rewrite run_add, R. exact H3.
      * destruct Ht as [k2 Hr]. exists (k + k2). rewrite run_add, Hk. exact Hr.
    + destruct Hb as (l & t & k & El & Et & _ & Hk). injection El as <-.
      rewrite Lb in Et. injection Et as <-. exists k. exact Hk.
    + destruct Hb as (l & t & k & El & Et & Hk1 & Hk). injection El as <-.
      rewrite Lc in Et. injection Et as <-.
      assert (Hm' : m <= fuel) by lia. specialize (IH stk s1 Hm').
      destruct (do_loop true m body tst s1) as [oo|] eqn:El2;
        [eapply sim_prefix in IH; [exact IH|exact Hk]|].
      cbn [sim] in *. destruct IH as (k3 & p & q & s' & Hle & H3).
      exists (k + k3), p, q, s'. split; [lia|]. rewrite run_add, Hk. exact H3.
    + exact Hb.
    + exact Hb.
    + destruct Hb as (k & p & q & s' & Hle & Hk). exists k, p, q, s'. split; [lia|exact Hk].
Qed.

Lemma while_loop_sim fuel (body : St -> option outcome) (tst : St -> bool * St) (next : St -> St) pcc pch pcs pct pcb bk ct lb lc :
  label_index P lb = Some pcb -> label_index P lc = Some pcc ->
  (forall st stk, sim fuel (body st) pcs pct (Some lb) (Some lc) stk st) ->
  (forall st stk, exists k,
     run C k (Run pch stk st) = Run (if fst (tst st) then pcs else pcb) stk (snd (tst st))) ->
  (forall st stk, run C 1 (Run pct stk st) = Run pcc stk st) ->
  (forall st stk, exists k, run C k (Run pcc stk st) = Run pch stk (next st)) ->
  forall m stk st, m <= fuel ->
  sim m (while_loop m tst body next st) pch pcb bk ct stk st.
Proof.
  intros Lb Lc Hb Ht Hj Hn. induction m as [|m IH]; intros stk st Hm; cbn [while_loop].
  - cbn [sim]. exists 0, pch, stk, st. split; [lia|reflexivity].
  - destruct (Ht st stk) as [kt Hkt]. destruct (tst st) as [b s1]. cbn [fst snd] in Hkt.
    destruct b; [|cbn [sim]; exists kt; exact Hkt].
    specialize (Hb s1 stk).
    assert (Step : forall s2 k, 1 <= k -> run C k (Run pcs stk s1) = Run pcc stk s2 ->
      sim (S m) (while_loop m tst body next (next s2)) pch pcb bk ct stk st).
    { intros s2 k Hk1 Hk. destruct (Hn s2 stk) as [kn Hkn].
      assert (R : run C (kt + (k + kn)) (Run pch stk st) = Run pch stk (next s2)).
      { rewrite run_add, Hkt, run_add, Hk. exact Hkn. }
      assert (Hm' : m <= fuel) by lia. specialize (IH stk (next s2) Hm').
      destruct (while_loop m tst body next (next s2)) as [oo|] eqn:El;
        [eapply sim_prefix in IH; [exact IH|exact R]|].
      cbn [sim] in *. destruct IH as (k3 & p & q & s' & Hle & H3).
      exists (kt + (k + kn) + k3), p, q, s'. split; [lia|]. rewrite run_add, R. exact H3. }
    destruct (body s1) as [[s2|s2|s2|s2|s2]|]; cbn [sim] in Hb.
    + destruct Hb as [k Hk]. apply (Step s2 (k + 1)); [lia|]. rewrite run_add, Hk. apply Hj.
    + destruct Hb as (l & t & k & El & Et & _ & Hk). injection El as <-.
      rewrite Lb in Et. injection Et as <-. exists (kt + k). rewrite run_add, Hkt. exact Hk.
    + destruct Hb as (l & t & k & El & Et & Hk1 & Hk). injection El as <-.
      rewrite Lc in Et. injection Et as <-. apply (Step s2 k); auto.
    + destruct Hb as [k Hk]. exists (kt + k). rewrite run_add, Hkt. exact Hk.
    + destruct Hb as [k Hk]. exists (kt + k). rewrite run_add, Hkt. exact Hk.
    + destruct Hb as (k & p & q & s' & Hle & Hk). exists (kt + k), p, q, s'.
      split; [lia|]. rewrite run_add, Hkt. exact Hk.
Qed.

End Fixed.
End Sim.
