(* Lemmas about the tables of MetaModel.v: what the writer leaves in them. *)
From Coq Require Import ZArith NArith List Bool Lia Permutation.
From Verif Require Import MetaModel MetaSpec.
Import ListNotations.
Local Open Scope nat_scope.

(* ---- equality of keys ---- *)

Scheme ty_mut := Induction for ty Sort Prop
  with targs_mut := Induction for targs Sort Prop.
Combined Scheme ty_targs_ind from ty_mut, targs_mut.

Lemma tab_eqb_eq a b : tab_eqb a b = true <-> a = b.
Proof. destruct a, b; cbn; split; congruence. Qed.

Lemma tab_eqb_refl a : tab_eqb a a = true.
Proof. destruct a; reflexivity. Qed.

Lemma gref_eqb_eq a b : gref_eqb a b = true <-> a = b.
Proof.
  destruct a, b; cbn; try (split; congruence).
  all: rewrite Nat.eqb_eq; split; congruence.
Qed.

Lemma ty_eqb_both :
  (forall a b, ty_eqb a b = true <-> a = b) /\
  (forall a b, targs_eqb a b = true <-> a = b).
Proof.
  apply ty_targs_ind.
  - intros []; cbn; split; congruence.
  - intros g []; cbn; try (split; congruence). rewrite gref_eqb_eq. split; congruence.
  - intros g a IHa h IHh []; cbn; try (split; congruence).
    rewrite !andb_true_iff, gref_eqb_eq, IHa, IHh.
    split; [intros [[-> ->] ->]; reflexivity | intros E; injection E as -> -> ->; auto].
  - intros e IHe d []; cbn; try (split; congruence).
    rewrite andb_true_iff, IHe, Z.eqb_eq.
    split; [intros [-> ->]; reflexivity | intros E; injection E as -> ->; auto].
  - intros p []; cbn; try (split; congruence). rewrite Nat.eqb_eq. split; congruence.
  - intros []; cbn; split; congruence.
  - intros t IHt m a IHa []; cbn; try (split; congruence).
    rewrite !andb_true_iff, IHt, IHa, Z.eqb_eq.
    split; [intros [[-> ->] ->]; reflexivity | intros E; injection E as -> -> ->; auto].
Qed.

Lemma key_eqb_eq a b : key_eqb a b = true <-> a = b.
Proof.
  destruct a, b; cbn; try (split; congruence).
  - rewrite Nat.eqb_eq. split; congruence.
  - rewrite andb_true_iff, Z.eqb_eq. rewrite (proj1 ty_eqb_both).
    split; [intros [-> ->]; reflexivity | intros E; injection E as -> ->; auto].
Qed.

(* ---- keys of tables ---- *)

Definition keys (T : tables) (k : tab) : list (option key) := map en_key (T k).

Definition at_ (T : tables) (k : tab) (i : nat) (e : key) : Prop :=
  nth_error (keys T k) i = Some (Some e).

Definition grows (T T' : tables) : Prop :=
  forall k, exists l, keys T' k = keys T k ++ l.

Lemma grows_refl T : grows T T.
Proof. intros k. exists []. now rewrite app_nil_r. Qed.

Lemma grows_trans T U V : grows T U -> grows U V -> grows T V.
Proof.
  intros G H k. destruct (G k) as [l E], (H k) as [m F]. exists (l ++ m).
  rewrite F, E. now rewrite app_assoc.
Qed.

Lemma at_grows T U k i e : grows T U -> at_ T k i e -> at_ U k i e.
Proof.
  unfold at_. intros G H. destruct (G k) as [l E]. rewrite E.
  rewrite nth_error_app1; [exact H|]. apply nth_error_Some. congruence.
Qed.

Lemma at_lt T k i e : at_ T k i e -> i < length (T k).
Proof.
  unfold at_, keys. intros H.
  assert (i < length (map en_key (T k))) by (apply nth_error_Some; congruence).
  now rewrite map_length in H0.
Qed.

Lemma search_from_some l : forall i e j,
  search_from i l e = Some j -> i <= j /\ nth_error (map en_key l) (j - i) = Some (Some e).
Proof.
  induction l as [|x l IH]; intros i e j E; [discriminate E|].
  cbn [search_from] in E. destruct (search_from (S i) l e) as [j'|] eqn:F.
  - injection E as <-. destruct (IH _ _ _ F) as [L N]. split; [lia|].
    replace (j' - i) with (S (j' - S i)) by lia. exact N.
  - destruct (entry_is e x) eqn:G; [|discriminate E]. injection E as <-.
    split; [lia|]. rewrite Nat.sub_diag. cbn. f_equal.
    unfold entry_is in G. destruct (en_key x); [|discriminate G].
    apply key_eqb_eq in G. now subst.
Qed.

Lemma search_from_none l : forall i e,
  search_from i l e = None -> forall j, nth_error (map en_key l) j <> Some (Some e).
Proof.
  induction l as [|x l IH]; intros i e E j; [destruct j; discriminate|].
  cbn [search_from] in E. destruct (search_from (S i) l e) as [j'|] eqn:F; [discriminate E|].
  destruct (entry_is e x) eqn:G; [discriminate E|].
  destruct j as [|j]; cbn.
  - intros H. injection H as H. unfold entry_is in G. rewrite H in G.
    assert (key_eqb e e = true) by now apply key_eqb_eq. congruence.
  - exact (IH _ _ F j).
Qed.

Lemma search_some s k e i : search s k e = Some i -> at_ (s_tabs s) k i e.
Proof.
  unfold search, at_, keys. intros H. apply search_from_some in H. destruct H as [_ H].
  now rewrite Nat.sub_0_r in H.
Qed.

Lemma search_none s k e i : search s k e = None -> ~ at_ (s_tabs s) k i e.
Proof. unfold search, at_, keys. intros H. exact (search_from_none _ _ _ H i). Qed.

Lemma search_at s k e i : at_ (s_tabs s) k i e -> exists j, search s k e = Some j.
Proof.
  intros H. destruct (search s k e) as [j|] eqn:F; [now exists j|].
  exfalso. exact (search_none _ _ _ _ F H).
Qed.

(* ---- what a row says ---- *)

Definition denotes (T : tables) (t : ty) (r : ref) : Prop :=
  match t with
  | NoType => r = null
  | General (Own n) => exists i, r = mkref i 1 (extra TType) /\ at_ T TType i (KId n)
  | General (Other n) => exists i, r = mkref i 1 (extra TTypeRef) /\ at_ T TTypeRef i (KId n)
  | Instance _ _ _ => exists i, r = mkref i 1 (extra TInstance) /\ at_ T TInstance i (KTy t 0)
  | Array _ _ => exists i, r = mkref i 1 (extra TArray) /\ at_ T TArray i (KTy t 0)
  | Param p => exists i, r = mkref i 1 (extra TGparam) /\ at_ T TGparam i (KId p)
  end.

Definition row_run (T : tables) (k : tab) (es : list key) (r : ref) : Prop :=
  (es = [] /\ r_count r = 0%N) \/
  (es <> [] /\ exists i, r = mkref i (length es) (extra k) /\
     forall j e, nth_error es j = Some e -> at_ T k (i + j) e).

Definition says (T : tables) (i : item) (c : list cell) : Prop :=
  match i with
  | IVal v => c = [CVal v]
  | IType t | INeed t => exists r, c = [CRef r] /\ denotes T t r
  | ITouch _ => c = []
  | IMethod None => c = [CRef null]
  | IMethod (Some m) =>
      exists i, c = [CRef (mkref i 1 (extra TMethod))] /\ at_ T TMethod i (KId m)
  | IMany k es => exists r, c = [CRef r] /\ row_run T k es r
  end.

Inductive says_all (T : tables) : list item -> list cell -> Prop :=
| says_nil : says_all T [] []
| says_cons i l c row : says T i c -> says_all T l row -> says_all T (i :: l) (c ++ row).

Lemma denotes_grows T U t r : grows T U -> denotes T t r -> denotes U t r.
Proof.
  intros G. destruct t as [|[n|n]|g a h|e d|p]; cbn; auto.
  all: intros [i [E H]]; exists i; split; [exact E|]; eapply at_grows; eassumption.
Qed.

Lemma says_grows T U i c : grows T U -> says T i c -> says U i c.
Proof.
  intros G. destruct i as [v|t|t|t|[m|]|k es]; cbn [says]; auto.
  - intros [r [E H]]. exists r. split; [exact E|]. eapply denotes_grows; eassumption.
  - intros [r [E H]]. exists r. split; [exact E|]. eapply denotes_grows; eassumption.
  - intros [i [E H]]. exists i. split; [exact E|]. eapply at_grows; eassumption.
  - intros [r [E [H|[N [i [F H]]]]]]; exists r; (split; [exact E|]); [now left|right].
    split; [exact N|]. exists i. split; [exact F|].
    intros j e J. eapply at_grows; [exact G|]. now apply H.
Qed.

Lemma says_all_grows T U l row : grows T U -> says_all T l row -> says_all U l row.
Proof.
  intros G S. induction S as [|i l c row A B IH]; constructor; auto.
  eapply says_grows; eassumption.
Qed.

(* ---- what is ready to be written ---- *)

Section Writing.
Variables (A : assembly) (X : list xtype).

Definition ready (known : nat -> Prop) (k : tab) (e : key) : Prop :=
  match k, e with
  | TType, KId n => n < length (w_types A)
  | TTypeRef, KId n => n < length X
  | TInstance, KTy t m => m = 0%Z /\ (exists g a h, t = Instance g a h) /\ good_ty A X known t
  | TArray, KTy t m => m = 0%Z /\ (exists u d, t = Array u d) /\ good_ty A X known t
  | TArg, KTy t _ => good_ty A X known t
  | TSuper, KTy t m => m = 0%Z /\ good_ty A X known t
  | TNested, KTy t m => m = 0%Z /\ exists n, t = General (Own n) /\ n < length (w_types A)
  | TField, KId n => n < length (w_fields A)
  | TMethod, KId n => n < length (w_methods A)
  | TProp, KId n => n < length (w_props A)
  | TEvent, KId n => n < length (w_events A)
  | TGparam, KId n => n < length (w_gparams A)
  | TParam, KId n => good_param A X known n
  | TAssembly, KId _ => True
  | _, _ => False
  end.

Lemma good_ty_weaken (P Q : nat -> Prop) : (forall p, P p -> Q p) ->
  (forall t, good_ty A X P t -> good_ty A X Q t) /\
  (forall a, good_targs A X P a -> good_targs A X Q a).
Proof.
  intros W. apply ty_targs_ind; cbn [good_ty good_targs]; try tauto; auto.
Qed.

Lemma ready_weaken (P Q : nat -> Prop) k e :
  (forall p, P p -> Q p) -> ready P k e -> ready Q k e.
Proof.
  intros W. destruct k, e; cbn [ready]; try tauto.
  - intros (Z0 & E & H). split; [exact Z0|]. split; [exact E|].
    exact (proj1 (good_ty_weaken _ _ W) _ H).
  - intros (Z0 & E & H). split; [exact Z0|]. split; [exact E|].
    exact (proj1 (good_ty_weaken _ _ W) _ H).
  - apply (proj1 (good_ty_weaken _ _ W)).
  - intros [Z0 H]. split; [exact Z0|]. exact (proj1 (good_ty_weaken _ _ W) _ H).
  - intros [p [N [E H]]]. exists p. split; [exact N|]. split; [exact E|].
    exact (proj1 (good_ty_weaken _ _ W) _ H).
Qed.

Definition knownT (T : tables) (p : nat) : Prop := exists i, at_ T TGparam i (KId p).

Lemma knownT_grows T U p : grows T U -> knownT T p -> knownT U p.
Proof. intros G [i H]. exists i. eapply at_grows; eassumption. Qed.

(* Params of types count as known from the beginning: their rows are made
   before anything looks for them. *)
Definition knownB (T : tables) (p : nat) : Prop := type_param A p \/ knownT T p.

Lemma knownB_grows T U p : grows T U -> knownB T p -> knownB U p.
Proof. intros G [H|H]; [now left|right]. eapply knownT_grows; eassumption. Qed.

Definition good_item (known : nat -> Prop) (i : item) : Prop :=
  match i with
  | IVal _ => True
  | IType t => good_ty A X known t
  | INeed t => t <> NoType /\ good_ty A X known t
  | ITouch t => good_ty A X known t
  | IMethod (Some m) => In m (listed A t_methods)
  | IMethod None => True
  | IMany k es => short es /\ forall e, In e es -> ready known k e
  end.

Definition now_known (known : nat -> Prop) (i : item) : nat -> Prop :=
  fun p => known p \/ match i with IMany TGparam es => In (KId p) es | _ => False end.

Fixpoint good_items (known : nat -> Prop) (l : list item) : Prop :=
  match l with
  | [] => True
  | i :: l' => good_item known i /\ good_items (now_known known i) l'
  end.

(* ---- the state while writing ---- *)

Record inv (cur : list (tab * nat * key)) (s : state) : Prop := {
  v_entry : forall k i x, nth_error (s_tabs s k) i = Some x ->
    exists e, en_key x = Some e /\ ready (knownB (s_tabs s)) k e /\
    match en_row x with
    | Some row => exists l, describe A X k e = Some l /\ says_all (s_tabs s) l row
    | None => In (k, i, e) (cur ++ s_queue s)
    end;
  v_queue : forall k i e, In (k, i, e) (cur ++ s_queue s) -> at_ (s_tabs s) k i e }.

(* The tables all types are in *)
Definition all_types (T : tables) : Prop :=
  keys T TType = map (fun n => Some (KId n)) (seq 0 (length (w_types A))).

Definition all_methods (T : tables) : Prop :=
  forall n, In n (listed A t_methods) -> exists i, at_ T TMethod i (KId n).

Lemma all_types_at T n : all_types T -> n < length (w_types A) -> at_ T TType n (KId n).
Proof.
  unfold all_types, at_. intros E L. rewrite E.
  rewrite nth_error_map. rewrite (nth_error_nth' _ 0) by (rewrite seq_length; exact L).
  cbn. rewrite seq_nth by exact L. reflexivity.
Qed.

Definition qkeys (k : tab) (q : list (tab * nat * key)) : list key :=
  map snd (filter (fun x => tab_eqb (fst (fst x)) k) q).

Definition added (k : tab) (l : list item) : list key :=
  flat_map (fun i => match i with
                     | IMany k' es => if tab_eqb k' k then es else []
                     | _ => [] end) l.

Definition typed (k : tab) : bool :=
  match k with TTypeRef | TInstance | TArray => true | _ => false end.

Lemma qkeys_app k a b : qkeys k (a ++ b) = qkeys k a ++ qkeys k b.
Proof. unfold qkeys. now rewrite filter_app, map_app. Qed.

Lemma put_same T k l : put_tab T k l k = l.
Proof. unfold put_tab. now rewrite tab_eqb_refl. Qed.

Lemma put_other T k l k' : k' <> k -> put_tab T k l k' = T k'.
Proof.
  intros N. unfold put_tab. destruct (tab_eqb k' k) eqn:E; [|reflexivity].
  apply tab_eqb_eq in E. contradiction.
Qed.

Lemma tab_dec (a b : tab) : a = b \/ a <> b.
Proof.
  destruct (tab_eqb a b) eqn:E; [left; now apply tab_eqb_eq|right].
  intros ->. rewrite tab_eqb_refl in E. discriminate.
Qed.

(* Making rows for things that are ready keeps the state in order. *)
Definition adds (s : state) (k : tab) (es : list key) : state :=
  State (put_tab (s_tabs s) k (s_tabs s k ++ map (fun e => Entry (Some e) None) es))
        (s_queue s ++ map (fun p => (k, length (s_tabs s k) + fst p, snd p))
                          (combine (seq 0 (length es)) es)).

Lemma keys_adds s k es k' :
  keys (s_tabs (adds s k es)) k' =
  keys (s_tabs s) k' ++ (if tab_eqb k k' then map Some es else []).
Proof.
  unfold keys, adds; cbn [s_tabs]. destruct (tab_dec k k') as [->|N].
  - rewrite put_same, tab_eqb_refl, map_app, map_map. reflexivity.
  - rewrite put_other by congruence. destruct (tab_eqb k k') eqn:E.
    + apply tab_eqb_eq in E. contradiction.
    + now rewrite app_nil_r.
Qed.

Lemma grows_adds s k es : grows (s_tabs s) (s_tabs (adds s k es)).
Proof. intros k'. eexists. apply keys_adds. Qed.

Lemma at_adds s k es j e : nth_error es j = Some e ->
  at_ (s_tabs (adds s k es)) k (length (s_tabs s k) + j) e.
Proof.
  intros H. unfold at_. rewrite keys_adds, tab_eqb_refl.
  rewrite nth_error_app2; unfold keys; rewrite map_length; [|lia].
  replace (length (s_tabs s k) + j - length (s_tabs s k)) with j by lia.
  now apply map_nth_error.
Qed.

Lemma in_combine_seq {B} (es : list B) : forall n j e,
  In (j, e) (combine (seq n (length es)) es) <-> n <= j /\ nth_error es (j - n) = Some e.
Proof.
  induction es as [|x es IH]; intros n j e; cbn [length seq combine].
  - split; [intros []|intros [_ H]]. destruct (j - n); discriminate.
  - cbn [In]. rewrite IH. split.
    + intros [E|[L H]].
      * injection E as <- <-. split; [lia|]. now rewrite Nat.sub_diag.
      * split; [lia|]. replace (j - n) with (S (j - S n)) by lia. exact H.
    + intros [L H]. destruct (j - n) as [|m] eqn:F.
      * left. cbn in H. injection H as ->. f_equal. lia.
      * right. split; [lia|]. cbn in H. now replace (j - S n) with m by lia.
Qed.

Lemma inv_adds cur s k es :
  inv cur s ->
  (forall e, In e es -> ready (knownB (s_tabs (adds s k es))) k e) ->
  inv cur (adds s k es).
Proof.
  intros [VE VQ] R. pose proof (grows_adds s k es) as G.
  assert (W : forall p, knownB (s_tabs s) p -> knownB (s_tabs (adds s k es)) p)
    by (intros p; now apply knownB_grows).
  constructor.
  - intros k' i x H.
    assert (O : nth_error (s_tabs s k') i = Some x \/
                (k' = k /\ exists j e, i = length (s_tabs s k) + j /\
                   nth_error es j = Some e /\ x = Entry (Some e) None)).
    { unfold adds in H; cbn [s_tabs] in H. destruct (tab_dec k' k) as [->|N].
      - rewrite put_same in H. destruct (Nat.ltb_spec i (length (s_tabs s k))) as [L|L].
        + rewrite nth_error_app1 in H by exact L. now left.
        + right. split; [reflexivity|]. rewrite nth_error_app2 in H by exact L.
          exists (i - length (s_tabs s k)). rewrite nth_error_map in H.
          destruct (nth_error es (i - length (s_tabs s k))) as [e|] eqn:E; [|discriminate H].
          cbn in H. injection H as <-. exists e. split; [lia|]. auto.
      - rewrite put_other in H by exact N. now left. }
    destruct O as [O|[-> (j & e & -> & E & ->)]].
    + destruct (VE _ _ _ O) as (e & K & Rd & M). exists e. split; [exact K|].
      split; [eapply ready_weaken; eassumption|].
      destruct (en_row x) as [row|].
      * destruct M as [l [D S]]. exists l. split; [exact D|]. eapply says_all_grows; eassumption.
      * unfold adds; cbn [s_queue]. rewrite app_assoc. apply in_or_app. now left.
    + exists e. split; [reflexivity|]. split; [apply R; eapply nth_error_In; exact E|].
      cbn [en_row]. unfold adds; cbn [s_queue]. apply in_or_app. right. apply in_or_app. right.
      apply in_map_iff. exists (j, e). split; [reflexivity|].
      apply in_combine_seq. split; [lia|]. now rewrite Nat.sub_0_r.
  - intros k' i e H. unfold adds in H at 1; cbn [s_queue] in H. rewrite app_assoc in H.
    apply in_app_or in H. destruct H as [H|H].
    + eapply at_grows; [exact G|]. now apply VQ.
    + apply in_map_iff in H. destruct H as [[j e'] [E H]]. cbn in E. injection E as <- <- <-.
      apply in_combine_seq in H. destruct H as [_ H]. rewrite Nat.sub_0_r in H.
      now apply at_adds.
Qed.

Lemma qkeys_adds s k es k' :
  qkeys k' (s_queue (adds s k es)) =
  qkeys k' (s_queue s) ++ (if tab_eqb k k' then es else []).
Proof.
  unfold adds; cbn [s_queue]. rewrite qkeys_app. f_equal.
  unfold qkeys. generalize (length (s_tabs s k)) as n. intros n. generalize 0 as m.
  induction es as [|x es IH]; intros m; cbn [length seq combine map filter].
  - now destruct (tab_eqb k k').
  - cbn [fst snd]. specialize (IH (S m)). destruct (tab_eqb k k'); cbn [map snd];
      now rewrite IH.
Qed.

Lemma append_adds s k e :
  append s k e = (mkref (length (s_tabs s k)) 1 (extra k), adds s k [e]).
Proof.
  unfold append, adds. cbn [length seq combine map fst snd]. now rewrite Nat.add_0_r.
Qed.

Lemma acquire_adds s k es : es <> [] -> short es ->
  acquire s k es = (mkref (length (s_tabs s k)) (length es) (extra k), adds s k es).
Proof.
  intros N S. unfold acquire. destruct es as [|e es]; [contradiction|].
  assert (E : N.to_nat (N.of_nat (length (e :: es)) mod 512) = length (e :: es)).
  { rewrite N.mod_small by exact S. now rewrite Nat2N.id. }
  cbv zeta. rewrite E. rewrite firstn_all, skipn_all. cbn [map]. rewrite app_nil_r.
  reflexivity.
Qed.

(* ---- how many turns a queue can take ---- *)

Definition gcost (g : gref) : nat := match g with Own _ => 0 | Other e => S e end.

Fixpoint tcost (t : ty) : nat :=
  match t with
  | NoType => 0
  | General g => gcost g
  | Instance g a h => 1 + gcost g + acost a + tcost h
  | Array e _ => 1 + tcost e
  | Param _ => 0
  end
with acost (a : targs) : nat :=
  match a with ANil => 0 | ACons t _ a' => 1 + tcost t + acost a' end.

Definition sum (l : list nat) : nat := fold_right Nat.add 0 l.

Definition icost (c : tab -> key -> nat) (i : item) : nat :=
  match i with
  | IType t | INeed t | ITouch t => tcost t
  | IMany k es => sum (map (c k) es)
  | _ => 0
  end.

Definition dcost (c : tab -> key -> nat) (k : tab) (e : key) : nat :=
  1 + match describe A X k e with Some l => sum (map (icost c) l) | None => 0 end.

Definition kcost0 (k : tab) (e : key) : nat :=
  match k, e with
  | TTypeRef, KId n => S n
  | TInstance, KTy t _ | TArray, KTy t _ => tcost t
  | TArg, KTy t _ | TSuper, KTy t _ | TNested, KTy t _ => 1 + tcost t
  | _, _ => 0
  end.

Definition kcost1 (k : tab) (e : key) : nat :=
  match k with
  | TField | TEvent | TGparam | TParam | TAssembly => dcost kcost0 k e
  | _ => kcost0 k e
  end.

Definition kcost (k : tab) (e : key) : nat :=
  match k with
  | TMethod | TProp => dcost kcost1 k e
  | _ => kcost1 k e
  end.

Definition total (q : list (tab * nat * key)) : nat :=
  sum (map (fun x => kcost (fst (fst x)) (snd x)) q).

Lemma sum_app a b : sum (a ++ b) = sum a + sum b.
Proof. unfold sum. induction a as [|x a IH]; cbn; [reflexivity|]. rewrite IH. lia. Qed.

Lemma total_app a b : total (a ++ b) = total a + total b.
Proof. unfold total. now rewrite map_app, sum_app. Qed.

Lemma total_adds s k es :
  total (s_queue (adds s k es)) = total (s_queue s) + sum (map (kcost k) es).
Proof.
  unfold adds; cbn [s_queue]. rewrite total_app. f_equal.
  generalize (length (s_tabs s k)) as n. intros n. generalize 0 as m.
  induction es as [|x es IH]; intros m; [reflexivity|].
  cbn [length seq combine map]. unfold total in *. cbn [map sum fold_right fst snd].
  specialize (IH (S m)). unfold sum in IH. rewrite IH. reflexivity.
Qed.

Definition steady (s s' : state) (new : tab -> list key) : Prop :=
  forall k, typed k = false ->
    keys (s_tabs s') k = keys (s_tabs s) k ++ map Some (new k) /\
    qkeys k (s_queue s') = qkeys k (s_queue s) ++ new k.

Lemma steady_refl s : steady s s (fun _ => []).
Proof. intros k _. cbn. now rewrite !app_nil_r. Qed.

Lemma steady_trans s t u f g : steady s t f -> steady t u g ->
  steady s u (fun k => f k ++ g k).
Proof.
  intros F G k K. destruct (F k K) as [F1 F2], (G k K) as [G1 G2].
  rewrite G1, F1, G2, F2, map_app, !app_assoc. auto.
Qed.

Lemma steady_adds s k es :
  steady s (adds s k es) (fun k' => if tab_eqb k k' then es else []).
Proof.
  intros k' _. rewrite keys_adds, qkeys_adds. now destruct (tab_eqb k k').
Qed.

Lemma steady_typed s k es : typed k = true -> steady s (adds s k es) (fun _ => []).
Proof.
  intros T k' K'. rewrite keys_adds, qkeys_adds.
  destruct (tab_eqb k k') eqn:E; [|now rewrite !app_nil_r].
  apply tab_eqb_eq in E. congruence.
Qed.

Record good_step (cur : list (tab * nat * key)) (s s' : state) (new : tab -> list key)
  (c : nat) : Prop := {
  g_inv : inv cur s';
  g_grows : grows (s_tabs s) (s_tabs s');
  g_steady : steady s s' new;
  g_total : total (s_queue s') <= total (s_queue s) + c }.

Lemma good_refl cur s c : inv cur s -> good_step cur s s (fun _ => []) c.
Proof.
  intros I. constructor; [exact I|apply grows_refl|apply steady_refl|lia].
Qed.

Lemma good_trans cur s t u f g c d :
  good_step cur s t f c -> good_step cur t u g d ->
  good_step cur s u (fun k => f k ++ g k) (c + d).
Proof.
  intros [I1 G1 S1 T1] [I2 G2 S2 T2]. constructor; [exact I2| | |lia].
  - eapply grows_trans; eassumption.
  - eapply steady_trans; eassumption.
Qed.

Lemma find_ok cur s k e c :
  inv cur s -> typed k = true -> kcost k e <= c ->
  (forall T, grows (s_tabs s) T -> ready (knownB T) k e) ->
  exists i s', find_or_append s k e = (mkref i 1 (extra k), s') /\
    good_step cur s s' (fun _ => []) c /\ at_ (s_tabs s') k i e.
Proof.
  intros I T C R. unfold find_or_append. destruct (search s k e) as [i|] eqn:F.
  - exists i, s. split; [reflexivity|]. split; [now apply good_refl|].
    now apply search_some.
  - rewrite append_adds. eexists _, _. split; [reflexivity|]. split.
    + constructor.
      * apply inv_adds; [exact I|]. intros x [<-|[]]. apply R. apply grows_adds.
      * apply grows_adds.
      * now apply steady_typed.
      * rewrite total_adds. cbn [map sum fold_right]. lia.
    + rewrite <- (Nat.add_0_r (length (s_tabs s k))). now apply at_adds.
Qed.

Lemma commit_type_ok cur s (known : nat -> Prop) t :
  inv cur s -> all_types (s_tabs s) ->
  (forall p, known p -> knownT (s_tabs s) p) -> good_ty A X known t ->
  exists r s', commit_type s t = (r, s') /\
    good_step cur s s' (fun _ => []) (tcost t) /\ denotes (s_tabs s') t r.
Proof.
  intros I AT K G.
  assert (W : forall T, grows (s_tabs s) T -> good_ty A X (knownB T) t).
  { intros T H. apply (proj1 (good_ty_weaken known (knownB T)
      (fun p P => or_intror (knownT_grows _ _ p H (K p P))))). exact G. }
  destruct t as [|[n|n]|g a h|e d|p].
  - exists null, s. split; [reflexivity|]. split; [now apply good_refl|reflexivity].
  - cbn [commit_type]. unfold find_or_append.
    pose proof (all_types_at _ _ AT G) as P.
    destruct (search_at _ _ _ _ P) as [j E]. rewrite E.
    exists (mkref j 1 (extra TType)), s. split; [reflexivity|].
    split; [now apply good_refl|]. exists j. split; [reflexivity|]. now apply search_some.
  - destruct (find_ok cur s TTypeRef (KId n) (tcost (General (Other n))) I) as (i & s' & E & S & H);
      [reflexivity|cbn; lia|intros T _; exact G|].
    eexists _, s'. split; [exact E|]. split; [exact S|]. exists i. auto.
  - destruct (find_ok cur s TInstance (KTy (Instance g a h) 0) (tcost (Instance g a h)) I)
      as (i & s' & E & S & H); [reflexivity|reflexivity| |].
    { intros T GT. cbn [ready]. split; [reflexivity|]. split; [eauto|]. now apply W. }
    eexists _, s'. split; [exact E|]. split; [exact S|]. exists i. auto.
  - destruct (find_ok cur s TArray (KTy (Array e d) 0) (tcost (Array e d)) I)
      as (i & s' & E & S & H); [reflexivity|reflexivity| |].
    { intros T GT. cbn [ready]. split; [reflexivity|]. split; [eauto|]. now apply W. }
    eexists _, s'. split; [exact E|]. split; [exact S|]. exists i. auto.
  - cbn [commit_type]. destruct (K p G) as [i H].
    destruct (search_at _ _ _ _ H) as [j E]. rewrite E.
    eexists _, s. split; [reflexivity|]. split; [now apply good_refl|].
    exists j. split; [reflexivity|]. now apply search_some.
Qed.

Definition new_of (i : item) (k : tab) : list key :=
  match i with IMany k' es => if tab_eqb k' k then es else [] | _ => [] end.

(* Either the params of all types have their rows, or none is looked for. *)
Definition solid (T : tables) (i : item) : Prop :=
  (forall p, type_param A p -> knownT T p) \/
  match i with
  | IType _ | INeed _ => False
  | ITouch t => good_ty A X (fun _ => False) t
  | _ => True
  end.

Lemma solid_grows T U i : grows T U -> solid T i -> solid U i.
Proof.
  intros G [H|H]; [left|now right]. intros p P. eapply knownT_grows; [exact G|]. now apply H.
Qed.

Lemma commit_item_ok cur s (known : nat -> Prop) i :
  inv cur s -> all_types (s_tabs s) -> (forall m, i = IMethod (Some m) -> all_methods (s_tabs s)) ->
  solid (s_tabs s) i ->
  (forall p, known p -> knownB (s_tabs s) p) -> good_item known i ->
  exists c s', commit_item s i = Done (c, s') /\
    good_step cur s s' (new_of i) (icost kcost i) /\ says (s_tabs s') i c /\
    (forall p, now_known known i p -> knownB (s_tabs s') p).
Proof.
  intros I AT AM SO K G.
  assert (NK : forall s', grows (s_tabs s) (s_tabs s') -> (match i with IMany _ _ => False | _ => True end) ->
    forall p, now_known known i p -> knownB (s_tabs s') p).
  { intros s' GR NM p [P|P]; [eapply knownB_grows; [exact GR|]; now apply K|].
    destruct i; try contradiction. }
  assert (KT : forall t, (forall p, type_param A p -> knownT (s_tabs s) p) -> good_ty A X known t ->
    good_ty A X (knownT (s_tabs s)) t).
  { intros t ST. apply (proj1 (good_ty_weaken _ _ (fun p P =>
      match K p P with or_introl Q => ST p Q | or_intror Q => Q end))). }
  destruct i as [v|t|t|t|[m|]|k es].
  - exists [CVal v], s. split; [reflexivity|]. split; [now apply good_refl|].
    split; [reflexivity|]. apply NK; [apply grows_refl|exact Logic.I].
  - destruct SO as [ST|[]].
    destruct (commit_type_ok cur s (knownT (s_tabs s)) t I AT (fun p P => P) (KT t ST G))
      as (r & s' & E & S & D).
    exists [CRef r], s'. cbn [commit_item]. rewrite E. split; [reflexivity|].
    split; [exact S|]. split; [exists r; auto|]. apply NK; [apply (g_grows _ _ _ _ _ S)|exact Logic.I].
  - destruct G as [NT G]. destruct SO as [ST|[]].
    destruct (commit_type_ok cur s (knownT (s_tabs s)) t I AT (fun p P => P) (KT t ST G))
      as (r & s' & E & S & D).
    exists [CRef r], s'. cbn [commit_item].
    destruct t; try contradiction; rewrite E.
    all: split; [reflexivity|]; split; [exact S|]; split; [exists r; auto|];
      (apply NK; [apply (g_grows _ _ _ _ _ S)|exact Logic.I]).
  - assert (exists Q : nat -> Prop, (forall p, Q p -> knownT (s_tabs s) p) /\ good_ty A X Q t)
      as (Q & QK & QG).
    { destruct SO as [ST|F]; [exists (knownT (s_tabs s)); auto|].
      exists (fun _ => False). split; [intros p []|exact F]. }
    destruct (commit_type_ok cur s Q t I AT QK QG) as (r & s' & E & S & D).
    exists [], s'. cbn [commit_item]. rewrite E. split; [reflexivity|].
    split; [exact S|]. split; [reflexivity|]. apply NK; [apply (g_grows _ _ _ _ _ S)|exact Logic.I].
  - cbn [commit_item]. destruct (AM m eq_refl m G) as [i H]. destruct (search_at _ _ _ _ H) as [j E].
    rewrite E. eexists _, s. split; [reflexivity|]. split; [now apply good_refl|].
    split; [exists j; split; [reflexivity|now apply search_some]|].
    apply NK; [apply grows_refl|exact Logic.I].
  - exists [CRef null], s. split; [reflexivity|]. split; [now apply good_refl|].
    split; [reflexivity|]. apply NK; [apply grows_refl|exact Logic.I].
  - destruct G as [SH R]. cbn [commit_item].
    destruct es as [|e0 es0] eqn:EE.
    + cbn [acquire]. eexists _, s. split; [reflexivity|]. split.
      * constructor; [exact I|apply grows_refl| |lia].
        intros k' T'. cbn [new_of]. destruct (tab_eqb k k'); cbn [map]; now rewrite !app_nil_r.
      * split; [eexists; split; [reflexivity|left; auto]|].
        intros p [P|P]; [now apply K|]. destruct k; contradiction.
    + rewrite <- EE in *. rewrite acquire_adds by (auto; rewrite EE; discriminate).
      eexists _, _. split; [reflexivity|]. split; [|split].
      * constructor.
        -- apply inv_adds; [exact I|]. intros e H. eapply ready_weaken; [|exact (R e H)].
           intros p P. eapply knownB_grows; [apply grows_adds|]. now apply K.
        -- apply grows_adds.
        -- apply steady_adds.
        -- rewrite total_adds. cbn [icost]. lia.
      * eexists. split; [reflexivity|]. right. split; [rewrite EE; discriminate|].
        eexists. split; [reflexivity|]. intros j e H. now apply at_adds.
      * intros p [P|P].
        -- eapply knownB_grows; [apply grows_adds|]. now apply K.
        -- right. destruct k; try contradiction. apply In_nth_error in P. destruct P as [j P].
           exists (length (s_tabs s TGparam) + j). now apply at_adds.
Qed.

Lemma all_types_grows s s' new :
  steady s s' new -> new TType = [] -> all_types (s_tabs s) -> all_types (s_tabs s').
Proof.
  intros S N H. unfold all_types in *. destruct (S TType eq_refl) as [E _].
  rewrite E, N, H. cbn. now rewrite app_nil_r.
Qed.

Lemma all_methods_grows T T' : grows T T' -> all_methods T -> all_methods T'.
Proof. intros G H n I. destruct (H n I) as [i E]. exists i. eapply at_grows; eassumption. Qed.

Lemma commit_items_ok cur : forall l s (known : nat -> Prop),
  inv cur s -> all_types (s_tabs s) -> added TType l = [] ->
  ((exists m, In (IMethod (Some m)) l) -> all_methods (s_tabs s)) ->
  (forall i, In i l -> solid (s_tabs s) i) ->
  (forall p, known p -> knownB (s_tabs s) p) -> good_items known l ->
  exists row s', commit_items s l = Done (row, s') /\
    good_step cur s s' (fun k => added k l) (sum (map (icost kcost) l)) /\
    says_all (s_tabs s') l row.
Proof.
  induction l as [|i l IH]; intros s known I AT NT AM SO K G.
  - exists [], s. split; [reflexivity|]. split; [|constructor]. now apply good_refl.
  - destruct G as [G GS].
    destruct (commit_item_ok cur s known i I AT) as (c & s1 & E & S1 & D1 & K1);
      [intros m ->; apply AM; exists m; now left|apply SO; now left|exact K|exact G|].
    change (added TType (i :: l)) with (new_of i TType ++ added TType l) in NT.
    apply app_eq_nil in NT. destruct NT as [NT1 NT2].
    destruct (IH s1 (now_known known i)) as (row & s2 & E2 & S2 & D2).
    + exact (g_inv _ _ _ _ _ S1).
    + eapply all_types_grows; [exact (g_steady _ _ _ _ _ S1)|exact NT1|exact AT].
    + exact NT2.
    + intros [m M]. eapply all_methods_grows; [exact (g_grows _ _ _ _ _ S1)|].
      apply AM. exists m. now right.
    + intros j J. eapply solid_grows; [exact (g_grows _ _ _ _ _ S1)|]. apply SO. now right.
    + exact K1.
    + exact GS.
    + exists (c ++ row), s2. cbn [commit_items]. rewrite E. cbn [bind snd fst]. rewrite E2.
      split; [reflexivity|]. split.
      * exact (good_trans _ _ _ _ _ _ _ _ S1 S2).
      * constructor; [|exact D2]. eapply says_grows; [|exact D1]. exact (g_grows _ _ _ _ _ S2).
Qed.

(* ---- filling a row ---- *)

Lemma set_row_keys l : forall i r, map en_key (set_row l i r) = map en_key l.
Proof.
  induction l as [|x l IH]; intros [|i] r; cbn; try reflexivity. now rewrite IH.
Qed.

Lemma set_row_nth l : forall i r j x, nth_error (set_row l i r) j = Some x ->
  (j = i /\ exists y, nth_error l i = Some y /\ x = Entry (en_key y) (Some r)) \/
  (j <> i /\ nth_error l j = Some x).
Proof.
  induction l as [|y l IH]; intros [|i] r j x H; cbn in H.
  - destruct j; discriminate.
  - destruct j; discriminate.
  - destruct j as [|j]; cbn in H.
    + left. injection H as <-. split; [reflexivity|]. exists y. auto.
    + right. split; [lia|]. exact H.
  - destruct j as [|j]; cbn in H.
    + right. split; [lia|]. exact H.
    + destruct (IH _ _ _ _ H) as [[-> P]|[N P]]; [left; auto|right; split; [lia|exact P]].
Qed.

Definition fill (s : state) (k : tab) (i : nat) (r : list cell) : state :=
  State (put_tab (s_tabs s) k (set_row (s_tabs s k) i r)) (s_queue s).

Lemma keys_fill s k i r k' : keys (s_tabs (fill s k i r)) k' = keys (s_tabs s) k'.
Proof.
  unfold keys, fill; cbn [s_tabs]. destruct (tab_dec k' k) as [->|N].
  - rewrite put_same. apply set_row_keys.
  - now rewrite put_other by exact N.
Qed.

Lemma grows_keys T U : (forall k, keys U k = keys T k) -> grows T U.
Proof. intros E k. exists []. now rewrite app_nil_r. Qed.

Lemma inv_fill s k i e r l :
  inv [(k, i, e)] s -> describe A X k e = Some l -> says_all (s_tabs s) l r ->
  inv [] (fill s k i r).
Proof.
  intros [VE VQ] D S.
  assert (G : grows (s_tabs s) (s_tabs (fill s k i r))) by (apply grows_keys; intros; apply keys_fill).
  assert (W : forall p, knownB (s_tabs s) p -> knownB (s_tabs (fill s k i r)) p)
    by (intros p; now apply knownB_grows).
  assert (AE : at_ (s_tabs s) k i e) by (apply VQ; now left).
  constructor.
  - intros k' j x H.
    assert (O : (k' = k /\ j = i /\ en_key x = Some e /\ en_row x = Some r) \/
                ((k', j) <> (k, i) /\ nth_error (s_tabs s k') j = Some x)).
    { unfold fill in H; cbn [s_tabs] in H. destruct (tab_dec k' k) as [->|N].
      - rewrite put_same in H. destruct (set_row_nth _ _ _ _ _ H) as [[-> (y & Y & ->)]|[N P]].
        + left. cbn. unfold at_, keys in AE. rewrite nth_error_map, Y in AE. cbn in AE.
          injection AE as AE. auto.
        + right. split; [congruence|exact P].
      - rewrite put_other in H by exact N. right. split; [congruence|exact H]. }
    destruct O as [(-> & -> & K & R)|[N O]].
    + exists e. split; [exact K|].
      assert (exists y, nth_error (s_tabs s k) i = Some y /\ en_key y = Some e) as [y [Y1 Y2]].
      { unfold at_, keys in AE. rewrite nth_error_map in AE.
        destruct (nth_error (s_tabs s k) i) as [y|]; [|discriminate AE]. exists y.
        cbn in AE. injection AE as AE. auto. }
      destruct (VE _ _ _ Y1) as (e' & K' & Rd & _).
      assert (e' = e) as -> by congruence.
      split; [eapply ready_weaken; eassumption|].
      rewrite R. exists l. split; [exact D|]. eapply says_all_grows; eassumption.
    + destruct (VE _ _ _ O) as (e' & K & Rd & M). exists e'. split; [exact K|].
      split; [eapply ready_weaken; eassumption|].
      destruct (en_row x) as [row|].
      * destruct M as [l' [D' S']]. exists l'. split; [exact D'|]. eapply says_all_grows; eassumption.
      * cbn [app] in M. destruct M as [M|M]; [congruence|]. exact M.
  - intros k' j e' H. eapply at_grows; [exact G|]. apply VQ. now right.
Qed.

Lemma inv_pop s k i e q : inv [] s -> s_queue s = (k, i, e) :: q ->
  inv [(k, i, e)] (State (s_tabs s) q).
Proof.
  intros [VE VQ] E. constructor; cbn [s_tabs s_queue app]; rewrite <- E; assumption.
Qed.
End Writing.
