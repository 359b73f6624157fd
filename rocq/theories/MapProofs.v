(** Proofs about the maps. *)

From Coq Require Import List Bool Arith Lia Sorted Permutation.
Import ListNotations.
From Verif Require Import MapModel MapSpec.

Section Small.
Variables K V : Type.
Variable eqb : K -> K -> bool.
Variable def : V.
Hypothesis eqb_eq : decides eqb.

Notation get := (get K V eqb).

Lemma eqb_refl : forall k, eqb k k = true.
Proof. intro k. apply eqb_eq. reflexivity. Qed.

Lemma eqb_sym : forall a b, eqb a b = eqb b a.
Proof. intros a b. apply eq_iff_eq_true. rewrite (eqb_eq a b), (eqb_eq b a). split; congruence. Qed.

Definition distinct (m : items K V) : Prop := NoDup (map fst m).

Lemma add_keys : forall k v m x, In x (map fst (add K V eqb k v m)) <-> x = k \/ In x (map fst m).
Proof.
  intros k v m x. induction m as [|[k' v'] r IH]; cbn [add map fst In]; [split; intros [H|[]]; auto|].
  destruct (eqb k' k) eqn:E; cbn [map fst In].
  - apply eqb_eq in E. subst. split; [tauto|]. intros [->|[->|H]]; auto.
  - rewrite IH. split; tauto.
Qed.

Lemma add_distinct : forall k v m, distinct m -> distinct (add K V eqb k v m).
Proof.
  intros k v m. unfold distinct. induction m as [|[k' v'] r IH]; intro D; cbn [add map fst]; [repeat constructor; intros []|].
  inversion D; subst. destruct (eqb k' k) eqn:E; cbn [map fst]; [constructor; assumption|]. constructor; [|apply IH; assumption].
  rewrite add_keys. intros [->|H]; [rewrite eqb_refl in E; discriminate|contradiction].
Qed.

Lemma add_get : forall k v m x, get x (add K V eqb k v m) = if eqb k x then Some v else get x m.
Proof.
  intros k v m x. induction m as [|[k' v'] r IH]; cbn [add MapModel.get]; [reflexivity|].
  destruct (eqb k' k) eqn:E; cbn [MapModel.get].
  - apply eqb_eq in E. subst. destruct (eqb k x); reflexivity.
  - rewrite IH. destruct (eqb k' x) eqn:E2; [|reflexivity]. apply eqb_eq in E2. subst. rewrite eqb_sym, E. reflexivity.
Qed.

Lemma get_in : forall k m, get k m = None <-> ~ In k (map fst m).
Proof.
  intros k m. induction m as [|[k' v'] r IH]; cbn [MapModel.get map fst In]; [tauto|].
  destruct (eqb k' k) eqn:E; [apply eqb_eq in E; subst; split; [discriminate|tauto]|].
  rewrite IH. split; [|tauto]. intros H [->|X]; [rewrite eqb_refl in E; discriminate|tauto].
Qed.

Lemma find_lt : forall k m, (find_index K V eqb k m <? length m) = match get k m with Some _ => true | None => false end.
Proof.
  intros k m. induction m as [|[k' v'] r IH]; cbn [find_index MapModel.get length]; [reflexivity|].
  destruct (eqb k' k); [reflexivity|]. cbn [Nat.ltb Nat.leb]. exact IH.
Qed.

Lemma write_find : forall k v m x, get k m <> None -> get x (write K V (find_index K V eqb k m) v m) = (if eqb k x then Some v else get x m) .
Proof.
  intros k v m x. induction m as [|[k' v'] r IH]; cbn [find_index MapModel.get]; [congruence|]. intro H.
  destruct (eqb k' k) eqn:E; cbn [write MapModel.get].
  - apply eqb_eq in E. subst. destruct (eqb k x); reflexivity.
  - rewrite IH by exact H. destruct (eqb k' x) eqn:E2; [|reflexivity]. apply eqb_eq in E2. subst. rewrite eqb_sym, E. reflexivity.
Qed.

Lemma write_keys : forall i v m, map fst (write K V i v m) = map fst m.
Proof. induction i as [|i IH]; intros v [|[k w] r]; cbn [write map fst]; try reflexivity. rewrite IH. reflexivity. Qed.

Lemma get_snoc : forall k v m x, get k m = None -> get x (m ++ [(k, v)]) = if eqb k x then Some v else get x m.
Proof.
  intros k v m x. induction m as [|[k' v'] r IH]; cbn [app MapModel.get]; [reflexivity|].
  destruct (eqb k' k) eqn:E; [discriminate|]. intro H. rewrite IH by exact H.
  destruct (eqb k' x) eqn:E2; [|reflexivity]. apply eqb_eq in E2. subst. rewrite eqb_sym, E. reflexivity.
Qed.

Lemma write_last : forall k v w m x, get k m = None -> get x (write K V (length m) w (m ++ [(k, v)])) = if eqb k x then Some w else get x m.
Proof.
  intros k v w m x. induction m as [|[k' v'] r IH]; cbn [app length write MapModel.get]; [reflexivity|].
  destruct (eqb k' k) eqn:E; [discriminate|]. intro H. rewrite IH by exact H.
  destruct (eqb k' x) eqn:E2; [|reflexivity]. apply eqb_eq in E2. subst. rewrite eqb_sym, E. reflexivity.
Qed.

Lemma snoc_distinct : forall k v m, distinct m -> get k m = None -> distinct (m ++ [(k, v)]).
Proof.
  intros k v m D N. unfold distinct in *. rewrite map_app. cbn [map fst]. apply (Permutation_NoDup (l := k :: map fst m)); [apply Permutation_cons_append|].
  constructor; [apply get_in; exact N|exact D].
Qed.

Lemma step_ok : forall c m f, distinct m -> (forall x, get x m = f x) ->
  distinct (step K V eqb def m c) /\ forall x, get x (step K V eqb def m c) = on_map K V eqb def f c x.
Proof.
  intros c m f D E. destruct c as [k v|k v|k|]; cbn [step on_map].
  - split; [apply add_distinct; exact D|]. intro x. rewrite add_get. unfold put. rewrite E. reflexivity.
  - unfold at_key. rewrite find_lt. destruct (get k m) eqn:G.
    + split; [unfold distinct; rewrite write_keys; exact D|]. intro x. rewrite write_find by congruence. unfold put. rewrite E. reflexivity.
    + split; [unfold distinct; rewrite write_keys; apply snoc_distinct; assumption|]. intro x. rewrite write_last by exact G. unfold put. rewrite E. reflexivity.
  - unfold at_key. rewrite find_lt. rewrite <- (E k). destruct (get k m) eqn:G; cbn [fst].
    + split; [exact D|exact E].
    + split; [apply snoc_distinct; assumption|]. intro x. rewrite get_snoc by exact G. unfold put. rewrite E. reflexivity.
  - split; [constructor|reflexivity].
Qed.

Lemma small_ok : forall cs, NoDup (map fst (calls K V eqb def cs)) /\ forall k, get k (calls K V eqb def cs) = on_map_all K V eqb def cs k.
Proof.
  intro cs. unfold calls, on_map_all.
  assert (G : forall cs m f, distinct m -> (forall x, get x m = f x) ->
    distinct (fold_left (step K V eqb def) cs m) /\ forall x, get x (fold_left (step K V eqb def) cs m) = fold_left (on_map K V eqb def) cs f x).
  { induction cs0 as [|c cs0 IH]; intros m f D E; cbn [fold_left]; [auto|]. destruct (step_ok c m f D E) as [D1 E1]. apply IH; assumption. }
  apply G; [constructor|reflexivity].
Qed.

(** The iterator returned by [find]. *)
Lemma find_ok : forall k m, match get k m with
  | Some v => exists k', nth_error m (find_index K V eqb k m) = Some (k', v) /\ k' = k
  | None => find_index K V eqb k m = length m
  end.
Proof.
  intros k m. induction m as [|[k' v'] r IH]; cbn [MapModel.get find_index length]; [reflexivity|].
  destruct (eqb k' k) eqn:E; [apply eqb_eq in E; exists k'; auto|]. destruct (get k r); [exact IH|rewrite IH; reflexivity].
Qed.
End Small.

Section Fixed.
Variables K V : Type.
Variable ltb : K -> K -> bool.
Hypothesis order : total_order ltb.

Lemma irrefl : forall a, ltb a a = false.
Proof. apply order. Qed.

Lemma lt_trans : forall a b c, ltb a b = true -> ltb b c = true -> ltb a c = true.
Proof. apply order. Qed.

Lemma lt_eq : forall a b, ltb a b = false -> ltb b a = false -> a = b.
Proof. apply order. Qed.

Lemma lt_not : forall a b, ltb a b = true -> ltb b a = false.
Proof. intros a b H. destruct (ltb b a) eqn:E; [|reflexivity]. pose proof (lt_trans _ _ _ H E) as X. rewrite irrefl in X. discriminate. Qed.

Notation le := (fun a b : K * V => ltb (fst b) (fst a) = false).

(** In a sorted list the item found is the first with the key. *)
Lemma find_first : forall k l, StronglySorted le l ->
  match find (fun e => negb (ltb (fst e) k) && negb (ltb k (fst e))) l with
  | Some e => nth_error l (find_fixed K V ltb k l) = Some e
  | None => find_fixed K V ltb k l = length l
  end.
Proof.
  intros k l Srt. induction l as [|[x v] l IH]; [reflexivity|].
  inversion Srt as [|? ? S' F]; subst. specialize (IH S'). unfold find_fixed in *. cbn [lower upper find fst]. destruct (ltb x k) eqn:E; cbn [negb andb].
  - rewrite (lt_not x k E). destruct (Nat.eqb_spec (lower K V ltb k l) (upper K V ltb k l)) as [Q|Q].
    + rewrite Q, Nat.eqb_refl. destruct (find _ l) eqn:G; [|cbn [length]; reflexivity].
      exfalso. assert (nth_error l (length l) = None) by (apply nth_error_None; lia). congruence.
    + destruct (Nat.eqb_spec (S (lower K V ltb k l)) (S (upper K V ltb k l))); [lia|]. destruct (find _ l); [exact IH|]. cbn [length]. rewrite IH. reflexivity.
  - destruct (ltb k x) eqn:E2; cbn [negb].
    + rewrite Nat.eqb_refl. destruct (find _ l) as [[y w]|] eqn:G; [|reflexivity].
      exfalso. apply find_some in G. destruct G as [G1 G2]. cbn [fst] in G2. apply andb_prop in G2. destruct G2 as [_ G2]. apply negb_true_iff in G2.
      rewrite Forall_forall in F. specialize (F _ G1). cbn [fst] in F.
      assert (y = k \/ ltb y k = true) as [->|Y].
      { destruct (ltb y k) eqn:Y; [auto|]. left. exact (lt_eq _ _ Y G2). }
      * congruence.
      * rewrite (lt_trans y k x Y E2) in F. discriminate.
    + reflexivity.
Qed.

Lemma found : forall k l, StronglySorted le l ->
  (exists v, In (k, v) l /\ value_at K V (find_fixed K V ltb k l) l = Some v) \/
  (~ In k (map fst l) /\ find_fixed K V ltb k l = length l).
Proof.
  intros k l S. pose proof (find_first k l S) as F. destruct (find _ l) as [[y v]|] eqn:G.
  - left. apply find_some in G. destruct G as [G1 G2]. cbn [fst] in G2. apply andb_prop in G2. destruct G2 as [G2 G3]. apply negb_true_iff in G2, G3.
    pose proof (lt_eq _ _ G2 G3). subst y. exists v. split; [exact G1|]. unfold value_at. rewrite F. reflexivity.
  - right. split; [|exact F]. intro X. apply in_map_iff in X. destruct X as ((y & v) & E & I). cbn [fst] in E. subst y.
    pose proof (find_none _ _ G _ I) as N. cbn [fst] in N. rewrite irrefl in N. discriminate.
Qed.

Lemma key_value : forall (l : list (K * V)) k v w, NoDup (map fst l) -> In (k, v) l -> In (k, w) l -> v = w.
Proof.
  induction l as [|[x u] l IH]; intros k v w N A B; [contradiction|]. cbn [map fst] in N. inversion N; subst.
  destruct A as [A|A], B as [B|B].
  - congruence.
  - injection A as -> ->. exfalso. apply H1. apply in_map_iff. exists (k, w). auto.
  - injection B as -> ->. exfalso. apply H1. apply in_map_iff. exists (k, v). auto.
  - eauto.
Qed.

Lemma fixed_ok : forall l l' k, NoDup (map fst l) -> sort_of K V ltb l l' ->
  (forall v, In (k, v) l -> value_at K V (find_fixed K V ltb k l') l' = Some v) /\
  (~ In k (map fst l) -> find_fixed K V ltb k l' = length l').
Proof.
  intros l l' k N [P S]. assert (Pk : Permutation (map fst l) (map fst l')) by (apply Permutation_map; exact P).
  destruct (found k l' S) as [(w & I & E)|[I E]].
  - split.
    + intros v A. rewrite E. f_equal. apply (key_value l' k w v); [exact (Permutation_NoDup Pk N)|exact I|exact (Permutation_in _ P A)].
    + intro A. exfalso. apply A. apply (Permutation_in _ (Permutation_sym Pk)). apply in_map_iff. exists (k, w). auto.
  - split.
    + intros v A. exfalso. apply I. apply in_map_iff. exists (k, v). split; [reflexivity|exact (Permutation_in _ P A)].
    + intros _. exact E.
Qed.

(** With a stable sort the value found is the one appended first. *)
Lemma fixed_first : forall eqb l l' k, decides eqb -> stable_sort_of K V eqb ltb l l' ->
  value_at K V (find_fixed K V ltb k l') l' = option_map snd (hd_error (filter (fun e => eqb (fst e) k) l)).
Proof.
  intros eqb l l' k D [[P S] F]. rewrite <- F. pose proof (find_first k l' S) as G.
  assert (H : find (fun e => negb (ltb (fst e) k) && negb (ltb k (fst e))) l' = hd_error (filter (fun e : K * V => eqb (fst e) k) l')).
  { clear - D order. induction l' as [|[x v] l IH]; [reflexivity|]. cbn [find filter fst].
    replace (negb (ltb x k) && negb (ltb k x)) with (eqb x k); [destruct (eqb x k); [reflexivity|exact IH]|].
    destruct (eqb x k) eqn:E.
    - apply D in E. subst. rewrite irrefl. reflexivity.
    - destruct (ltb x k) eqn:A, (ltb k x) eqn:B; try reflexivity. pose proof (lt_eq _ _ A B). assert (eqb x k = true) by (apply D; assumption). congruence. }
  rewrite H in G. unfold value_at. destruct (hd_error _) as [e|]; [rewrite G; reflexivity|]. rewrite G.
  assert (nth_error l' (length l') = None) as -> by (apply nth_error_None; lia). reflexivity.
Qed.

Lemma appends_ok : forall l n acc, appends K V l (Fixed K V (Some n) acc) =
  if length acc + length l <=? n then Some (Fixed K V (Some n) (acc ++ l)) else if length l =? 0 then Some (Fixed K V (Some n) acc) else None.
Proof.
  induction l as [|[k v] l IH]; intros n acc; cbn [appends length].
  - rewrite app_nil_r. destruct (length acc + 0 <=? n); reflexivity.
  - cbn [append slots pairs]. unfold append. cbn [slots pairs]. cbn [Nat.eqb]. destruct (Nat.leb_spec n (length acc)).
    + destruct (Nat.leb_spec (length acc + S (length l)) n); [lia|reflexivity].
    + rewrite IH, app_length, <- app_assoc. cbn [length app]. replace (length acc + 1 + length l) with (length acc + S (length l)) by lia.
      destruct (Nat.leb_spec (length acc + S (length l)) n); [reflexivity|]. destruct (Nat.eqb_spec (length l) 0) as [Z|Z]; [|reflexivity]. lia.
Qed.

Lemma fill_ok : forall n l f, init K V n (no_pairs K V) = Some f ->
  appends K V l f = if length l <=? n then Some (Fixed K V (Some n) l) else None.
Proof.
  intros n l f E. injection E as <-. rewrite appends_ok. cbn [length app plus]. destruct (Nat.leb_spec (length l) n); [reflexivity|].
  destruct (Nat.eqb_spec (length l) 0); [lia|reflexivity].
Qed.
End Fixed.

Section Cache.
Variables K V : Type.
Variable eqb : K -> K -> bool.
Variable create : nat -> K -> V.
Hypothesis eqb_eq : decides eqb.

Record cinv (c : cache K V) : Prop := {
  c_keys : NoDup (map fst (known K V c));
  c_len : length (known K V c) = created K V c;
  c_val : forall k v, In (k, v) (known K V c) -> exists n, n < created K V c /\ v = create n k
}.

Lemma cached_ok : forall k c c1 v, cinv c -> cached K V eqb create k c = (c1, v) ->
  cinv c1 /\ In (k, v) (known K V c1) /\ (forall e, In e (known K V c) -> In e (known K V c1)) /\
  (forall x, In x (map fst (known K V c1)) <-> x = k \/ In x (map fst (known K V c))).
Proof.
  intros k c c1 v I E. unfold cached in E. destruct (find _ (known K V c)) as [[y w]|] eqn:F.
  - injection E as <- <-. apply find_some in F. destruct F as [F1 F2]. apply eqb_eq in F2. cbn [fst] in F2. subst y.
    split; [exact I|]. split; [exact F1|]. split; [auto|]. intro x. split; [auto|]. intros [->|H]; [|exact H]. apply in_map_iff. exists (k, w). auto.
  - injection E as <- <-. destruct I. split; [|split; [left; reflexivity|split; [intros e H; right; exact H|]]].
    + constructor; cbn [known created map fst length].
      * constructor; [|assumption]. intro X. apply in_map_iff in X. destruct X as ((y & u) & Y & X). cbn [fst] in Y. subst y.
        pose proof (find_none _ _ F _ X) as N. cbn [fst] in N. assert (eqb k k = true) by (apply eqb_eq; reflexivity). congruence.
      * congruence.
      * intros x u [X|X]; [injection X as <- <-; exists (created K V c); split; [lia|reflexivity]|].
        destruct (c_val0 x u X) as (n & L & ->). exists n. split; [lia|reflexivity].
    + intro x. cbn [known map fst In]. split; intros [H|H]; auto.
Qed.

Lemma cacheds_ok : forall ks c c1 vs, cinv c -> cacheds K V eqb create ks c = (c1, vs) ->
  cinv c1 /\ (forall e, In e (known K V c) -> In e (known K V c1)) /\ Forall2 (fun k v => In (k, v) (known K V c1)) ks vs /\
  (forall x, In x (map fst (known K V c1)) <-> In x ks \/ In x (map fst (known K V c))).
Proof.
  induction ks as [|k ks IH]; intros c c1 vs I E; cbn [cacheds] in E.
  - injection E as <- <-. split; [exact I|]. split; [auto|]. split; [constructor|]. intro x. cbn. tauto.
  - destruct (cached K V eqb create k c) as [c2 v] eqn:C. destruct (cacheds K V eqb create ks c2) as [c3 us] eqn:R. injection E as <- <-.
    destruct (cached_ok k c c2 v I C) as (I2 & A2 & K2 & X2). destruct (IH c2 c3 us I2 R) as (I3 & K3 & F3 & X3).
    split; [exact I3|]. split; [auto|]. split; [constructor; auto|]. intro x. rewrite X3, X2. cbn [In]. split; [intros [H|[H|H]]; auto|intros [[H|H]|H]; auto].
Qed.

Lemma nth_two : forall {A B} (R : A -> B -> Prop) l m i a b, Forall2 R l m -> nth_error l i = Some a -> nth_error m i = Some b -> R a b.
Proof.
  intros A B R l m i a b F. revert i. induction F; intros i Ea Eb; [destruct i; discriminate|].
  destruct i; cbn in *; [injection Ea as <-; injection Eb as <-; assumption|eauto].
Qed.

Lemma cache_ok : forall ks c vs, cacheds K V eqb create ks (no_cache K V) = (c, vs) ->
  length vs = length ks /\
  (forall i j k v w, nth_error ks i = Some k -> nth_error ks j = Some k -> nth_error vs i = Some v -> nth_error vs j = Some w -> v = w) /\
  (forall i k v, nth_error ks i = Some k -> nth_error vs i = Some v -> exists n, n < created K V c /\ v = create n k) /\
  (forall l, NoDup l -> (forall x, In x l <-> In x ks) -> created K V c = length l).
Proof.
  intros ks c vs E. assert (I0 : cinv (no_cache K V)) by (constructor; cbn; [constructor|reflexivity|tauto]).
  destruct (cacheds_ok ks _ c vs I0 E) as (I & _ & F & X). split; [clear - F; induction F; cbn; congruence|]. split; [|split].
  - intros i j k v w Ei Ej Vi Vj. pose proof (nth_two _ _ _ _ _ _ F Ei Vi) as A. pose proof (nth_two _ _ _ _ _ _ F Ej Vj) as B. cbv beta in A, B.
    exact (key_value K V _ k v w (c_keys c I) A B).
  - intros i k v Ei Vi. pose proof (nth_two _ _ _ _ _ _ F Ei Vi) as A. exact (c_val c I k v A).
  - intros l N H. rewrite <- (c_len c I), <- (map_length fst). apply Permutation_length. apply NoDup_Permutation; [exact (c_keys c I)|exact N|].
    intro x. rewrite X, H. cbn. tauto.
Qed.
End Cache.
