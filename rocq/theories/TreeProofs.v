(** Proofs about the tree snapshot. *)

From Coq Require Import ZArith List Bool Arith Lia.
Import ListNotations.
From Verif Require Import CppInt TreeModel TreeSpec.

Local Open Scope nat_scope.

Section Tree.
Variable V : Type.

Notation node := (node V).
Notation heap := (heap V).
Notation tree := (tree V).

Definition root_value (t : tree) : V := match t with T _ v _ => v end.
Definition kids (t : tree) : list tree := match t with T _ _ cs => cs end.
Definition size (q : list tree) : nat := fold_right (fun c n => nodes V c + n) 0 q.

Lemma nodes_size : forall t, nodes V t = S (size (kids t)).
Proof. destruct t. reflexivity. Qed.

Lemma size_app : forall a b, size (a ++ b) = size a + size b.
Proof. induction a as [|t a IH]; intro b; cbn [size fold_right app]; [reflexivity|]. fold (size (a ++ b)). fold (size a). rewrite IH. lia. Qed.

Lemma size_cons : forall t q, size (t :: q) = nodes V t + size q.
Proof. reflexivity. Qed.

Lemma size_length : forall q, length q <= size q.
Proof. induction q as [|t q IH]; [cbn; lia|]. rewrite size_cons, nodes_size. cbn [length]. lia. Qed.

Lemma in_size : forall t q, In t q -> nodes V t <= size q.
Proof. intros t q. induction q as [|x q IH]; intros []; subst; rewrite size_cons; [lia|]. specialize (IH H). lia. Qed.

(** ** Breadth-first order *)

Fixpoint data (f : nat) (q : list tree) : list V :=
  match f, q with S f', t :: r => root_value t :: data f' (r ++ kids t) | _, _ => [] end.
Fixpoint counts (f : nat) (q : list tree) : list nat :=
  match f, q with S f', t :: r => length (kids t) :: counts f' (r ++ kids t) | _, _ => [] end.
Fixpoint later (f : nat) (q : list tree) : list V :=
  match f, q with S f', t :: r => map root_value (kids t) ++ later f' (r ++ kids t) | _, _ => [] end.

Lemma step_size : forall t r f, size (t :: r) <= S f -> size (r ++ kids t) <= f.
Proof. intros t r f H. rewrite size_cons, nodes_size in H. rewrite size_app. lia. Qed.

Lemma data_split : forall f q, size q <= f -> data f q = map root_value q ++ later f q.
Proof.
  induction f as [|f IH]; intros q H; destruct q as [|t r]; try reflexivity.
  - rewrite size_cons, nodes_size in H. lia.
  - cbn [data later map app]. f_equal. rewrite IH by (apply step_size; exact H). rewrite map_app, <- app_assoc. reflexivity.
Qed.

Lemma counts_length : forall f q, size q <= f -> length (counts f q) = size q.
Proof.
  induction f as [|f IH]; intros q H; destruct q as [|t r]; try reflexivity.
  - rewrite size_cons, nodes_size in H. lia.
  - cbn [counts length]. rewrite IH by (apply step_size; exact H). rewrite size_cons, size_app, nodes_size. lia.
Qed.

Lemma counts_sum : forall f q, size q <= f -> list_sum (counts f q) + length q = size q.
Proof.
  induction f as [|f IH]; intros q H; destruct q as [|t r]; try reflexivity.
  - rewrite size_cons, nodes_size in H. lia.
  - cbn [counts]. change (list_sum (length (kids t) :: counts f (r ++ kids t))) with (length (kids t) + list_sum (counts f (r ++ kids t))).
    pose proof (IH (r ++ kids t) (step_size t r f H)) as Sz. rewrite size_app, app_length in Sz. rewrite size_cons, nodes_size. cbn [length]. lia.
Qed.

(** ** Storing *)

Lemma children_ok : forall h ts p fc fuel, linked V h p fc ts -> length ts <= fuel ->
  exists l, children V fuel h fc = Some l /\ Forall2 (holds V h) l ts.
Proof.
  intros h ts. induction ts as [|t ts IH]; intros p fc fuel L F; inversion L; subst.
  - exists []. split; [destruct fuel; reflexivity|constructor].
  - destruct fuel as [|f]; [cbn in F; lia|]. cbn [children].
    match goal with H : at_ V h _ = Some n |- _ => rewrite H end.
    destruct (IH (parent V n) (next_sibling V n) f ltac:(assumption) ltac:(cbn in F; lia)) as (l & E & A). rewrite E.
    eexists. split; [reflexivity|]. constructor; assumption.
Qed.

Lemma holds_inv : forall h a t, holds V h a t -> exists n, at_ V h a = Some n /\ value V n = root_value t /\ linked V h (Some a) (first_child V n) (kids t).
Proof. intros h a t H. inversion H; subst. exists n. auto. Qed.

Lemma store_ok : forall f h queue q, Forall2 (holds V h) queue q -> size q <= f ->
  store_loop V f h queue = Some (data f q, map (fun k => wrap U8 (Z.of_nat k)) (counts f q)).
Proof.
  induction f as [|f IH]; intros h queue q A Sz; destruct A as [|a t r q Ha A].
  - reflexivity.
  - rewrite size_cons, nodes_size in Sz. lia.
  - reflexivity.
  - cbn [store_loop data counts map]. destruct (holds_inv h a t Ha) as (n & E & Vn & L). rewrite E.
    destruct (children_ok h (kids t) (Some a) (first_child V n) (S f) L) as (l & El & Al).
    { rewrite size_cons, nodes_size in Sz. pose proof (size_length (kids t)). lia. }
    rewrite El. rewrite (IH h (r ++ l) (q ++ kids t)); [|apply Forall2_app; assumption|apply step_size; exact Sz].
    assert (Len : length l = length (kids t)) by (clear - Al; induction Al; cbn; congruence).
    rewrite Len, Vn. reflexivity.
Qed.

(** ** Restoring *)

Lemma add_siblings : forall vs l h n rest a, at_ V h l = Some n -> l < used V h -> next_sibling V n = None ->
  exists h1, add_children V (length vs) a (Some l) (vs ++ rest) h = Some (h1, seq (used V h) (length vs), rest) /\
    used V h1 = used V h + length vs /\
    (forall b, b < used V h -> b <> l -> at_ V h1 b = at_ V h b) /\
    at_ V h1 l = Some (Node V (value V n) (first_child V n) (if 0 <? length vs then Some (used V h) else None) (parent V n)) /\
    forall j v, nth_error vs j = Some v ->
      at_ V h1 (used V h + j) = Some (Node V v None (if S j <? length vs then Some (used V h + S j) else None) (parent V n)).
Proof.
  induction vs as [|v vs IH]; intros l h n rest a E L N.
  - exists h. cbn [length add_children app seq]. split; [reflexivity|]. split; [lia|]. split; [auto|]. split.
    + rewrite E. destruct n; cbn in *; subst. reflexivity.
    + intros j x X. destruct j; discriminate.
  - cbn [length app add_children]. unfold append_sibling, new_node. cbn [at_].
    destruct (Nat.eqb_spec l (used V h)); [lia|]. rewrite E, N.
    set (h1 := store_node V l _ _).
    assert (Ek : at_ V h1 (used V h) = Some (Node V v None None (parent V n))).
    { unfold h1, store_node. cbn [at_ used]. destruct (Nat.eqb_spec (used V h) l); [lia|]. rewrite Nat.eqb_refl. reflexivity. }
    assert (Eu : used V h1 = S (used V h)) by reflexivity.
    assert (El : at_ V h1 l = Some (Node V (value V n) (first_child V n) (Some (used V h)) (parent V n))).
    { unfold h1, store_node. cbn [at_ used]. rewrite Nat.eqb_refl. reflexivity. }
    assert (Eo : forall b, b < used V h -> b <> l -> at_ V h1 b = at_ V h b).
    { intros b Hb Nb. unfold h1, store_node. cbn [at_ used]. destruct (Nat.eqb_spec b l); [lia|]. destruct (Nat.eqb_spec b (used V h)); [lia|reflexivity]. }
    destruct (IH (used V h) h1 _ rest a Ek ltac:(lia) eq_refl) as (h2 & R & U & O & K & C).
    rewrite R. exists h2. cbn [seq]. rewrite Eu in *. cbn [value first_child parent] in *. split; [reflexivity|]. split; [lia|]. split; [|split].
    + intros b Hb Nb. rewrite O by lia. apply Eo; assumption.
    + rewrite O by lia. rewrite El. reflexivity.
    + intros j x X. destruct j as [|j].
      * cbn in X. inversion X; subst x. rewrite Nat.add_0_r, K. destruct vs; cbn [length]; [reflexivity|].
        cbn [Nat.ltb Nat.leb]. rewrite Nat.add_1_r. reflexivity.
      * cbn [nth_error] in X. replace (used V h + S j) with (S (used V h) + j) by lia. rewrite (C j x X).
        replace (S (used V h) + S j) with (used V h + S (S j)) by lia. reflexivity.
Qed.

Lemma add_ok : forall vs h n rest a, at_ V h a = Some n -> a < used V h -> first_child V n = None ->
  exists h1, add_children V (length vs) a None (vs ++ rest) h = Some (h1, seq (used V h) (length vs), rest) /\
    used V h1 = used V h + length vs /\
    (forall b, b < used V h -> b <> a -> at_ V h1 b = at_ V h b) /\
    at_ V h1 a = Some (Node V (value V n) (if 0 <? length vs then Some (used V h) else None) (next_sibling V n) (parent V n)) /\
    forall j v, nth_error vs j = Some v ->
      at_ V h1 (used V h + j) = Some (Node V v None (if S j <? length vs then Some (used V h + S j) else None) (Some a)).
Proof.
  intros vs h n rest a E L N. destruct vs as [|v vs].
  - exists h. cbn [length add_children app seq]. split; [reflexivity|]. split; [lia|]. split; [auto|]. split.
    + rewrite E. destruct n; cbn in *; subst. reflexivity.
    + intros j x X. destruct j; discriminate.
  - cbn [length app add_children]. unfold append_child, new_node. cbn [at_].
    destruct (Nat.eqb_spec a (used V h)); [lia|]. rewrite E, N.
    set (h1 := store_node V a _ _).
    assert (Ek : at_ V h1 (used V h) = Some (Node V v None None (Some a))).
    { unfold h1, store_node. cbn [at_ used]. destruct (Nat.eqb_spec (used V h) a); [lia|]. rewrite Nat.eqb_refl. reflexivity. }
    assert (Eu : used V h1 = S (used V h)) by reflexivity.
    assert (El : at_ V h1 a = Some (Node V (value V n) (Some (used V h)) (next_sibling V n) (parent V n))).
    { unfold h1, store_node. cbn [at_ used]. rewrite Nat.eqb_refl. reflexivity. }
    assert (Eo : forall b, b < used V h -> b <> a -> at_ V h1 b = at_ V h b).
    { intros b Hb Nb. unfold h1, store_node. cbn [at_ used]. destruct (Nat.eqb_spec b a); [lia|]. destruct (Nat.eqb_spec b (used V h)); [lia|reflexivity]. }
    destruct (add_siblings vs (used V h) h1 _ rest a Ek ltac:(lia) eq_refl) as (h2 & R & U & O & K & C).
    rewrite R. exists h2. cbn [seq]. rewrite Eu in *. cbn [value first_child parent] in *. split; [reflexivity|]. split; [lia|]. split; [|split].
    + intros b Hb Nb. rewrite O by lia. apply Eo; assumption.
    + rewrite O by lia. rewrite El. reflexivity.
    + intros j x X. destruct j as [|j].
      * cbn in X. inversion X; subst x. rewrite Nat.add_0_r, K. destruct vs; cbn [length]; [reflexivity|].
        cbn [Nat.ltb Nat.leb]. rewrite Nat.add_1_r. reflexivity.
      * cbn [nth_error] in X. replace (used V h + S j) with (S (used V h) + j) by lia. rewrite (C j x X).
        replace (S (used V h) + S j) with (used V h + S (S j)) by lia. reflexivity.
Qed.

(** What the loop leaves alone. *)
Definition kept (h h' : heap) (ids : list nat) : Prop :=
  forall b n, b < used V h -> at_ V h b = Some n ->
    exists n', at_ V h' b = Some n' /\ value V n' = value V n /\ next_sibling V n' = next_sibling V n /\ parent V n' = parent V n /\
      (~ In b ids -> first_child V n' = first_child V n).

Lemma linked_seq : forall h a cs base,
  (forall j t, nth_error cs j = Some t -> holds V h (base + j) t /\
     exists n, at_ V h (base + j) = Some n /\ parent V n = Some a /\ next_sibling V n = if S j <? length cs then Some (base + S j) else None) ->
  linked V h (Some a) (if 0 <? length cs then Some base else None) cs.
Proof.
  intros h a cs. induction cs as [|t cs IH]; intros base H; [constructor|].
  destruct (H 0 t eq_refl) as (Ht & n & E & P & N). rewrite Nat.add_0_r in *. cbn [length Nat.ltb Nat.leb].
  econstructor; [exact E|exact P|exact Ht|]. rewrite N.
  replace (if 1 <? length (t :: cs) then Some (base + 1) else None) with (if 0 <? length cs then Some (S base) else None).
  - apply IH. intros j u X. destruct (H (S j) u X) as (Hu & m & Em & Pm & Nm). replace (S base + j) with (base + S j) by lia.
    split; [exact Hu|]. exists m. split; [exact Em|]. split; [exact Pm|]. rewrite Nm. cbn [length].
    change (S (S j) <? S (length cs)) with (S j <? length cs). replace (S base + S j) with (base + S (S j)) by lia. reflexivity.
  - destruct cs; [reflexivity|]. cbn [length Nat.ltb Nat.leb]. rewrite Nat.add_1_r. reflexivity.
Qed.

Definition fresh (h : heap) (a : nat) (t : tree) : Prop :=
  exists n, at_ V h a = Some n /\ value V n = root_value t /\ first_child V n = None /\ a < used V h.

Lemma nth_zip : forall {A B} (R : A -> B -> Prop) l m j a b, Forall2 R l m -> nth_error l j = Some a -> nth_error m j = Some b -> R a b.
Proof.
  intros A B R l m j a b F. revert j. induction F; intros j Ea Eb; [destruct j; discriminate|].
  destruct j; cbn in *; [inversion Ea; inversion Eb; subst; assumption|eauto].
Qed.

Lemma forall2_nth : forall {A B} (R : A -> B -> Prop) l m, length l = length m ->
  (forall j a b, nth_error l j = Some a -> nth_error m j = Some b -> R a b) -> Forall2 R l m.
Proof.
  intros A B R. induction l as [|x l IH]; intros m L H; destruct m as [|y m]; try discriminate; constructor.
  - apply (H 0); reflexivity.
  - apply IH; [cbn in L; lia|]. intros j a b Ea Eb. apply (H (S j)); assumption.
Qed.

Lemma nth_seq : forall j base n a, nth_error (seq base n) j = Some a -> a = base + j /\ j < n.
Proof.
  intros j base n a E. assert (L : j < n) by (rewrite <- (seq_length n base); apply nth_error_Some; congruence).
  split; [|exact L]. rewrite (nth_error_nth' _ 0) in E by (rewrite seq_length; exact L). rewrite seq_nth in E by exact L. congruence.
Qed.

Lemma restore_ok : forall f q ids h, size q <= f -> NoDup ids -> Forall2 (fresh h) ids q ->
  exists h', restore_loop V (map Z.of_nat (counts f q)) ids (later f q) h = Some h' /\ Forall2 (holds V h') ids q /\ kept h h' ids.
Proof.
  induction f as [|f IH]; intros q ids h Sz ND A; destruct A as [|a t r q Ha A].
  - exists h. split; [reflexivity|]. split; [constructor|]. intros b n _ E. exists n. auto.
  - rewrite size_cons, nodes_size in Sz. lia.
  - exists h. split; [reflexivity|]. split; [constructor|]. intros b n _ E. exists n. auto.
  - cbn [counts later map restore_loop]. rewrite Nat2Z.id.
    destruct Ha as (n & E & Vn & Fc & Ua).
    assert (Len : length (map root_value (kids t)) = length (kids t)) by apply map_length.
    destruct (add_ok (map root_value (kids t)) h n (later f (q ++ kids t)) a E Ua Fc) as (h1 & R & U & O & Ea & C).
    rewrite Len in *. rewrite R.
    inversion ND as [|? ? Na ND']; subst.
    assert (Old : forall x, In x r -> x < used V h).
    { intros x Hx. clear - A Hx. induction A as [|y u r q Hy A IH]; [contradiction|]. destruct Hx as [<-|Hx]; [destruct Hy as (m & _ & _ & _ & L); exact L|auto]. }
    destruct (IH (q ++ kids t) (r ++ seq (used V h) (length (kids t))) h1) as (h2 & R2 & H2 & K2).
    + apply step_size. exact Sz.
    + assert (G : forall l1 l2 : list nat, NoDup l1 -> NoDup l2 -> (forall x, In x l1 -> ~ In x l2) -> NoDup (l1 ++ l2)).
      { clear. induction l1 as [|x l1 IH]; intros l2 N1 N2 D; [exact N2|]. inversion N1; subst. cbn [app]. constructor.
        - rewrite in_app_iff. intros [H|H]; [contradiction|]. apply (D x (or_introl eq_refl) H).
        - apply IH; [assumption|assumption|]. intros y Hy. apply D. right. exact Hy. }
      apply G; [exact ND'|apply seq_NoDup|]. intros x Hx Hs. apply in_seq in Hs. specialize (Old x Hx). lia.
    + apply Forall2_app.
      * apply forall2_nth; [clear - A; induction A; cbn; congruence|]. intros j x u Ex Eu.
        destruct (nth_zip _ _ _ _ _ _ A Ex Eu) as (m & Em & Vm & Fm & Um). exists m. split; [|split; [exact Vm|split; [exact Fm|lia]]].
        rewrite O; [exact Em|exact Um|]. intro; subst x. apply Na. eapply nth_error_In. exact Ex.
      * apply forall2_nth; [apply seq_length|]. intros j x u Ex Eu. apply nth_seq in Ex. destruct Ex as [-> Lj].
        eexists. split; [apply C; rewrite nth_error_map, Eu; reflexivity|]. cbn [value first_child]. split; [reflexivity|]. split; [reflexivity|]. lia.
    + exists h2. split; [exact R2|]. apply Forall2_app_inv_l in H2. destruct H2 as (q1 & q2 & H2a & H2b & Eq).
      assert (L1 : length q1 = length q).
      { assert (length r = length q1) by (clear - H2a; induction H2a; cbn; congruence). assert (length r = length q) by (clear - A; induction A; cbn; congruence). lia. }
      assert (q1 = q /\ q2 = kids t).
      { clear - Eq L1. revert q1 L1 Eq. induction q as [|x q IH]; intros q1 L1 Eq; destruct q1 as [|y q1]; try discriminate; [auto|].
        cbn [app] in Eq. inversion Eq. destruct (IH q1 ltac:(cbn in L1; lia) ltac:(congruence)) as [-> ->]. auto. }
      destruct H as [-> ->].
      assert (Na2 : ~ In a (r ++ seq (used V h) (length (kids t)))).
      { rewrite in_app_iff, in_seq. intros [H|H]; [contradiction|lia]. }
      split.
      * constructor; [|exact H2a]. destruct (K2 a _ ltac:(lia) Ea) as (m & Em & Vm & Nm & Pm & Fm). specialize (Fm Na2). cbn [value first_child] in *.
        destruct t as [v cs]. cbn [kids root_value] in *. econstructor; [exact Em|congruence|]. rewrite Fm.
        apply linked_seq. intros j u Eu.
        assert (Ej : nth_error (seq (used V h) (length cs)) j = Some (used V h + j)).
        { assert (j < length cs) by (apply nth_error_Some; congruence). rewrite (nth_error_nth' _ 0) by (rewrite seq_length; lia). rewrite seq_nth by lia. reflexivity. }
        split; [exact (nth_zip _ _ _ _ _ _ H2b Ej Eu)|].
        assert (Cj := C j (root_value u)). rewrite nth_error_map, Eu in Cj. specialize (Cj eq_refl).
        assert (j < length cs) by (apply nth_error_Some; congruence).
        destruct (K2 (used V h + j) _ ltac:(lia) Cj) as (m' & Em' & _ & Nm' & Pm' & _). exists m'. cbn [parent next_sibling] in *. auto.
      * intros b m Hb Em. destruct (Nat.eq_dec b a) as [->|Nb].
        -- rewrite E in Em. inversion Em; subst m. destruct (K2 a _ ltac:(lia) Ea) as (m & Em' & Vm & Nm & Pm & Fm). exists m. cbn [value next_sibling parent] in *.
           split; [exact Em'|]. split; [exact Vm|]. split; [exact Nm|]. split; [exact Pm|]. intro X. exfalso. apply X. left. reflexivity.
        -- destruct (K2 b m ltac:(lia)) as (m' & Em' & Vm & Nm & Pm & Fm); [rewrite O by assumption; exact Em|]. exists m'.
           split; [exact Em'|]. split; [exact Vm|]. split; [exact Nm|]. split; [exact Pm|]. intro X. apply Fm. rewrite in_app_iff, in_seq. intros [H|H]; [apply X; right; exact H|lia].
Qed.

(** ** Round trip *)

Lemma narrow_counts : forall k f q, size q <= f -> (Forall (at_most V k) q <-> Forall (fun n => n <= k) (counts f q)).
Proof.
  intros k. induction f as [|f IH]; intros q Sz; destruct q as [|t r].
  - split; intro; constructor.
  - rewrite size_cons, nodes_size in Sz. lia.
  - split; intro; constructor.
  - pose proof (IH (r ++ kids t) (step_size _ _ _ Sz)) as E. cbn [counts]. split; intro H; inversion H as [|? ? H1 H2]; subst.
    + constructor; [inversion H1; subst; assumption|]. apply E, Forall_app. split; [assumption|]. inversion H1; subst. apply Forall_forall. assumption.
    + apply E, Forall_app in H2. destruct H2 as [H3 H4]. constructor; [|exact H3]. destruct t as [v cs]. cbn [kids] in *. constructor; [assumption|].
      apply Forall_forall. exact H4.
Qed.

Lemma wrap_narrow : forall ks, Forall (fun n => n <= 255) ks -> map (fun k => wrap U8 (Z.of_nat k)) ks = map Z.of_nat ks.
Proof.
  intros ks F. induction F as [|k ks H F IH]; [reflexivity|]. cbn [map]. rewrite IH. f_equal. apply wrap_id. unfold in_range, tmin, tmax. cbn. lia.
Qed.

Lemma round_trip : forall h a t fuel, holds V h a t -> at_most V 255 t -> nodes V t <= fuel ->
  exists ds ks h', store V fuel h (Some a) = Some (ds, ks) /\ restore V ds ks = Restored V h' (Some 0) /\ holds V h' 0 t /\ is_root V h' 0.
Proof.
  intros h a t fuel H N F. assert (Sz : size [t] <= fuel) by (rewrite size_cons; cbn [size fold_right]; lia).
  cbn [store]. rewrite (store_ok fuel h [a] [t]) by (repeat constructor; assumption).
  rewrite wrap_narrow by (apply narrow_counts; [exact Sz|repeat constructor; exact N]).
  rewrite data_split by exact Sz. cbn [map app].
  destruct (restore_ok fuel [t] [0] (fst (new_node V (root_value t) (no_nodes V))) Sz) as (h' & R & A & K).
  - repeat constructor. intros [].
  - repeat constructor. exists (Node V (root_value t) None None None). repeat split; try reflexivity. cbn. lia.
  - do 3 eexists. split; [reflexivity|]. cbn [restore new_node]. cbn [fst new_node] in R. cbn [used no_nodes] in *. rewrite R. split; [reflexivity|].
    inversion A; subst. split; [assumption|].
    destruct (K 0 (Node V (root_value t) None None None)) as (m & Em & _ & Nm & Pm & _); [cbn; lia|reflexivity|]. exists m. auto.
Qed.

(** A node with too many children makes [restore] throw. *)
Lemma add_length : forall k a l ds h h1 cs ds', add_children V k a l ds h = Some (h1, cs, ds') -> length cs = k.
Proof.
  induction k as [|k IH]; intros a l ds h h1 cs ds' E; cbn [add_children] in E; [inversion E; reflexivity|].
  destruct ds as [|v ds]; [discriminate|]. destruct (match l with None => _ | Some _ => _ end) as [[h2 c]|]; [|discriminate].
  destruct (add_children V k a (Some c) ds h2) as [[[h3 cs3] r]|] eqn:E2; [|discriminate]. inversion E; subst. cbn [length]. f_equal. eapply IH. exact E2.
Qed.

Lemma restore_balance : forall ks queue ds h h', restore_loop V ks queue ds h = Some h' ->
  length ks <= length queue + list_sum (map Z.to_nat ks).
Proof.
  induction ks as [|k ks IH]; intros queue ds h h' E; cbn [restore_loop] in E; [cbn; lia|]. destruct queue as [|a r]; [discriminate|].
  destruct (add_children V (Z.to_nat k) a None ds h) as [[[h1 cs] ds']|] eqn:A; [|discriminate]. apply add_length in A. apply IH in E.
  rewrite app_length, A in E. cbn [map length]. change (list_sum (Z.to_nat k :: map Z.to_nat ks)) with (Z.to_nat k + list_sum (map Z.to_nat ks)). lia.
Qed.

Lemma wrap_u8_le : forall k, Z.to_nat (wrap U8 (Z.of_nat k)) <= k /\ (255 < k -> Z.to_nat (wrap U8 (Z.of_nat k)) < k).
Proof.
  intro k. pose proof (wrap_in_range U8 (Z.of_nat k)) as R.
  assert (0 <= wrap U8 (Z.of_nat k) <= 255)%Z by (unfold in_range in R; change (tmin U8) with 0%Z in R; change (tmax U8) with 255%Z in R; exact R). clear R.
  destruct (le_lt_dec k 255) as [L|L]; [|lia]. rewrite wrap_id by (unfold in_range, tmin, tmax; cbn; lia). lia.
Qed.

Lemma wrap_sum : forall ks, list_sum (map Z.to_nat (map (fun k => wrap U8 (Z.of_nat k)) ks)) <= list_sum ks /\
  (~ Forall (fun n => n <= 255) ks -> list_sum (map Z.to_nat (map (fun k => wrap U8 (Z.of_nat k)) ks)) < list_sum ks).
Proof.
  induction ks as [|k ks [I1 I2]]; [split; [cbn; lia|intro H; exfalso; apply H; constructor]|].
  cbn [map]. destruct (wrap_u8_le k) as [W1 W2].
  change (list_sum (k :: ks)) with (k + list_sum ks).
  match goal with |- context [list_sum (?x :: ?y)] => change (list_sum (x :: y)) with (x + list_sum y) end.
  split; [lia|]. intro H. destruct (le_lt_dec k 255) as [L|L]; [|specialize (W2 L); lia].
  assert (~ Forall (fun n => n <= 255) ks) by (intro F; apply H; constructor; assumption). specialize (I2 H0). lia.
Qed.

Lemma wide_throws : forall h a t fuel, holds V h a t -> ~ at_most V 255 t -> nodes V t <= fuel ->
  exists ds ks, store V fuel h (Some a) = Some (ds, ks) /\ restore V ds ks = Threw V.
Proof.
  intros h a t fuel H N F. assert (Sz : size [t] <= fuel) by (rewrite size_cons; cbn [size fold_right]; lia).
  cbn [store]. rewrite (store_ok fuel h [a] [t]) by (repeat constructor; assumption). do 2 eexists. split; [reflexivity|].
  rewrite data_split by exact Sz. cbn [map app restore]. destruct (new_node V (root_value t) (no_nodes V)) as [h0 root].
  destruct (restore_loop V (map (fun k => wrap U8 (Z.of_nat k)) (counts fuel [t])) [root] (later fuel [t]) h0) as [h'|] eqn:E; [|reflexivity].
  exfalso. apply restore_balance in E. rewrite map_length, counts_length in E by exact Sz.
  assert (NF : ~ Forall (fun n => n <= 255) (counts fuel [t])).
  { intro X. apply N. apply (narrow_counts 255 fuel [t] Sz) in X. inversion X; assumption. }
  pose proof (proj2 (wrap_sum (counts fuel [t])) NF). pose proof (counts_sum fuel [t] Sz). cbn [length] in *. lia.
Qed.

(** ** Traversal *)

Fixpoint walks (f : nat) (h : heap) (l : list nat) : option (list nat) :=
  match l with
  | [] => Some []
  | c :: r => match walk V f h c, walks f h r with Some a, Some b => Some (c :: a ++ b) | _, _ => None end
  end.

Lemma walk_step : forall f h a, walk V (S f) h a =
  match at_ V h a with None => None | Some n => match children V f h (first_child V n) with None => None | Some cs => walks f h cs end end.
Proof.
  intros f h a. cbn [walk]. destruct (at_ V h a) as [n|]; [|reflexivity]. destruct (children V f h (first_child V n)) as [cs|]; [|reflexivity].
  induction cs as [|c cs IH]; [reflexivity|]. cbn [walks]. destruct (walk V f h c); [|reflexivity]. rewrite IH. reflexivity.
Qed.

Lemma preorder_eq : forall t, preorder V t = root_value t :: flat_map (preorder V) (kids t).
Proof. destruct t; reflexivity. Qed.

Lemma leaf_iff : forall h a t, holds V h a t -> is_leaf V h a = match kids t with [] => true | _ => false end.
Proof.
  intros h a t H. destruct (holds_inv h a t H) as (n & E & _ & L). unfold is_leaf. rewrite E. inversion L; subst; reflexivity.
Qed.

Lemma leaves_eq : forall t, leaves V t = match kids t with [] => [root_value t] | _ => flat_map (leaves V) (kids t) end.
Proof. destruct t as [v [|c cs]]; reflexivity. Qed.

Lemma walk_ok : forall f h a t, holds V h a t -> nodes V t <= f ->
  exists l, walk V f h a = Some l /\ values_at V h l (below V t) /\ values_at V h (filter (is_leaf V h) l) (flat_map (leaves V) (kids t)).
Proof.
  induction f as [|f IH]; intros h a t H F; [rewrite nodes_size in F; lia|]. rewrite walk_step.
  destruct (holds_inv h a t H) as (n & E & Vn & L). rewrite E. rewrite nodes_size in F.
  destruct (children_ok h (kids t) (Some a) (first_child V n) f L) as (l & El & Al); [pose proof (size_length (kids t)); lia|]. rewrite El.
  assert (G : forall l ts, Forall2 (holds V h) l ts -> size ts <= f ->
     exists m, walks f h l = Some m /\ values_at V h m (flat_map (preorder V) ts) /\ values_at V h (filter (is_leaf V h) m) (flat_map (leaves V) ts)).
  { clear - IH. intros l ts A. induction A as [|c t l ts Hc A IHA]; intro Sz; [exists []; repeat split; constructor|].
    rewrite size_cons in Sz. destruct (IH h c t Hc ltac:(lia)) as (m1 & E1 & P1 & Q1). destruct (IHA ltac:(lia)) as (m2 & E2 & P2 & Q2).
    cbn [walks]. rewrite E1, E2. exists (c :: m1 ++ m2). split; [reflexivity|]. destruct (holds_inv h c t Hc) as (n & En & Vn & _). split.
    - cbn [flat_map]. rewrite preorder_eq. constructor; [exists n; auto|]. apply Forall2_app; [|exact P2]. destruct t; exact P1.
    - cbn [filter flat_map]. rewrite (leaf_iff h c t Hc), filter_app, leaves_eq. destruct (kids t) eqn:K.
      + cbn [app flat_map] in *. assert (filter (is_leaf V h) m1 = []) as -> by (inversion Q1; reflexivity). constructor; [exists n; auto|exact Q2].
      + apply Forall2_app; [exact Q1|exact Q2]. }
  destruct (G l (kids t) Al ltac:(lia)) as (m & Em & Pm & Qm). exists m. split; [exact Em|]. split; [destruct t; exact Pm|exact Qm].
Qed.

End Tree.
