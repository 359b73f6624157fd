(** Proofs about run-time dispatch: interface calls and casts. *)
From Coq Require Import ZArith List Bool Lia Permutation.
From Verif Require Import VtblModel VtblSpec VtblProofs.
Import ListNotations.
Local Open Scope nat_scope.

(* ------------------------------------------------------------------ *)
(** * The method that implements an interface method *)

Fixpoint pick (t : ty) (n : nat) (s : sig) : option meth :=
  match t with
  | [] => None
  | c :: b => match scan_impl n s (c_methods c) None with
              | Some m => Some m
              | None => pick b n s
              end
  end.

Lemma scan_none : forall n s ms acc,
  (forall m, In m ms -> ~ candidate n s m) -> scan_impl n s ms acc = acc.
Proof.
  intros n s. induction ms as [|m ms IH]; intros acc N; cbn [scan_impl]; [reflexivity|].
  assert (N' : forall x, In x ms -> ~ candidate n s x) by (intros; apply N; now right).
  specialize (N m (or_introl eq_refl)).
  destruct (compare_to m s) eqn:C; cbn [negb]; [|auto].
  apply compare_to_eq in C. destruct (m_owner m) as [o|] eqn:O.
  - destruct (Nat.eqb_spec o n) as [->|]; cbn [negb]; [|auto].
    exfalso. apply N. split; auto.
  - exfalso. apply N. split; auto.
Qed.

Lemma scan_explicit : forall n s ms acc m,
  In m ms -> m_sig m = s -> m_owner m = Some n ->
  exists m', scan_impl n s ms acc = Some m' /\ In m' ms /\ m_sig m' = s /\ m_owner m' = Some n.
Proof.
  intros n s. induction ms as [|x ms IH]; intros acc m M S O; [destruct M|]. cbn [scan_impl].
  destruct (compare_to x s) eqn:C; cbn [negb].
  - apply compare_to_eq in C. destruct (m_owner x) as [o|] eqn:OX.
    + destruct (Nat.eqb_spec o n) as [->|NE]; cbn [negb].
      * exists x. repeat split; auto. now left.
      * destruct M as [->|M]; [congruence|].
        destruct (IH acc m M S O) as (m' & Q1 & Q2 & Q3 & Q4). exists m'. repeat split; auto. now right.
    + destruct M as [->|M]; [congruence|].
      destruct (IH (Some x) m M S O) as (m' & Q1 & Q2 & Q3 & Q4). exists m'. repeat split; auto. now right.
  - apply compare_to_ne in C. destruct M as [->|M]; [contradiction|].
    destruct (IH acc m M S O) as (m' & Q1 & Q2 & Q3 & Q4). exists m'. repeat split; auto. now right.
Qed.

Lemma scan_plain : forall n s ms acc,
  (forall m, In m ms -> m_sig m = s -> m_owner m <> Some n) ->
  (exists m, In m ms /\ m_sig m = s /\ m_owner m = None) ->
  exists m', scan_impl n s ms acc = Some m' /\ In m' ms /\ m_sig m' = s /\ m_owner m' = None.
Proof.
  intros n s. induction ms as [|x ms IH]; intros acc NE (m & M & S & O); [destruct M|].
  assert (NE' : forall m, In m ms -> m_sig m = s -> m_owner m <> Some n) by (intros; apply NE; auto; now right).
  assert (REC : forall acc, (exists m, In m ms /\ m_sig m = s /\ m_owner m = None) ->
     exists m', scan_impl n s ms acc = Some m' /\ In m' (x :: ms) /\ m_sig m' = s /\ m_owner m' = None).
  { intros acc0 E. destruct (IH acc0 NE' E) as (m' & Q1 & Q2 & Q3 & Q4).
    exists m'. repeat split; auto. now right. }
  cbn [scan_impl]. destruct (compare_to x s) eqn:C; cbn [negb].
  - apply compare_to_eq in C. destruct (m_owner x) as [o|] eqn:OX.
    + destruct (Nat.eqb_spec o n) as [->|NO]; cbn [negb].
      * exfalso. exact (NE x (or_introl eq_refl) C OX).
      * destruct M as [->|M]; [congruence|]. apply REC. eauto.
    + destruct (existsb (fun m => compare_to m s && match m_owner m with None => true | _ => false end) ms) eqn:EX.
      * apply existsb_exists in EX. destruct EX as (y & Y & Q). apply andb_true_iff in Q.
        destruct Q as [Q1 Q2]. apply compare_to_eq in Q1. apply REC. exists y. repeat split; auto.
        destruct (m_owner y); [discriminate|reflexivity].
      * rewrite scan_none.
        -- exists x. repeat split; auto. now left.
        -- intros y Y [Q1 Q2]. assert (E : existsb (fun m => compare_to m s && match m_owner m with None => true | _ => false end) ms = true).
           { apply existsb_exists. exists y. split; [exact Y|]. rewrite (proj2 (compare_to_eq y s) Q1).
             destruct Q2 as [Q2|Q2]; [now rewrite Q2|]. exfalso. exact (NE' y Y Q1 Q2). }
           congruence.
  - apply compare_to_ne in C. destruct M as [->|M]; [contradiction|]. apply REC. eauto.
Qed.

Lemma chosen_pick : forall t n s host m, accepted t -> chosen t n s host m -> pick t n s = Some m.
Proof.
  intros t n s host m A H. induction H as [c b n s m M (S & O) P | c b n s host m N H IH]; cbn [pick].
  - destruct O as [O|O].
    + destruct (scan_plain n s (c_methods c) None (P O)) as (m' & Q1 & Q2 & Q3 & Q4).
      { exists m. auto. }
      rewrite Q1. f_equal. apply (proj2 (proj1 A)); auto; [congruence|]. rewrite Q3, S. apply clash_refl.
    + destruct (scan_explicit n s (c_methods c) None m M S O) as (m' & Q1 & Q2 & Q3 & Q4).
      rewrite Q1. f_equal. apply (proj2 (proj1 A)); auto; [congruence|]. rewrite Q3, S. apply clash_refl.
  - rewrite scan_none by exact N. apply IH. exact (proj2 A).
Qed.

(* ------------------------------------------------------------------ *)
(** * Filling the entries of one interface *)

Definition put (k : nat) (m : meth) (vfs : list meth) : list meth :=
  if Nat.eqb k (length vfs) then vfs ++ [m] else set_nth k m vfs.

Lemma set_nth_length : forall {A} k (a : A) l, length (set_nth k a l) = length l.
Proof. intros A k a l. revert k. induction l as [|x l IH]; intros [|k]; cbn [set_nth length]; auto. Qed.

Lemma set_nth_twice : forall {A} k (a b : A) l, set_nth k a (set_nth k b l) = set_nth k a l.
Proof.
  intros A k a b l. revert k. induction l as [|x l IH]; intros [|k]; cbn [set_nth]; auto. now rewrite IH.
Qed.

Lemma set_nth_app : forall {A} (a b : A) l, set_nth (length l) a (l ++ [b]) = l ++ [a].
Proof. intros A a b l. induction l as [|x l IH]; cbn [length app set_nth]; [reflexivity|]. now rewrite IH. Qed.

Lemma set_put : forall k m m' vfs, k <= length vfs -> set_nth k m (put k m' vfs) = put k m vfs.
Proof.
  intros k m m' vfs L. unfold put. destruct (Nat.eqb_spec k (length vfs)) as [->|N].
  - apply set_nth_app.
  - apply set_nth_twice.
Qed.

Lemma put_length : forall k m vfs, k <= length vfs -> k < length (put k m vfs).
Proof.
  intros k m vfs L. unfold put. destruct (Nat.eqb_spec k (length vfs)) as [->|N].
  - rewrite app_length. cbn. lia.
  - rewrite set_nth_length. lia.
Qed.

Lemma put_put : forall k m m' vfs, k <= length vfs -> put k m (put k m' vfs) = put k m vfs.
Proof.
  intros k m m' vfs L. unfold put at 1. pose proof (put_length k m' vfs L).
  destruct (Nat.eqb_spec k (length (put k m' vfs))); [lia|]. now apply set_put.
Qed.

Lemma set_nth_same : forall {A} k (a : A) l, k < length l -> nth_error (set_nth k a l) k = Some a.
Proof.
  intros A k a l. revert k. induction l as [|x l IH]; intros [|k] L; cbn [set_nth length nth_error] in *;
    try lia; auto. apply IH. lia.
Qed.

Lemma set_nth_other : forall {A} k j (a : A) l, j <> k -> nth_error (set_nth k a l) j = nth_error l j.
Proof.
  intros A k j a l. revert k j. induction l as [|x l IH]; intros [|k] [|j] N; cbn [set_nth nth_error];
    try reflexivity; try lia. apply IH. lia.
Qed.

Lemma put_same : forall k m vfs, k <= length vfs -> nth_error (put k m vfs) k = Some m.
Proof.
  intros k m vfs L. unfold put. destruct (Nat.eqb_spec k (length vfs)) as [->|N].
  - rewrite nth_error_app2 by lia. now rewrite Nat.sub_diag.
  - apply set_nth_same. lia.
Qed.

Lemma put_other : forall k j m vfs, k <= length vfs -> j < k -> nth_error (put k m vfs) j = nth_error vfs j.
Proof.
  intros k j m vfs L J. unfold put. destruct (Nat.eqb_spec k (length vfs)) as [->|N].
  - now rewrite nth_error_app1 by lia.
  - apply set_nth_other. lia.
Qed.

Lemma build_interface_put : forall t n s k vfs, k <= length vfs ->
  build_interface t n s k vfs = match pick t n s with None => vfs | Some m => put k m vfs end.
Proof.
  induction t as [|c b IH]; intros n s k vfs L; cbn [build_interface pick]; [reflexivity|].
  rewrite (IH n s k vfs L). destruct (scan_impl n s (c_methods c) None) as [m|]; [|reflexivity].
  destruct (pick b n s) as [m'|].
  - fold (put k m (put k m' vfs)). now apply put_put.
  - reflexivity.
Qed.

(** The method an override makes of entry [m]. *)
Fixpoint override_in (ms : list meth) (s : sig) (m : meth) : meth * bool :=
  match ms with
  | [] => (m, false)
  | x :: r =>
      match m_owner x with
      | Some _ => override_in r s m
      | None => if negb (compare_to x s) then override_in r s m
                else if is_override x then (x, false) else (m, true)
      end
  end.

Fixpoint override_above (above : list cls) (s : sig) (m : meth) : meth :=
  match above with
  | [] => m
  | c :: r => match override_in (c_methods c) s m with
              | (m1, stop) => if negb stop then m1 else override_above r s m1
              end
  end.

Lemma build_override_put : forall ms s k m vfs, k <= length vfs ->
  build_interface_override ms s k (put k m vfs)
  = (put k (fst (override_in ms s m)) vfs, snd (override_in ms s m)).
Proof.
  induction ms as [|x ms IH]; intros s k m vfs L; cbn [build_interface_override override_in]; [reflexivity|].
  destruct (m_owner x); [auto|]. destruct (negb (compare_to x s)); [auto|].
  destruct (is_override x); cbn [fst snd]; [|reflexivity]. now rewrite set_put.
Qed.

Lemma override_loop_put : forall above s k m vfs, k <= length vfs ->
  override_loop above s k (put k m vfs) = put k (override_above above s m) vfs.
Proof.
  induction above as [|c above IH]; intros s k m vfs L; cbn [override_loop override_above]; [reflexivity|].
  rewrite (build_override_put (c_methods c) s k m vfs L).
  destruct (override_in (c_methods c) s m) as [m1 stop]. cbn [fst snd].
  destruct (negb stop); [reflexivity|]. now apply IH.
Qed.

(** The entry that results for a method picked. *)
Definition final (above : list cls) (s : sig) (m : meth) : meth :=
  if is_virtual m && match m_owner m with None => true | Some _ => false end
  then override_above above s m else m.

Lemma build_imethods_spec : forall above t n ss k vfs vfs',
  build_imethods above t n ss k vfs = Some vfs' -> k <= length vfs ->
  (forall j, j < k -> nth_error vfs' j = nth_error vfs j) /\
  (forall j s m, nth_error ss j = Some s -> pick t n s = Some m ->
     nth_error vfs' (k + j) = Some (final above s m)).
Proof.
  intros above t n. induction ss as [|s ss IH]; intros k vfs vfs' H L; cbn [build_imethods] in H.
  - injection H as <-. split; [reflexivity|]. intros [|j] s m E; discriminate E.
  - rewrite (build_interface_put t n s k vfs L) in H.
    destruct (pick t n s) as [m|] eqn:P.
    + rewrite (put_same k m vfs L) in H.
      assert (H1 : build_imethods above t n ss (S k) (put k (final above s m) vfs) = Some vfs').
      { rewrite <- H. f_equal. unfold final.
        destruct (is_virtual m && match m_owner m with None => true | Some _ => false end); [|reflexivity].
        now rewrite override_loop_put. }
      destruct (IH _ _ _ H1 (put_length k _ vfs L)) as [Q1 Q2]. split.
      * intros j J. rewrite Q1 by lia. now apply put_other.
      * intros [|j] s' m' E P'; cbn [nth_error] in E.
        -- injection E as <-. rewrite P in P'. injection P' as <-.
           rewrite Nat.add_0_r, Q1 by lia. now apply put_same.
        -- rewrite <- Nat.add_succ_comm. eapply Q2; eassumption.
    + destruct (nth_error vfs k) as [m1|] eqn:E1; [|discriminate H].
      assert (LT : k < length vfs) by (apply nth_error_Some; congruence).
      set (vfs2 := if is_virtual m1 && match m_owner m1 with None => true | Some _ => false end
                   then override_loop above s k vfs else vfs) in *.
      assert (V2 : length vfs2 = length vfs /\ forall j, j < k -> nth_error vfs2 j = nth_error vfs j).
      { unfold vfs2. destruct (is_virtual m1 && _); [|auto].
        clear - LT. assert (G : forall above vfs, k < length vfs ->
          length (override_loop above s k vfs) = length vfs /\
          forall j, j < k -> nth_error (override_loop above s k vfs) j = nth_error vfs j).
        { clear. induction above as [|c above IH]; intros vfs LT; cbn [override_loop]; [auto|].
          assert (B : length (fst (build_interface_override (c_methods c) s k vfs)) = length vfs /\
             forall j, j < k -> nth_error (fst (build_interface_override (c_methods c) s k vfs)) j = nth_error vfs j).
          { induction (c_methods c) as [|x ms IHm]; cbn [build_interface_override]; [auto|].
            destruct (m_owner x); [auto|]. destruct (negb (compare_to x s)); [auto|].
            destruct (is_override x); cbn [fst]; [|auto].
            rewrite set_nth_length. split; [reflexivity|]. intros j J. apply set_nth_other. lia. }
          destruct (build_interface_override (c_methods c) s k vfs) as [vfs1 stop]. cbn [fst] in B.
          destruct B as [B1 B2]. destruct (negb stop); [auto|].
          destruct (IH vfs1 ltac:(lia)) as [I1 I2]. split; [lia|].
          intros j J. rewrite I2 by exact J. now apply B2. }
        now apply G. }
      destruct V2 as [V1 V2].
      destruct (IH _ _ _ H ltac:(lia)) as [Q1 Q2]. split.
      * intros j J. rewrite Q1 by lia. now apply V2.
      * intros [|j] s' m' E P'; cbn [nth_error] in E.
        -- injection E as <-. congruence.
        -- rewrite <- Nat.add_succ_comm. eapply Q2; eassumption.
Qed.

(* ------------------------------------------------------------------ *)
(** * The map of interfaces *)

Definition keys (mp : imap) : list nat := map fst mp.

Lemma get_put_same : forall n v mp, imap_get n (imap_put n v mp) = Some v.
Proof.
  intros n v. induction mp as [|[k w] mp IH]; cbn [imap_put imap_get].
  - now rewrite Nat.eqb_refl.
  - destruct (Nat.eqb_spec k n) as [->|N]; cbn [imap_get].
    + now rewrite Nat.eqb_refl.
    + destruct (Nat.eqb_spec k n); [contradiction|exact IH].
Qed.

Lemma get_put_other : forall n n' v mp, n' <> n -> imap_get n' (imap_put n v mp) = imap_get n' mp.
Proof.
  intros n n' v mp N. induction mp as [|[k w] mp IH]; cbn [imap_put imap_get].
  - destruct (Nat.eqb_spec n n'); [congruence|reflexivity].
  - destruct (Nat.eqb_spec k n) as [->|NE]; cbn [imap_get].
    + destruct (Nat.eqb_spec n n'); [congruence|reflexivity].
    + destruct (Nat.eqb k n'); [reflexivity|exact IH].
Qed.

Lemma keys_put : forall n v mp k, In k (keys (imap_put n v mp)) <-> k = n \/ In k (keys mp).
Proof.
  intros n v mp k. induction mp as [|[j w] mp IH]; cbn [imap_put keys map fst In].
  - split; intros [H|H]; auto.
  - destruct (Nat.eqb_spec j n) as [->|N]; cbn [map fst In].
    + intuition congruence.
    + unfold keys in IH. rewrite IH. intuition.
Qed.

Lemma nodup_put : forall n v mp, NoDup (keys mp) -> NoDup (keys (imap_put n v mp)).
Proof.
  intros n v mp H. induction mp as [|[j w] mp IH]; cbn [imap_put keys map fst].
  - constructor; [intros []|constructor].
  - inversion H as [|? ? H1 H2]; subst. destruct (Nat.eqb_spec j n) as [->|N]; cbn [map fst].
    + now constructor.
    + constructor; [|now apply IH]. change (map fst (imap_put n v mp)) with (keys (imap_put n v mp)).
      rewrite keys_put. intros [Q|Q]; [contradiction|]. exact (H1 Q).
Qed.

Lemma get_some_in : forall n v mp, imap_get n mp = Some v -> In (n, v) mp.
Proof.
  intros n v. induction mp as [|[k w] mp IH]; cbn [imap_get]; intro H; [discriminate|].
  destruct (Nat.eqb_spec k n) as [->|N]; [injection H as <-; now left|right; auto].
Qed.

(* ------------------------------------------------------------------ *)
(** * Interfaces reached *)

Section IfaceInd.
  Variable P : iface -> Prop.
  Hypothesis H : forall n ss sups, (forall j, In j sups -> P j) -> P (Iface n ss sups).
  Fixpoint iface_rect' (i : iface) : P i :=
    match i with
    | Iface n ss sups =>
        H n ss sups
          ((fix go (l : list iface) : forall j, In j l -> P j :=
              match l with
              | [] => fun j (F : In j []) => match F with end
              | x :: r => fun j F => match F with
                                     | or_introl E => eq_ind x P (iface_rect' x) j E
                                     | or_intror F' => go r j F'
                                     end
              end) sups)
    end.
End IfaceInd.

Lemma build_iface_unfold : forall n ss sups above t mp,
  build_iface (Iface n ss sups) above t mp =
  match build_iface_list sups above t mp with
  | None => None
  | Some mp1 =>
      match build_imethods above t n ss 0 (match imap_get n mp1 with Some v => v | None => [] end) with
      | None => None
      | Some vfs' => Some (imap_put n vfs' mp1)
      end
  end.
Proof.
  intros. cbn [build_iface].
  assert (E : forall l mp, (fix go (l : list iface) (mp : imap) : option imap :=
           match l with
           | [] => Some mp
           | j :: r => match build_iface j above t mp with
                       | None => None
                       | Some mp' => go r mp'
                       end
           end) l mp = build_iface_list l above t mp).
  { induction l as [|j l IH]; intro mp0; cbn [build_iface_list]; [reflexivity|].
    destruct (build_iface j above t mp0); [apply IH|reflexivity]. }
  rewrite E. reflexivity.
Qed.

Definition reached (l : list iface) (i : iface) : Prop := exists j, In j l /\ reaches j i.

Lemma reaches_inv : forall i k, reaches i k -> i = k \/ reached (iface_supers i) k.
Proof.
  intros i k H. inversion H; subst; [now left|right]. unfold reached. eauto.
Qed.

Lemma reaches_trans : forall i j k, reaches i j -> reaches j k -> reaches i k.
Proof.
  intros i j k H. revert k. induction H as [i | i j k' I H IH]; intros k Q; [exact Q|].
  eapply reaches_super; [exact I|]. auto.
Qed.

(** What the entry of interface [j] must hold once class [t] has listed it. *)
Definition good (above : list cls) (t : ty) (j : iface) (vfs : list meth) : Prop :=
  forall k s m, nth_error (iface_methods j) k = Some s -> pick t (iface_id j) s = Some m ->
    nth_error vfs k = Some (final above s m).

(** The effect on the map of processing the interfaces in [R]. *)
Definition effect (R : iface -> Prop) (above : list cls) (t : ty) (mp mp' : imap) : Prop :=
  (forall j, R j -> exists vfs, imap_get (iface_id j) mp' = Some vfs /\ good above t j vfs) /\
  (forall n, (forall j, R j -> iface_id j <> n) -> imap_get n mp' = imap_get n mp) /\
  (forall n, In n (keys mp') <-> In n (keys mp) \/ exists j, R j /\ iface_id j = n) /\
  (NoDup (keys mp) -> NoDup (keys mp')).

Definition unique (R : iface -> Prop) : Prop :=
  forall i j, R i -> R j -> iface_id i = iface_id j -> i = j.

(** Whether a number belongs to an interface reached. *)
Fixpoint ids (i : iface) : list nat :=
  match i with Iface n _ sups => n :: concat (map ids sups) end.

Lemma ids_reaches : forall i n, In n (ids i) <-> exists j, reaches i j /\ iface_id j = n.
Proof.
  induction i as [n0 ss sups IH] using iface_rect'. intro n. cbn [ids]. split.
  - intros [<-|H].
    + exists (Iface n0 ss sups). split; [constructor|reflexivity].
    + apply in_concat in H. destruct H as (l & L & H). apply in_map_iff in L.
      destruct L as (j & <- & J). apply (IH j J) in H. destruct H as (k & K & E).
      exists k. split; [|exact E]. eapply reaches_super; [exact J|exact K].
  - intros (j & R & <-). apply reaches_inv in R. destruct R as [<-|(k & K & R)]; [now left|right].
    cbn [iface_supers] in K. apply in_concat. exists (ids k). split; [now apply in_map|].
    apply (IH k K). eauto.
Qed.

Lemma reaches_id_dec : forall i n,
  (exists j, reaches i j /\ iface_id j = n) \/ (forall j, reaches i j -> iface_id j <> n).
Proof.
  intros i n. destruct (in_dec Nat.eq_dec n (ids i)) as [I|N].
  - left. now apply ids_reaches.
  - right. intros j R E. apply N. apply ids_reaches. eauto.
Qed.

Lemma effect_seq : forall (R1 R2 : iface -> Prop) above t mp mp1 mp2,
  unique (fun i => R1 i \/ R2 i) ->
  (forall n, (exists j, R2 j /\ iface_id j = n) \/ (forall j, R2 j -> iface_id j <> n)) ->
  effect R1 above t mp mp1 -> effect R2 above t mp1 mp2 ->
  effect (fun i => R1 i \/ R2 i) above t mp mp2.
Proof.
  intros R1 R2 above t mp mp1 mp2 U D (A1 & A2 & A3 & A4) (B1 & B2 & B3 & B4).
  split; [|split; [|split]].
  - intros j [J|J]; [|auto].
    destruct (D (iface_id j)) as [(j' & J' & E)|N].
    + assert (j' = j) by (apply U; auto). subst j'. auto.
    + rewrite (B2 _ N). auto.
  - intros n N. rewrite B2 by auto. apply A2. auto.
  - intro n. rewrite B3, A3. split.
    + intros [[H|(j & J & E)]|(j & J & E)]; eauto.
    + intros [H|(j & [J|J] & E)]; eauto.
  - auto.
Qed.

Lemma effect_ext : forall (R R' : iface -> Prop) above t mp mp',
  (forall i, R i <-> R' i) -> effect R above t mp mp' -> effect R' above t mp mp'.
Proof.
  intros R R' above t mp mp' E (A1 & A2 & A3 & A4). split; [|split; [|split]].
  - intros j J. apply A1. now apply E.
  - intros n N. apply A2. intros j J. apply N. now apply E.
  - intro n. rewrite A3. split; (intros [H|(j & J & Q)]; [now left|right; exists j; split; [now apply E|exact Q]]).
  - exact A4.
Qed.

Lemma effect_nil : forall above t mp, effect (reached []) above t mp mp.
Proof.
  intros above t mp. split; [|split; [|split]].
  - intros j (k & [] & _).
  - reflexivity.
  - intro n. split; [auto|]. intros [H|(j & (k & [] & _) & _)]. exact H.
  - auto.
Qed.

Lemma list_effect : forall above t l,
  (forall i, In i l -> forall mp mp', unique (reaches i) -> build_iface i above t mp = Some mp' ->
     effect (reaches i) above t mp mp') ->
  forall mp mp', unique (reached l) -> build_iface_list l above t mp = Some mp' ->
  effect (reached l) above t mp mp'.
Proof.
  intros above t. induction l as [|i l IH]; intros HI mp mp' U H; cbn [build_iface_list] in H.
  - injection H as <-. apply effect_nil.
  - destruct (build_iface i above t mp) as [mp1|] eqn:B; [|discriminate H].
    assert (E1 : effect (reaches i) above t mp mp1).
    { apply HI; [now left| |exact B]. intros a b A0 B0. apply U; exists i; split; auto; now left. }
    assert (E2 : effect (reached l) above t mp1 mp').
    { apply IH; [|intros a b (j & J & A0) (k & K & B0); apply U; [exists j|exists k]; split; auto; now right|exact H].
      intros j J. apply (HI j). now right. }
    assert (X : forall x, reaches i x \/ reached l x <-> reached (i :: l) x).
    { intro x. split.
      - intros [Q|(j & J & Q)]; [exists i|exists j]; split; auto; [now left|now right].
      - intros (j & [<-|J] & Q); [now left|right; now exists j]. }
    eapply effect_ext; [exact X|]. eapply effect_seq; [| |exact E1|exact E2].
    + intros a b A0 B0. apply U; now apply X.
    + intro n. clear. induction l as [|j l IH].
      * right. intros j (k & [] & _).
      * destruct (reaches_id_dec j n) as [(k & K & E)|N].
        -- left. exists k. split; [|exact E]. exists j. split; [now left|exact K].
        -- destruct IH as [(k & (j' & J' & K) & E)|N'].
           ++ left. exists k. split; [|exact E]. exists j'. split; [now right|exact K].
           ++ right. intros k (j' & [<-|J'] & K); [auto|]. apply N'. now exists j'.
Qed.

Lemma iface_effect : forall above t i mp mp',
  unique (reaches i) -> build_iface i above t mp = Some mp' -> effect (reaches i) above t mp mp'.
Proof.
  intros above t. induction i as [n ss sups IH] using iface_rect'. intros mp mp' U H.
  rewrite build_iface_unfold in H.
  destruct (build_iface_list sups above t mp) as [mp1|] eqn:B; [|discriminate H].
  assert (UL : unique (reached sups)).
  { intros a b (j & J & A0) (k & K & B0). apply U; [apply (reaches_super _ j)|apply (reaches_super _ k)]; cbn [iface_supers]; assumption. }
  assert (E1 : effect (reached sups) above t mp mp1) by (eapply list_effect; eauto).
  destruct (build_imethods above t n ss 0 _) as [vfs|] eqn:M; [|discriminate H].
  injection H as <-.
  assert (E2 : effect (fun j => j = Iface n ss sups) above t mp1 (imap_put n vfs mp1)).
  { split; [|split; [|split]].
    - intros j ->. cbn [iface_id]. rewrite get_put_same. eexists. split; [reflexivity|].
      intros k s m K P. cbn [iface_methods iface_id] in *.
      exact (proj2 (build_imethods_spec _ _ _ _ _ _ _ M (Nat.le_0_l _)) k s m K P).
    - intros n' N. apply get_put_other. intros ->. exact (N _ eq_refl eq_refl).
    - intro k. rewrite keys_put. split.
      + intros [->|Q]; [right; eexists; split; reflexivity|now left].
      + intros [Q|(j & -> & <-)]; [now right|now left].
    - apply nodup_put. }
  assert (X : forall x, reached sups x \/ x = Iface n ss sups <-> reaches (Iface n ss sups) x).
  { intro x. split.
    - intros [(j & J & Q)| ->]; [|constructor]. apply (reaches_super _ j); cbn [iface_supers]; assumption.
    - intro Q. apply reaches_inv in Q. destruct Q as [<-|Q]; [now right|now left]. }
  eapply effect_ext; [exact X|]. eapply effect_seq; [| |exact E1|exact E2].
  - intros a b A0 B0. apply U; now apply X.
  - intro n'. cbn beta. destruct (Nat.eq_dec n n') as [<-|N].
    + left. eexists. split; reflexivity.
    + right. intros j -> . exact N.
Qed.

(** The map of a class: the entry of an interface is the one filled for the
    class closest to the object that lists it. *)
Lemma build_ifaces_spec : forall t above mp mp',
  unique (implements t) -> build_ifaces above t mp = Some mp' ->
  (forall a c b j, t = a ++ c :: b -> lists c j -> (forall c', In c' a -> ~ lists c' j) ->
     exists vfs, imap_get (iface_id j) mp' = Some vfs /\ good (above ++ a) (c :: b) j vfs) /\
  (forall n, In n (keys mp') <-> In n (keys mp) \/ exists j, implements t j /\ iface_id j = n) /\
  (NoDup (keys mp) -> NoDup (keys mp')).
Proof.
  induction t as [|c b IH]; intros above mp mp' U H; cbn [build_ifaces] in H.
  - injection H as <-. split; [|split].
    + intros [|x a] c b j E; discriminate E.
    + intro n. split; [auto|]. intros [Q|(j & (c & [] & _) & _)]. exact Q.
    + auto.
  - destruct (build_ifaces (above ++ [c]) b mp) as [mp1|] eqn:B; [|discriminate H].
    assert (Ub : unique (implements b)).
    { intros i j (x & X & L) (y & Y & L'). apply U; [exists x|exists y]; split; auto; now right. }
    destruct (IH _ _ _ Ub B) as (A1 & A2 & A3).
    assert (Uc : unique (reached (c_ifaces c))).
    { intros i j L L'. apply U; exists c; split; auto; now left. }
    destruct (list_effect above (c :: b) (c_ifaces c)
                (fun i _ => iface_effect above (c :: b) i) mp1 mp' Uc H) as (E1 & E2 & E3 & E4).
    split; [|split].
    + intros [|x a] c0 b0 j E L N; cbn [app] in E; injection E as -> ->.
      * rewrite app_nil_r. apply E1. exact L.
      * destruct (A1 a c0 b0 j eq_refl L) as (vfs & V1 & V2).
        { intros c' C'. apply N. now right. }
        exists vfs. split.
        -- rewrite E2; [exact V1|]. intros k (i & I & K) Q.
           apply (N x (or_introl eq_refl)). exists i. split; [exact I|].
           replace j with k; [exact K|]. apply U; [exists x|exists c0|exact Q].
           ++ split; [now left|]. exists i. auto.
           ++ split; [|exact L]. right. apply in_app_iff. right. now left.
        -- rewrite <- app_assoc in V2. exact V2.
    + intro n. rewrite E3, A2. split.
      * intros [[Q|(j & (x & X & L) & Q)]|(j & L & Q)].
        -- now left.
        -- right. exists j. split; [|exact Q]. exists x. split; [now right|exact L].
        -- right. exists j. split; [|exact Q]. exists c. split; [now left|exact L].
      * intros [Q|(j & (x & [<-|X] & L) & Q)].
        -- auto.
        -- right. exists j. split; [exact L|exact Q].
        -- left. right. exists j. split; [|exact Q]. exists x. auto.
    + auto.
Qed.

(* ------------------------------------------------------------------ *)
(** * Searching the table *)

Definition tkeys (tbl : itable) : list nat := map fst tbl.

Lemma search_from_spec : forall checked l n iid,
  l <> [] ->
  (In iid (tkeys l) -> exists k e, search_from checked l n iid = At (n + k) /\
                        nth_error l k = Some e /\ fst e = iid) /\
  (~ In iid (tkeys l) -> search_from checked l n iid = if checked then NotFound else ReadsOutside).
Proof.
  intros checked. induction l as [|e l IH]; intros n iid NE; [congruence|].
  cbn [search_from tkeys map In]. destruct (Nat.eqb_spec (fst e) iid) as [E|N].
  - split.
    + intros _. exists 0, e. rewrite Nat.add_0_r. auto.
    + intro Q. exfalso. apply Q. now left.
  - destruct l as [|e' l].
    + split; [|reflexivity]. intros [Q|[]]. contradiction.
    + destruct (IH (S n) iid ltac:(discriminate)) as [I1 I2]. split.
      * intros [Q|Q]; [contradiction|]. destruct (I1 Q) as (k & x & K1 & K2 & K3).
        exists (S k), x. rewrite <- Nat.add_succ_comm. auto.
      * intro Q. apply I2. intro W. apply Q. now right.
Qed.

Lemma search_spec : forall checked tbl recent iid, recent < length tbl ->
  (In iid (tkeys tbl) -> exists k e, search_interface checked tbl recent iid = (At k, k) /\
                          nth_error tbl k = Some e /\ fst e = iid) /\
  (~ In iid (tkeys tbl) ->
     search_interface checked tbl recent iid = (if checked then NotFound else ReadsOutside, recent)).
Proof.
  intros checked tbl recent iid L. unfold search_interface.
  destruct (nth_error tbl recent) as [e|] eqn:E; [|apply nth_error_None in E; lia].
  assert (NE : tbl <> []) by (intros ->; destruct recent; discriminate E).
  destruct (search_from_spec checked tbl 0 iid NE) as [S1 S2].
  destruct (Nat.eqb_spec (fst e) iid) as [Q|N].
  - split; [eauto|]. intro W. exfalso. apply W. rewrite <- Q. apply in_map. eapply nth_error_In. exact E.
  - split.
    + intro W. destruct (S1 W) as (k & x & K1 & K2 & K3). rewrite K1. exists k, x. auto.
    + intro W. rewrite (S2 W). destruct checked; reflexivity.
Qed.

Lemma after_searches_bound : forall tbl h recent recent',
  tbl <> [] -> recent < length tbl -> after_searches tbl recent h = Some recent' -> recent' < length tbl.
Proof.
  intros tbl. induction h as [|[ck iid] h IH]; intros recent recent' NE L H; cbn [after_searches] in H.
  - injection H as <-. exact L.
  - destruct (search_spec ck tbl recent iid L) as [S1 S2].
    destruct (in_dec Nat.eq_dec iid (tkeys tbl)) as [I|N].
    + destruct (S1 I) as (k & e & K1 & K2 & K3). rewrite K1 in H.
      apply (IH k recent' NE); [|exact H]. apply nth_error_Some. congruence.
    + rewrite (S2 N) in H. destruct ck; [|discriminate H]. eapply IH; eassumption.
Qed.

Lemma itable_keys : forall t tbl, identities t -> itable_of t tbl ->
  (forall n, In n (tkeys tbl) <-> exists j, implements t j /\ iface_id j = n) /\ NoDup (tkeys tbl).
Proof.
  intros t tbl U (mp & B & P).
  destruct (build_ifaces_spec t [] [] mp U B) as (_ & K & N).
  assert (PK : Permutation (keys mp) (tkeys tbl)).
  { unfold tkeys. eapply Permutation_trans; [|apply Permutation_map; exact P].
    rewrite map_map. cbn [fst]. apply Permutation_refl. }
  split.
  - intro n. split.
    + intro Q. apply (Permutation_in _ (Permutation_sym PK)) in Q. apply K in Q.
      destruct Q as [[]|Q]. exact Q.
    + intro Q. apply (Permutation_in _ PK). apply K. now right.
  - eapply Permutation_NoDup; [exact PK|]. apply N. constructor.
Qed.

Lemma nodup_key_fun : forall (tbl : itable) n v v', NoDup (tkeys tbl) ->
  In (n, v) tbl -> In (n, v') tbl -> v = v'.
Proof.
  induction tbl as [|[k w] tbl IH]; intros n v v' N H H'; [destruct H|].
  cbn [tkeys map fst] in N. inversion N as [|? ? N1 N2]; subst.
  destruct H as [H|H], H' as [H'|H'].
  - congruence.
  - injection H as -> ->. exfalso. apply N1. change n with (fst (n, v')). now apply in_map.
  - injection H' as -> ->. exfalso. apply N1. change n with (fst (n, v)). now apply in_map.
  - eauto.
Qed.

(** What an interface call does: the entry of the class closest to the object
    that lists the interface. *)
Lemma interface_call_final : forall above c b i k s m tbl h recent,
  let t := above ++ c :: b in
  identities t -> itable_of t tbl ->
  lists c i -> (forall c', In c' above -> ~ lists c' i) ->
  nth_error (iface_methods i) k = Some s -> pick (c :: b) (iface_id i) s = Some m ->
  after_searches tbl 0 h = Some recent ->
  interface_call (iface_id i) k (Some (tbl, recent)) = Calls (vfun_of (final above s m)).
Proof.
  intros above c b i k s m tbl h recent t U T L N K P H.
  destruct (itable_keys t tbl U T) as [TK ND].
  assert (IN : In (iface_id i) (tkeys tbl)).
  { apply TK. exists i. split; [|reflexivity]. exists c. split; [|exact L].
    unfold t. rewrite in_app_iff. right. now left. }
  assert (NE : tbl <> []) by (intros ->; destruct IN).
  assert (LEN : 0 < length tbl) by (destruct tbl; [congruence|cbn; lia]).
  pose proof (after_searches_bound tbl h 0 recent NE LEN H) as BD.
  destruct (proj1 (search_spec false tbl recent (iface_id i) BD) IN) as (p & [n v] & S1 & S2 & S3).
  cbn [fst] in S3. subst n.
  unfold interface_call. rewrite S1, S2. cbn [snd].
  destruct T as (mp & B & PM).
  destruct (build_ifaces_spec t [] [] mp U B) as (G & _ & _).
  destruct (G above c b i eq_refl L N) as (vfs & V1 & V2). cbn [app] in V2.
  assert (E : v = map vfun_of vfs).
  { apply (nodup_key_fun tbl (iface_id i)); [exact ND|eapply nth_error_In; exact S2|].
    apply (Permutation_in _ PM). apply in_map_iff. exists (iface_id i, vfs). split; [reflexivity|].
    now apply get_some_in. }
  rewrite E. rewrite (map_nth_error vfun_of k vfs (V2 k s m K P)). reflexivity.
Qed.

(* ------------------------------------------------------------------ *)
(** * Interface calls *)

Lemma introduced_facts : forall c b x r, accepted (c :: b) -> explicit_apart (c :: b) ->
  In x (c_methods c) -> introduced (c :: b) x r ->
  dispatched x /\ m_sig r = m_sig x /\ m_owner x = None /\ In r (slots (c :: b)).
Proof.
  intros c b x r A X XI XR.
  assert (D : dispatched x).
  { inversion XR; subst; [now apply introducing_dispatched|now apply over_dispatched]. }
  destruct (introduced_exists c b x A XI D) as (r' & Q1 & Q2 & Q3).
  assert (r' = r) by (eapply introduced_fun; [exact A| |exact Q1|exact XR]; apply in_all; now left).
  subst r'. repeat split; auto.
  destruct (m_owner x) eqn:W; [exfalso|reflexivity].
  apply (proj1 (X x ltac:(apply in_all; left; auto) ltac:(congruence))). exact D.
Qed.

Lemma most_derived_up : forall above t r m,
  accepted (above ++ t) -> explicit_apart (above ++ t) ->
  (forall x, In x (all_methods above) -> m_owner x = None -> m_sig x <> m_sig r) ->
  most_derived t r m -> most_derived (above ++ t) r m.
Proof.
  induction above as [|c above IH]; intros t r m A X N M; [exact M|]. cbn [app] in *.
  apply most_derived_base.
  - intros x XI XR. destruct (introduced_facts c (above ++ t) x r A X XI XR) as (_ & S & O & _).
    apply (N x); auto. apply in_all. now left.
  - apply IH; auto; [exact (proj2 A)|exact (explicit_apart_base [c] _ X)|].
    intros x XI. apply N. apply in_all. now right.
Qed.

Lemma chosen_suffix : forall t n s host m, chosen t n s host m ->
  m_sig m = s /\
  exists a c b, t = a ++ host /\ host = c :: b /\ In m (c_methods c) /\
    forall x, In x (all_methods a) -> m_owner x = None -> m_sig x <> s.
Proof.
  intros t n s host m H. induction H as [c b n s m M (S & O) P | c b n s host m N H (S & a & c0 & b0 & E & E0 & M & Q)].
  - split; [exact S|]. exists [], c, b. repeat split; auto.
  - split; [exact S|]. exists (c :: a), c0, b0. subst. repeat split; auto.
    intros x X O SX. apply in_all in X. destruct X as [X|X]; [|exact (Q x X O SX)].
    apply (N x X). split; auto.
Qed.

Lemma override_in_none : forall ms s m,
  (forall x, In x ms -> m_owner x = None -> m_sig x <> s) -> override_in ms s m = (m, false).
Proof.
  induction ms as [|x ms IH]; intros s m N; cbn [override_in]; [reflexivity|].
  destruct (m_owner x) eqn:O; [apply IH; intros; apply N; auto; now right|].
  rewrite (proj2 (compare_to_ne x s)) by (apply N; auto; now left). cbn [negb].
  apply IH. intros; apply N; auto. now right.
Qed.

Lemma override_in_found : forall ms s m x,
  (forall y, In y ms -> m_owner y = None -> m_sig y = s -> y = x) ->
  In x ms -> m_owner x = None -> m_sig x = s -> m_over x = true -> override_in ms s m = (x, false).
Proof.
  induction ms as [|y ms IH]; intros s m x U XI O S V; [destruct XI|]. cbn [override_in].
  assert (U' : forall z, In z ms -> m_owner z = None -> m_sig z = s -> z = x) by (intros; apply U; auto; now right).
  destruct (m_owner y) eqn:OY.
  - destruct XI as [->|XI]; [congruence|]. auto.
  - destruct (compare_to y s) eqn:C; cbn [negb].
    + apply compare_to_eq in C. assert (y = x) by (apply U; auto; now left). subst y.
      unfold is_override. now rewrite V.
    + apply compare_to_ne in C. destruct XI as [->|XI]; [contradiction|]. auto.
Qed.

Lemma final_plain : forall above s m, m_owner m <> None \/ ~ dispatched m -> final above s m = m.
Proof.
  intros above s m H. unfold final. destruct (is_virtual m) eqn:V; [|reflexivity].
  apply is_virtual_spec in V. destruct (m_owner m) eqn:O; [reflexivity|].
  destruct H as [H|H]; [congruence|]. exfalso. apply H. now apply introducing_dispatched.
Qed.

Lemma final_alone : forall above s m,
  (forall x, In x (all_methods above) -> m_owner x = None -> ~ clash (m_sig x) s) -> final above s m = m.
Proof.
  intros above s m H. unfold final. destruct (is_virtual m && _); [|reflexivity].
  destruct above as [|c above]; cbn [override_above]; [reflexivity|].
  rewrite override_in_none; [reflexivity|]. intros x X O S. apply (H x); auto; [apply in_all; now left|].
  rewrite S. apply clash_refl.
Qed.

Lemma interface_call_spec : forall at_ t i k s m' tbl h recent,
  accepted t -> no_reintroduction t -> explicit_apart t -> loaded at_ t ->
  identities t -> itable_of t tbl -> after_searches tbl 0 h = Some recent ->
  nth_error (iface_methods i) k = Some s ->
  override_seen t i s -> interface_target t i s m' ->
  interface_call (iface_id i) k (Some (tbl, recent)) = Calls (m_asm m', m_idx m').
Proof.
  intros at_ t i k s m' tbl h recent A N X LD U T H K SEEN TG.
  destruct TG as [above c b host m ET L NL CH PL | above c b host m r m' ET L NL CH O D IR MD].
  - subst t. rewrite (interface_call_final above c b i k s m tbl h recent); auto.
    + rewrite final_plain by exact PL. f_equal. apply (fits_vfun at_).
      apply (loaded_fits at_ _ m LD). destruct (chosen_suffix _ _ _ _ _ CH) as (_ & a & c0 & b0 & E & E0 & M & _).
      rewrite E, E0. apply in_all_app. right. apply in_all_app. right. apply in_all. now left.
    + eapply chosen_pick; [|exact CH]. exact (accepted_base above _ A).
  - assert (FM : final above s m = m').
    { destruct (chosen_suffix _ _ _ _ _ CH) as (SM & a & c0 & b0 & E & E0 & M & NA).
      assert (A0 : accepted host).
      { apply (accepted_base a). rewrite <- E. apply (accepted_base above). now rewrite <- ET. }
      assert (X0 : explicit_apart host).
      { apply (explicit_apart_base a). rewrite <- E. apply (explicit_apart_base above). now rewrite <- ET. }
      rewrite E0 in A0, X0, IR. destruct (introduced_facts c0 b0 m r A0 X0 M IR) as (_ & SR & _ & RI).
      destruct (SEEN above c b host m ET L NL CH O D) as [NX|(IM & d & above' & EA & x & XI & XO & XS)].
      - rewrite final_alone by exact NX.
        apply (most_derived_fun t r); auto.
        rewrite ET, E, app_assoc, E0. apply most_derived_up.
        + rewrite <- app_assoc, <- E0, <- E, <- ET. exact A.
        + rewrite <- app_assoc, <- E0, <- E, <- ET. exact X.
        + intros y Y OY SY. apply in_all_app in Y. destruct Y as [Y|Y].
          * apply (NX y Y OY). rewrite SY, SR, SM. apply clash_refl.
          * apply (NA y Y OY). congruence.
        + apply most_derived_here; assumption.
      - assert (XOW : m_owner x = None).
        { destruct (m_owner x) eqn:W; [exfalso|reflexivity].
          assert (XA : In x (all_methods t)).
          { rewrite ET, EA. cbn [app]. apply in_all. now left. }
          apply (proj1 (X x XA ltac:(congruence))). now apply over_dispatched. }
        assert (Ad : accepted (d :: above' ++ c :: b)) by (rewrite ET, EA in A; exact A).
        unfold final. rewrite (proj2 (is_virtual_spec m) IM), O. cbn [andb].
        rewrite EA. cbn [override_above].
        rewrite (override_in_found (c_methods d) s m x); auto.
        + cbn [negb]. apply (most_derived_fun t r); auto.
          rewrite ET, EA. cbn [app]. apply most_derived_here; [exact XI|].
          assert (Xd : explicit_apart (d :: above' ++ c :: b)) by (rewrite ET, EA in X; exact X).
          destruct (introduced_exists d (above' ++ c :: b) x Ad XI (over_dispatched x XO)) as (r' & Q1 & Q2 & Q3).
          replace r with r'; [exact Q1|].
          apply (slots_distinct (d :: above' ++ c :: b)); auto.
          * rewrite ET, EA in N. exact N.
          * destruct (slots_app ((d :: above') ++ a) (c0 :: b0)) as [l EL].
            rewrite <- E0, <- app_assoc, <- E in EL. cbn [app] in EL. rewrite EL.
            apply in_app_iff. left. rewrite E0. exact RI.
          * rewrite Q2, XS, SR, SM. apply clash_refl.
        + intros y Y OY SY. apply (proj2 (proj1 Ad)); auto; [congruence|]. rewrite SY, XS. apply clash_refl. }
    rewrite ET in *. rewrite (interface_call_final above c b i k s m tbl h recent); auto.
    + rewrite FM. f_equal. apply (fits_vfun at_). apply (loaded_fits at_ _ m' LD).
      clear - MD. induction MD as [c' b' r m' M _ | c' b' r m' _ _ IH]; apply in_all; auto.
    + eapply chosen_pick; [|exact CH]. exact (accepted_base above _ A).
Qed.

(* ------------------------------------------------------------------ *)
(** * Casts *)

Lemma is_base_type_spec : forall t n, is_base_type t n = true <-> In n (base_types t).
Proof.
  intros t n. unfold is_base_type. rewrite existsb_exists. split.
  - intros (k & K & E). apply Nat.eqb_eq in E. now subst.
  - intro H. exists n. split; [exact H|apply Nat.eqb_refl].
Qed.

Lemma cast_test_spec : forall t tbl h recent g,
  t <> [] -> identities t -> itable_of t tbl -> after_searches tbl 0 h = Some recent ->
  (match g with ToClass _ => True | ToInterface _ => exists i, implements t i end) ->
  exists b, cast_test t tbl recent g = Some b /\ (b = true <-> belongs t g).
Proof.
  intros t tbl h recent g NE U T H G. destruct g as [n|n]; cbn [cast_test belongs].
  - destruct t as [|c b]; [congruence|]. eexists. split; [reflexivity|].
    destruct (Nat.eqb_spec (c_id c) n) as [E|E].
    + split; [|reflexivity]. intros _. exists c. split; [now left|exact E].
    + rewrite is_base_type_spec. cbn [base_types]. rewrite in_map_iff. split.
      * intros (x & Q & X). exists x. split; [now right|exact Q].
      * intros (x & [<-|X] & Q); [contradiction|]. exists x. auto.
  - destruct (itable_keys t tbl U T) as [TK ND]. destruct G as (i & I).
    assert (IN : In (iface_id i) (tkeys tbl)) by (apply TK; eauto).
    assert (NT : tbl <> []) by (intros ->; destruct IN).
    assert (LEN : 0 < length tbl) by (destruct tbl; [congruence|cbn; lia]).
    pose proof (after_searches_bound tbl h 0 recent NT LEN H) as BD.
    destruct (search_spec true tbl recent n BD) as [S1 S2].
    destruct (in_dec Nat.eq_dec n (tkeys tbl)) as [Q|Q].
    + destruct (S1 Q) as (k & e & -> & _). cbn [fst]. exists true. split; [reflexivity|].
      split; [|reflexivity]. intros _. now apply TK.
    + rewrite (S2 Q). cbn [fst]. exists false. split; [reflexivity|].
      split; [discriminate|]. intro W. exfalso. apply Q. now apply TK.
Qed.

Lemma cast_spec : forall k t tbl h recent g,
  t <> [] -> identities t -> itable_of t tbl -> after_searches tbl 0 h = Some recent ->
  (match g with ToClass _ => True | ToInterface _ => exists i, implements t i end) ->
  cast_meaning k g t (cast k g (Some (t, tbl, recent))).
Proof.
  intros k t tbl h recent g NE U T H G.
  destruct (cast_test_spec t tbl h recent g NE U T H G) as (b & E & B).
  cbn [cast]. rewrite E. destruct k, b; cbn [cast_meaning]; split; intro Q; try reflexivity;
    exfalso; intuition congruence.
Qed.

(** Searches that ask only for what the table holds, or that may fail, never
    read outside a table that is not empty. *)
Lemma searches_defined : forall t tbl h,
  identities t -> itable_of t tbl -> (exists i, implements t i) ->
  (forall ck n, In (ck, n) h -> ck = true \/ exists i, implements t i /\ iface_id i = n) ->
  exists recent, after_searches tbl 0 h = Some recent.
Proof.
  intros t tbl h U T (i & I) HH.
  destruct (itable_keys t tbl U T) as [TK ND].
  assert (IN : In (iface_id i) (tkeys tbl)) by (apply TK; eauto).
  assert (LEN : 0 < length tbl) by (destruct tbl; [destruct IN|cbn; lia]).
  revert LEN. generalize 0. induction h as [|[ck n] h IH]; intros rc L; cbn [after_searches]; [eauto|].
  assert (HH' : forall ck n, In (ck, n) h -> ck = true \/ exists i, implements t i /\ iface_id i = n)
    by (intros; eapply HH; right; eassumption).
  destruct (search_spec ck tbl rc n L) as [S1 S2].
  destruct (in_dec Nat.eq_dec n (tkeys tbl)) as [Q|Q].
  - destruct (S1 Q) as (k & e & K1 & K2 & K3). rewrite K1. apply IH; auto.
    apply nth_error_Some. congruence.
  - rewrite (S2 Q). destruct (HH ck n (or_introl eq_refl)) as [->|W].
    + apply IH; auto.
    + exfalso. apply Q. now apply TK.
Qed.
