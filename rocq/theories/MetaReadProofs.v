(* The reader of MetaModel.v gives back what the writer was given. *)
From Coq Require Import ZArith NArith List Bool Lia Permutation.
From Verif Require Import MetaModel MetaSpec MetaProofs MetaWriteProofs.
Import ListNotations.
Local Open Scope nat_scope.

(* ---- going through lists ---- *)

Lemma traverse_ok {B C} (F : nat -> B -> result C) (P : B -> C -> Prop) l :
  (forall a, In a l -> exists b d, (forall f, d <= f -> F f a = Done b) /\ P a b) ->
  exists bs d, (forall f, d <= f -> traverse (F f) l = Done bs) /\ Forall2 P l bs.
Proof.
  induction l as [|a l IH]; intros H.
  - exists [], 0. split; [reflexivity|constructor].
  - destruct (H a (or_introl eq_refl)) as (b & d & E & Q).
    destruct IH as (bs & e & F' & G); [intros x I; apply H; now right|].
    exists (b :: bs), (Nat.max d e). split; [|now constructor].
    intros f L. cbn [traverse]. rewrite E by lia. cbn [bind]. rewrite F' by lia. reflexivity.
Qed.

Lemma Forall2_length {B C} (P : B -> C -> Prop) l m : Forall2 P l m -> length l = length m.
Proof. induction 1; cbn; congruence. Qed.

Lemma Forall2_nth {B C} (P : B -> C -> Prop) l m : Forall2 P l m ->
  forall i a, nth_error l i = Some a -> exists b, nth_error m i = Some b /\ P a b.
Proof.
  induction 1 as [|a b l m H HS IH]; intros [|i] x E; cbn in E; try discriminate.
  - injection E as <-. exists b. auto.
  - exact (IH i x E).
Qed.

Lemma Forall2_of_nth {B C} (P : B -> C -> Prop) l : forall m, length l = length m ->
  (forall i a, nth_error l i = Some a -> exists b, nth_error m i = Some b /\ P a b) ->
  Forall2 P l m.
Proof.
  induction l as [|a l IH]; intros [|b m] L H; try discriminate L; constructor.
  - destruct (H 0 a eq_refl) as [c [E Q]]. cbn in E. congruence.
  - apply IH; [cbn in L; lia|]. intros i x E. exact (H (S i) x E).
Qed.

(* ---- references ---- *)

Lemma index_mkref T k i e c x : fits T -> at_ T k i e -> index_of (mkref i c x) = i.
Proof.
  intros F H. apply at_lt in H. specialize (F k). unfold index_of, mkref. cbn [r_index].
  rewrite N.mod_small by lia. apply Nat2N.id.
Qed.

Lemma count_mkref i c x : (N.of_nat c < 512)%N -> count_of (mkref i c x) = c.
Proof. intros L. unfold count_of, mkref. cbn [r_count]. rewrite N.mod_small by exact L. apply Nat2N.id. Qed.

Lemma count_one i x : count_of (mkref i 1 x) = 1.
Proof. apply count_mkref. reflexivity. Qed.

Lemma says_inv T i l row : says_all T (i :: l) row ->
  exists c r, row = c ++ r /\ says T i c /\ says_all T l r.
Proof. intros S. inversion S; subst. eauto. Qed.

Lemma says_nil_inv T row : says_all T [] row -> row = [].
Proof. intros S. now inversion S. Qed.

(* ---- the hosts of nested types ---- *)

Definition no_host (t : gtype) : gtype :=
  Gtype (t_name t) (t_decorate t) (t_space t) (t_kind t) (t_value t) None (t_params t)
        (t_methods t) (t_props t) (t_fields t) (t_events t) (t_nested t) (t_supers t).

Lemma nth_error_combine_seq {B} (l : list B) i s :
  nth_error (combine (seq s (length l)) l) i = option_map (fun b => (s + i, b)) (nth_error l i).
Proof.
  revert i s. induction l as [|b l IH]; intros i s; [now destruct i|].
  destruct i as [|i]; cbn [length seq combine nth_error].
  - cbn [option_map]. now rewrite Nat.add_0_r.
  - rewrite IH. destruct (nth_error l i); cbn [option_map]; [|reflexivity].
    do 2 f_equal. lia.
Qed.

Definition host_set (h : nat) (t : gtype) : gtype :=
  Gtype (t_name t) (t_decorate t) (t_space t) (t_kind t) (t_value t)
        (Some h) (t_params t) (t_methods t) (t_props t) (t_fields t)
        (t_events t) (t_nested t) (t_supers t).

Lemma nth_set_host ts n h i : nth_error (set_host ts n h) i =
  option_map (fun t => if i =? n then host_set h t else t) (nth_error ts i).
Proof.
  unfold set_host. rewrite nth_error_map, nth_error_combine_seq.
  destruct (nth_error ts i); reflexivity.
Qed.

Lemma length_set_host ts n h : length (set_host ts n h) = length ts.
Proof. unfold set_host. rewrite map_length, combine_length, seq_length. lia. Qed.

Definition nestings (ts : list gtype) : list (nat * nat) :=
  flat_map (fun p : nat * list nat => map (fun n => (fst p, n)) (snd p))
           (combine (seq 0 (length ts)) (map t_nested ts)).

Lemma set_hosts_pairs ts : set_hosts ts =
  fold_left (fun us q => set_host us (snd q) (fst q)) (nestings ts) ts.
Proof.
  unfold set_hosts, nestings.
  generalize (combine (seq 0 (length ts)) (map t_nested ts)) as ps.
  generalize ts as us. intros us ps. revert us. induction ps as [|p ps IH]; intros us; [reflexivity|].
  cbn [fold_left flat_map]. rewrite fold_left_app, IH. f_equal.
  generalize (snd p) as ns. intros ns. clear. revert us.
  induction ns as [|n ns IH]; intros us; [reflexivity|].
  cbn [fold_left map fst snd]. apply IH.
Qed.

Lemma in_nestings ts h n : In (h, n) (nestings ts) <->
  exists u, nth_error ts h = Some u /\ In n (t_nested u).
Proof.
  unfold nestings. rewrite in_flat_map. split.
  - intros ((h', l) & I & J). cbn [fst snd] in J. apply in_map_iff in J.
    destruct J as (n' & E & J). injection E as -> ->.
    apply In_nth_error in I. destruct I as [i I].
    rewrite <- (map_length t_nested ts), nth_error_combine_seq, nth_error_map in I.
    destruct (nth_error ts i) as [u|] eqn:E; [|discriminate I]. cbn in I.
    injection I as -> <-. eauto.
  - intros (u & E & I). exists (h, t_nested u). split.
    + apply nth_error_In with (n := h).
      rewrite <- (map_length t_nested ts), nth_error_combine_seq, nth_error_map, E. reflexivity.
    + apply in_map_iff. eauto.
Qed.

Lemma fold_hosts ps : forall ts,
  length (fold_left (fun us q => set_host us (snd q) (fst q)) ps ts) = length ts /\
  forall i t, nth_error ts i = Some t -> exists t',
    nth_error (fold_left (fun us (q : nat * nat) => set_host us (snd q) (fst q)) ps ts) i = Some t' /\
    no_host t' = no_host t /\
    ((t_host t' = t_host t /\ forall h, ~ In (h, i) ps) \/
     exists h, In (h, i) ps /\ t_host t' = Some h).
Proof.
  induction ps as [|[h n] ps IH]; intros ts; cbn [fold_left fst snd].
  - split; [reflexivity|]. intros i t E. exists t. repeat split; auto.
  - destruct (IH (set_host ts n h)) as [L Q]. rewrite L, length_set_host.
    split; [reflexivity|]. intros i t E.
    destruct (Q i (if i =? n then host_set h t else t)) as (t' & E' & N & [[H1 H2]|(k & I & H)]).
    + now rewrite nth_set_host, E.
    + exists t'. split; [exact E'|]. destruct (i =? n) eqn:EQ.
      * apply Nat.eqb_eq in EQ. subst n. split; [exact N|]. right. exists h.
        split; [now left|exact H1].
      * apply Nat.eqb_neq in EQ. split; [exact N|]. left. split; [exact H1|].
        intros k [EK|IK]; [congruence|exact (H2 k IK)].
    + exists t'. split; [exact E'|]. split.
      * rewrite N. now destruct (i =? n).
      * right. exists k. split; [now right|exact H].
Qed.

Lemma fields_of_no_host f x b b' : same_gtype f (no_host x) b -> no_host b' = no_host b ->
  t_host b' = t_host x -> same_gtype f x b'.
Proof.
  intros (A1 & A2 & A3 & A4 & A5 & A6 & A7 & A8 & A9 & A10 & A11 & A12 & A13) E H.
  unfold no_host in E. injection E as E1 E2 E3 E4 E5 E6 E7 E8 E9 E10 E11 E12.
  unfold same_gtype. rewrite E1, E2, E3, E4, E5, E6, E7, E8, E9, E10, E11, E12. cbn in *.
  repeat split; auto.
Qed.

Section Reading.
Variables (A : assembly) (X : list xtype) (L : library) (T : tables).
Hypothesis GA : good_assembly A X.
Hypothesis GL : good_library L X.
Hypothesis FT : fits T.
Hypothesis Z : final A X T.
Hypothesis KF : forall k, first_hand k = true -> untyped k = true ->
  keys T k = map Some (flat_map (parts k) (w_types A)).
Hypothesis KA : keys T TAssembly = [Some (KId 0)].

Lemma row_found k i e : at_ T k i e -> exists row l,
  row_at T k i = Done row /\ describe A X k e = Some l /\ says_all T l row /\
  ready A X (knownT T) k e.
Proof.
  intros H. unfold at_, keys in H. rewrite nth_error_map in H. unfold row_at.
  destruct (nth_error (T k) i) as [x|] eqn:E; [|discriminate H]. cbn in H. injection H as H.
  destruct (z_entry _ _ _ Z _ _ _ E) as (e' & row & l & K & R & RD & D & S).
  rewrite R. exists row, l. assert (e' = e) as -> by congruence. auto.
Qed.

Lemma within_one k i e x : at_ T k i e -> within (mkref i 1 x) (length (T k)) = true.
Proof.
  intros H. unfold within. rewrite count_one, (index_mkref T k i e) by assumption.
  apply at_lt in H. cbn [Nat.eqb orb]. apply Nat.ltb_lt. lia.
Qed.

Lemma span_run k es r : row_run T k es r -> short es ->
  exists l, span r (length (T k)) = Done l /\ Forall2 (at_ T k) l es.
Proof.
  intros [[-> C]|[N (i & -> & H)]] S.
  - exists []. unfold span, count_of. rewrite C. cbn. split; [reflexivity|constructor].
  - assert (L0 : 0 < length es) by (destruct es; [contradiction|cbn; lia]).
    destruct (nth_error es (length es - 1)) as [e|] eqn:E;
      [|apply nth_error_None in E; lia].
    assert (E0 : exists e0, nth_error es 0 = Some e0) by (destruct es; [contradiction|cbn; eauto]).
    destruct E0 as [e0 E0].
    pose proof (H _ _ E) as HE. pose proof (H _ _ E0) as HE0. rewrite Nat.add_0_r in HE0.
    unfold span. rewrite count_mkref by exact S.
    destruct (length es =? 0) eqn:B; [apply Nat.eqb_eq in B; lia|].
    unfold within. rewrite count_mkref by exact S. rewrite (index_mkref T k i e0) by assumption.
    rewrite B. cbn [orb]. apply at_lt in HE.
    destruct (i + length es - 1 <? length (T k)) eqn:C; [|apply Nat.ltb_ge in C; lia].
    exists (seq i (length es)). split; [reflexivity|].
    apply Forall2_of_nth; [apply seq_length|].
    intros j a J. assert (LJ : j < length es).
    { rewrite <- (seq_length (length es) i). apply nth_error_Some. congruence. }
    rewrite (nth_error_nth' _ 0) in J by (rewrite seq_length; exact LJ).
    rewrite seq_nth in J by exact LJ. injection J as <-.
    destruct (nth_error es j) as [b|] eqn:EB; [|apply nth_error_None in EB; lia].
    exists b. split; [reflexivity|]. now apply H.
Qed.

(* ---- the types of other assemblies ---- *)

Lemma import_ok : forall e i, at_ T TTypeRef i (KId e) ->
  exists d, forall f, d <= f -> import_ref L T f i = Done e.
Proof.
  induction e as [e IH] using lt_wf_ind. intros i H.
  destruct (row_found _ _ _ H) as (row & l & R & D & S & RD).
  cbn [describe] in D. destruct (nth_error X e) as [x|] eqn:E; [|discriminate D].
  injection D as <-. destruct (GL e x E) as (GA1 & GC & GF & GH).
  apply says_inv in S. destruct S as (c1 & r1 & -> & S1 & S). cbn in S1. subst c1.
  apply says_inv in S. destruct S as (c2 & r2 & -> & (rf & -> & S2) & S).
  apply says_inv in S. destruct S as (c3 & r3 & -> & S3 & S). cbn in S3. subst c3.
  apply says_inv in S. destruct S as (c4 & r4 & -> & S4 & S). cbn in S4. subst c4.
  apply says_inv in S. destruct S as (c5 & r5 & -> & S5 & S). cbn in S5. subst c5.
  apply says_nil_inv in S. subst r5. cbn [app] in R.
  rewrite Z.mod_small in R by exact GC.
  destruct (x_host x) as [h|] eqn:EH.
  - cbn [other_type denotes] in S2. destruct S2 as (j & -> & J).
    destruct (GH h eq_refl) as (LH & y & EY & AY).
    destruct (IH h LH j J) as [d HD]. exists (S d). intros [|f] LF; [lia|].
    cbn [import_ref]. rewrite R. cbn [bind]. rewrite count_one. cbn [Nat.eqb].
    cbn [mkref r_extra extra]. cbn [N.eqb Pos.eqb negb orb].
    change (Ref _ _ _) with (mkref j 1 1). rewrite (index_mkref T TTypeRef j (KId h)) by assumption.
    rewrite HD by lia. cbn [bind]. destruct (GL h y EY) as (GY & _).
    rewrite GY, AY, Z.eqb_refl. cbn [bind]. rewrite GF. reflexivity.
  - cbn [other_type denotes] in S2. subst rf. exists 1. intros [|f] LF; [lia|].
    cbn [import_ref]. rewrite R. cbn [bind null count_of r_count N.to_nat Nat.eqb].
    rewrite GF. reflexivity.
Qed.

Lemma key_of k i : i < length (T k) -> exists e, at_ T k i e /\ ready A X (knownT T) k e.
Proof.
  intros H. destruct (nth_error (T k) i) as [x|] eqn:E; [|apply nth_error_None in E; lia].
  destruct (z_entry _ _ _ Z _ _ _ E) as (e & row & l & K & R & RD & _).
  exists e. split; [|exact RD]. unfold at_, keys. rewrite nth_error_map, E. cbn. now rewrite K.
Qed.

Lemma imports_ok : exists xs d,
  (forall f, d <= f -> traverse (import_ref L T f) (seq 0 (length (T TTypeRef))) = Done xs) /\
  length xs = length (T TTypeRef) /\
  (forall i e, at_ T TTypeRef i (KId e) -> nth_error xs i = Some e).
Proof.
  destruct (traverse_ok (import_ref L T) (fun i e => at_ T TTypeRef i (KId e))
              (seq 0 (length (T TTypeRef)))) as (xs & d & E & F).
  - intros i I. apply in_seq in I. destruct (key_of TTypeRef i) as [e [H R]]; [lia|].
    destruct e as [n|t m]; [|destruct R]. destruct (import_ok n i H) as [d D]. exists n, d. auto.
  - exists xs, d. split; [exact E|]. split.
    + rewrite <- (Forall2_length _ _ _ F). apply seq_length.
    + intros i e H. pose proof (at_lt _ _ _ _ H) as LI.
      destruct (Forall2_nth _ _ _ F i i) as [b [B Q]].
      { rewrite (nth_error_nth' _ 0) by (rewrite seq_length; exact LI).
        rewrite seq_nth by exact LI. reflexivity. }
      unfold at_ in *. rewrite B. congruence.
Qed.

(* ---- types ---- *)

Definition id_at (k : tab) (i : nat) : nat :=
  match nth_error (keys T k) i with Some (Some (KId n)) => n | _ => 0 end.

Lemma id_at_at k i n : at_ T k i (KId n) -> id_at k i = n.
Proof. unfold at_, id_at. now intros ->. Qed.

Definition names : naming :=
  Naming (id_at TMethod) (id_at TField) (id_at TProp) (id_at TEvent) (id_at TParam)
         (id_at TGparam).

Section WithImports.
Variable xs : list nat.
Hypothesis XL : length xs = length (T TTypeRef).
Hypothesis XS : forall i e, at_ T TTypeRef i (KId e) -> nth_error xs i = Some e.

Lemma read_general g r : denotes T (General g) r ->
  forall f, 1 <= f -> read_type xs T f r = Done (General g).
Proof.
  intros D [|f] LF; [lia|]. destruct g as [n|n]; cbn [denotes] in D; destruct D as (i & -> & H).
  - cbn [read_type]. rewrite count_one. cbn [Nat.eqb mkref r_extra extra].
    change (Ref _ _ _) with (mkref i 1 0). rewrite (within_one TType i (KId n)) by exact H.
    rewrite (index_mkref T TType i (KId n)) by assumption.
    pose proof (z_types _ _ _ Z) as AT. unfold all_types in AT. unfold at_ in H. rewrite AT in H.
    rewrite nth_error_map in H.
    destruct (nth_error (seq 0 (length (w_types A))) i) as [y|] eqn:Y; [|discriminate H].
    cbn in H. injection H as ->.
    assert (LI : i < length (seq 0 (length (w_types A)))) by (apply nth_error_Some; congruence).
    rewrite seq_length in LI. rewrite (nth_error_nth' _ 0) in Y by (rewrite seq_length; lia).
    rewrite seq_nth in Y by lia. cbn in Y. congruence.
  - cbn [read_type]. rewrite count_one. cbn [Nat.eqb mkref r_extra extra].
    change (Ref _ _ _) with (mkref i 1 1). rewrite XL.
    rewrite (within_one TTypeRef i (KId n)) by exact H.
    rewrite (index_mkref T TTypeRef i (KId n)) by assumption.
    rewrite (XS i n H). reflexivity.
Qed.

Lemma plain_no t : plain t = NoType -> t = NoType.
Proof. destruct t; cbn; congruence. Qed.

Lemma read_both :
  (forall t r, good_ty A X (knownT T) t -> denotes T t r ->
     exists t' d, (forall f, d <= f -> read_type xs T f r = Done t') /\ same_ty names t t') /\
  (forall a l, good_targs A X (knownT T) a -> Forall2 (at_ T TArg) l (args_of a) ->
     exists a' d, (forall f, d <= f -> read_args (read_type xs T f) T l = Done a') /\
       old_targs names a' = plain_targs a).
Proof.
  unfold same_ty. apply ty_targs_ind.
  - intros r _ ->. exists NoType, 1. split; [|reflexivity]. intros [|f] LF; [lia|]. reflexivity.
  - intros g r _ D. exists (General g), 1. split; [now apply read_general|reflexivity].
  - intros g a IHa h IHh r G D. cbn [good_ty] in G. destruct G as (Gg & Gc & Ga & Gh).
    cbn [denotes] in D. destruct D as (i & -> & H).
    destruct (row_found _ _ _ H) as (row & l & R & D & S & RD). cbn [describe] in D. injection D as <-.
    apply says_inv in S. destruct S as (c1 & r1 & -> & (rt & -> & S1) & S).
    apply says_inv in S. destruct S as (c2 & r2 & -> & (ra & -> & S2) & S).
    apply says_inv in S. destruct S as (c3 & r3 & -> & (rh & -> & S3) & S).
    apply says_nil_inv in S. subst r3. cbn [app] in R.
    destruct (span_run _ _ _ S2) as (la & SP & FA).
    { unfold short. rewrite args_of_length. exact Gc. }
    destruct (IHa la Ga FA) as (a' & da & EA & QA).
    destruct (IHh rh Gh S3) as (h' & dh & EH & QH).
    exists (Instance g a' h'), (S (S (Nat.max da dh))). split.
    + intros [|f] LF; [lia|]. cbn [read_type]. rewrite count_one.
      cbn [Nat.eqb mkref r_extra extra]. change (Ref _ _ _) with (mkref i 1 2).
      rewrite (within_one TInstance i _) with (1 := H).
      rewrite (index_mkref T TInstance i _) with (2 := H) by assumption.
      rewrite R. cbn [bind]. rewrite (read_general g rt S1) by lia. cbn [bind].
      rewrite SP. cbn [bind]. rewrite EA by lia. cbn [bind]. rewrite EH by lia. reflexivity.
    + cbn [old_ty plain]. now rewrite QA, QH.
  - intros u IHu d r G D. cbn [good_ty] in G. destruct G as (Gn & Gd & Gu).
    cbn [denotes] in D. destruct D as (i & -> & H).
    destruct (row_found _ _ _ H) as (row & l & R & D & S & RD). cbn [describe] in D. injection D as <-.
    apply says_inv in S. destruct S as (c1 & r1 & -> & (rt & -> & S1) & S).
    apply says_inv in S. destruct S as (c2 & r2 & -> & S2 & S). cbn in S2. subst c2.
    apply says_nil_inv in S. subst r2. cbn [app] in R.
    rewrite Z.mod_small in R by lia. replace (d + 32768 - 32768)%Z with d in R by lia.
    destruct (IHu rt Gu S1) as (u' & du & EU & QU).
    exists (Array u' d), (S du). split.
    + intros [|f] LF; [lia|]. cbn [read_type]. rewrite count_one.
      cbn [Nat.eqb mkref r_extra extra]. change (Ref _ _ _) with (mkref i 1 3).
      rewrite (within_one TArray i _) with (1 := H).
      rewrite (index_mkref T TArray i _) with (2 := H) by assumption.
      rewrite R. cbn [bind]. rewrite EU by lia. cbn [bind].
      destruct u'; try reflexivity. exfalso. apply Gn. apply plain_no. now rewrite <- QU.
    + cbn [old_ty plain]. now rewrite QU.
  - intros p r G D. cbn [denotes] in D. destruct D as (i & -> & H).
    exists (Param i), 1. split.
    + intros [|f] LF; [lia|]. cbn [read_type]. rewrite count_one.
      cbn [Nat.eqb mkref r_extra extra]. change (Ref _ _ _) with (mkref i 1 4).
      rewrite (within_one TGparam i _) with (1 := H).
      rewrite (index_mkref T TGparam i _) with (2 := H) by assumption. reflexivity.
    + cbn [old_ty plain names n_gparam]. now rewrite (id_at_at _ _ _ H).
  - intros l _ F. inversion F; subst. exists ANil, 0. split; reflexivity.
  - intros t IHt m a IHa l [G Gs] F. cbn [args_of] in F.
    inversion F as [|i e l' es H FS E1 E2]; subst.
    destruct (row_found _ _ _ H) as (row & l & R & D & S & RD). cbn [describe] in D. injection D as <-.
    apply says_inv in S. destruct S as (c1 & r1 & -> & (rt & -> & S1) & S).
    apply says_inv in S. destruct S as (c2 & r2 & -> & S2 & S). cbn in S2. subst c2.
    apply says_nil_inv in S. subst r2. cbn [app] in R.
    destruct (IHt rt G S1) as (t' & dt & ET & QT).
    destruct (IHa l' Gs FS) as (a' & da & EA & QA).
    exists (ACons t' 0 a'), (Nat.max dt da). split.
    + intros f LF. cbn [read_args]. rewrite R. cbn [bind]. rewrite ET by lia. cbn [bind].
      rewrite EA by lia. reflexivity.
    + cbn [old_targs plain_targs]. now rewrite QT, QA.
Qed.

Lemma read_ok t r : good_ty A X (knownT T) t -> denotes T t r ->
  exists t' d, (forall f, d <= f -> read_type xs T f r = Done t') /\ same_ty names t t'.
Proof. apply read_both. Qed.

(* ---- whole tables ---- *)

Lemma table_ok {B} k (F : nat -> list cell -> result B) (P : key -> B -> Prop) :
  (forall i e row l, at_ T k i e -> describe A X k e = Some l -> says_all T l row ->
     ready A X (knownT T) k e ->
     exists b d, (forall f, d <= f -> F f row = Done b) /\ P e b) ->
  exists rows bs d, rows_of T k = Done rows /\
    (forall f, d <= f -> traverse (F f) rows = Done bs) /\
    length bs = length (T k) /\
    (forall i e, at_ T k i e -> exists b, nth_error bs i = Some b /\ P e b).
Proof.
  intros H.
  assert (R : exists rows, rows_of T k = Done rows /\
    Forall2 (fun i row => exists e l, at_ T k i e /\ describe A X k e = Some l /\
       says_all T l row /\ ready A X (knownT T) k e) (seq 0 (length (T k))) rows).
  { destruct (traverse_ok (fun _ => row_at T k)
      (fun i row => exists e l, at_ T k i e /\ describe A X k e = Some l /\
         says_all T l row /\ ready A X (knownT T) k e) (seq 0 (length (T k)))) as (rows & d & E & Q).
    - intros i I. apply in_seq in I. destruct (key_of k i) as [e [HE _]]; [lia|].
      destruct (row_found _ _ _ HE) as (row & l & R & D & S & RD).
      exists row, 0. split; [auto|]. exists e, l. auto.
    - exists rows. split; [exact (E d (le_n _))|exact Q]. }
  destruct R as (rows & ER & FR).
  destruct (traverse_ok F (fun row b => forall e, (exists i, at_ T k i e /\ row_at T k i = Done row) -> P e b) rows)
    as (bs & d & E & Q).
  - intros row I. apply In_nth_error in I. destruct I as [i I].
    assert (LI : i < length rows) by (apply nth_error_Some; congruence).
    rewrite <- (Forall2_length _ _ _ FR), seq_length in LI.
    destruct (Forall2_nth _ _ _ FR i i) as (row' & RW & e & l & HE & D & S & RD).
    { rewrite (nth_error_nth' _ 0) by (rewrite seq_length; exact LI).
      rewrite seq_nth by exact LI. reflexivity. }
    assert (row' = row) as -> by congruence.
    destruct (H i e row l HE D S RD) as (b & d & EB & PB). exists b, d. split; [exact EB|].
    intros e' (i' & HE' & RW').
    destruct (row_found _ _ _ HE') as (row2 & l' & R2 & D' & S' & RD').
    assert (row2 = row) as -> by congruence.
    destruct (H i' e' row l' HE' D' S' RD') as (b' & d' & EB' & PB').
    assert (b' = b) as <-; [|exact PB'].
    specialize (EB (Nat.max d d')). specialize (EB' (Nat.max d d')).
    rewrite EB in EB' by lia. specialize (EB' (Nat.le_max_r _ _)). congruence.
  - exists rows, bs, d. split; [exact ER|]. split; [exact E|].
    assert (LR : length rows = length (T k)) by (rewrite <- (Forall2_length _ _ _ FR); apply seq_length).
    split; [rewrite <- (Forall2_length _ _ _ Q); exact LR|].
    intros i e HE. pose proof (at_lt _ _ _ _ HE) as LI.
    destruct (Forall2_nth _ _ _ FR i i) as (row & RW & _).
    { rewrite (nth_error_nth' _ 0) by (rewrite seq_length; exact LI).
      rewrite seq_nth by exact LI. reflexivity. }
    destruct (Forall2_nth _ _ _ Q i row RW) as (b & EB & PB).
    exists b. split; [exact EB|]. apply PB. exists i. split; [exact HE|].
    (* the row read at [i] is [row] *)
    unfold rows_of in ER.
    assert (TR : forall l rs, traverse (row_at T k) l = Done rs ->
      forall j a, nth_error l j = Some a -> exists b, nth_error rs j = Some b /\ row_at T k a = Done b).
    { induction l as [|a l IHl]; intros rs HR j x J; [destruct j; discriminate J|].
      cbn [traverse] in HR. destruct (row_at T k a) as [ra| | |] eqn:RA; try discriminate HR.
      cbn [bind] in HR. destruct (traverse (row_at T k) l) as [rl| | |] eqn:RL; try discriminate HR.
      cbn [bind] in HR. injection HR as <-.
      destruct j as [|j]; cbn in J |- *; [injection J as <-; eauto|]. exact (IHl rl eq_refl j x J). }
    destruct (TR _ _ ER i i) as (row3 & R3 & RR).
    { rewrite (nth_error_nth' _ 0) by (rewrite seq_length; exact LI).
      rewrite seq_nth by exact LI. reflexivity. }
    congruence.
Qed.

Lemma ids_at k l ns : Forall2 (at_ T k) l (ids ns) -> map (id_at k) l = ns.
Proof.
  revert l. induction ns as [|n ns IH]; intros l F; inversion F; subst; [reflexivity|].
  cbn [map]. f_equal; [now apply id_at_at|]. now apply IH.
Qed.

Lemma method_ref_ok m c : says T (IMethod m) c ->
  exists r m', c = [CRef r] /\ read_method_ref T r = Done m' /\
    option_map (id_at TMethod) m' = m.
Proof.
  intros S. destruct m as [n|]; cbn [says] in S.
  - destruct S as (i & -> & H). eexists _, (Some i). split; [reflexivity|].
    unfold read_method_ref. rewrite count_one, (within_one TMethod i _ _ H). cbn [Nat.eqb].
    rewrite (index_mkref T TMethod i _ _ _ FT H). split; [reflexivity|].
    cbn. now rewrite (id_at_at _ _ _ H).
  - subst c. exists null, None. auto.
Qed.

Lemma declared_known p : In p (declared A) -> knownT T p.
Proof.
  intros I. apply In_nth_error in I. destruct I as [i I]. exists i. unfold at_.
  rewrite (z_gparams _ _ _ Z), nth_error_map, I. reflexivity.
Qed.

Lemma type_param_known p : type_param A p -> knownT T p.
Proof.
  intros [t [It Ip]]. apply declared_known. unfold declared. apply in_or_app. left.
  apply in_flat_map. eauto.
Qed.

Lemma listed_at k part i n : first_hand k = true -> untyped k = true ->
  (forall t, parts k t = ids (part t)) -> at_ T k i (KId n) ->
  nth_error (listed A part) i = Some n.
Proof.
  intros F U P H. unfold at_ in H. rewrite (KF k F U), (parts_ids A k part P) in H.
  unfold ids in H. rewrite !nth_error_map in H.
  destruct (nth_error (listed A part) i) as [y|]; [|discriminate H]. cbn in H. congruence.
Qed.

Lemma method_param_known i n m p :
  at_ T TMethod i (KId n) -> nth_error (w_methods A) n = Some m ->
  method_param A m p -> knownT T p.
Proof.
  intros H E [P|P]; [now apply type_param_known|]. apply declared_known.
  unfold declared. apply in_or_app. right. apply in_flat_map. exists n.
  split; [|now rewrite E].
  eapply nth_error_In. apply (listed_at TMethod t_methods i n); auto.
Qed.

Lemma weaken_ty (P : nat -> Prop) t :
  (forall p, P p -> knownT T p) -> good_ty A X P t -> good_ty A X (knownT T) t.
Proof. intros W. apply (proj1 (good_ty_weaken A X _ _ W)). Qed.

Lemma methods_ok : exists rows bs d, rows_of T TMethod = Done rows /\
  (forall f, d <= f -> traverse (read_method (read_type xs T f) T) rows = Done bs) /\
  length bs = length (T TMethod) /\
  (forall i e, at_ T TMethod i e -> exists b, nth_error bs i = Some b /\
     exists n x, e = KId n /\ nth_error (w_methods A) n = Some x /\ same_method names x b).
Proof.
  apply (table_ok TMethod (fun f => read_method (read_type xs T f) T)).
  intros i e row l HE D S R. destruct e as [n|t m]; [|destruct R].
  cbn [describe] in D. destruct (nth_error (w_methods A) n) as [x|] eqn:E; [|discriminate D].
  injection D as <-.
  pose proof (ga_methods _ _ GA x (nth_error_In _ _ E)) as [Gn [Gt Go] [Gs Gs'] Gg Gp].
  pose proof (fun p => method_param_known i n x p HE E) as KN.
  apply says_inv in S. destruct S as (c1 & r1 & -> & S1 & S). cbn in S1. subst c1.
  apply says_inv in S. destruct S as (c2 & r2 & -> & S2 & S). cbn in S2. subst c2.
  apply says_inv in S. destruct S as (c3 & r3 & -> & S3 & S). cbn in S3. subst c3.
  apply says_inv in S. destruct S as (c4 & r4 & -> & (rg & -> & S4) & S).
  apply says_inv in S. destruct S as (c5 & r5 & -> & S5 & S).
  assert (exists r, c5 = [CRef r] /\ denotes T (m_type x) r) as (rt & -> & S5').
  { destruct (may_lack_type (m_trait x)); exact S5. }
  apply says_inv in S. destruct S as (c6 & r6 & -> & (ro & -> & S6) & S).
  apply says_inv in S. destruct S as (c7 & r7 & -> & (rp & -> & S7) & S).
  apply says_nil_inv in S. subst r7. cbn [app].
  destruct (span_run _ _ _ S4) as (lg & SG & FG); [now apply short_ids|].
  destruct (span_run _ _ _ S7) as (lp & SP & FP); [now apply short_ids|].
  destruct (read_ok (m_type x) rt (weaken_ty _ _ KN Gt) S5') as (t' & d & ET & QT).
  eexists (Method _ _ _ lg t' NoType lp), d. split.
  - intros f LF. cbn [read_method]. rewrite ET by exact LF. cbn [bind].
    rewrite SG. cbn [bind]. rewrite SP. reflexivity.
  - exists n, x. split; [reflexivity|]. split; [exact E|].
    unfold same_method. cbn. repeat split; auto; now apply ids_at.
Qed.

Lemma fields_ok : exists rows bs d, rows_of T TField = Done rows /\
  (forall f, d <= f -> traverse (read_field (read_type xs T f)) rows = Done bs) /\
  length bs = length (T TField) /\
  (forall i e, at_ T TField i e -> exists b, nth_error bs i = Some b /\
     exists n x, e = KId n /\ nth_error (w_fields A) n = Some x /\ same_field names x b).
Proof.
  apply (table_ok TField (fun f => read_field (read_type xs T f))).
  intros i e row l HE D S R. destruct e as [n|t m]; [|destruct R].
  cbn [describe] in D. destruct (nth_error (w_fields A) n) as [x|] eqn:E; [|discriminate D].
  injection D as <-.
  destruct (ga_fields _ _ GA x (nth_error_In _ _ E)) as [Gn Gt].
  apply says_inv in S. destruct S as (c1 & r1 & -> & S1 & S). cbn in S1. subst c1.
  apply says_inv in S. destruct S as (c2 & r2 & -> & S2 & S). cbn in S2. subst c2.
  apply says_inv in S. destruct S as (c3 & r3 & -> & (rt & -> & S3) & S).
  apply says_inv in S. destruct S as (c4 & r4 & -> & S4 & S). cbn in S4. subst c4.
  apply says_nil_inv in S. subst r4. cbn [app].
  destruct (read_ok _ rt (weaken_ty _ _ type_param_known Gt) S3) as (t' & d & ET & QT).
  eexists (Field _ _ t' _), d. split.
  - intros f LF. cbn [read_field]. rewrite ET by exact LF. reflexivity.
  - exists n, x. split; [reflexivity|]. split; [exact E|].
    unfold same_field. cbn. repeat split; auto.
Qed.

Lemma props_ok : exists rows bs d, rows_of T TProp = Done rows /\
  (forall f, d <= f -> traverse (read_prop (read_type xs T f) T) rows = Done bs) /\
  length bs = length (T TProp) /\
  (forall i e, at_ T TProp i e -> exists b, nth_error bs i = Some b /\
     exists n x, e = KId n /\ nth_error (w_props A) n = Some x /\ same_prop names x b).
Proof.
  apply (table_ok TProp (fun f => read_prop (read_type xs T f) T)).
  intros i e row l HE D S R. destruct e as [n|t m]; [|destruct R].
  cbn [describe] in D. destruct (nth_error (w_props A) n) as [x|] eqn:E; [|discriminate D].
  injection D as <-.
  pose proof (ga_props _ _ GA x (nth_error_In _ _ E)) as [Gn [Gt Go] Gs Gp [Ga Gb]].
  apply says_inv in S. destruct S as (c1 & r1 & -> & S1 & S). cbn in S1. subst c1.
  apply says_inv in S. destruct S as (c2 & r2 & -> & S2 & S). cbn in S2. subst c2.
  apply says_inv in S. destruct S as (c3 & r3 & -> & (rt & -> & S3) & S).
  apply says_inv in S. destruct S as (c4 & r4 & -> & (ro & -> & S4) & S).
  apply says_inv in S. destruct S as (c5 & r5 & -> & (rp & -> & S5) & S).
  apply says_inv in S. destruct S as (c6 & r6 & -> & S6 & S).
  apply says_inv in S. destruct S as (c7 & r7 & -> & S7 & S).
  apply says_nil_inv in S. subst r7.
  destruct (method_ref_ok _ _ S6) as (rg & g & -> & EG & QG).
  destruct (method_ref_ok _ _ S7) as (rs & w & -> & EW & QW).
  cbn [app].
  destruct (span_run _ _ _ S5) as (lp & SP & FP); [now apply short_ids|].
  destruct (read_ok _ rt (weaken_ty _ _ type_param_known Gt) S3) as (t' & d & ET & QT).
  eexists (Prop_ _ _ t' NoType lp g w), d. split.
  - intros f LF. cbn [read_prop]. rewrite ET by exact LF. cbn [bind].
    rewrite SP. cbn [bind]. rewrite EG. cbn [bind]. rewrite EW. reflexivity.
  - exists n, x. split; [reflexivity|]. split; [exact E|].
    unfold same_prop. cbn. repeat split; auto; now apply ids_at.
Qed.

Lemma events_ok : exists rows bs d, rows_of T TEvent = Done rows /\
  (forall f, d <= f -> traverse (read_event (read_type xs T f) T) rows = Done bs) /\
  length bs = length (T TEvent) /\
  (forall i e, at_ T TEvent i e -> exists b, nth_error bs i = Some b /\
     exists n x, e = KId n /\ nth_error (w_events A) n = Some x /\ same_event names x b).
Proof.
  apply (table_ok TEvent (fun f => read_event (read_type xs T f) T)).
  intros i e row l HE D S R. destruct e as [n|t m]; [|destruct R].
  cbn [describe] in D. destruct (nth_error (w_events A) n) as [x|] eqn:E; [|discriminate D].
  injection D as <-.
  pose proof (ga_events _ _ GA x (nth_error_In _ _ E)) as [Gn [Gt Go] [Ga Gb]].
  apply says_inv in S. destruct S as (c1 & r1 & -> & S1 & S). cbn in S1. subst c1.
  apply says_inv in S. destruct S as (c2 & r2 & -> & S2 & S). cbn in S2. subst c2.
  apply says_inv in S. destruct S as (c3 & r3 & -> & (rt & -> & S3) & S).
  apply says_inv in S. destruct S as (c4 & r4 & -> & (ro & -> & S4) & S).
  apply says_inv in S. destruct S as (c6 & r6 & -> & S6 & S).
  apply says_inv in S. destruct S as (c7 & r7 & -> & S7 & S).
  apply says_nil_inv in S. subst r7.
  destruct (method_ref_ok _ _ S6) as (rg & g & -> & EG & QG).
  destruct (method_ref_ok _ _ S7) as (rs & w & -> & EW & QW).
  cbn [app].
  destruct (read_ok _ rt (weaken_ty _ _ type_param_known Gt) S3) as (t' & d & ET & QT).
  eexists (Event _ _ t' NoType g w), d. split.
  - intros f LF. cbn [read_event]. rewrite ET by exact LF. cbn [bind].
    rewrite EG. cbn [bind]. rewrite EW. reflexivity.
  - exists n, x. split; [reflexivity|]. split; [exact E|].
    unfold same_event. cbn. repeat split; auto.
Qed.

Lemma params_ok : exists rows bs d, rows_of T TParam = Done rows /\
  (forall f, d <= f -> traverse (read_param (read_type xs T f)) rows = Done bs) /\
  length bs = length (T TParam) /\
  (forall i e, at_ T TParam i e -> exists b, nth_error bs i = Some b /\
     exists n x, e = KId n /\ nth_error (w_params A) n = Some x /\ same_param names x b).
Proof.
  apply (table_ok TParam (fun f => read_param (read_type xs T f))).
  intros i e row l HE D S R. destruct e as [n|t m]; [|destruct R].
  cbn [describe] in D. destruct (nth_error (w_params A) n) as [x|] eqn:E; [|discriminate D].
  injection D as <-.
  destruct R as (y & EY & Gn & Gt). assert (y = x) as -> by congruence.
  apply says_inv in S. destruct S as (c1 & r1 & -> & S1 & S). cbn in S1. subst c1.
  apply says_inv in S. destruct S as (c3 & r3 & -> & (rt & -> & S3) & S).
  apply says_inv in S. destruct S as (c2 & r2 & -> & S2 & S). cbn in S2. subst c2.
  apply says_inv in S. destruct S as (c4 & r4 & -> & S4 & S). cbn in S4. subst c4.
  apply says_nil_inv in S. subst r4. cbn [app].
  destruct (read_ok _ rt Gt S3) as (t' & d & ET & QT).
  eexists (Param_ _ t' _ _), d. split.
  - intros f LF. cbn [read_param]. rewrite ET by exact LF. reflexivity.
  - exists n, x. split; [reflexivity|]. split; [exact E|].
    unfold same_param. cbn. repeat split; auto.
Qed.

Lemma gparams_ok : exists rows bs, rows_of T TGparam = Done rows /\
  traverse read_gparam rows = Done bs /\
  length bs = length (T TGparam) /\
  (forall i e, at_ T TGparam i e -> exists b, nth_error bs i = Some b /\
     exists n, e = KId n /\ nth_error (w_gparams A) n = Some b).
Proof.
  destruct (table_ok TGparam (fun _ => read_gparam)
    (fun e b => exists n, e = KId n /\ nth_error (w_gparams A) n = Some b))
    as (rows & bs & d & R & E & Q).
  - intros i e row l HE D S R. destruct e as [n|t m]; [|destruct R].
    cbn [describe] in D. destruct (nth_error (w_gparams A) n) as [x|] eqn:E; [|discriminate D].
    injection D as <-.
    apply says_inv in S. destruct S as (c1 & r1 & -> & S1 & S). cbn in S1. subst c1.
    apply says_inv in S. destruct S as (c2 & r2 & -> & S2 & S). cbn in S2. subst c2.
    apply says_nil_inv in S. subst r2. cbn [app].
    exists x, 0. split; [intros f _; destruct x; reflexivity|]. eauto.
  - exists rows, bs. split; [exact R|]. split; [exact (E d (le_n _))|exact Q].
Qed.

Lemma supers_ok : exists rows bs d, rows_of T TSuper = Done rows /\
  (forall f, d <= f -> traverse (read_super xs T f) rows = Done bs) /\
  length bs = length (T TSuper) /\
  (forall i e, at_ T TSuper i e -> exists b, nth_error bs i = Some b /\
     exists t, e = KTy t 0 /\ same_ty names t b).
Proof.
  apply (table_ok TSuper (fun f => read_super xs T f)).
  intros i e row l HE D S R. destruct e as [n|t m]; [destruct R|]. destruct R as [-> G].
  cbn [describe] in D. injection D as <-.
  apply says_inv in S. destruct S as (c1 & r1 & -> & (rt & -> & S1) & S).
  apply says_nil_inv in S. subst r1. cbn [app].
  destruct (read_ok _ rt G S1) as (t' & d & ET & QT).
  exists t', d. split; [exact ET|]. eauto.
Qed.

Lemma nested_ok : exists rows bs d, rows_of T TNested = Done rows /\
  (forall f, d <= f -> traverse (read_nested xs T f) rows = Done bs) /\
  length bs = length (T TNested) /\
  (forall i e, at_ T TNested i e -> exists b, nth_error bs i = Some b /\
     e = KTy (General (Own b)) 0).
Proof.
  apply (table_ok TNested (fun f => read_nested xs T f)).
  intros i e row l HE D S R. destruct e as [n|t m]; [destruct R|]. destruct R as (-> & n & -> & LN).
  cbn [describe] in D. injection D as <-.
  apply says_inv in S. destruct S as (c1 & r1 & -> & (rt & -> & S1) & S).
  apply says_nil_inv in S. subst r1. cbn [app].
  exists n, 1. split; [|reflexivity]. intros f LF. cbn [read_nested].
  assert (r_extra rt = 0%N) as ->.
  { cbn [denotes] in S1. destruct S1 as (j & -> & _). reflexivity. }
  cbn [N.eqb]. rewrite (read_general _ _ S1) by exact LF. reflexivity.
Qed.

Lemma pick_ok {B} k (bs : list B) (P : key -> B -> Prop) l es :
  (forall i e, at_ T k i e -> exists b, nth_error bs i = Some b /\ P e b) ->
  Forall2 (at_ T k) l es ->
  exists cs, traverse (pick bs) l = Done cs /\ Forall2 P es cs.
Proof.
  intros H F. induction F as [|i e l es HE F IH].
  - exists []. split; [reflexivity|constructor].
  - destruct (H i e HE) as (b & EB & PB). destruct IH as (cs & EC & FC).
    exists (b :: cs). split; [|now constructor].
    cbn [traverse]. unfold pick at 1. rewrite EB. cbn [bind]. rewrite EC. reflexivity.
Qed.

Lemma types_ok nested supers :
  length nested = length (T TNested) ->
  (forall i e, at_ T TNested i e -> exists b, nth_error nested i = Some b /\
     e = KTy (General (Own b)) 0) ->
  length supers = length (T TSuper) ->
  (forall i e, at_ T TSuper i e -> exists b, nth_error supers i = Some b /\
     exists t, e = KTy t 0 /\ same_ty names t b) ->
  exists rows bs, rows_of T TType = Done rows /\
    traverse (read_gtype T nested supers) rows = Done bs /\
    Forall2 (fun t b => same_gtype names (no_host t) b) (w_types A) bs.
Proof.
  intros LN HN LS HS.
  destruct (table_ok TType (fun _ => read_gtype T nested supers)
    (fun e b => exists n t, e = KId n /\ nth_error (w_types A) n = Some t /\
       same_gtype names (no_host t) b)) as (rows & bs & d & R & E & LB & Q).
  - intros i e row l HE D S R. destruct e as [n|t m]; [|destruct R].
    cbn [describe] in D. destruct (nth_error (w_types A) n) as [x|] eqn:E; [|discriminate D].
    injection D as <-.
    destruct (ga_types _ _ GA x (nth_error_In _ _ E)) as [Gk Gv Gh Gn Gs Gu].
    destruct Gs as (Z1 & Z2 & Z3 & Z4 & Z5 & Z6 & Z7).
    apply says_inv in S. destruct S as (c1 & r1 & -> & S1 & S). cbn in S1. subst c1.
    apply says_inv in S. destruct S as (c2 & r2 & -> & S2 & S). cbn in S2. subst c2.
    apply says_inv in S. destruct S as (c3 & r3 & -> & S3 & S). cbn in S3. subst c3.
    apply says_inv in S. destruct S as (c4 & r4 & -> & S4 & S). cbn in S4. subst c4.
    apply says_inv in S. destruct S as (c5 & r5 & -> & (f5 & -> & S5) & S).
    apply says_inv in S. destruct S as (c6 & r6 & -> & (f6 & -> & S6) & S).
    apply says_inv in S. destruct S as (c7 & r7 & -> & (f7 & -> & S7) & S).
    apply says_inv in S. destruct S as (c8 & r8 & -> & (f8 & -> & S8) & S).
    apply says_inv in S. destruct S as (c9 & r9 & -> & (f9 & -> & S9) & S).
    apply says_inv in S. destruct S as (c10 & r10 & -> & (f10 & -> & S10) & S).
    apply says_inv in S. destruct S as (c11 & r11 & -> & (f11 & -> & S11) & S).
    apply says_inv in S. destruct S as (c12 & r12 & -> & S12 & S). cbn in S12. subst c12.
    apply says_inv in S. destruct S as (c13 & r13 & -> & S13 & S). cbn in S13. subst c13.
    apply says_nil_inv in S. subst r13. cbn [app].
    rewrite !Z.mod_small by assumption.
    destruct (span_run _ _ _ S5) as (l5 & P5 & F5); [now apply short_ids|].
    destruct (span_run _ _ _ S6) as (l6 & P6 & F6); [now apply short_ids|].
    destruct (span_run _ _ _ S7) as (l7 & P7 & F7); [now apply short_ids|].
    destruct (span_run _ _ _ S8) as (l8 & P8 & F8); [now apply short_ids|].
    destruct (span_run _ _ _ S9) as (l9 & P9 & F9); [now apply short_ids|].
    destruct (span_run _ _ _ S10) as (l10 & P10 & F10);
      [unfold short, own; now rewrite map_length|].
    destruct (span_run _ _ _ S11) as (l11 & P11 & F11);
      [unfold short, tys; now rewrite map_length|].
    destruct (pick_ok TNested nested _ _ _ HN F10) as (ns & EN & FN).
    destruct (pick_ok TSuper supers _ _ _ HS F11) as (ss & ES & FS).
    exists (Gtype (t_name x) (t_decorate x) (t_space x) (t_kind x) (t_value x) None
              l5 l6 l7 l8 l9 ns ss), 0.
    split.
    + intros f _. cbn [read_gtype]. rewrite P5; cbn [bind]. rewrite P6; cbn [bind].
      rewrite P7; cbn [bind]. rewrite P8; cbn [bind]. rewrite P9; cbn [bind].
      rewrite LN, P10; cbn [bind]. rewrite EN; cbn [bind]. rewrite LS, P11; cbn [bind].
      rewrite ES; cbn [bind]. reflexivity.
    + exists n, x. split; [reflexivity|]. split; [exact E|].
      unfold same_gtype. cbn.
      repeat (split; [try reflexivity; now apply ids_at|]).
      split.
      * unfold own in FN. clear - FN. revert ns FN.
        induction (t_nested x) as [|y ys IH]; intros ns F; inversion F; subst; [reflexivity|].
        f_equal; [congruence|]. now apply IH.
      * unfold tys in FS. clear - FS. revert ss FS.
        induction (t_supers x) as [|y ys IH]; intros ss F; inversion F as [|? ? ? ? (u & EU & SU)]; subst;
          constructor; [congruence|]. now apply IH.
  - exists rows, bs. split; [exact R|]. split; [exact (E d (le_n _))|].
    apply Forall2_of_nth.
    + rewrite LB. pose proof (z_types _ _ _ Z) as AT. unfold all_types in AT.
      rewrite <- (map_length en_key). fold (keys T TType). rewrite AT, map_length, seq_length.
      reflexivity.
    + intros i t EI.
      assert (LI : i < length (w_types A)) by (apply nth_error_Some; congruence).
      destruct (Q i (KId i)) as (b & EB & n & t' & EN & ET & QT).
      { apply (all_types_at A); [exact (z_types _ _ _ Z)|exact LI]. }
      injection EN as <-. exists b. split; [exact EB|]. congruence.
Qed.

Lemma entry_ok : exists rows m, rows_of T TAssembly = Done rows /\
  read_entry T rows = Done m /\ option_map (id_at TMethod) m = w_entry A.
Proof.
  assert (H : at_ T TAssembly 0 (KId 0)) by (unfold at_; now rewrite KA).
  destruct (row_found _ _ _ H) as (row & l & R & D & S & _).
  cbn [describe] in D. injection D as <-.
  apply says_inv in S. destruct S as (c1 & r1 & -> & S1 & S).
  apply says_nil_inv in S. subst r1.
  destruct (method_ref_ok _ _ S1) as (r & m & -> & E & Q).
  exists [[CRef r]], m. split; [|split; [exact E|exact Q]].
  unfold rows_of.
  assert (length (T TAssembly) = 1) as ->.
  { rewrite <- (map_length en_key). fold (keys T TAssembly). now rewrite KA. }
  cbn [seq traverse]. rewrite R. reflexivity.
Qed.

Lemma hosts_ok bs :
  Forall2 (fun t b => same_gtype names (no_host t) b) (w_types A) bs ->
  Forall2 (same_gtype names) (w_types A) (set_hosts bs).
Proof.
  intros F. rewrite set_hosts_pairs.
  destruct (fold_hosts (nestings bs) bs) as [LB Q].
  apply Forall2_of_nth.
  - rewrite LB. exact (Forall2_length _ _ _ F).
  - intros i x EX. destruct (Forall2_nth _ _ _ F i x EX) as (b & EB & SB).
    destruct (Q i b EB) as (b' & EB' & N & H). exists b'. split; [exact EB'|].
    apply (fields_of_no_host _ _ _ _ SB N).
    assert (HIN : forall h, In (h, i) (nestings bs) <-> t_host x = Some h).
    { intros h. rewrite in_nestings, (ga_nested _ _ GA i x h EX). split.
      - intros (u & EU & I). assert (exists v, nth_error (w_types A) h = Some v) as [v EV].
        { assert (LH : h < length bs) by (apply nth_error_Some; congruence).
          rewrite <- (Forall2_length _ _ _ F) in LH.
          destruct (nth_error (w_types A) h) eqn:E; [eauto|]. apply nth_error_None in E. lia. }
        destruct (Forall2_nth _ _ _ F h v EV) as (u' & EU' & SU). assert (u' = u) as -> by congruence.
        exists v. split; [exact EV|].
        destruct SU as (_ & _ & _ & _ & _ & _ & _ & _ & _ & _ & _ & EN & _). cbn in EN. congruence.
      - intros (v & EV & I). destruct (Forall2_nth _ _ _ F h v EV) as (u & EU & SU).
        exists u. split; [exact EU|].
        destruct SU as (_ & _ & _ & _ & _ & _ & _ & _ & _ & _ & _ & EN & _). cbn in EN. congruence. }
    destruct H as [[H1 H2]|(h & I & H)].
    + destruct SB as (_ & _ & _ & _ & _ & EH & _). cbn in EH. rewrite H1, EH.
      destruct (t_host x) as [h|] eqn:EX'; [|reflexivity].
      destruct (H2 h). now apply HIN.
    + rewrite H. symmetry. now apply HIN.
Qed.

Lemma each_ok {B} k (same : B -> B -> Prop) (old new : list B) :
  length new = length (T k) ->
  (forall i e, at_ T k i e -> exists b, nth_error new i = Some b /\
     exists n x, e = KId n /\ nth_error old n = Some x /\ same x b) ->
  each_same (id_at k) same old new.
Proof.
  intros L0 H i y EY. assert (LI : i < length (T k)).
  { rewrite <- L0. apply nth_error_Some. congruence. }
  destruct (key_of k i LI) as (e & HE & _).
  destruct (H i e HE) as (b & EB & n & x & -> & EX & SB).
  assert (b = y) as -> by congruence.
  exists x. rewrite (id_at_at _ _ _ HE). auto.
Qed.

Lemma apart_ok {B} k (new : list B) ns : length new = length (T k) ->
  keys T k = map (fun n => Some (KId n)) ns -> NoDup ns -> apart (id_at k) new.
Proof.
  intros L0 K N i j LI LJ E.
  assert (LN : length ns = length (T k)).
  { rewrite <- (map_length en_key (T k)). fold (keys T k). now rewrite K, map_length. }
  assert (V : forall i, i < length new -> exists n, nth_error ns i = Some n /\ id_at k i = n).
  { intros q LQ. destruct (nth_error ns q) as [n|] eqn:EN.
    - exists n. split; [reflexivity|]. apply id_at_at. unfold at_.
      now rewrite K, nth_error_map, EN.
    - apply nth_error_None in EN. lia. }
  destruct (V i LI) as (n & EN & IN). destruct (V j LJ) as (m & EM & IM).
  apply (proj1 (NoDup_nth_error ns) N i j); [lia|congruence].
Qed.

Lemma first_keys k part : first_hand k = true -> untyped k = true ->
  (forall t, parts k t = ids (part t)) ->
  keys T k = map (fun n => Some (KId n)) (listed A part).
Proof.
  intros F U P. rewrite (KF k F U), (parts_ids A k part P). unfold ids. now rewrite map_map.
Qed.
End WithImports.

Lemma reads : exists A' d, (forall f, d <= f -> read L T f = Done A') /\ same_assembly A A'.
Proof.
  destruct imports_ok as (xs & d0 & E0 & XL & XS).
  destruct (supers_ok xs XL XS) as (ru & us & d1 & R1 & E1 & L1 & Q1).
  destruct (nested_ok xs XL XS) as (rn & ns & d2 & R2 & E2 & L2 & Q2).
  destruct (methods_ok xs XL XS) as (rm & ms & d3 & R3 & E3 & L3 & Q3).
  destruct (fields_ok xs XL XS) as (rf & fs & d4 & R4 & E4 & L4 & Q4).
  destruct (props_ok xs XL XS) as (rp & ps & d5 & R5 & E5 & L5 & Q5).
  destruct (events_ok xs XL XS) as (re & es & d6 & R6 & E6 & L6 & Q6).
  destruct (params_ok xs XL XS) as (ra & qs & d7 & R7 & E7 & L7 & Q7).
  destruct (gparams_ok xs XL) as (rg & gs & R8 & E8 & L8 & Q8).
  destruct (types_ok xs XL ns us L2 Q2 L1 Q1) as (rt & ts & R9 & E9 & F9).
  destruct entry_ok as (rs & m & R10 & E10 & Q10).
  exists (Assembly (set_hosts ts) ms fs ps es qs gs m),
    (d0 + d1 + d2 + d3 + d4 + d5 + d6 + d7). split.
  - intros f LF. unfold read. rewrite E0 by lia. cbn [bind].
    rewrite R1. cbn [bind]. rewrite E1 by lia. cbn [bind].
    rewrite R2. cbn [bind]. rewrite E2 by lia. cbn [bind].
    rewrite R3. cbn [bind]. rewrite E3 by lia. cbn [bind].
    rewrite R4. cbn [bind]. rewrite E4 by lia. cbn [bind].
    rewrite R5. cbn [bind]. rewrite E5 by lia. cbn [bind].
    rewrite R6. cbn [bind]. rewrite E6 by lia. cbn [bind].
    rewrite R7. cbn [bind]. rewrite E7 by lia. cbn [bind].
    rewrite R8. cbn [bind]. rewrite E8. cbn [bind].
    rewrite R9. cbn [bind]. rewrite E9. cbn [bind].
    rewrite R10. cbn [bind]. rewrite E10. reflexivity.
  - destruct (ga_once _ _ GA) as (N1 & N2 & N3 & N4 & N5).
    exists names. cbn [w_types w_methods w_fields w_props w_events w_params w_gparams w_entry
      n_method n_field n_prop n_event n_param n_gparam names].
    split; [now apply (hosts_ok xs XL)|].
    split; [now apply each_ok|]. split; [now apply each_ok|].
    split; [now apply each_ok|]. split; [now apply each_ok|].
    split; [now apply each_ok|].
    split.
    { apply each_ok; [exact L8|]. intros i e HE. destruct (Q8 i e HE) as (b & EB & n & EN & EX).
      exists b. split; [exact EB|]. exists n, b. auto. }
    split; [apply (apart_ok xs XL TMethod _ (listed A t_methods) L3); [now apply first_keys|exact N1]|].
    split; [apply (apart_ok xs XL TField _ (listed A t_fields) L4); [now apply first_keys|exact N2]|].
    split; [apply (apart_ok xs XL TProp _ (listed A t_props) L5); [now apply first_keys|exact N3]|].
    split; [apply (apart_ok xs XL TEvent _ (listed A t_events) L6); [now apply first_keys|exact N4]|].
    split; [exact (apart_ok xs XL TGparam _ _ L8 (z_gparams _ _ _ Z) N5)|].
    exact Q10.
Qed.

End Reading.

Theorem write_read A X L : good_assembly A X -> good_library L X ->
  exists fuel T, (forall f, fuel <= f -> write A X f = Done T) /\
    (fits T -> exists A' d, (forall g, d <= g -> read L T g = Done A') /\ same_assembly A A').
Proof.
  intros GA GL. destruct (writes A X GA) as (fuel & T & W & Z & KF & KA & _).
  - intros e x h E H. apply (GL e x E). exact H.
  - exists fuel, T. split; [exact W|]. intros FT. exact (reads A X L T GA GL FT Z KF KA).
Qed.
