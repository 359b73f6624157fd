(* The search for the type of a member finds it in the tables of the writer. *)
From Coq Require Import ZArith NArith List Bool Lia Arith.
From Verif Require Import MetaModel MetaSpec MetaProofs MetaWriteProofs HostModel HostSpec.
Import ListNotations.
Local Open Scope nat_scope.

(* ---- the binary search ---- *)

Lemma binary_find_hit f n : forall fuel b e,
  (forall i, b <= i < n -> exists r, f i = Done r /\ (0 < r)%Z) ->
  (forall i, n < i < e -> exists r, f i = Done r /\ (r < 0)%Z) ->
  f n = Done 0%Z -> b <= n < e -> e - b <= fuel ->
  binary_find f fuel b e = Done (Some n).
Proof.
  induction fuel as [|fuel IH]; intros b e LO HI EQ B L.
  - lia.
  - cbn [binary_find]. destruct (Nat.eqb_spec b e) as [->|NE]; [lia|].
    assert (M : b <= b + (e - b) / 2 < e).
    { split; [lia|]. assert ((e - b) / 2 < e - b) by (apply Nat.div_lt; lia). lia. }
    set (it := b + (e - b) / 2) in *.
    destruct (lt_eq_lt_dec it n) as [[C|C]|C].
    + destruct (LO it) as (r & E & R); [lia|]. rewrite E. cbn [bind].
      destruct (Z.ltb_spec r 0); [lia|]. destruct (Z.ltb_spec 0 r); [|lia].
      apply IH; try assumption; try lia. intros i I. apply LO. lia.
    + rewrite C, EQ. reflexivity.
    + destruct (HI it) as (r & E & R); [lia|]. rewrite E. cbn [bind].
      destruct (Z.ltb_spec r 0); [|lia].
      apply IH; try assumption; try lia. intros i I. apply HI. lia.
Qed.

(* ---- more turns change nothing ---- *)

Lemma assign_more A X : forall f s T, assign A X f s = Done T -> assign A X (S f) s = Done T.
Proof.
  induction f as [|f IH]; intros s T H.
  - cbn [assign] in H |- *. destruct (s_queue s) as [|[[k i] e] q]; [exact H|discriminate H].
  - change (assign A X (S (S f)) s) with
      (match s_queue s with
       | [] => Done (s_tabs s)
       | (k, i, e) :: q =>
           match describe A X k e with
           | None => Unset
           | Some l =>
               bind (commit_items (State (s_tabs s) q) l) (fun p =>
               let s' := snd p in
               assign A X (S f)
                 (State (put_tab (s_tabs s') k (set_row (s_tabs s' k) i (fst p)))
                        (s_queue s')))
           end
       end).
    cbn [assign] in H. destruct (s_queue s) as [|[[k i] e] q]; [exact H|].
    destruct (describe A X k e) as [l|]; [|discriminate H].
    destruct (commit_items (State (s_tabs s) q) l) as [p| | |]; try discriminate H.
    cbn [bind] in H |- *. cbv zeta in H |- *. now apply IH.
Qed.

Lemma write_more A X d : forall f T, write A X f = Done T -> write A X (d + f) = Done T.
Proof.
  induction d as [|d IH]; intros f T H; [exact H|].
  cbn [Nat.add]. unfold write. apply assign_more. now apply IH.
Qed.

Section Found.
Variables (A : assembly) (X : list xtype) (T : tables) (fuel : nat).
Hypothesis GA : good_assembly A X.
Hypothesis HX : hosts_first X.
Hypothesis W : write A X fuel = Done T.
Hypothesis R : roomy T.

Lemma facts : final A X T /\
  (forall k, first_hand k = true -> untyped k = true ->
     keys T k = map Some (flat_map (parts k) (w_types A))) /\ starts A T.
Proof.
  destruct (writes A X GA HX) as (f & T' & WF & Z & KF & _ & ST).
  assert (T' = T) as ->.
  { specialize (WF (f + fuel) ltac:(lia)). pose proof (write_more A X f _ _ W) as W'.
    congruence. }
  auto.
Qed.

Definition start (k : tab) (n : nat) : nat := length (flat_map (parts k) (firstn n (w_types A))).

Lemma length_keys k : length (T k) = length (keys T k).
Proof. unfold keys. now rewrite map_length. Qed.

Lemma start_le k n : start k n <= length (flat_map (parts k) (w_types A)).
Proof.
  unfold start. rewrite <- (firstn_skipn n (w_types A)) at 2.
  rewrite flat_map_app, app_length. lia.
Qed.

Lemma start_S k n t : nth_error (w_types A) n = Some t ->
  start k (S n) = start k n + length (parts k t).
Proof.
  intros E. unfold start. rewrite (firstn_S _ _ _ E), flat_map_app, app_length.
  cbn [flat_map]. now rewrite app_nil_r.
Qed.

Lemma start_mono k m n : m <= n -> start k m <= start k n.
Proof.
  intros L. unfold start.
  replace (firstn n (w_types A)) with (firstn m (w_types A) ++ firstn (n - m) (skipn m (w_types A))).
  - rewrite flat_map_app, app_length. lia.
  - rewrite <- (firstn_skipn m (firstn n (w_types A))).
    rewrite firstn_firstn, Nat.min_l by exact L. f_equal. now rewrite skipn_firstn_comm.
Qed.

Lemma parts_short k t : In t (w_types A) -> short (parts k t).
Proof.
  intros I. destruct (gt_short _ _ _ (ga_types _ _ GA t I)) as (S1 & S2 & S3 & S4 & S5 & S6 & S7).
  unfold short, parts, ids, own, tys in *.
  destruct k; cbn [length]; rewrite ?map_length; assumption || reflexivity.
Qed.

Lemma types_length : length (T TType) = length (w_types A).
Proof.
  destruct facts as (Z & _). pose proof (z_types _ _ _ Z) as E. unfold all_types in E.
  rewrite length_keys, E, map_length. apply seq_length.
Qed.

(* The row of type [n] *)
Lemma type_row n t : nth_error (w_types A) n = Some t ->
  exists row, nth_error (T TType) n = Some (Entry (Some (KId n)) (Some row)) /\
    says_all T (type_items t) row.
Proof.
  intros E. assert (L : n < length (T TType))
    by (rewrite types_length; apply nth_error_Some; congruence).
  destruct facts as (Z & _). pose proof (z_types _ _ _ Z) as AT.
  destruct (nth_error (T TType) n) as [x|] eqn:NX; [|apply nth_error_None in NX; lia].
  destruct (z_entry _ _ _ Z _ _ _ NX) as (e & row & l & E1 & E2 & _ & D & S).
  assert (K : at_ T TType n (KId n)) by (apply (all_types_at A); [exact AT|rewrite <- types_length; exact L]).
  unfold at_, keys in K. rewrite nth_error_map, NX in K. cbn in K. injection K as K.
  assert (e = KId n) as -> by congruence.
  cbn [describe] in D. rewrite E in D. injection D as <-.
  exists row. split; [|exact S]. destruct x as [ek er]. cbn in E1, E2. now subst.
Qed.

Lemma list_found k c n t : first_hand k = true -> place k = Some c ->
  nth_error (w_types A) n = Some t ->
  exists r, list_at T c n = Done r /\ r_index r = N.of_nat (start k n) /\
    r_count r = N.of_nat (length (parts k t)).
Proof.
  intros F P E. destruct facts as (Z & KF & ST).
  destruct (type_row n t E) as (row & NX & _).
  destruct (ST _ _ row k c t NX eq_refl P E) as (r & NR & R1 & R2).
  exists r. unfold list_at. rewrite NX, NR. split; [reflexivity|]. split.
  - rewrite R1. fold (start k n). apply N.mod_small. specialize (R k).
    assert (UK : untyped k = true) by (destruct k; try discriminate P; reflexivity).
    rewrite length_keys, (KF k F UK), map_length in R. pose proof (start_le k n). lia.
  - rewrite R2. apply N.mod_small. apply parts_short. eapply nth_error_In, E.
Qed.

(* A row of a list belongs to a type. *)
Lemma in_flat k : forall l j e, nth_error (flat_map (parts k) l) j = Some e ->
  exists n t i, nth_error l n = Some t /\ nth_error (parts k t) i = Some e /\
    j = length (flat_map (parts k) (firstn n l)) + i.
Proof.
  induction l as [|t l IH]; intros j e H; [destruct j; discriminate H|].
  cbn [flat_map] in H. destruct (le_lt_dec (length (parts k t)) j) as [L|L].
  - rewrite nth_error_app2 in H by exact L. destruct (IH _ _ H) as (n & u & i & E1 & E2 & E3).
    exists (S n), u, i. cbn [nth_error firstn flat_map]. rewrite app_length.
    split; [exact E1|]. split; [exact E2|]. lia.
  - rewrite nth_error_app1 in H by exact L. exists 0, t, j. auto.
Qed.

Lemma search_found k c n t i : first_hand k = true -> place k = Some c ->
  nth_error (w_types A) n = Some t -> i < length (parts k t) ->
  search_host T c (N.of_nat (start k n + i)) = Done (Some n).
Proof.
  intros F P E L. unfold search_host.
  assert (LN : n < length (T TType)) by (rewrite types_length; apply nth_error_Some; congruence).
  assert (AT : forall m, m < length (T TType) -> exists u, nth_error (w_types A) m = Some u).
  { intros m M. rewrite types_length in M. destruct (nth_error (w_types A) m) as [u|] eqn:Q; eauto.
    apply nth_error_None in Q. lia. }
  apply binary_find_hit.
  - intros m [_ M]. destruct (AT m) as [u U]; [lia|].
    destruct (list_found k c m u F P U) as (r & -> & R1 & R2). exists 1%Z. cbn [bind].
    split; [|lia]. f_equal. unfold side. rewrite R1, R2.
    pose proof (start_S k m u U). pose proof (start_mono k (S m) n ltac:(lia)).
    destruct (N.ltb_spec (N.of_nat (start k n + i)) (N.of_nat (start k m))); [lia|].
    destruct (N.leb_spec (N.of_nat (start k m) + N.of_nat (length (parts k u))) (N.of_nat (start k n + i)));
      [reflexivity|lia].
  - intros m [M M2]. destruct (AT m) as [u U]; [lia|].
    destruct (list_found k c m u F P U) as (r & -> & R1 & R2). exists (-1)%Z. cbn [bind].
    split; [|lia]. f_equal. unfold side. rewrite R1.
    pose proof (start_S k n t E). pose proof (start_mono k (S n) m ltac:(lia)).
    destruct (N.ltb_spec (N.of_nat (start k n + i)) (N.of_nat (start k m))); [reflexivity|lia].
  - destruct (list_found k c n t F P E) as (r & -> & R1 & R2). cbn [bind]. f_equal.
    unfold side. rewrite R1, R2.
    destruct (N.ltb_spec (N.of_nat (start k n + i)) (N.of_nat (start k n))); [lia|].
    destruct (N.leb_spec (N.of_nat (start k n) + N.of_nat (length (parts k t))) (N.of_nat (start k n + i)));
      [lia|reflexivity].
  - lia.
  - lia.
Qed.

Lemma made_at k j e : made_for T k j e <-> at_ T k j e.
Proof.
  unfold made_for, at_, keys. rewrite nth_error_map. split.
  - intros (x & -> & E). cbn. now rewrite E.
  - destruct (nth_error (T k) j) as [x|]; [|discriminate]. cbn. intros E. exists x.
    split; [reflexivity|congruence].
Qed.

Lemma member_found k c j e : first_hand k = true -> place k = Some c -> made_for T k j e ->
  exists n t, nth_error (w_types A) n = Some t /\ In e (parts k t) /\
    search_host T c (N.of_nat j) = Done (Some n).
Proof.
  intros F P M. apply made_at in M. destruct facts as (Z & KF & ST).
  assert (UK : untyped k = true) by (destruct k; try discriminate P; reflexivity).
  unfold at_ in M. rewrite (KF k F UK), nth_error_map in M.
  destruct (nth_error (flat_map (parts k) (w_types A)) j) as [e'|] eqn:NE; [|discriminate M].
  cbn in M. injection M as ->.
  destruct (in_flat k _ _ _ NE) as (n & t & i & E1 & E2 & ->).
  exists n, t. split; [exact E1|]. split; [eapply nth_error_In, E2|].
  apply search_found with (t := t); try assumption. apply nth_error_Some. congruence.
Qed.

Lemma member_made k e t : first_hand k = true -> untyped k = true ->
  In t (w_types A) -> In e (parts k t) -> exists j, made_for T k j e.
Proof.
  intros F U I J. destruct facts as (_ & KF & _).
  assert (In e (flat_map (parts k) (w_types A))) as H by (apply in_flat_map; eauto).
  apply In_nth_error in H. destruct H as [j H]. exists j. apply made_at.
  unfold at_. rewrite (KF k F U), nth_error_map, H. reflexivity.
Qed.

(* Something listed only once is listed by one type. *)
Lemma listed_once (part : gtype -> list nat) : forall l n t n' t' m,
  NoDup (flat_map part l) -> nth_error l n = Some t -> nth_error l n' = Some t' ->
  In m (part t) -> In m (part t') -> n = n'.
Proof.
  induction l as [|u l IH]; intros n t n' t' m D E E' I I'; [destruct n; discriminate E|].
  cbn [flat_map] in D.
  assert (H : forall x t0, nth_error l x = Some t0 -> In m (part t0) -> In m (part u) -> False).
  { intros x t0 Ex Ix Iu. assert (In m (flat_map part l)) as J
      by (apply in_flat_map; exists t0; split; [eapply nth_error_In, Ex|exact Ix]).
    clear -D Iu J. induction (part u) as [|y p IHp]; [contradiction Iu|].
    cbn [app] in D. inversion D as [|? ? N1 N2]; subst. destruct Iu as [->|Iu]; [|auto].
    apply N1. apply in_or_app. now right. }
  destruct n as [|n], n' as [|n']; cbn in E, E'.
  - reflexivity.
  - injection E as ->. exfalso. eapply H; eassumption.
  - injection E' as ->. exfalso. eapply H; eassumption.
  - f_equal. eapply IH; try eassumption.
    clear -D. induction (part u) as [|y p IHp]; [exact D|]. inversion D. auto.
Qed.

Lemma method_found n t m : nth_error (w_types A) n = Some t -> In m (t_methods t) ->
  (exists j, made_for T TMethod j (KId m)) /\
  forall j, made_for T TMethod j (KId m) -> host_by_method T j = Done (Some n).
Proof.
  intros E I. split.
  - apply member_made with (t := t); try reflexivity; [eapply nth_error_In, E|].
    cbn [parts]. unfold ids. now apply in_map.
  - intros j M. destruct (member_found TMethod 4 j _ eq_refl eq_refl M) as (n' & t' & E' & I' & S).
    unfold host_by_method. rewrite S. cbn [parts] in I'. unfold ids in I'.
    apply in_map_iff in I'. destruct I' as (m' & Q & I'). injection Q as ->.
    destruct (ga_once _ _ GA) as (D & _). do 2 f_equal. symmetry.
    eapply (listed_once t_methods); eassumption.
Qed.

Lemma field_found n t m : nth_error (w_types A) n = Some t -> In m (t_fields t) ->
  (exists j, made_for T TField j (KId m)) /\
  forall j, made_for T TField j (KId m) -> host_by_field T j = Done (Some n).
Proof.
  intros E I. split.
  - apply member_made with (t := t); try reflexivity; [eapply nth_error_In, E|].
    cbn [parts]. unfold ids. now apply in_map.
  - intros j M. destruct (member_found TField 6 j _ eq_refl eq_refl M) as (n' & t' & E' & I' & S).
    unfold host_by_field. rewrite S. cbn [parts] in I'. unfold ids in I'.
    apply in_map_iff in I'. destruct I' as (m' & Q & I'). injection Q as ->.
    destruct (ga_once _ _ GA) as (_ & D & _). do 2 f_equal. symmetry.
    eapply (listed_once t_fields); eassumption.
Qed.

(* ---- nested types ---- *)

Lemma ref_eqb_eq a b : ref_eqb a b = true <-> a = b.
Proof.
  unfold ref_eqb. rewrite !andb_true_iff, !N.eqb_eq. destruct a, b; cbn.
  split; [intros [[-> ->] ->]; reflexivity|intros Q; injection Q as -> -> ->; auto].
Qed.

Lemma in_combine_seq' {B} (l : list B) : forall s i x,
  In (i, x) (combine (seq s (length l)) l) <-> s <= i /\ nth_error l (i - s) = Some x.
Proof.
  induction l as [|y l IH]; intros s i x; cbn [length seq combine In].
  - split; [contradiction|]. intros [_ H]. destruct (i - s); discriminate H.
  - rewrite IH. split.
    + intros [Q|[L H]].
      * injection Q as -> ->. split; [lia|]. now rewrite Nat.sub_diag.
      * split; [lia|]. replace (i - s) with (S (i - S s)) by lia. exact H.
    + intros [L H]. destruct (Nat.eq_dec i s) as [->|N].
      * rewrite Nat.sub_diag in H. injection H as ->. now left.
      * right. split; [lia|]. replace (i - s) with (S (i - S s)) in H by lia. exact H.
Qed.

Lemma mkref_inj i j : (N.of_nat i < 1048576)%N -> (N.of_nat j < 1048576)%N ->
  mkref i 1 0 = mkref j 1 0 -> i = j.
Proof.
  intros LI LJ E. unfold mkref in E. injection E as E. rewrite !N.mod_small in E by assumption. lia.
Qed.

(* The rows of nested types: row [j] is made for the type it refers to. *)
Lemma nest_row j x : nth_error (T TNested) j = Some x ->
  exists u, en_key x = Some (KTy (General (Own u)) 0) /\ u < length (w_types A) /\
    en_row x = Some [CRef (mkref u 1 0)].
Proof.
  intros NX. destruct facts as (Z & KF & _).
  destruct (z_entry _ _ _ Z _ _ _ NX) as (e & row & l & E1 & E2 & RD & D & S).
  assert (at_ T TNested j e) as AE
    by (unfold at_, keys; rewrite nth_error_map, NX; cbn; now rewrite E1).
  unfold at_ in AE. rewrite (KF TNested eq_refl eq_refl), nth_error_map in AE.
  destruct (nth_error (flat_map (parts TNested) (w_types A)) j) as [e'|] eqn:NE; [|discriminate AE].
  cbn in AE. injection AE as ->. apply nth_error_In, in_flat_map in NE.
  destruct NE as (t & IT & IE). cbn [parts] in IE. unfold own in IE.
  apply in_map_iff in IE. destruct IE as (u & <- & IU).
  assert (LU : u < length (w_types A)).
  { destruct (gt_numbers _ _ _ (ga_types _ _ GA t IT)) as (_ & _ & _ & _ & _ & NN). now apply NN. }
  exists u. split; [exact E1|]. split; [exact LU|].
  cbn [describe] in D. injection D as <-. rewrite E2. f_equal.
  inversion S as [|i l c row' SI SR]; subst. cbn [says denotes] in SI.
  destruct SI as (r & -> & i & -> & AI). inversion SR; subst. cbn [app].
  do 3 f_equal.
  unfold at_ in AI. pose proof (z_types _ _ _ Z) as AT. unfold all_types in AT. rewrite AT in AI.
  rewrite nth_error_map in AI. destruct (nth_error (seq 0 (length (w_types A))) i) as [y|] eqn:Y; [|discriminate AI].
  cbn in AI. injection AI as ->.
  assert (LI : i < length (w_types A)) by (rewrite <- (seq_length (length (w_types A)) 0); apply nth_error_Some; congruence).
  rewrite (nth_error_nth' _ 0) in Y by (now rewrite seq_length). rewrite seq_nth in Y by exact LI.
  cbn in Y. congruence.
Qed.

Lemma in_nest_map r j : In (r, j) (nest_map T) <->
  exists u, made_for T TNested j (KTy (General (Own u)) 0) /\ r = mkref u 1 0.
Proof.
  unfold nest_map. rewrite in_flat_map. split.
  - intros ([j' x] & I & J). apply in_combine_seq' in I. destruct I as [_ I].
    rewrite Nat.sub_0_r in I. destruct (nest_row _ _ I) as (u & E1 & _ & E2).
    cbn [fst snd] in J. rewrite E2 in J. destruct J as [J|[]]. injection J as <- <-.
    exists u. split; [|reflexivity]. exists x. auto.
  - intros (u & (x & I & E1) & ->). exists (j, x). split.
    + apply in_combine_seq'. rewrite Nat.sub_0_r. split; [lia|exact I].
    + destruct (nest_row _ _ I) as (u' & E1' & _ & E2). rewrite E1 in E1'. injection E1' as <-.
      cbn [fst snd]. rewrite E2. now left.
Qed.

Lemma in_fixed_find {K} (eqb : K -> K -> bool) l k j :
  In j (fixed_find eqb l k) <-> exists k', In (k', j) l /\ eqb k' k = true.
Proof.
  unfold fixed_find. rewrite in_map_iff. split.
  - intros ([k' j'] & <- & I). apply filter_In in I. exists k'. exact I.
  - intros (k' & I & E). exists (k', j). split; [reflexivity|]. apply filter_In. auto.
Qed.

Lemma types_roomy u : u < length (w_types A) -> (N.of_nat u < 1048576)%N.
Proof. intros L. pose proof (R TType) as RT. rewrite types_length in RT. lia. Qed.

Lemma in_find u j : u < length (w_types A) ->
  (In j (fixed_find ref_eqb (nest_map T) (mkref u 1 0)) <->
   made_for T TNested j (KTy (General (Own u)) 0)).
Proof.
  intros L. rewrite in_fixed_find. split.
  - intros (r & I & E). apply ref_eqb_eq in E. subst r. apply in_nest_map in I.
    destruct I as (u' & M & E). destruct M as (x & NX & EX).
    destruct (nest_row _ _ NX) as (u2 & EX2 & L2 & _). rewrite EX in EX2. injection EX2 as <-.
    apply mkref_inj in E; [subst; exists x; auto|now apply types_roomy|now apply types_roomy].
  - intros M. exists (mkref u 1 0). split; [|now apply ref_eqb_eq].
    apply in_nest_map. exists u. auto.
Qed.

Lemma nest_found u t a : nth_error (w_types A) u = Some t ->
  (In a (host_by_nest T u) <-> a = Done (t_host t)).
Proof.
  intros E. assert (LU : u < length (w_types A)) by (apply nth_error_Some; congruence).
  assert (H : forall j, In j (fixed_find ref_eqb (nest_map T) (mkref u 1 0)) ->
    search_host T 8 (N.of_nat j) = Done (t_host t)).
  { intros j J. apply (in_find u j LU) in J.
    destruct (member_found TNested 8 j _ eq_refl eq_refl J) as (n & t' & E' & I' & S).
    rewrite S. f_equal. symmetry. apply (ga_nested _ _ GA u t n E). exists t'. split; [exact E'|].
    cbn [parts] in I'. unfold own in I'. apply in_map_iff in I'.
    destruct I' as (u' & Q & I'). now injection Q as ->. }
  unfold host_by_nest. destruct (fixed_find _ _ _) as [|j l] eqn:FE.
  - cbn [In]. assert (t_host t = None) as ->; [|split; [intros [<-|[]]; reflexivity|intros ->; now left]].
    destruct (t_host t) as [h|] eqn:TH; [|reflexivity]. exfalso.
    apply (ga_nested _ _ GA u t h E) in TH. destruct TH as (v & EV & IV).
    destruct (member_made TNested (KTy (General (Own u)) 0) v eq_refl eq_refl) as [j M].
    + eapply nth_error_In, EV.
    + cbn [parts]. unfold own. apply in_map_iff. exists u. auto.
    + apply (in_find u j LU) in M. rewrite FE in M. contradiction.
  - rewrite in_map_iff. split.
    + intros (j' & <- & J). now apply H.
    + intros ->. exists j. split; [apply H; now left|now left].
Qed.

(* ---- types by name ---- *)

Lemma name_eqb_eq a b : name_eqb a b = true <-> a = b.
Proof.
  destruct a as [[s n] c], b as [[s' n'] c']. unfold name_eqb.
  rewrite !andb_true_iff, !Z.eqb_eq, N.eqb_eq.
  split; [intros [[-> ->] ->]; reflexivity|intros Q; injection Q as -> -> ->; auto].
Qed.

Lemma in_type_map space name c n : In ((space, name, c), n) (type_map T) <->
  exists t, nth_error (w_types A) n = Some t /\ t_space t = space /\ t_name t = name /\
    c = N.of_nat (length (t_params t)).
Proof.
  assert (ROW : forall m t, nth_error (w_types A) m = Some t -> exists row1 r row2,
    nth_error (T TType) m = Some (Entry (Some (KId m))
      (Some (CVal (t_name t) :: CVal row1 :: CVal (t_space t) :: CRef r :: row2))) /\
    r_count r = N.of_nat (length (t_params t))).
  { intros m t E. destruct (type_row m t E) as (row & NX & S).
    destruct facts as (_ & _ & ST).
    destruct (ST _ _ row TGparam 3 t NX eq_refl eq_refl E) as (r & LR & _ & RC).
    rewrite N.mod_small in RC by (apply parts_short; eapply nth_error_In, E).
    unfold type_items in S.
    inversion S as [|? ? ? row1 S1 S']; subst; clear S. cbn [says] in S1. subst.
    inversion S' as [|? ? ? row2 S1 S]; subst; clear S'. cbn [says] in S1. subst.
    inversion S as [|? ? ? row3 S1 S']; subst; clear S. cbn [says] in S1. subst.
    inversion S' as [|? ? ? row4 S1 S]; subst; clear S'. cbn [says] in S1. subst.
    inversion S as [|? ? ? row5 S1 S']; subst; clear S. cbn [says] in S1.
    destruct S1 as (r' & -> & _). cbn [app] in NX.
    cbn [app nth_error] in LR. injection LR as ->.
    exists (t_decorate t), r, row5. split; [exact NX|]. rewrite RC. cbn [parts]. unfold ids.
    now rewrite map_length. }
  unfold type_map. rewrite in_flat_map. split.
  - intros ([m x] & I & J). apply in_combine_seq' in I. destruct I as [_ I].
    rewrite Nat.sub_0_r in I.
    assert (LM : m < length (w_types A)) by (rewrite <- types_length; apply nth_error_Some; congruence).
    destruct (nth_error (w_types A) m) as [t|] eqn:E; [|apply nth_error_None in E; lia].
    destruct (ROW m t E) as (d & r & row & NX & RC). rewrite NX in I. injection I as <-.
    cbn in J. destruct J as [J|[]]. injection J as <- <- <- <-. exists t. auto.
  - intros (t & E & <- & <- & ->). destruct (ROW n t E) as (d & r & row & NX & RC).
    eexists (n, _). split.
    + apply in_combine_seq'. rewrite Nat.sub_0_r. split; [lia|exact NX].
    + cbn. rewrite RC. now left.
Qed.

Lemma in_named space name count n :
  In n (fixed_find name_eqb (type_map T) (space, name, N.of_nat count)) <->
  exists t, nth_error (w_types A) n = Some t /\ called space name count t.
Proof.
  rewrite in_fixed_find. split.
  - intros ([[s m] c] & I & E). apply name_eqb_eq in E. injection E as -> -> ->.
    apply in_type_map in I. destruct I as (t & E & S1 & S2 & S3). exists t.
    split; [exact E|]. repeat split; try assumption. lia.
  - intros (t & E & S1 & S2 & S3). exists (space, name, N.of_nat count).
    split; [|now apply name_eqb_eq]. apply in_type_map. exists t. subst count. auto.
Qed.

Lemma name_answers space name count a : In a (get_type T space name (N.of_nat count)) ->
  match a with
  | Some n => exists t, nth_error (w_types A) n = Some t /\ called space name count t
  | None => forall t, In t (w_types A) -> ~ called space name count t
  end.
Proof.
  unfold get_type. pose proof (in_named space name count) as H.
  destruct (fixed_find _ _ _) as [|j l].
  - intros [<-|[]] t I C. apply In_nth_error in I. destruct I as [n E].
    apply (H n). eauto.
  - intros I. apply in_map_iff in I. destruct I as (n & <- & I). now apply H.
Qed.

Lemma name_found n t : nth_error (w_types A) n = Some t ->
  (forall m u, nth_error (w_types A) m = Some u ->
     called (t_space t) (t_name t) (length (t_params t)) u -> m = n) ->
  forall a, In a (get_type T (t_space t) (t_name t) (N.of_nat (length (t_params t)))) <->
    a = Some n.
Proof.
  intros E U a. unfold get_type.
  pose proof (in_named (t_space t) (t_name t) (length (t_params t))) as H.
  assert (J : In n (fixed_find name_eqb (type_map T)
    (t_space t, t_name t, N.of_nat (length (t_params t))))).
  { apply H. exists t. split; [exact E|]. now repeat split. }
  destruct (fixed_find _ _ _) as [|j l]; [contradiction|].
  rewrite in_map_iff. split.
  - intros (m & <- & I). f_equal. apply H in I. destruct I as (u & EU & C). now apply (U m u).
  - intros ->. exists n. auto.
Qed.
End Found.
