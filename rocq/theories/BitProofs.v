(** Proofs about the bit array. *)

From Coq Require Import ZArith List Bool Lia.
Import ListNotations.
From Verif Require Import CppInt CommonModel CommonProofs BitModel BitSpec.
Open Scope Z_scope.

Ltac Zify.zify_post_hook ::= Z.div_mod_to_equations.

(** ** Words *)

Definition word (w : Z) : Prop := 0 <= w < 2 ^ 64.

Lemma wrap_word : forall z, word (wrap U64 z).
Proof. intro z. pose proof (wrap_in_range U64 z) as H. unfold in_range, tmin, tmax in H. cbn [is_signed] in H. change (modulus U64) with (2 ^ 64) in H. unfold word. lia. Qed.

Lemma word_high : forall w n, word w -> 64 <= n -> Z.testbit w n = false.
Proof.
  intros w n [H0 H1] Hn. destruct (Z.eq_dec w 0) as [->|N]; [apply Z.bits_0|]. apply Z.bits_above_log2; [lia|].
  assert (Z.log2 w < 64) by (apply Z.log2_lt_pow2; lia). lia.
Qed.

Lemma wbit : forall z n, 0 <= n -> Z.testbit (wrap U64 z) n = Z.testbit z n && (n <? 64).
Proof.
  intros z n H. destruct (Z.ltb_spec n 64).
  - rewrite andb_true_r. apply testbit_wrap. cbn. lia.
  - rewrite andb_false_r. apply word_high; [apply wrap_word|lia].
Qed.

Lemma word_bits : forall w, 0 <= w -> (forall n, 64 <= n -> Z.testbit w n = false) -> word w.
Proof.
  intros w H0 H. split; [exact H0|]. destruct (Z.eq_dec w 0) as [->|N]; [reflexivity|]. apply Z.log2_lt_pow2; [lia|].
  destruct (Z.lt_ge_cases (Z.log2 w) 64); [assumption|]. specialize (H (Z.log2 w) ltac:(lia)). rewrite Z.bit_log2 in H by lia. discriminate.
Qed.

Lemma nonzero_bit : forall w, 0 <= w -> w <> 0 -> exists n, 0 <= n /\ Z.testbit w n = true.
Proof. intros w H N. exists (Z.log2 w). split; [apply Z.log2_nonneg|]. apply Z.bit_log2. lia. Qed.

Lemma zero_bits : forall w, 0 <= w -> (w =? 0) = false <-> exists n, 0 <= n /\ Z.testbit w n = true.
Proof.
  intros w H. rewrite Z.eqb_neq. split; [apply nonzero_bit; exact H|]. intros (n & _ & E) ->. rewrite Z.bits_0 in E. discriminate.
Qed.

Lemma flag_bit : forall k n, 0 <= k < 64 -> 0 <= n -> Z.testbit (wrap U64 (Z.shiftl 1 k)) n = (n =? k).
Proof.
  intros k n Hk Hn. rewrite wbit by exact Hn. rewrite Z.shiftl_spec by exact Hn.
  destruct (Z.eqb_spec n k) as [->|N].
  - replace (k - k) with 0 by lia. rewrite (proj2 (Z.ltb_lt k 64)) by lia. reflexivity.
  - destruct (Z.lt_ge_cases n k).
    + rewrite Z.testbit_neg_r by lia. reflexivity.
    + replace (n - k) with (Z.succ (n - k - 1)) by lia. replace 1 with (2 * 0 + 1) by lia. rewrite Z.testbit_odd_succ by lia. rewrite Z.bits_0. reflexivity.
Qed.

Lemma land_flag : forall w k, word w -> 0 <= k < 64 -> negb (Z.land w (wrap U64 (Z.shiftl 1 k)) =? 0) = Z.testbit w k.
Proof.
  intros w k [W _] Hk. pose proof (wrap_word (Z.shiftl 1 k)) as [F _].
  assert (P : 0 <= Z.land w (wrap U64 (Z.shiftl 1 k))) by (apply Z.land_nonneg; auto).
  destruct (Z.testbit w k) eqn:E.
  - assert (X : (Z.land w (wrap U64 (Z.shiftl 1 k)) =? 0) = false).
    { apply zero_bits; [exact P|]. exists k. split; [lia|]. rewrite Z.land_spec, E, flag_bit by lia. apply Z.eqb_refl. }
    rewrite X. reflexivity.
  - destruct (Z.land w (wrap U64 (Z.shiftl 1 k)) =? 0) eqn:X; [reflexivity|]. apply zero_bits in X; [|exact P].
    destruct X as (n & Hn & X). rewrite Z.land_spec, flag_bit in X by lia. apply andb_true_iff in X. destruct X as [X Y].
    apply Z.eqb_eq in Y. subst n. congruence.
Qed.

(** ** Search within a word *)

Lemma cut_bits : forall v from to n, word v -> 0 <= from <= to -> to < 64 -> 0 <= n ->
  Z.testbit (cut v from to) n = Z.testbit v (n + from) && (n + from <=? to).
Proof.
  intros v from to n W H H2 Hn. unfold cut. rewrite Z.shiftr_spec by exact Hn. rewrite wbit by lia. rewrite Z.shiftl_spec by lia.
  replace (n + (from + (64 - to - 1)) - (64 - to - 1)) with (n + from) by lia.
  destruct (Z.leb_spec (n + from) to); destruct (Z.ltb_spec (n + (from + (64 - to - 1))) 64); try lia; reflexivity.
Qed.

Lemma cut_nonneg : forall v from to, 0 <= cut v from to.
Proof. intros. unfold cut. apply Z.shiftr_nonneg. apply wrap_word. Qed.

Lemma cut_zero : forall v from to, word v -> 0 <= from <= to -> to < 64 ->
  (cut v from to =? 0) = true <-> (forall i, from <= i <= to -> Z.testbit v i = false).
Proof.
  intros v from to W H H2. destruct (cut v from to =? 0) eqn:E.
  - split; [|reflexivity]. intros _ i Hi. apply Z.eqb_eq in E. pose proof (cut_bits v from to (i - from) W H H2 ltac:(lia)) as B.
    rewrite E, Z.bits_0 in B. replace (i - from + from) with i in B by lia. rewrite (proj2 (Z.leb_le i to)) in B by lia. rewrite andb_true_r in B. congruence.
  - split; [discriminate|]. intro A. apply zero_bits in E; [|apply cut_nonneg]. destruct E as (n & Hn & E).
    rewrite cut_bits in E by assumption. apply andb_true_iff in E. destruct E as [E1 E2]. apply Z.leb_le in E2. rewrite A in E1 by lia. discriminate.
Qed.

Lemma halve_spec : forall fuel v from end_, word v -> 0 <= from <= end_ -> end_ < 64 -> end_ - from < Z.of_nat fuel ->
  exists r, halve fuel v from end_ = Some r /\ first_index (Z.testbit v) true from (end_ + 1) not_found r.
Proof.
  induction fuel as [|f IH]; intros v from end_ W H H2 F; [lia|]. cbn [halve]. set (k := (from + end_) / 2).
  assert (K : from <= k <= end_ /\ (from < end_ -> k < end_)) by (unfold k; lia). clearbody k.
  destruct (cut v from k =? 0) eqn:E; cbn [negb].
  - assert (A := proj1 (cut_zero v from k W ltac:(lia) ltac:(lia)) E). destruct (Z.leb_spec end_ k).
    + exists not_found. split; [reflexivity|]. right. split; [reflexivity|]. intros i Hi. rewrite A by lia. discriminate.
    + destruct (IH v (k + 1) end_ W ltac:(lia) ltac:(lia) ltac:(lia)) as (r & R & Fi). exists r. split; [exact R|].
      destruct Fi as [(Q1 & Q2 & Q3)|(Q1 & Q2)].
      * left. split; [lia|]. split; [exact Q2|]. intros i Hi. destruct (Z.le_gt_cases i k); [rewrite A by lia; discriminate|apply Q3; lia].
      * right. split; [exact Q1|]. intros i Hi. destruct (Z.le_gt_cases i k); [rewrite A by lia; discriminate|apply Q2; lia].
  - assert (A : exists i, from <= i <= k /\ Z.testbit v i = true).
    { apply zero_bits in E; [|apply cut_nonneg]. destruct E as (n & Hn & E). rewrite cut_bits in E by (assumption || lia).
      apply andb_true_iff in E. destruct E as [E1 E2]. apply Z.leb_le in E2. exists (n + from). split; [lia|exact E1]. }
    destruct (Z.eqb_spec k from) as [->|N].
    + destruct A as (i & Hi & A). assert (i = from) by lia. subst i. exists from. split; [reflexivity|]. left. split; [lia|]. split; [exact A|]. intros i Hi'. lia.
    + destruct (IH v from k W ltac:(lia) ltac:(lia) ltac:(lia)) as (r & R & Fi). exists r. split; [exact R|].
      destruct Fi as [(Q1 & Q2 & Q3)|(Q1 & Q2)].
      * left. split; [lia|]. split; [exact Q2|exact Q3].
      * exfalso. destruct A as (i & Hi & A). apply (Q2 i ltac:(lia)). exact A.
Qed.

Lemma index_of_true_spec : forall v from, word v -> 0 <= from < 64 ->
  exists r, index_of_true v from = Some r /\ first_index (Z.testbit v) true from 64 not_found r.
Proof.
  intros v from W H. unfold index_of_true. destruct (Z.leb_spec 64 from); [lia|]. rewrite land_flag by assumption.
  destruct (Z.testbit v from) eqn:E.
  - exists from. split; [reflexivity|]. left. split; [lia|]. split; [exact E|]. intros i Hi. lia.
  - apply (halve_spec 64 v from 63 W); lia.
Qed.

(** ** The array *)

Lemma data_length_ceil : forall n, 0 <= n < 2 ^ 64 - 8 -> data_length_of n = (n + 7) / 8.
Proof.
  intros n H. unfold data_length_of. change 8 with (2 ^ 3) at 1. rewrite align_up; [|lia|lia|].
  - change (2 ^ 3) with 8. lia.
  - change (2 ^ 3) with 8. change (modulus U64) with (2 ^ 64). lia.
Qed.

Definition bit_at (w : Z -> Z) (i : Z) : bool := Z.testbit (w (i / 64)) (i mod 64).

Record ok (b : bits) (w : Z -> Z) (f : Z -> bool) (len : Z) : Prop := {
  k_words : words b = Some w;
  k_len : bit_length b = len;
  k_pos : 0 < len < 2 ^ 63 + 1;
  k_room : data_length_of len <= data_length b;
  k_word : forall p, 0 <= p < data_length b -> word (w p);
  k_bits : forall i, 0 <= i -> i / 64 < data_length b -> bit_at w i = f i;
  k_out : forall i, len <= i -> f i = false
}.

Definition put (f : Z -> bool) (j : Z) (v : bool) : Z -> bool := fun i => if i =? j then v else f i.

Lemma set_item : forall (w : Z -> Z) i (v : bool), word (w (i / 64)) -> 0 <= i ->
  let item' := if v then Z.lor (w (i / 64)) (flag_of i) else Z.land (w (i / 64)) (wrap U64 (Z.lnot (flag_of i))) in
  word item' /\ forall n, 0 <= n < 64 -> Z.testbit item' n = if n =? i mod 64 then v else Z.testbit (w (i / 64)) n.
Proof.
  intros w i v W Hi. assert (M : 0 <= i mod 64 < 64) by (apply Z.mod_pos_bound; lia). unfold flag_of.
  destruct v; cbv zeta.
  - split.
    + apply word_bits; [apply Z.lor_nonneg; split; [apply W|apply wrap_word]|]. intros n Hn. rewrite Z.lor_spec, (word_high _ n W Hn), flag_bit by lia.
      cbn [orb]. apply Z.eqb_neq. lia.
    + intros n Hn. rewrite Z.lor_spec, flag_bit by lia. destruct (n =? i mod 64); [apply orb_true_r|apply orb_false_r].
  - split.
    + apply word_bits; [apply Z.land_nonneg; left; apply W|]. intros n Hn. rewrite Z.land_spec, (word_high _ n W Hn). reflexivity.
    + intros n Hn. rewrite Z.land_spec, wbit, Z.lnot_spec, flag_bit by lia. rewrite (proj2 (Z.ltb_lt n 64)) by lia. rewrite andb_true_r.
      destruct (n =? i mod 64); [apply andb_false_r|apply andb_true_r].
Qed.

Lemma grown_words : forall (w : Z -> Z) d len junk, 0 <= d <= len ->
  let w' := fun i => if (d <=? i) && (i <? d + (len - d)) then 0 else if i <? d then w i else junk i in
  forall p, 0 <= p < len -> w' p = if p <? d then w p else 0.
Proof.
  intros w d len junk H w' p Hp. unfold w'. destruct (Z.leb_spec d p); destruct (Z.ltb_spec p (d + (len - d))); destruct (Z.ltb_spec p d); cbn [andb]; try lia; reflexivity.
Qed.

Lemma check_ok : forall b w f len i junk, ok b w f len -> 0 <= i < 2 ^ 63 ->
  exists w', ok (check_length junk (i + 1) b) w' f (Z.max len (i + 1)) /\ i / 64 < data_length (check_length junk (i + 1) b).
Proof.
  intros b w f len i junk K Hi. destruct K. unfold check_length. rewrite k_words0, k_len0, andb_true_r.
  rewrite data_length_ceil in k_room0 by lia.
  destruct (Z.leb_spec (i + 1) len) as [L|L].
  - exists w. rewrite Z.max_l by lia. split; [|lia]. constructor; try assumption. rewrite data_length_ceil by lia. exact k_room0.
  - rewrite Z.max_r by lia. cbv zeta. rewrite data_length_ceil by lia. set (need := (i + 1 + 7) / 8). assert (Nd : 0 < need /\ i / 64 < need) by (unfold need; lia).
    destruct (Z.ltb_spec (data_length b) need) as [G|G].
    + set (n := if need <? 16 then need * 2 else need + 10). assert (Hn : need < n) by (unfold n; destruct (need <? 16); lia).
      pose proof (grown_words w (data_length b) n junk ltac:(lia)) as GW. cbv zeta in GW.
      eexists. split; [|cbn [data_length]; lia]. constructor; cbn [words bit_length data_length].
      * reflexivity.
      * reflexivity.
      * lia.
      * rewrite data_length_ceil by lia. fold need. lia.
      * intros p Hp. cbv beta. rewrite GW by lia. destruct (Z.ltb_spec p (data_length b)); [apply k_word0; lia|]. unfold word. lia.
      * intros j Hj Hd. unfold bit_at. cbv beta. rewrite GW by lia. destruct (Z.ltb_spec (j / 64) (data_length b)); [apply k_bits0; assumption|].
        rewrite Z.bits_0. symmetry. apply k_out0. lia.
      * intros j Hj. apply k_out0. lia.
    + exists w. split; [|cbn [data_length]; lia]. constructor; cbn [words bit_length data_length]; try assumption; try reflexivity; try lia.
      * rewrite data_length_ceil by lia. exact G.
      * intros j Hj. apply k_out0. lia.
Qed.

Lemma check_fresh : forall init i junk, 0 <= i < 2 ^ 63 ->
  exists w', ok (check_length junk (i + 1) (fresh init)) w' (fun _ => false) (i + 1) /\ i / 64 < data_length (check_length junk (i + 1) (fresh init)).
Proof.
  intros init i junk Hi. unfold check_length, fresh. cbn [words bit_length data_length]. rewrite andb_false_r. cbv zeta.
  rewrite data_length_ceil by lia. set (need := (i + 1 + 7) / 8). assert (Nd : 0 < need /\ i / 64 < need) by (unfold need; lia).
  set (n := if need <? 16 then need * 2 else need + 10). assert (Hn : need < n) by (unfold n; destruct (need <? 16); lia).
  assert (GW : forall p, 0 <= p < n -> (if (0 <=? p) && (p <? 0 + (n - 0)) then 0 else junk p) = 0).
  { intros p Hp. destruct (Z.leb_spec 0 p); destruct (Z.ltb_spec p (0 + (n - 0))); try lia; reflexivity. }
  eexists. split; [|cbn [data_length]; lia]. constructor; cbn [words bit_length data_length].
  - reflexivity.
  - reflexivity.
  - lia.
  - rewrite data_length_ceil by lia. fold need. lia.
  - intros p Hp. cbv beta. rewrite GW by lia. unfold word. lia.
  - intros j Hj Hd. unfold bit_at. cbv beta. rewrite GW by lia. apply Z.bits_0.
  - reflexivity.
Qed.

Lemma set_checked : forall b w f len i v, ok b w f len -> 0 <= i < len -> i / 64 < data_length b ->
  forall b', words b' = words b -> bit_length b' = bit_length b -> data_length b' = data_length b ->
  exists w', ok (Bits (bit_length b) (data_length b) (Some w') (overread b)) w' (put f i v) len /\
    w' = (fun p => if p =? word_of i then (if v then Z.lor (w (word_of i)) (flag_of i) else Z.land (w (word_of i)) (wrap U64 (Z.lnot (flag_of i)))) else w p).
Proof.
  intros b w f len i v K Hi Hd b' _ _ _. destruct K. unfold word_of.
  destruct (set_item w i v (k_word0 (i / 64) ltac:(lia)) ltac:(lia)) as [W B]. cbv zeta in W, B.
  eexists. split; [|reflexivity]. constructor; cbn [words bit_length data_length]; try assumption; try reflexivity.
  - intros p Hp. destruct (p =? i / 64); [exact W|apply k_word0; exact Hp].
  - intros j Hj Hjd. unfold bit_at, put. destruct (Z.eqb_spec (j / 64) (i / 64)) as [E|N].
    + rewrite B by lia. destruct (Z.eqb_spec (j mod 64) (i mod 64)) as [E2|N2].
      * assert (j = i) by lia. subst j. rewrite Z.eqb_refl. reflexivity.
      * destruct (Z.eqb_spec j i); [subst; contradiction|]. rewrite <- E. apply k_bits0; assumption.
    + destruct (Z.eqb_spec j i); [subst; contradiction|]. apply k_bits0; assumption.
  - intros j Hj. unfold put. destruct (Z.eqb_spec j i); [lia|]. apply k_out0. exact Hj.
Qed.

Lemma set_ok : forall b w f len i v junk, ok b w f len -> 0 <= i < 2 ^ 63 ->
  exists b' w', set junk i v b = Some b' /\ ok b' w' (put f i v) (Z.max len (i + 1)).
Proof.
  intros b w f len i v junk K Hi. destruct (check_ok b w f len i junk K Hi) as (w1 & K1 & D). unfold set.
  set (b1 := check_length junk (i + 1) b) in *. rewrite (k_words _ _ _ _ K1). unfold word_of at 1. rewrite (proj2 (Z.ltb_lt (i / 64) (data_length b1))) by lia.
  destruct (set_checked b1 w1 f _ i v K1 ltac:(lia) D b1 eq_refl eq_refl eq_refl) as (w2 & K2 & E). subst w2. eexists. eexists. split; [reflexivity|]. exact K2.
Qed.

Lemma set_fresh : forall init i v junk, 0 <= i < 2 ^ 63 ->
  exists b' w', set junk i v (fresh init) = Some b' /\ ok b' w' (put (fun _ => false) i v) (i + 1).
Proof.
  intros init i v junk Hi. destruct (check_fresh init i junk Hi) as (w1 & K1 & D). unfold set.
  set (b1 := check_length junk (i + 1) (fresh init)) in *. rewrite (k_words _ _ _ _ K1). unfold word_of at 1. rewrite (proj2 (Z.ltb_lt (i / 64) (data_length b1))) by lia.
  destruct (set_checked b1 w1 _ _ i v K1 ltac:(lia) D b1 eq_refl eq_refl eq_refl) as (w2 & K2 & E). subst w2. eexists. eexists. split; [reflexivity|]. exact K2.
Qed.

Lemma sets_ok : forall ops junk b w f len, ok b w f len -> Forall (fun o => 0 <= fst o < 2 ^ 63) ops ->
  exists b' w', sets junk ops b = Some b' /\
    ok b' w' (fold_left (fun g o => put g (fst o) (snd o)) ops f) (fold_left (fun m o => Z.max m (fst o + 1)) ops len).
Proof.
  induction ops as [|[i v] ops IH]; intros junk b w f len K F; cbn [sets fold_left]; [eauto|].
  inversion F; subst. cbn [fst snd] in *. destruct (set_ok b w f len i v (junk O) K ltac:(assumption)) as (b1 & w1 & E & K1). rewrite E.
  apply (IH _ _ _ _ _ K1). assumption.
Qed.

Lemma written_fold : forall ops i, fold_left (fun g o => put g (fst o) (snd o)) ops (fun _ => false) i = written ops i.
Proof.
  intros ops i. unfold written. rewrite <- (rev_involutive ops) at 1. induction (rev ops) as [|[j v] r IH]; [reflexivity|].
  cbn [rev find fst]. rewrite fold_left_app. cbn [fold_left fst snd]. unfold put at 1. rewrite Z.eqb_sym. destruct (j =? i); [reflexivity|exact IH].
Qed.

Lemma sets_fresh : forall init ops junk, ops <> [] -> Forall (fun o => 0 <= fst o < 2 ^ 63) ops ->
  exists b w f, sets junk ops (fresh init) = Some b /\ ok b w f (span ops) /\ forall i, f i = written ops i.
Proof.
  intros init ops junk N F. destruct ops as [|[i v] ops]; [contradiction|]. inversion F; subst. cbn [fst] in *.
  destruct (set_fresh init i v (junk O) ltac:(assumption)) as (b1 & w1 & E & K1). cbn [sets]. rewrite E.
  destruct (sets_ok ops (fun n => junk (S n)) b1 w1 _ _ K1 ltac:(assumption)) as (b2 & w2 & E2 & K2).
  exists b2, w2. eexists. split; [exact E2|]. split.
  - unfold span. cbn [fold_left fst]. rewrite Z.max_r by lia. exact K2.
  - intro j. rewrite <- written_fold. reflexivity.
Qed.

Lemma get_ok : forall b w f len i, ok b w f len -> 0 <= i < 2 ^ 63 -> get i b = Some (f i).
Proof.
  intros b w f len i K Hi. destruct K. unfold get. rewrite k_words0. rewrite data_length_ceil in * by lia.
  destruct (Z.ltb_spec (data_length b) ((i + 1 + 7) / 8)) as [L|L].
  - rewrite k_out0; [reflexivity|]. lia.
  - unfold word_of. rewrite (proj2 (Z.ltb_lt (i / 64) (data_length b))) by lia. unfold flag_of. rewrite land_flag; [|apply k_word0; lia|lia].
    f_equal. apply k_bits0; lia.
Qed.

Lemma scan_spec : forall n b w f len value p from0, ok b w f len -> 0 <= p -> 0 <= from0 < 64 -> p + Z.of_nat n = data_length_of len ->
  exists r, scan n b w value p from0 = Some r /\ first_index f value (p * 64 + from0) len not_found r.
Proof.
  induction n as [|n IH]; intros b w f len value p from0 K Hp Hf E; cbn [scan].
  - exists not_found. split; [reflexivity|]. right. split; [reflexivity|]. destruct K. rewrite data_length_ceil in * by lia. intros i Hi. lia.
  - assert (K' := K). destruct K. rewrite data_length_ceil in * by lia.
    rewrite (proj2 (Z.ltb_lt p (data_length b))) by lia.
    set (x := if value then w p else wrap U64 (Z.lnot (w p))).
    assert (W : word x) by (unfold x; destruct value; [apply k_word0; lia|apply wrap_word]).
    assert (B : forall j, 0 <= j < 64 -> Z.testbit x j = eqb (f (p * 64 + j)) value).
    { intros j Hj. rewrite <- (k_bits0 (p * 64 + j)) by lia. unfold bit_at. replace ((p * 64 + j) / 64) with p by lia. replace ((p * 64 + j) mod 64) with j by lia.
      unfold x. destruct value; [destruct (Z.testbit (w p) j); reflexivity|]. rewrite wbit, Z.lnot_spec by lia. rewrite (proj2 (Z.ltb_lt j 64)) by lia.
      destruct (Z.testbit (w p) j); reflexivity. }
    destruct (index_of_true_spec x from0 W Hf) as (k & Ek & Fi). rewrite Ek.
    assert (No : forall j, 0 <= j < 64 -> Z.testbit x j <> true -> f (p * 64 + j) <> value).
    { intros j Hj A X. apply A. rewrite (B j Hj), X. destruct value; reflexivity. }
    destruct Fi as [(Q1 & Q2 & Q3)|(-> & Q2)].
    + destruct (Z.eqb_spec k not_found) as [Bad|_]; [unfold not_found in Bad; lia|]. rewrite k_len0.
      assert (Pre : forall i, p * 64 + from0 <= i < p * 64 + k -> f i <> value).
      { intros i Hi. replace i with (p * 64 + (i - p * 64)) by lia. apply No; [lia|]. apply Q3. lia. }
      destruct (Z.leb_spec len (k + p * 64)).
      * exists not_found. split; [reflexivity|]. right. split; [reflexivity|]. intros i Hi. apply Pre. lia.
      * exists (k + p * 64). split; [reflexivity|]. left. split; [lia|]. split; [|intros i Hi; apply Pre; lia].
        rewrite (B k) in Q2 by lia. replace (k + p * 64) with (p * 64 + k) by lia. apply eqb_prop. exact Q2.
    + rewrite Z.eqb_refl. rewrite <- (data_length_ceil len) in * by lia.
      destruct (IH b w f len value (p + 1) 0 K' ltac:(lia) ltac:(lia) ltac:(lia)) as (r & R & Fr). exists r. split; [exact R|].
      assert (Pre : forall i, p * 64 + from0 <= i < (p + 1) * 64 + 0 -> f i <> value).
      { intros i Hi. replace i with (p * 64 + (i - p * 64)) by lia. apply No; [lia|]. apply Q2. lia. }
      destruct Fr as [(R1 & R2 & R3)|(R1 & R2)].
      * left. split; [lia|]. split; [exact R2|]. intros i Hi. destruct (Z.lt_ge_cases i ((p + 1) * 64 + 0)); [apply Pre; lia|apply R3; lia].
      * right. split; [exact R1|]. intros i Hi. destruct (Z.lt_ge_cases i ((p + 1) * 64 + 0)); [apply Pre; lia|apply R2; lia].
Qed.

Lemma index_ok : forall b w f len value from, ok b w f len -> 0 <= from ->
  exists r, index_of value from b = Some r /\ first_index f value from len not_found r.
Proof.
  intros b w f len value from K Hf. assert (K' := K). destruct K. unfold index_of. rewrite k_len0, k_words0.
  destruct (Z.leb_spec len from).
  - exists not_found. split; [reflexivity|]. right. split; [reflexivity|]. intros i Hi. lia.
  - assert (E := data_length_ceil len ltac:(lia)). destruct (Z.leb_spec (data_length_of len) (from / 64)); [lia|].
    destruct (scan_spec (Z.to_nat (data_length_of len - from / 64)) b w f len value (from / 64) (from mod 64) K' ltac:(lia) ltac:(lia) ltac:(lia)) as (r & R & Fi).
    exists r. split; [exact R|]. replace (from / 64 * 64 + from mod 64) with from in Fi by lia. exact Fi.
Qed.

Lemma first_index_ext : forall f g v from len none r, (forall i, f i = g i) -> first_index f v from len none r -> first_index g v from len none r.
Proof.
  intros f g v from len none r E [(A & B & C)|(A & B)]; [left|right].
  - split; [exact A|]. split; [rewrite <- E; exact B|]. intros i Hi. rewrite <- E. apply C. exact Hi.
  - split; [exact A|]. intros i Hi. rewrite <- E. apply B. exact Hi.
Qed.

(** ** Statements about whole histories *)

Lemma read_written : forall init junk ops i, Forall (fun o => 0 <= fst o < 2 ^ 63) ops -> 0 <= i < 2 ^ 63 ->
  exists b, sets junk ops (fresh init) = Some b /\ get i b = Some (written ops i).
Proof.
  intros init junk ops i F Hi. destruct ops as [|o ops]; [exists (fresh init); split; reflexivity|].
  destruct (sets_fresh init (o :: ops) junk ltac:(discriminate) F) as (b & w & f & E & K & W). exists b. split; [exact E|].
  rewrite (get_ok b w f _ i K Hi), W. reflexivity.
Qed.

Lemma search_written : forall init junk ops value from, ops <> [] -> Forall (fun o => 0 <= fst o < 2 ^ 63) ops -> 0 <= from ->
  exists b r, sets junk ops (fresh init) = Some b /\ index_of value from b = Some r /\
    first_index (written ops) value from (span ops) not_found r.
Proof.
  intros init junk ops value from N F Hf. destruct (sets_fresh init ops junk N F) as (b & w & f & E & K & W).
  destruct (index_ok b w f _ value from K Hf) as (r & R & S). exists b, r. split; [exact E|]. split; [exact R|].
  exact (first_index_ext _ _ _ _ _ _ _ W S).
Qed.

Lemma fresh_search : forall init value from, 0 <= from < init -> init < 2 ^ 63 -> index_of value from (fresh init) = None.
Proof.
  intros init value from H L. unfold index_of, fresh. cbn [bit_length words]. rewrite (proj2 (Z.leb_gt init from)) by lia.
  rewrite data_length_ceil by lia. rewrite (proj2 (Z.leb_gt ((init + 7) / 8) (from / 64))) by lia. reflexivity.
Qed.

Lemma grow_overreads : forall init junk i j vi vj, 0 <= i -> j < 2 ^ 63 -> i * 2 + 32 <= j ->
  exists b, sets junk [(i, vi); (j, vj)] (fresh init) = Some b /\ overread b = true.
Proof.
  intros init junk i j vi vj Hi Hj H.
  destruct (sets_fresh init [(i, vi); (j, vj)] junk ltac:(discriminate)) as (b & w & f & E & _ & _).
  { repeat constructor; cbn [fst]; lia. }
  exists b. split; [exact E|]. revert E. cbn [sets].
  destruct (set (junk 0%nat) i vi (fresh init)) as [b1|] eqn:E1; [|discriminate].
  assert (D1 : bit_length b1 = i + 1 /\ (exists w1, words b1 = Some w1) /\ data_length b1 <= 2 * ((i + 8) / 8)).
  { revert E1. unfold set, check_length. cbn [words fresh bit_length data_length]. rewrite andb_false_r. cbn [words bit_length data_length overread].
    destruct (word_of i <? _); [|discriminate]. intro E1. injection E1 as <-. cbn [bit_length words data_length]. split; [reflexivity|]. split; [eauto|].
    rewrite data_length_ceil by lia. replace (i + 1 + 7) with (i + 8) by lia. destruct (Z.ltb_spec ((i + 8) / 8) 16); lia. }
  destruct D1 as (L1 & (w1 & W1) & D1).
  destruct (set (junk 1%nat) j vj b1) as [b2|] eqn:E2; [|discriminate]. intro E. injection E as <-.
  revert E2. unfold set, check_length. rewrite L1, W1. rewrite (proj2 (Z.leb_gt (j + 1) (i + 1))) by lia. cbn [andb].
  rewrite data_length_ceil by lia. rewrite (proj2 (Z.ltb_lt (data_length b1) ((j + 1 + 7) / 8))) by lia. cbn [words data_length bit_length overread].
  match goal with |- context [word_of j <? ?x] => destruct (word_of j <? x) end; [|discriminate]. intro E2. injection E2 as <-. cbn [overread].
  apply orb_true_iff. right. apply Z.ltb_lt. destruct (Z.ltb_spec ((j + 1 + 7) / 8) 16); lia.
Qed.
