(** Proofs for C32-C34, C53 and C54. *)

From Coq Require Import ZArith List Bool Lia Arith.
Import ListNotations.
From Verif Require Import CppInt CommonModel CommonProofs ArrayModel ArraySpec.
Open Scope Z_scope.
Ltac Zify.zify_post_hook ::= Z.div_mod_to_equations.

Definition imax : Z := 2147483647.

Lemma fit_i32 : forall z, 0 <= z <= imax -> fit I32 z = Val z.
Proof.
  intros z H. unfold fit. replace (in_rangeb I32 z) with true; [reflexivity|].
  symmetry. apply in_rangeb_iff. unfold in_range, imax in *. cbn. lia.
Qed.

Lemma product_pos : forall ls, Forall (fun l => 0 < l) ls -> 0 < product ls.
Proof. induction 1; cbn [product]; nia. Qed.

Lemma product_app : forall a b, product (a ++ b) = product a * product b.
Proof. induction a as [|x a IH]; intro b; cbn [app product]; [lia|]. rewrite IH. ring. Qed.

Lemma product_rev : forall ls, product (rev ls) = product ls.
Proof.
  induction ls as [|l ls IH]; [reflexivity|]. cbn [rev product].
  rewrite product_app, IH. cbn [product]. ring.
Qed.

(** The stored lengths, from the multiplier [b] on. *)
Fixpoint cums (b : Z) (rl : list Z) : list Z :=
  b :: match rl with [] => [] | l :: r => cums (b * l) r end.

(** Value of the remaining indices, the next one with multiplier [b]. *)
Fixpoint dot (b : Z) (rl ri : list Z) : Z :=
  match rl, ri with
  | l :: r, i :: s => i * b + dot (b * l) r s
  | _, _ => 0
  end.

Lemma dot_bound : forall rl ri b, inside rl ri -> 0 < b ->
  0 <= dot b rl ri <= b * product rl - b.
Proof.
  intros rl ri b H. revert b. induction H as [|l i rl ri Hi H IH]; intros b Hb; cbn [dot product].
  - lia.
  - specialize (IH (b * l) ltac:(nia)).
    assert (b * (l * product rl) = b * l * product rl) by ring. nia.
Qed.

Lemma inside_pos : forall rl ri, inside rl ri -> Forall (fun l => 0 < l) rl.
Proof. induction 1; constructor; [lia|assumption]. Qed.

Lemma inside_length : forall rl ri, inside rl ri -> length rl = length ri.
Proof. induction 1; cbn [length]; congruence. Qed.

Lemma mul_index_spec : forall n b rl ri st, inside rl ri -> (n <= length rl)%nat -> 0 < b ->
  b * product rl <= imax ->
  exists v, mul_index n (ri ++ st) (cums b rl)
            = Some (v, skipn n ri ++ st, cums (b * product (firstn n rl)) (skipn n rl))
    /\ v + dot (b * product (firstn n rl)) (skipn n rl) (skipn n ri) = dot b rl ri
    /\ 0 <= v <= b * product (firstn n rl) - b.
Proof.
  induction n as [|n IH]; intros b rl ri st H Hn Hb Hm.
  - exists 0. cbn [mul_index firstn skipn product]. rewrite Z.mul_1_r.
    repeat split; lia.
  - destruct H as [|l i rl ri Hi H]; [cbn in Hn; lia|].
    cbn [length] in Hn. cbn [product] in Hm.
    pose proof (product_pos rl (inside_pos _ _ H)) as Pp.
    assert (E1 : b * (l * product rl) = b * l * product rl) by ring.
    destruct (IH (b * l) rl ri st H ltac:(lia) ltac:(nia) ltac:(lia)) as (v & Ev & Ed & Hv).
    pose proof (product_pos (firstn n rl)) as Pf.
    assert (Ff : Forall (fun l => 0 < l) (firstn n rl)).
    { apply Forall_forall. intros x Hx. pose proof (inside_pos _ _ H) as F.
      rewrite Forall_forall in F. apply F.
      rewrite <- (firstn_skipn n rl). apply in_or_app. left. exact Hx. }
    specialize (Pf Ff).
    assert (Fs : Forall (fun l => 0 < l) (skipn n rl)).
    { apply Forall_forall. intros x Hx. pose proof (inside_pos _ _ H) as F.
      rewrite Forall_forall in F. apply F.
      rewrite <- (firstn_skipn n rl). apply in_or_app. right. exact Hx. }
    pose proof (product_pos _ Fs) as Ps.
    assert (Ep : product rl = product (firstn n rl) * product (skipn n rl))
      by (rewrite <- product_app, firstn_skipn; reflexivity).
    assert (Le : b * l * product (firstn n rl) <= imax).
    { rewrite Ep in Hm.
      assert (X : b * (l * (product (firstn n rl) * product (skipn n rl)))
                  = b * l * product (firstn n rl) * product (skipn n rl)) by ring.
      rewrite X in Hm. assert (0 < b * l * product (firstn n rl)) by nia. nia. }
    assert (Lb : b * l <= b * l * product (firstn n rl)) by nia.
    assert (Ib : 0 <= i * b <= b * l - b) by nia.
    cbn [mul_index app cums].
    rewrite (fit_i32 (i * b)) by lia.
    rewrite Ev. rewrite fit_i32 by lia.
    cbn [firstn skipn product dot].
    replace (b * (l * product (firstn n rl))) with (b * l * product (firstn n rl)) by ring.
    exists (i * b + v). repeat split; lia.
Qed.

Lemma skipn_all_len : forall (A : Type) (l : list A) n, n = length l -> skipn n l = [].
Proof. intros A l n ->. apply skipn_all. Qed.

Lemma inside_skipn : forall n rl ri, inside rl ri -> inside (skipn n rl) (skipn n ri).
Proof.
  induction n as [|n IH]; intros rl ri H; [exact H|].
  destruct H; cbn [skipn]; [constructor|]. apply IH. assumption.
Qed.

Lemma array_index_spec : forall fuel b rl ri st idx, inside rl ri -> 0 <= idx < b ->
  b * product rl <= imax -> (length rl <= 8 * fuel)%nat -> Z.of_nat (length rl) mod 8 <> 1 ->
  array_index fuel (Z.of_nat (length rl)) (ri ++ st) (cums b rl) idx = Some (idx + dot b rl ri, st).
Proof.
  induction fuel as [|fuel IH]; intros b rl ri st idx H Hi Hm Hf Hr;
    pose proof (inside_length _ _ H) as Le.
  - destruct rl; [|cbn in Hf; lia]. destruct ri; [|discriminate].
    cbn. rewrite Z.add_0_r. reflexivity.
  - pose proof (dot_bound _ _ b H ltac:(lia)) as Db.
    cbn [array_index]. destruct (Z.eqb_spec (Z.of_nat (length rl)) 0) as [Z0|Z0].
    { destruct rl; [|cbn in Z0; lia]. destruct ri; [|discriminate].
      cbn [app dot]. rewrite Z.add_0_r. reflexivity. }
    destruct (Z.leb_spec 2 (Z.of_nat (length rl))) as [L2|L2]; [|exfalso].
    2: { assert (length rl = 1)%nat by lia. rewrite H0 in Hr. apply Hr. reflexivity. }
    destruct (Z.leb_spec (Z.of_nat (length rl)) 8) as [L8|L8]; cbn [andb].
    + rewrite Nat2Z.id.
      destruct (mul_index_spec (length rl) b rl ri st H (le_n _) ltac:(lia) Hm) as (v & Ev & Ed & Hv).
      rewrite Ev. rewrite !skipn_all_len in * by lia. cbn [dot app] in *.
      rewrite fit_i32 by (unfold imax in *; lia).
      do 2 f_equal. lia.
    + destruct (mul_index_spec 8 b rl ri st H ltac:(lia) ltac:(lia) Hm) as (v & Ev & Ed & Hv).
      rewrite Ev.
      assert (Ep : product rl = product (firstn 8 rl) * product (skipn 8 rl))
        by (rewrite <- product_app, firstn_skipn; reflexivity).
      assert (Ps : 0 < product (skipn 8 rl))
        by (apply product_pos; eapply inside_pos; apply inside_skipn; exact H).
      assert (B' : 0 < b * product (firstn 8 rl)) by lia.
      pose proof (dot_bound _ _ _ (inside_skipn 8 _ _ H) B') as Db'.
      assert (Em : b * product rl = b * product (firstn 8 rl) * product (skipn 8 rl)) by (rewrite Ep; ring).
      rewrite fit_i32 by (unfold imax in *; nia).
      replace (Z.of_nat (length rl) - 8) with (Z.of_nat (length (skipn 8 rl)))
        by (rewrite skipn_length; lia).
      rewrite IH.
      * do 2 f_equal. lia.
      * apply inside_skipn. exact H.
      * lia.
      * lia.
      * rewrite skipn_length. lia.
      * rewrite skipn_length. lia.
Qed.

Lemma cumulate_spec : forall rl l base, 0 < base -> 0 < l -> Forall (fun l => 0 < l) rl ->
  l * base * product rl <= imax -> cumulate base (l :: rl) = Some (cums (l * base) rl).
Proof.
  induction rl as [|l' rl IH]; intros l base Hb Hl Hr Hm.
  - cbn [product] in Hm. cbn [cumulate cums]. rewrite fit_i32 by (unfold imax in *; nia). reflexivity.
  - inversion Hr; subst. cbn [product] in Hm. pose proof (product_pos rl H2) as P.
    assert (E1 : l * base * (l' * product rl) = l' * (l * base) * product rl) by ring.
    remember (l' :: rl) as r. cbn [cumulate]. subst r.
    assert (0 < l' * product rl) by nia.
    rewrite fit_i32 by (unfold imax in *; nia).
    rewrite IH; try assumption; try nia.
    cbn [cums]. rewrite (Z.mul_comm l'). reflexivity.
Qed.

Lemma mul_lengths_spec : forall ls acc, 0 < acc -> Forall (fun l => 0 < l) ls ->
  acc * product ls <= imax -> mul_lengths acc ls = Val (acc * product ls).
Proof.
  induction ls as [|l ls IH]; intros acc Ha Hl Hm; cbn [mul_lengths product] in *.
  - rewrite Z.mul_1_r. reflexivity.
  - inversion Hl; subst. pose proof (product_pos ls H2) as P.
    assert (E1 : acc * (l * product ls) = acc * l * product ls) by ring.
    rewrite fit_i32 by (unfold imax in *; nia). rewrite IH; try assumption; try nia.
    f_equal. ring.
Qed.

(** A representable array exists, with the expected header. *)
Lemma new_array_spec : forall e ls, representable ls ->
  exists a l rl, new_array e ls = Made a /\ rev ls = l :: rl /\ total a = product ls
    /\ (length ls = 1%nat \/ heads a = cums l rl)
    /\ size a = alignf (wrap U64 (wrap U64 (hd 0 ls) * unit_align 1 (get_size e))) 8
    /\ extern a = alignf (8 + 4 * (if (length ls =? 1)%nat then 0 else Z.of_nat (length ls)) + 4) 8.
Proof.
  intros e ls (N & P & M). change (2 ^ 31 - 1) with imax in M.
  destruct ls as [|l0 rest]; [congruence|].
  destruct (rev (l0 :: rest)) as [|l rl] eqn:Er.
  { apply (f_equal (@length Z)) in Er. rewrite rev_length in Er. discriminate. }
  assert (Fr : Forall (fun l => 0 < l) (l :: rl)) by (rewrite <- Er; apply Forall_rev; exact P).
  assert (Pr : product (l :: rl) = product (l0 :: rest)) by (rewrite <- Er; apply product_rev).
  destruct rest as [|l1 rest].
  - exists (Arr (alignf (8 + 4) 8) (alignf (wrap U64 (wrap U64 l0 * unit_align 1 (get_size e))) 8) l0 []), l, rl.
    cbn [total size extern heads hd length Nat.eqb]. split; [reflexivity|].
    split; [reflexivity|]. split; [cbn [product]; lia|]. split; [left; reflexivity|]. split; reflexivity.
  - remember (l1 :: rest) as tl. cbn [new_array].
    rewrite mul_lengths_spec.
    + rewrite Er. rewrite cumulate_spec.
      * subst tl. eexists _, l, rl. split; [reflexivity|].
        cbn [total size extern heads hd]. repeat split.
        right. rewrite Z.mul_1_r. reflexivity.
      * lia.
      * inversion Fr; assumption.
      * inversion Fr; assumption.
      * cbn [product] in Pr, M. rewrite Z.mul_1_r. rewrite Pr. exact M.
    + inversion P; assumption.
    + inversion P; assumption.
    + exact M.
Qed.

Lemma inside_app_inv : forall a ls i idx, inside (a ++ [ls]) (i ++ [idx]) ->
  length a = length i -> inside a i /\ 0 <= idx < ls.
Proof.
  induction a as [|x a IH]; intros ls [|y i] idx H L; try discriminate.
  - inversion H; subst. split; [constructor|assumption].
  - cbn [app] in H. inversion H; subst. cbn in L. destruct (IH ls i idx H5 ltac:(lia)).
    split; [constructor; assumption|assumption].
Qed.

Lemma inside_rev : forall ls idx, inside ls idx -> inside (rev ls) (rev idx).
Proof.
  induction 1; cbn [rev]; [constructor|]. apply Forall2_app; [assumption|]. constructor; [assumption|constructor].
Qed.

Lemma dot_app : forall rl ri b l i, length rl = length ri ->
  dot b (rl ++ [l]) (ri ++ [i]) = dot b rl ri + i * (b * product rl).
Proof.
  induction rl as [|x rl IH]; intros [|y ri] b l i L; try discriminate; cbn [app dot product].
  - rewrite Z.mul_1_r. lia.
  - rewrite IH by (cbn in L; lia). ring.
Qed.

Lemma row_major_dot : forall ls idx, inside ls idx -> row_major ls idx = dot 1 (rev ls) (rev idx).
Proof.
  induction 1 as [|l i ls idx Hi H IH]; [reflexivity|].
  cbn [row_major rev]. rewrite dot_app.
  - rewrite product_rev, IH. ring.
  - rewrite !rev_length. apply inside_length. exact H.
Qed.

Lemma row_major_bound : forall ls idx, inside ls idx -> 0 <= row_major ls idx < product ls.
Proof.
  induction 1 as [|l i ls idx Hi H IH]; cbn [row_major product]; [lia|].
  nia.
Qed.

Lemma row_major_inj : forall ls i j, inside ls i -> inside ls j ->
  row_major ls i = row_major ls j -> i = j.
Proof.
  intros ls i j H. revert j. induction H as [|l x ls i Hx H IH]; intros j Hj E.
  - inversion Hj. reflexivity.
  - inversion Hj as [|? y ? j' Hy Hj']; subst. cbn [row_major] in E.
    pose proof (row_major_bound _ _ H). pose proof (row_major_bound _ _ Hj').
    assert (x = y) by nia. subst y. f_equal. apply IH; [assumption|lia].
Qed.

(** The flat index of an in-range tuple is its lexicographic position. *)
Lemma flat_index_spec : forall e ls idx st a, representable ls -> inside ls idx ->
  (length ls <= 8)%nat \/ (Z.of_nat (length ls) mod 8 <> 2) ->
  new_array e ls = Made a ->
  flat_index (length ls) a (rev idx ++ st) = Some (row_major ls idx, st).
Proof.
  intros e ls idx st a R I Hr E.
  destruct (new_array_spec e ls R) as (a' & l & rl & E' & Er & Et & Eh & _).
  rewrite E in E'. inversion E'; subst a'. clear E'.
  pose proof (inside_rev _ _ I) as Ir. rewrite Er in Ir.
  rewrite row_major_dot by assumption. rewrite Er.
  inversion Ir as [|l' i rl' ri Hi I' El Ei]; subst l' rl'. cbn [app].
  destruct R as (N & P & M). change (2 ^ 31 - 1) with imax in M.
  assert (Pr : l * product rl <= imax) by (rewrite <- product_rev, Er in M; exact M).
  assert (Ll : length ls = S (length rl)) by (rewrite <- rev_length, Er; reflexivity).
  rewrite Ll. unfold flat_index. cbn [dot]. rewrite Z.mul_1_l, Z.mul_1_r.
  destruct (length rl) as [|d] eqn:Ed.
  - assert (length ri = 0)%nat by (rewrite <- (inside_length _ _ I'); exact Ed).
    destruct rl, ri; try discriminate. cbn [app dot]. do 2 f_equal. lia.
  - destruct Eh as [E1|Eh]; [lia|]. rewrite Eh.
    pose proof (dot_bound _ _ l I' ltac:(lia)) as Db.
    destruct (Nat.leb_spec (S (S d)) 8) as [L8|L8].
    + destruct (mul_index_spec (S d) l rl ri st I' ltac:(lia) ltac:(lia) Pr) as (v & Ev & Edot & Hv).
      rewrite Ev. pose proof (inside_length _ _ I').
      rewrite !skipn_all_len in * by lia. cbn [dot app] in *.
      rewrite fit_i32 by (unfold imax in *; lia). do 2 f_equal. lia.
    + replace (Z.of_nat (S d)) with (Z.of_nat (length rl)) by (rewrite Ed; reflexivity).
      rewrite array_index_spec.
      * rewrite Z.add_0_l. rewrite fit_i32 by (unfold imax in *; lia). reflexivity.
      * exact I'.
      * lia.
      * exact Pr.
      * assert (forall r b, length (cums b r) = S (length r)).
        { induction r; intro b; cbn [cums length]; [reflexivity|]. rewrite IHr. reflexivity. }
        rewrite H. lia.
      * rewrite Ed. destruct Hr as [Hr|Hr]; lia.
Qed.

Lemma element_spec : forall c e ls idx st a, representable ls -> inside ls idx ->
  (length ls <= 8)%nat \/ (Z.of_nat (length ls) mod 8 <> 2) ->
  new_array e ls = Made a ->
  element c (length ls) a (rev idx ++ st) = Element (row_major ls idx) st.
Proof.
  intros c e ls idx st a R I Hr E. unfold element.
  rewrite (flat_index_spec e ls idx st a R I Hr E).
  destruct (new_array_spec e ls R) as (a' & l & rl & E' & _ & Et & _).
  rewrite E in E'. inversion E'; subst a'. rewrite Et.
  pose proof (row_major_bound _ _ I). destruct (Z.leb_spec (product ls) (row_major ls idx)); [lia|].
  rewrite andb_false_r. reflexivity.
Qed.

Lemma element_inj : forall c c' e ls i j st st' a k r r', representable ls ->
  inside ls i -> inside ls j ->
  (length ls <= 8)%nat \/ (Z.of_nat (length ls) mod 8 <> 2) ->
  new_array e ls = Made a ->
  element c (length ls) a (rev i ++ st) = Element k r ->
  element c' (length ls) a (rev j ++ st') = Element k r' -> i = j.
Proof.
  intros c c' e ls i j st st' a k r r' R Ii Ij Hr E H H'.
  rewrite (element_spec c e ls i st a) in H by assumption.
  rewrite (element_spec c' e ls j st' a) in H' by assumption.
  inversion H; inversion H'. eapply row_major_inj; try eassumption. lia.
Qed.

(** *** Lengths *)

Lemma nth_cums : forall rl b k, (k <= length rl)%nat ->
  nth_error (cums b rl) k = Some (b * product (firstn k rl)).
Proof.
  induction rl as [|l rl IH]; intros b k Hk.
  - assert (k = 0)%nat by (cbn in Hk; lia). subst k. cbn [cums nth_error firstn product]. f_equal. lia.
  - destruct k as [|k]; [cbn [cums nth_error firstn product]; f_equal; lia|].
    cbn [cums nth_error firstn product]. rewrite IH by (cbn in Hk; lia). f_equal. ring.
Qed.

Lemma product_firstn_S : forall rl k x, nth_error rl k = Some x ->
  product (firstn (S k) rl) = product (firstn k rl) * x.
Proof.
  induction rl as [|l rl IH]; intros [|k] x H; try discriminate.
  - cbn in H. inversion H; subst. cbn [firstn product]. lia.
  - cbn [nth_error] in H. change (firstn (S (S k)) (l :: rl)) with (l :: firstn (S k) rl).
    change (firstn (S k) (l :: rl)) with (l :: firstn k rl). cbn [product].
    rewrite (IH k x H). ring.
Qed.

Lemma firstn_pos : forall k rl, Forall (fun l => 0 < l) rl -> Forall (fun l => 0 < l) (firstn k rl).
Proof.
  intros k rl F. apply Forall_forall. intros x Hx. rewrite Forall_forall in F. apply F.
  rewrite <- (firstn_skipn k rl). apply in_or_app. left. exact Hx.
Qed.

Lemma nth_rev : forall (A : Type) (l : list A) n, (n < length l)%nat ->
  nth_error (rev l) n = nth_error l (length l - S n).
Proof.
  intros A l n H. destruct l as [|d l']; [cbn in H; lia|]. set (l := d :: l') in *.
  rewrite (nth_error_nth' (rev l) d) by (rewrite rev_length; exact H).
  rewrite (nth_error_nth' l d) by lia. f_equal. apply rev_nth. exact H.
Qed.

Lemma length_of_dimension_spec : forall e ls a j x, representable ls ->
  new_array e ls = Made a -> nth_error ls j = Some x ->
  length_of_dimension (Z.of_nat (length ls)) a (Z.of_nat j) = Some x.
Proof.
  intros e ls a j x R E Hj.
  destruct (new_array_spec e ls R) as (a' & l & rl & E' & Er & Et & Eh & _).
  rewrite E in E'. inversion E'; subst a'. clear E'.
  assert (Lj : (j < length ls)%nat) by (apply nth_error_Some; congruence).
  unfold length_of_dimension.
  destruct (Z.eqb_spec (Z.of_nat (length ls)) 1) as [L1|L1].
  - assert (j = 0)%nat by lia. subst j. cbn [andb Z.of_nat Z.eqb].
    destruct ls as [|y [|z ls]]; cbn in L1; try lia.
    cbn in Hj. inversion Hj; subst. rewrite Et. cbn [product]. f_equal. lia.
  - rewrite andb_false_r. destruct Eh as [Eh|Eh]; [lia|].
    assert (Ll : length ls = S (length rl)) by (rewrite <- rev_length, Er; reflexivity).
    assert (Hx : nth_error (l :: rl) (length ls - S j) = Some x).
    { rewrite <- Er, nth_rev by lia.
      replace (length ls - S (length ls - S j))%nat with j by lia. exact Hj. }
    destruct R as (N & P & M). change (2 ^ 31 - 1) with imax in M.
    assert (Fr : Forall (fun l => 0 < l) (l :: rl)) by (rewrite <- Er; apply Forall_rev; exact P).
    assert (Pr : l * product rl <= imax) by (rewrite <- product_rev, Er in M; exact M).
    inversion Fr as [|? ? Hl Frl]; subst.
    remember (length ls - S j)%nat as n eqn:En.
    replace (Z.of_nat (length ls) - Z.of_nat j - 1) with (Z.of_nat n) by lia.
    rewrite Eh. destruct (Z.eqb_spec (Z.of_nat n) 0) as [N0|N0].
    + assert (n = 0)%nat by lia. subst n. rewrite H in Hx. cbn in Hx. inversion Hx; subst.
      rewrite nth_cums by lia. cbn [firstn product]. f_equal. lia.
    + destruct (Z.ltb_spec (Z.of_nat n) 0); [lia|].
      destruct n as [|n]; [lia|]. cbn [nth_error] in Hx.
      replace (Z.to_nat (Z.of_nat (S n))) with (S n) by lia.
      replace (Z.to_nat (Z.of_nat (S n) - 1)) with n by lia.
      rewrite !nth_cums by lia. rewrite (product_firstn_S rl n x Hx).
      assert (Pf : 0 < product (firstn n rl)) by (apply product_pos, firstn_pos; assumption).
      assert (Hxp : 0 < x).
      { rewrite Forall_forall in Frl. apply Frl. eapply nth_error_In. exact Hx. }
      destruct (Z.eqb_spec (l * product (firstn n rl)) 0); [nia|].
      replace (l * (product (firstn n rl) * x)) with (x * (l * product (firstn n rl))) by ring.
      rewrite Z.quot_mul by assumption.
      rewrite fit_i32; [reflexivity|].
      assert (Lx : x <= product rl).
      { rewrite <- (firstn_skipn (S n) rl), product_app, (product_firstn_S rl n x Hx).
        assert (0 < product (skipn (S n) rl)).
        { apply product_pos. apply Forall_forall. intros y Hy. rewrite Forall_forall in Frl. apply Frl.
          rewrite <- (firstn_skipn (S n) rl). apply in_or_app. right. exact Hy. }
        set (A := product (firstn n rl)) in *. set (B := product (skipn (S n) rl)) in *.
        clearbody A B. replace (A * x * B) with (x * (A * B)) by ring.
        assert (1 <= A * B) by nia. nia. }
      nia.
Qed.

Lemma pop_lengths_spec : forall ls st got,
  Forall (in_range I32) ls ->
  pop_lengths (length ls) (rev ls ++ st) got = Some (ls ++ got, st).
Proof.
  intros ls. induction ls as [|x ls IH] using rev_ind; intros st got F; [reflexivity|].
  rewrite app_length, rev_app_distr. cbn [length rev app]. rewrite Nat.add_1_r. cbn [pop_lengths].
  apply Forall_app in F. destruct F as [F Fx]. inversion Fx; subst.
  rewrite wrap_id by assumption. rewrite IH by assumption.
  rewrite <- app_assoc. reflexivity.
Qed.

(** *** Allocation *)

Lemma alignf8 : forall s, 0 <= s < 2 ^ 63 -> s <= alignf s 8 <= s + 7 /\ alignf s 8 mod 8 = 0.
Proof.
  intros s H. change (2 ^ 63) with 9223372036854775808 in H.
  assert (E : alignf s 8 = 8 * ((s + 7) / 8)).
  { change 8 with (2 ^ 3) at 1. rewrite align_up; [|lia|lia|].
    - change (2 ^ 3) with 8. f_equal. f_equal. lia.
    - change (modulus U64) with 18446744073709551616. change (2 ^ 3) with 8. lia. }
  rewrite E. lia.
Qed.

Lemma unit_align_1 : forall n, unit_align 1 n =
  if n =? 1 then 1 else if n =? 2 then 2 else if (n =? 3) || (n =? 4) then 4 else 8.
Proof. intro n. unfold unit_align. reflexivity. Qed.

Lemma unit_align_range : forall n, 1 <= unit_align 1 n <= 8.
Proof.
  intro n. rewrite unit_align_1.
  destruct (n =? 1); [lia|]. destruct (n =? 2); [lia|]. destruct ((n =? 3) || (n =? 4)); lia.
Qed.

(** The unit covers the stride. *)
Lemma unit_covers : forall e,
  match e with
  | Scalar w => w = 1 \/ w = 2 \/ w = 4 \/ w = 8
  | Struct n => 1 <= n <= 8
  | Class n => n = 0 \/ 5 <= n
  end -> 1 <= stride e <= unit_align 1 (get_size e).
Proof.
  intros [w|n|n] H; cbn [stride get_size]; rewrite unit_align_1.
  - destruct H as [->|[->|[->| ->]]]; cbn; lia.
  - destruct (Z.eqb_spec n 1); [lia|]. destruct (Z.eqb_spec n 2); [lia|].
    destruct (Z.eqb_spec n 3); [cbn [orb]; lia|]. destruct (Z.eqb_spec n 4); cbn [orb]; lia.
  - destruct (Z.eqb_spec n 1); [lia|]. destruct (Z.eqb_spec n 2); [lia|].
    destruct (Z.eqb_spec n 3); [lia|]. destruct (Z.eqb_spec n 4); cbn [orb]; lia.
Qed.

Lemma size_word : forall l es, 0 <= l <= imax -> 1 <= es <= 8 ->
  l * es <= alignf (wrap U64 (wrap U64 l * es)) 8 <= l * es + 7.
Proof.
  intros l es Hl He. unfold imax in Hl.
  assert (0 <= l * es <= 17179869176) by nia.
  rewrite (wrap_u64_small l) by (change (modulus U64) with 18446744073709551616; lia).
  rewrite wrap_u64_small by (change (modulus U64) with 18446744073709551616; lia).
  apply alignf8. change (2 ^ 63) with 9223372036854775808. lia.
Qed.

Lemma rank1_covers : forall e l a,
  match e with
  | Scalar w => w = 1 \/ w = 2 \/ w = 4 \/ w = 8
  | Struct n => 1 <= n <= 8
  | Class n => n = 0 \/ 5 <= n
  end ->
  0 <= l <= 2 ^ 31 - 1 -> new_array e [l] = Made a ->
  total a = l /\
  forall k, 0 <= k < l -> 0 <= k * stride e /\ k * stride e + stride e <= size a.
Proof.
  intros e l a He Hl E. change (2 ^ 31 - 1) with imax in Hl.
  cbn [new_array] in E. inversion E; subst. clear E. cbn [total size]. split; [reflexivity|].
  intros k Hk. pose proof (unit_covers e He) as Hs.
  pose proof (unit_align_range (get_size e)).
  pose proof (size_word l (unit_align 1 (get_size e)) Hl ltac:(lia)).
  set (x := alignf _ 8) in *. clearbody x.
  set (es := unit_align 1 (get_size e)) in *. clearbody es. set (s := stride e) in *. clearbody s. nia.
Qed.

Lemma header_fits : forall e ls a, representable ls -> (length ls <= 2 ^ 15)%nat ->
  new_array e ls = Made a ->
  12 <= extern a /\ 12 + 4 * Z.of_nat (length (heads a)) <= extern a.
Proof.
  intros e ls a R Hl E.
  destruct (new_array_spec e ls R) as (a' & l & rl & E' & Er & _ & Eh & _ & Ee).
  rewrite E in E'. inversion E'; subst a'. clear E'. rewrite Ee.
  assert (Hz : Z.of_nat (length ls) <= 32768).
  { apply Nat2Z.inj_le in Hl. rewrite Nat2Z.inj_pow in Hl. exact Hl. }
  destruct (Nat.eqb_spec (length ls) 1) as [L1|L1].
  - destruct ls as [|x [|y ls]]; cbn in L1; try lia.
    cbn [new_array] in E. inversion E; subst. cbn [heads length]. vm_compute. split; discriminate.
  - destruct Eh as [Eh|Eh]; [lia|]. rewrite Eh.
    assert (Lc : forall r b, length (cums b r) = S (length r)).
    { induction r; intro b; cbn [cums length]; [reflexivity|]. rewrite IHr. reflexivity. }
    rewrite Lc. replace (S (length rl)) with (length ls) by (rewrite <- rev_length, Er; reflexivity).
    assert (A := alignf8 (8 + 4 * Z.of_nat (length ls) + 4)).
    change (2 ^ 63) with 9223372036854775808 in A. lia.
Qed.

Lemma multi_under : forall w l0 l1 r a, w = 1 \/ w = 2 \/ w = 4 \/ w = 8 ->
  representable (l0 :: l1 :: r) -> 9 <= product (l1 :: r) ->
  new_array (Scalar w) (l0 :: l1 :: r) = Made a ->
  exists k, 0 <= k < total a /\ size a < k * stride (Scalar w) + stride (Scalar w).
Proof.
  intros w l0 l1 r a Hw R Hp E.
  destruct (new_array_spec (Scalar w) _ R) as (a' & l & rl & E' & _ & Et & _ & Es & _).
  rewrite E in E'. inversion E'; subst a'. clear E'.
  destruct R as (_ & P & M). change (2 ^ 31 - 1) with imax in M.
  change (product (l0 :: l1 :: r)) with (l0 * product (l1 :: r)) in *.
  set (q := product (l1 :: r)) in *. clearbody q. inversion P; subst.
  rewrite Et, Es. cbn [hd stride get_size].
  assert (Ew : unit_align 1 w = w) by (destruct Hw as [->|[->|[->| ->]]]; reflexivity).
  rewrite Ew. exists (l0 * q - 1). split; [nia|].
  pose proof (size_word l0 w ltac:(nia) ltac:(lia)). set (x := alignf _ 8) in *. clearbody x.
  assert (l0 * w * 9 <= l0 * q * w) by nia. nia.
Qed.

Lemma struct_under : forall n l a, 9 <= n -> 8 <= l <= 2 ^ 31 - 1 ->
  new_array (Struct n) [l] = Made a ->
  exists k, 0 <= k < total a /\ size a < k * stride (Struct n) + stride (Struct n).
Proof.
  intros n l a Hn Hl E. change (2 ^ 31 - 1) with imax in Hl.
  cbn [new_array] in E. inversion E; subst. clear E. cbn [total size stride get_size].
  exists (l - 1). split; [lia|].
  pose proof (unit_align_range n). pose proof (size_word l (unit_align 1 n) ltac:(lia) ltac:(lia)).
  set (x := alignf _ 8) in *. clearbody x. nia.
Qed.

Lemma class_under : forall n l a, 1 <= n <= 4 -> 2 <= l <= 2 ^ 31 - 1 ->
  new_array (Class n) [l] = Made a ->
  exists k, 0 <= k < total a /\ size a < k * stride (Class n) + stride (Class n).
Proof.
  intros n l a Hn Hl E. change (2 ^ 31 - 1) with imax in Hl.
  cbn [new_array] in E. inversion E; subst. clear E. cbn [total size stride get_size].
  exists (l - 1). split; [lia|].
  assert (U : 1 <= unit_align 1 n <= 4).
  { rewrite unit_align_1. destruct (Z.eqb_spec n 1); [lia|]. destruct (Z.eqb_spec n 2); [lia|].
    destruct (Z.eqb_spec n 3); [cbn [orb]; lia|]. destruct (Z.eqb_spec n 4); cbn [orb]; lia. }
  assert (0 <= l * unit_align 1 n <= 17179869176) by (unfold imax in *; nia).
  rewrite (wrap_u64_small l) by (change (modulus U64) with 18446744073709551616; unfold imax in *; lia).
  rewrite wrap_u64_small by (change (modulus U64) with 18446744073709551616; lia).
  destruct (alignf8 (l * unit_align 1 n)) as [A B].
  { change (2 ^ 63) with 9223372036854775808. lia. }
  set (x := alignf _ 8) in *. clearbody x. nia.
Qed.

(** *** Bounds *)

Lemma too_large_rejected : forall c rank a stack k rest, checks c rank = true ->
  flat_index rank a stack = Some (k, rest) -> total a <= k ->
  element c rank a stack = OutOfRange.
Proof.
  intros c rank a stack k rest C F T. unfold element. rewrite F, C.
  destruct (Z.leb_spec (total a) k); [reflexivity|lia].
Qed.

(** The length of the first dimension, stored last, is not read. *)
Lemma mul_index_last : forall w b stk x y, mul_index (S (length w)) stk (cums b (w ++ [x]))
  = match mul_index (S (length w)) stk (cums b (w ++ [y])) with
    | Some (v, st, _) => Some (v, st, [b * product w * x]) | None => None end.
Proof.
  induction w as [|z w IH]; intros b stk x y; cbn [length app cums].
  - cbn [mul_index]. destruct stk as [|v stk]; [reflexivity|].
    destruct (fit I32 (v * b)) as [p|]; [|reflexivity].
    destruct (fit I32 (p + 0)); [|reflexivity]. cbn [product]. do 3 f_equal. lia.
  - remember (S (length w)) as n. cbn [mul_index]. subst n.
    destruct stk as [|v stk]; [reflexivity|].
    destruct (fit I32 (v * b)) as [p|]; [|reflexivity].
    rewrite (IH (b * z) stk x y).
    destruct (mul_index (S (length w)) stk (cums (b * z) (w ++ [y]))) as [[[r s] t]|]; [|reflexivity].
    destruct (fit I32 (p + r)); [|reflexivity]. cbn [product]. do 3 f_equal. ring.
Qed.

Lemma first_dim_rejected : forall c e ls idx i rest l0 a st,
  representable (l0 :: ls) -> inside ls idx -> checks c (S (length ls)) = true ->
  (S (length ls) <= 8)%nat -> rest = idx ->
  l0 <= i -> i * product ls <= 2 ^ 31 - 1 - product ls ->
  new_array e (l0 :: ls) = Made a ->
  element c (S (length ls)) a (rev (i :: rest) ++ st) = OutOfRange.
Proof.
  intros c e ls idx i rest l0 a st R I C L -> Hi Hm E.
  change (2 ^ 31 - 1) with imax in Hm.
  (* the flat index equals the one of the larger array with i + 1 rows *)
  destruct R as (N & P & M). inversion P as [|? ? Pl0 Pls]; subst.
  pose proof (product_pos ls Pls) as Pp.
  assert (R' : representable ((i + 1) :: ls)).
  { repeat split; [discriminate|constructor; [lia|assumption]|]. cbn [product].
    change (2 ^ 31 - 1) with imax. lia. }
  destruct (new_array_spec e _ R') as (a' & l' & rl' & E' & Er' & Et' & Eh' & _).
  destruct (new_array_spec e (l0 :: ls) (conj N (conj P M))) as (a0 & l & rl & E0 & Er & Et & Eh & _).
  rewrite E in E0. inversion E0; subst a0. clear E0.
  assert (Hin : inside ((i + 1) :: ls) (i :: idx)) by (constructor; [lia|assumption]).
  pose proof (flat_index_spec e ((i + 1) :: ls) (i :: idx) st a' R' Hin (or_introl L) E') as F.
  pose proof (row_major_bound _ _ I) as B.
  apply (too_large_rejected _ _ _ _ (row_major ((i + 1) :: ls) (i :: idx)) st C).
  - change (length (i + 1 :: ls)) with (S (length ls)) in F. rewrite <- F.
    unfold flat_index. destruct (rev (i :: idx) ++ st) as [|x stk]; [reflexivity|].
    destruct ls as [|l1 ls]; [reflexivity|].
    cbn [length]. destruct (Nat.leb_spec (S (S (length ls))) 8) as [L8|L8]; [|cbn in L; lia].
    destruct Eh as [Eh|Eh]; [cbn in Eh; lia|]. destruct Eh' as [Eh'|Eh']; [cbn in Eh'; lia|].
    rewrite Eh, Eh'.
    (* the stored lengths differ only in the last one, which is not read *)
    assert (Q : exists w, l = l' /\ rl = w ++ [l0] /\ rl' = w ++ [i + 1] /\ length w = length ls).
    { cbn [rev] in Er, Er'. destruct (rev ls ++ [l1]) as [|y w] eqn:Ew.
      { destruct (rev ls); discriminate. }
      cbn [app] in Er, Er'. inversion Er; inversion Er'; subst. exists w. repeat split.
      apply (f_equal (@length Z)) in Ew. rewrite app_length, rev_length in Ew. cbn in Ew. lia. }
    destruct Q as (w & -> & -> & -> & Lw). rewrite <- Lw. clear.
    rewrite (mul_index_last w l' stk l0 (i + 1)).
    destruct (mul_index (S (length w)) stk (cums l' (w ++ [i + 1]))) as [[[r s] t]|]; reflexivity.
  - rewrite Et. cbn [row_major product]. nia.
Qed.

(** *** Clearing *)

Lemma zero_n_spec : forall n p m q,
  zero_n n p m q = if (p <=? q) && (q <? p + Z.of_nat n) then 0 else m q.
Proof.
  induction n as [|n IH]; intros p m q; cbn [zero_n].
  - destruct (Z.leb_spec p q), (Z.ltb_spec q (p + Z.of_nat 0)); cbn [andb]; try reflexivity; lia.
  - rewrite IH.
    destruct (Z.leb_spec (p + 1) q), (Z.leb_spec p q), (Z.ltb_spec q (p + 1 + Z.of_nat n)),
      (Z.ltb_spec q (p + Z.of_nat (S n))), (Z.eqb_spec q p); cbn [andb]; try reflexivity; lia.
Qed.

Lemma zero_memory_spec : forall fuel p sz m, 0 <= sz <= 16 + 16 * Z.of_nat fuel ->
  exists m', zero_memory fuel p sz m = Some m' /\
    forall q, m' q = if (p <=? q) && (q <? p + sz) then 0 else m q.
Proof.
  induction fuel as [|fuel IH]; intros p sz m H; cbn [zero_memory];
    destruct (Z.leb_spec 0 sz); try lia; destruct (Z.leb_spec sz 16); try lia; cbn [andb];
    try (eexists; split; [reflexivity|]; intro q; rewrite zero_n_spec, Z2Nat.id by lia; reflexivity).
  destruct (IH (p + 16) (sz - 16) (zero_n 16 p m) ltac:(lia)) as (m' & E & Hm).
  exists m'. split; [exact E|]. intro q. rewrite Hm, zero_n_spec. change (Z.of_nat 16) with 16.
  destruct (Z.leb_spec (p + 16) q), (Z.leb_spec p q), (Z.ltb_spec q (p + 16 + (sz - 16))),
    (Z.ltb_spec q (p + sz)), (Z.ltb_spec q (p + 16)); cbn [andb]; try reflexivity; lia.
Qed.

Lemma new_obj_spec : forall base ts type m, 0 <= ts < 2 ^ 63 ->
  exists m', new_obj base ts type m = Some (base + 1, m') /\
    m' base = type /\
    (forall q, base + 1 <= q -> 8 * (q - (base + 1)) < ts -> m' q = 0) /\
    (forall q, q < base \/ base + 1 + alignf ts 8 / 8 <= q -> m' q = m q).
Proof.
  intros base ts type m H. pose proof (alignf8 ts H) as A.
  set (sz := alignf ts 8) in *.
  destruct (zero_memory_spec (Z.to_nat (sz / 8)) (base + 1) (sz / 8) m ltac:(lia)) as (m1 & E & Hm).
  exists (fun q => if q =? base + 1 - 1 then type else m1 q).
  unfold new_obj. fold sz. rewrite E. split; [reflexivity|]. split; [|split].
  - destruct (Z.eqb_spec base (base + 1 - 1)); [reflexivity|lia].
  - intros q Hq1 Hq2. destruct (Z.eqb_spec q (base + 1 - 1)); [lia|]. rewrite Hm.
    destruct (Z.leb_spec (base + 1) q), (Z.ltb_spec q (base + 1 + sz / 8)); cbn [andb]; try reflexivity; lia.
  - intros q Hq. rewrite Hm.
    destruct (Z.eqb_spec q (base + 1 - 1)), (Z.leb_spec (base + 1) q), (Z.ltb_spec q (base + 1 + sz / 8));
      cbn [andb]; try reflexivity; lia.
Qed.

(** *** Statements of the property file *)

Lemma element_spec_total : forall c e ls idx st a,
  representable ls -> inside ls idx ->
  (length ls <= 8)%nat \/ Z.of_nat (length ls) mod 8 <> 2 ->
  new_array e ls = Made a ->
  element c (length ls) a (rev idx ++ st) = Element (row_major ls idx) st
  /\ 0 <= row_major ls idx < array_length a.
Proof.
  intros c e ls idx st a R I Hr E. split; [eapply element_spec; eassumption|].
  destruct (new_array_spec e ls R) as (a' & l & rl & E' & _ & Et & _).
  rewrite E in E'. inversion E'; subst a'. unfold array_length. rewrite Et.
  apply row_major_bound. exact I.
Qed.

Lemma creation : forall e ls, representable ls -> exists a, new_array e ls = Made a.
Proof. intros e ls R. destruct (new_array_spec e ls R) as (a & l & rl & E & _). exists a. exact E. Qed.

Lemma rank_10 : exists e ls idx a, representable ls /\ inside ls idx
  /\ new_array e ls = Made a /\ element Push (length ls) a (rev idx) = AccessUndef.
Proof.
  exists (Scalar 4), (repeat 1 10), (repeat 0 10). eexists.
  split; [|split; [|split; [vm_compute; reflexivity|vm_compute; reflexivity]]].
  - repeat split; [discriminate|repeat constructor; lia|vm_compute; discriminate].
  - repeat constructor; lia.
Qed.

Lemma lengths_spec : forall e ls st, representable ls ->
  exists a, exec_new_array e (length ls) (rev ls ++ st) = Some (Made a, st)
    /\ array_length a = product ls
    /\ forall j x, nth_error ls j = Some x ->
         length_of_dimension (Z.of_nat (length ls)) a (Z.of_nat j) = Some x.
Proof.
  intros e ls st R. destruct (new_array_spec e ls R) as (a & l & rl & E & Er & Et & _).
  exists a. unfold exec_new_array. rewrite pop_lengths_spec.
  - rewrite app_nil_r, E. split; [reflexivity|]. split; [exact Et|].
    intros j x Hj. eapply length_of_dimension_spec; eassumption.
  - destruct R as (_ & P & M). apply Forall_forall. intros x Hx.
    assert (0 < x <= product ls).
    { clear -P Hx. induction P as [|y ls Hy P IH]; [destruct Hx|]. cbn [product].
      pose proof (product_pos ls P). destruct Hx as [->|Hx]; [nia|]. specialize (IH Hx). nia. }
    change (2 ^ 31 - 1) with 2147483647 in M. unfold in_range.
    change (tmin I32) with (-2147483648). change (tmax I32) with 2147483647. lia.
Qed.

Lemma zero_length : exists a, new_array (Scalar 4) [2; 0] = Made a
  /\ length_of_dimension 2 a 0 = None.
Proof. eexists. split; reflexivity. Qed.

Lemma first_index_rejected : forall c e l0 ls idx i a st,
  (c = Push \/ c = Address \/ c = Pop) ->
  representable (l0 :: ls) -> inside ls idx -> (length ls <= 7)%nat ->
  l0 <= i -> i * product ls <= 2 ^ 31 - 1 - product ls ->
  new_array e (l0 :: ls) = Made a ->
  element c (S (length ls)) a (rev (i :: idx) ++ st) = OutOfRange.
Proof.
  intros c e l0 ls idx i a st Hc R I L Hi Hm E.
  eapply first_dim_rejected; try eassumption; try reflexivity; try lia.
  destruct Hc as [->|[->| ->]]; try reflexivity. cbn [checks]. apply Nat.leb_le. lia.
Qed.

Lemma negative_accepted : forall c e l a i, 0 <= l -> i < 0 -> new_array e [l] = Made a ->
  element c 1 a [i] = Element i [].
Proof.
  intros c e l a i Hl Hi E. cbn [new_array] in E. inversion E; subst. unfold element, flat_index.
  cbn [total]. destruct (Z.leb_spec l i); [lia|]. rewrite andb_false_r. reflexivity.
Qed.

Lemma inner_accepted : exists a, new_array (Scalar 4) [2; 3] = Made a
  /\ ~ inside [2; 3] [0; 4] /\ inside [2; 3] [1; 1]
  /\ element Push 2 a (rev [0; 4]) = element Push 2 a (rev [1; 1])
  /\ element Push 2 a (rev [0; 4]) = Element 4 [].
Proof.
  eexists. split; [reflexivity|]. split; [|split; [|split; reflexivity]].
  - intro H. inversion H as [|? ? ? ? _ H']. inversion H'. lia.
  - repeat constructor; lia.
Qed.

Lemma rank_9_pop : exists e ls idx a, representable ls /\ ~ inside ls idx
  /\ new_array e ls = Made a
  /\ exists k, element Pop (length ls) a (rev idx) = Element k [] /\ array_length a <= k.
Proof.
  exists (Scalar 4), (repeat 1 9), (1000 :: repeat 0 8). eexists.
  split; [|split; [|split; [vm_compute; reflexivity|]]].
  - repeat split; [discriminate|repeat constructor; lia|vm_compute; discriminate].
  - intro H. inversion H. lia.
  - exists 1000. split; [vm_compute; reflexivity|vm_compute; discriminate].
Qed.

Lemma clear_spec : forall p sz m, 0 <= sz ->
  exists fuel m', zero_memory fuel p sz m = Some m' /\
    forall q, m' q = if (p <=? q) && (q <? p + sz) then 0 else m q.
Proof.
  intros p sz m H. destruct (zero_memory_spec (Z.to_nat sz) p sz m ltac:(lia)) as (m' & E & Hm).
  exists (Z.to_nat sz), m'. split; assumption.
Qed.
