(** Proofs about the resource heap and the constants table. *)

From Coq Require Import ZArith Lia List Bool.
From Verif Require Import AsmHeapModel AsmHeapSpec.
Import ListNotations.
Open Scope Z_scope.

Ltac Zify.zify_post_hook ::= Z.div_mod_to_equations.

(** * varint *)

Lemma to_varint_n_len : forall f v, (0 < f)%nat -> (0 < length (to_varint_n f v))%nat.
Proof. intros [|f] v H; [lia|]. cbn [to_varint_n]. destruct (v / 128 =? 0); cbn; lia. Qed.

Lemma varint_step : forall f k v acc n rest,
  0 <= v -> (S k * 7 + Z.to_nat 0 <= 28 + 0)%nat ->
  v < 2 ^ (28 - 7 * (3 - Z.of_nat k)) ->
  (k <= 3)%nat -> (k < f)%nat ->
  forall g, (k < g)%nat ->
  from_varint_n f (to_varint_n g v ++ rest) (7 * (3 - Z.of_nat k)) acc n
  = OK (acc + v * 2 ^ (7 * (3 - Z.of_nat k)), (n + length (to_varint_n g v))%nat).
Proof.
  intros f k. revert f. induction k as [|k IH]; intros f v acc n rest H0 H1 H2 H3 H4 g H5.
  - destruct f as [|f]; [lia|]. destruct g as [|g]; [lia|].
    cbn [to_varint_n from_varint_n].
    replace (28 - 7 * (3 - Z.of_nat 0)) with 7 in H2 by lia. change (2 ^ 7) with 128 in H2.
    assert (v / 128 = 0) by lia. rewrite H. cbn [Z.eqb app].
    replace (32 <? 7 * (3 - Z.of_nat 0) + 7) with false by (symmetry; apply Z.ltb_ge; lia).
    replace (128 <=? v mod 128) with false by (symmetry; apply Z.leb_gt; lia).
    cbn [length]. f_equal. f_equal; [|lia]. f_equal. f_equal. lia.
  - destruct f as [|f]; [lia|]. destruct g as [|g]; [lia|].
    cbn [to_varint_n from_varint_n].
    replace (32 <? 7 * (3 - Z.of_nat (S k)) + 7) with false by (symmetry; apply Z.ltb_ge; lia).
    destruct (v / 128 =? 0) eqn:E.
    + apply Z.eqb_eq in E. cbn [app].
      replace (128 <=? v mod 128) with false by (symmetry; apply Z.leb_gt; lia).
      cbn [length]. f_equal. f_equal; [|lia]. f_equal. f_equal. lia.
    + cbn [app].
      replace (128 <=? v mod 128 + 128) with true by (symmetry; apply Z.leb_le; lia).
      replace (7 * (3 - Z.of_nat (S k)) + 7) with (7 * (3 - Z.of_nat k)) by lia.
      rewrite IH; try lia.
      * cbn [length]. f_equal. f_equal; [|lia].
        replace (7 * (3 - Z.of_nat k)) with (7 + 7 * (3 - Z.of_nat (S k))) by lia.
        rewrite Z.pow_add_r by lia. change (2 ^ 7) with 128.
        set (P := 2 ^ (7 * (3 - Z.of_nat (S k)))).
        assert (v = 128 * (v / 128) + v mod 128) by lia. nia.
      * replace (28 - 7 * (3 - Z.of_nat (S k))) with (7 + (28 - 7 * (3 - Z.of_nat k))) in H2 by lia.
        rewrite Z.pow_add_r in H2 by lia. change (2 ^ 7) with 128 in H2.
        set (P := 2 ^ (28 - 7 * (3 - Z.of_nat k))) in *. lia.
Qed.

Lemma varint_roundtrip : forall v rest, 0 <= v < 268435456 ->
  from_varint (to_varint v ++ rest) = OK (v, length (to_varint v)).
Proof.
  intros v rest H. unfold from_varint, to_varint.
  rewrite Z.mod_small by lia.
  pose proof (varint_step 6 3 v 0 0 rest) as P.
  change (7 * (3 - Z.of_nat 3)) with 0 in P. change (2 ^ (28 - 0)) with 268435456 in P.
  rewrite (P ltac:(lia) ltac:(cbn; lia) ltac:(lia) ltac:(lia) ltac:(lia) 5%nat ltac:(lia)).
  f_equal. f_equal. change (2 ^ 0) with 1. lia.
Qed.

Lemma varint_long : forall f k v acc n rest g,
  (k <= 3)%nat -> (k < f)%nat -> (k < g)%nat ->
  2 ^ (28 - 7 * (3 - Z.of_nat k)) <= v ->
  from_varint_n (S f) (to_varint_n (S g) v ++ rest) (7 * (3 - Z.of_nat k)) acc n = Throw.
Proof.
  intros f k. revert f. induction k as [|k IH]; intros f v acc n rest g H3 H4 H5 H2.
  - cbn [to_varint_n from_varint_n].
    change (28 - 7 * (3 - Z.of_nat 0)) with 7 in H2. change (2 ^ 7) with 128 in H2.
    replace (v / 128 =? 0) with false by (symmetry; apply Z.eqb_neq; lia).
    replace (32 <? 7 * (3 - Z.of_nat 0) + 7) with false by (symmetry; apply Z.ltb_ge; lia).
    cbn [app].
    replace (128 <=? v mod 128 + 128) with true by (symmetry; apply Z.leb_le; lia).
    destruct f as [|f]; [lia|]. reflexivity.
  - cbn [to_varint_n]. replace (v / 128 =? 0) with false.
    2: { symmetry. apply Z.eqb_neq.
         assert (2 ^ 7 <= 2 ^ (28 - 7 * (3 - Z.of_nat (S k)))) by (apply Z.pow_le_mono_r; lia).
         change (2 ^ 7) with 128 in H. lia. }
    destruct f as [|f]; [lia|]. destruct g as [|g]; [lia|].
    change (from_varint_n (S (S f)) ((v mod 128 + 128 :: to_varint_n (S g) (v / 128)) ++ rest)
              (7 * (3 - Z.of_nat (S k))) acc n)
      with (if 32 <? 7 * (3 - Z.of_nat (S k)) + 7 then @Throw (Z * nat)
            else if 128 <=? v mod 128 + 128
                 then from_varint_n (S f) (to_varint_n (S g) (v / 128) ++ rest)
                        (7 * (3 - Z.of_nat (S k)) + 7)
                        (acc + (v mod 128 + 128 - 128) * 2 ^ (7 * (3 - Z.of_nat (S k)))) (S n)
                 else OK (acc + (v mod 128 + 128) * 2 ^ (7 * (3 - Z.of_nat (S k))), S n)).
    replace (32 <? 7 * (3 - Z.of_nat (S k)) + 7) with false by (symmetry; apply Z.ltb_ge; lia).
    replace (128 <=? v mod 128 + 128) with true by (symmetry; apply Z.leb_le; lia).
    replace (7 * (3 - Z.of_nat (S k)) + 7) with (7 * (3 - Z.of_nat k)) by lia.
    apply IH; try lia.
    replace (28 - 7 * (3 - Z.of_nat (S k))) with (7 + (28 - 7 * (3 - Z.of_nat k))) in H2 by lia.
    rewrite Z.pow_add_r in H2 by lia. change (2 ^ 7) with 128 in H2.
    set (P := 2 ^ (28 - 7 * (3 - Z.of_nat k))) in *. lia.
Qed.

Lemma varint_overflow : forall v rest, 268435456 <= v < 4294967296 ->
  from_varint (to_varint v ++ rest) = Throw.
Proof.
  intros v rest H. unfold from_varint, to_varint.
  rewrite Z.mod_small by lia.
  pose proof (varint_long 5 3 v 0 0 rest 4) as P.
  change (7 * (3 - Z.of_nat 3)) with 0 in P. change (2 ^ (28 - 0)) with 268435456 in P.
  apply P; lia.
Qed.

(** * UTF-8 *)

Lemma utf8_char_some : forall c, text_char c -> exists b, utf8_char c = Some b.
Proof.
  intros c [H1 H2]. unfold utf8_char.
  replace ((c <? 0) || (1114111 <? c) || ((55296 <=? c) && (c <=? 57343))) with false.
  2: { symmetry. rewrite !orb_false_iff, andb_false_iff, !Z.ltb_ge, !Z.leb_gt. lia. }
  destruct (c <? 128); [eauto|]. destruct (c <? 2048); [eauto|]. destruct (c <? 65536); eauto.
Qed.

Lemma some_inj : forall (A : Type) (a b : A), Some a = Some b -> a = b.
Proof. congruence. Qed.

Lemma utf8_char_step : forall c b rest, text_char c -> utf8_char c = Some b ->
  utf8_next (b ++ rest) = Some (c, length b) /\ Forall (fun x => 0 < x < 256) b /\ b <> [].
Proof.
  intros c b rest [H1 H2] E. unfold utf8_char in E.
  replace ((c <? 0) || (1114111 <? c) || ((55296 <=? c) && (c <=? 57343))) with false in E.
  2: { symmetry. rewrite !orb_false_iff, andb_false_iff, !Z.ltb_ge, !Z.leb_gt. lia. }
  destruct (c <? 128) eqn:L1; [|destruct (c <? 2048) eqn:L2; [|destruct (c <? 65536) eqn:L3]];
    apply some_inj in E; subst b; cbn [app]; unfold utf8_next; cbv beta iota.
  - rewrite L1. apply Z.ltb_lt in L1. repeat split; [repeat constructor; lia | congruence].
  - apply Z.ltb_ge in L1. apply Z.ltb_lt in L2.
    replace (192 + c / 64 <? 128) with false by (symmetry; apply Z.ltb_ge; lia).
    replace (192 + c / 64 <? 194) with false by (symmetry; apply Z.ltb_ge; lia).
    replace (192 + c / 64 <? 224) with true by (symmetry; apply Z.ltb_lt; lia).
    replace (is_cont (128 + c mod 64)) with true
      by (symmetry; unfold is_cont; rewrite andb_true_iff, !Z.leb_le; lia).
    split; [cbn [length]; f_equal; f_equal; lia | split; [repeat constructor; lia | congruence]].
  - apply Z.ltb_ge in L1. apply Z.ltb_ge in L2. apply Z.ltb_lt in L3.
    replace (224 + c / 4096 <? 128) with false by (symmetry; apply Z.ltb_ge; lia).
    replace (224 + c / 4096 <? 194) with false by (symmetry; apply Z.ltb_ge; lia).
    replace (224 + c / 4096 <? 224) with false by (symmetry; apply Z.ltb_ge; lia).
    replace (224 + c / 4096 <? 240) with true by (symmetry; apply Z.ltb_lt; lia).
    replace (is_cont (128 + c / 64 mod 64)) with true
      by (symmetry; unfold is_cont; rewrite andb_true_iff, !Z.leb_le; lia).
    replace (is_cont (128 + c mod 64)) with true
      by (symmetry; unfold is_cont; rewrite andb_true_iff, !Z.leb_le; lia).
    replace ((224 + c / 4096 =? 224) && (128 + c / 64 mod 64 <? 160)) with false
      by (symmetry; rewrite andb_false_iff, Z.eqb_neq, Z.ltb_ge; lia).
    replace ((224 + c / 4096 =? 237) && (160 <=? 128 + c / 64 mod 64)) with false
      by (symmetry; rewrite andb_false_iff, Z.eqb_neq, Z.leb_gt; lia).
    cbn [andb negb].
    split; [cbn [length]; f_equal; f_equal; lia | split; [repeat constructor; lia | congruence]].
  - apply Z.ltb_ge in L1. apply Z.ltb_ge in L2. apply Z.ltb_ge in L3.
    replace (240 + c / 262144 <? 128) with false by (symmetry; apply Z.ltb_ge; lia).
    replace (240 + c / 262144 <? 194) with false by (symmetry; apply Z.ltb_ge; lia).
    replace (240 + c / 262144 <? 224) with false by (symmetry; apply Z.ltb_ge; lia).
    replace (240 + c / 262144 <? 240) with false by (symmetry; apply Z.ltb_ge; lia).
    replace (240 + c / 262144 <? 245) with true by (symmetry; apply Z.ltb_lt; lia).
    replace (is_cont (128 + c / 4096 mod 64)) with true
      by (symmetry; unfold is_cont; rewrite andb_true_iff, !Z.leb_le; lia).
    replace (is_cont (128 + c / 64 mod 64)) with true
      by (symmetry; unfold is_cont; rewrite andb_true_iff, !Z.leb_le; lia).
    replace (is_cont (128 + c mod 64)) with true
      by (symmetry; unfold is_cont; rewrite andb_true_iff, !Z.leb_le; lia).
    replace ((240 + c / 262144 =? 240) && (128 + c / 4096 mod 64 <? 144)) with false
      by (symmetry; rewrite andb_false_iff, Z.eqb_neq, Z.ltb_ge; lia).
    replace ((240 + c / 262144 =? 244) && (144 <=? 128 + c / 4096 mod 64)) with false
      by (symmetry; rewrite andb_false_iff, Z.eqb_neq, Z.leb_gt; lia).
    cbn [andb negb].
    split; [cbn [length]; f_equal; f_equal; lia | split; [repeat constructor; lia | congruence]].
Qed.

Lemma utf8_encode_some : forall s, text s -> exists b, utf8_encode s = Some b.
Proof.
  induction s as [|c s IH]; intros H; [now exists []|].
  inversion H; subst. destruct (utf8_char_some c H2) as [b E].
  destruct (IH H3) as [br Er]. cbn [utf8_encode]. rewrite E, Er. eauto.
Qed.

Lemma utf8_encode_nz : forall s b, text s -> utf8_encode s = Some b ->
  Forall (fun x => 0 < x < 256) b.
Proof.
  induction s as [|c s IH]; intros b H E; cbn [utf8_encode] in E.
  - injection E as <-. constructor.
  - inversion H; subst.
    destruct (utf8_char c) as [b1|] eqn:E1; [|discriminate].
    destruct (utf8_encode s) as [br|] eqn:E2; [|discriminate].
    injection E as <-. apply Forall_app. split.
    + apply (utf8_char_step c b1 [] H2 E1).
    + auto.
Qed.

Lemma utf8_decode_n_encode : forall s b f, text s -> utf8_encode s = Some b ->
  (length b < f)%nat -> utf8_decode_n f b = Some s.
Proof.
  induction s as [|c s IH]; intros b f H E F; cbn [utf8_encode] in E.
  - injection E as <-. destruct f; [cbn in F; lia|]. reflexivity.
  - inversion H; subst.
    destruct (utf8_char c) as [b1|] eqn:E1; [|discriminate].
    destruct (utf8_encode s) as [br|] eqn:E2; [|discriminate].
    injection E as <-.
    destruct (utf8_char_step c b1 br H2 E1) as (N & _ & NE).
    destruct f as [|f]; [lia|]. cbn [utf8_decode_n].
    destruct (b1 ++ br) as [|x l] eqn:EL.
    { destruct b1; [congruence|discriminate]. }
    rewrite N. rewrite <- EL, skipn_app, skipn_all, Nat.sub_diag. cbn [skipn app].
    rewrite (IH br f); auto.
    rewrite <- EL in F. rewrite app_length in F. destruct b1; [congruence|]. cbn in F. lia.
Qed.

Lemma utf8_roundtrip : forall s b, text s -> utf8_encode s = Some b -> utf8_decode b = Some s.
Proof. intros s b H E. unfold utf8_decode. eapply utf8_decode_n_encode; eauto. Qed.

Lemma cstr_app : forall b rest, Forall (fun x => 0 < x < 256) b -> cstr (b ++ 0 :: rest) = Some b.
Proof.
  induction b as [|x b IH]; intros rest H; [reflexivity|].
  inversion H; subst. cbn [app cstr].
  replace (x =? 0) with false by (symmetry; apply Z.eqb_neq; lia).
  rewrite IH by assumption. reflexivity.
Qed.

Lemma upto_nul_text : forall s, text s -> upto_nul s = s.
Proof.
  induction s as [|c s IH]; intros H; [reflexivity|].
  inversion H; subst. cbn [upto_nul].
  destruct H2. replace (c =? 0) with false by (symmetry; apply Z.eqb_neq; lia).
  f_equal. auto.
Qed.

(** * Heap *)

Lemma str_eqb_eq : forall a b, str_eqb a b = true <-> a = b.
Proof.
  induction a as [|x a IH]; intros [|y b]; cbn [str_eqb]; split; intro H; try congruence; try discriminate.
  - apply andb_true_iff in H. destruct H as [H1 H2]. apply Z.eqb_eq in H1. apply IH in H2. congruence.
  - injection H as -> ->. rewrite Z.eqb_refl. cbn [andb]. now apply IH.
Qed.

Lemma str_find_in : forall m s r, str_find m s = Some r -> In (s, r) m.
Proof.
  induction m as [|[k v] m IH]; intros s r H; cbn [str_find] in H; [discriminate|].
  destruct (str_eqb k s) eqn:E.
  - apply str_eqb_eq in E. injection H as <-. subst. now left.
  - right. auto.
Qed.

(** The heap only grows. *)
Lemma hstep_grows : forall h o h1 x, hstep h o = Some (h1, x) ->
  exists d, h_bytes h1 = h_bytes h ++ d.
Proof.
  intros h o h1 x H. destruct o as [s|b|b]; cbn [hstep] in H.
  - unfold append_string in H. destruct s as [|c s]; [injection H as <- <-; exists []; now rewrite app_nil_r|].
    destruct (str_find (h_map h) (c :: s)) as [r|]; [injection H as <- <-; exists []; now rewrite app_nil_r|].
    destruct (utf8_encode (upto_nul (c :: s))); [|discriminate].
    injection H as <- <-. cbn [h_bytes]. eauto.
  - unfold append_block in H. destruct b; injection H as <- <-; cbn [h_bytes]; eauto.
    exists []; now rewrite app_nil_r.
  - unfold append_bytes in H. destruct b; injection H as <- <-; cbn [h_bytes]; eauto.
    exists []; now rewrite app_nil_r.
Qed.

Lemma hrun_grows : forall ops h h1 xs, hrun h ops = Some (h1, xs) ->
  exists d, h_bytes h1 = h_bytes h ++ d.
Proof.
  induction ops as [|o ops IH]; intros h h1 xs H; cbn [hrun] in H.
  - injection H as <- <-. exists []. now rewrite app_nil_r.
  - destruct (hstep h o) as [[h2 x]|] eqn:E; [|discriminate].
    destruct (hrun h2 ops) as [[h3 ys]|] eqn:E2; [|discriminate].
    injection H as <- <-.
    destruct (hstep_grows _ _ _ _ E) as [d1 D1]. destruct (IH _ _ _ E2) as [d2 D2].
    exists (d1 ++ d2). now rewrite D2, D1, app_assoc.
Qed.

(** What holds between appends: byte 0 is NUL and every string of the map is in place. *)
Definition heap_inv (h : heap) : Prop :=
  (exists t, h_bytes h = 0 :: t) /\
  (forall s r, In (s, r) (h_map h) ->
     exists p b q, text s /\ s <> [] /\ utf8_encode s = Some b
       /\ h_bytes h = p ++ b ++ 0 :: q /\ r = to_res (Z.of_nat (length p))).

Lemma heap_inv_new : heap_inv heap_new.
Proof. split; [now exists []|]. intros s r []. Qed.

Lemma heap_inv_grow : forall h d m, heap_inv h -> m = h_map h ->
  heap_inv (Heap (h_bytes h ++ d) m).
Proof.
  intros h d m [[t T] M] ->. split.
  - cbn [h_bytes]. rewrite T. cbn [app]. eauto.
  - cbn [h_bytes h_map]. intros s r I. destruct (M s r I) as (p & b & q & A & N & B & C & D).
    exists p, b, (q ++ d). rewrite C. repeat split; auto.
    rewrite <- !app_assoc. reflexivity.
Qed.

Lemma hstep_inv : forall h o h1 x, heap_inv h -> storable o -> hstep h o = Some (h1, x) ->
  heap_inv h1.
Proof.
  intros h o h1 x I O H. destruct o as [s|b|b]; cbn [hstep] in H.
  - unfold append_string in H. destruct s as [|c s]; [injection H as <- <-; auto|].
    destruct (str_find (h_map h) (c :: s)) as [r|]; [injection H as <- <-; auto|].
    cbn [storable] in O. rewrite (upto_nul_text _ O) in H.
    destruct (utf8_encode (c :: s)) as [b|] eqn:E; [|discriminate].
    injection H as <- <-.
    pose proof (heap_inv_grow h (b ++ [0]) _ I eq_refl) as [G1 G2]. split; [exact G1|].
    cbn [h_bytes h_map]. intros s' r [X|X].
    + injection X as <- <-. exists (h_bytes h), b, []. repeat split; auto. discriminate.
    + apply (G2 _ _ X).
  - unfold append_block in H. destruct b; injection H as <- <-; auto.
    apply heap_inv_grow; auto.
  - unfold append_bytes in H. destruct b; injection H as <- <-; auto.
    apply heap_inv_grow; auto.
Qed.

Lemma hstep_ok : forall h o, storable o -> exists h1 x, hstep h o = Some (h1, x).
Proof.
  intros h o O. destruct o as [s|b|b]; cbn [hstep].
  - unfold append_string. destruct s as [|c s]; [eauto|].
    destruct (str_find (h_map h) (c :: s)); [eauto|].
    rewrite (upto_nul_text _ O). destruct (utf8_encode_some _ O) as [b ->]. eauto.
  - destruct (append_block h b); eauto.
  - destruct (append_bytes h b); eauto.
Qed.

Lemma hrun_ok : forall ops h, Forall storable ops -> exists h1 xs, hrun h ops = Some (h1, xs).
Proof.
  induction ops as [|o ops IH]; intros h H; cbn [hrun]; [eauto|].
  inversion H; subst. destruct (hstep_ok h o H2) as (h1 & x & ->).
  destruct (IH h1 H3) as (h2 & xs & ->). eauto.
Qed.

Lemma skipn_exact : forall (p q : list Z), skipn (length p) (p ++ q) = q.
Proof. intros. rewrite skipn_app, skipn_all, Nat.sub_diag. reflexivity. Qed.

Lemma to_res_small : forall n, Z.of_nat n < 4294967296 -> to_res (Z.of_nat n) = Z.of_nat n.
Proof. intros. unfold to_res. apply Z.mod_small. lia. Qed.

Lemma read_string_at : forall p b q s, text s -> utf8_encode s = Some b ->
  Z.of_nat (length (p ++ b ++ 0 :: q)) < 4294967296 ->
  read_string (p ++ b ++ 0 :: q) (to_res (Z.of_nat (length p))) = OK s.
Proof.
  intros p b q s T E L. rewrite !app_length in L. cbn [length] in L.
  rewrite to_res_small by lia. unfold read_string.
  replace (Z.of_nat (length (p ++ b ++ 0 :: q)) <=? Z.of_nat (length p)) with false.
  2: { symmetry. apply Z.leb_gt. rewrite !app_length. cbn [length]. lia. }
  rewrite Nat2Z.id, skipn_exact, cstr_app by (eapply utf8_encode_nz; eauto).
  now rewrite (utf8_roundtrip s b T E).
Qed.

Lemma read_string_null : forall t, read_string (0 :: t) 0 = OK [].
Proof.
  intros t. unfold read_string.
  replace (Z.of_nat (length (0 :: t)) <=? 0) with false by (symmetry; apply Z.leb_gt; cbn [length]; lia).
  reflexivity.
Qed.

Lemma read_block_null : forall t, read_block (0 :: t) 0 = OK [].
Proof.
  intros t. unfold read_block. change (Z.to_nat 0) with 0%nat. cbn [skipn].
  change (from_varint (0 :: t)) with (OK (0, 1%nat)). cbv beta iota. cbn [skipn].
  replace (Z.of_nat (length t) <? 0) with false by (symmetry; apply Z.ltb_ge; lia).
  reflexivity.
Qed.

Lemma firstn_exact : forall (p q : list Z), firstn (length p) (p ++ q) = p.
Proof. intros. rewrite firstn_app, firstn_all, Nat.sub_diag. cbn. now rewrite app_nil_r. Qed.

Lemma read_bytes_at : forall p b q,
  Z.of_nat (length (p ++ b ++ q)) < 4294967296 ->
  read_bytes (p ++ b ++ q) (to_res (Z.of_nat (length p))) (length b)
  = match q with [] => Throw | _ => OK b end.
Proof.
  intros p b q L. rewrite !app_length in L. rewrite to_res_small by lia. unfold read_bytes.
  rewrite !app_length. destruct q as [|y q].
  - replace (_ <=? _) with true by (symmetry; apply Z.leb_le; cbn [length]; lia). reflexivity.
  - replace (_ <=? _) with false by (symmetry; apply Z.leb_gt; cbn [length]; lia).
    now rewrite Nat2Z.id, skipn_exact, firstn_exact.
Qed.

Lemma read_block_at : forall p b q,
  b <> [] -> Z.of_nat (length b) < 268435456 ->
  Z.of_nat (length (p ++ (to_varint (Z.of_nat (length b)) ++ b) ++ q)) < 4294967296 ->
  read_block (p ++ (to_varint (Z.of_nat (length b)) ++ b) ++ q) (to_res (Z.of_nat (length p)))
  = OK b.
Proof.
  intros p b q N S L. rewrite !app_length in L. rewrite to_res_small by lia. unfold read_block.
  rewrite Nat2Z.id, skipn_exact, <- app_assoc.
  rewrite varint_roundtrip by lia.
  rewrite skipn_exact.
  replace (Z.of_nat (length (b ++ q)) <? Z.of_nat (length b)) with false.
  2: { symmetry. apply Z.ltb_ge. rewrite app_length. lia. }
  now rewrite Nat2Z.id, firstn_exact.
Qed.

Lemma read_block_long : forall p b q,
  268435456 <= Z.of_nat (length b) < 4294967296 ->
  Z.of_nat (length p) < 4294967296 ->
  read_block (p ++ (to_varint (Z.of_nat (length b)) ++ b) ++ q) (to_res (Z.of_nat (length p)))
  = Throw.
Proof.
  intros p b q S L. rewrite to_res_small by lia. unfold read_block.
  rewrite Nat2Z.id, skipn_exact, <- app_assoc.
  now rewrite varint_overflow by lia.
Qed.

Lemma hstep_gives_back : forall h o h1 x d, heap_inv h -> storable o -> hstep h o = Some (h1, x) ->
  Z.of_nat (length (h_bytes h1 ++ d)) < 4294967296 ->
  gives_back (h_bytes h1 ++ d) o x.
Proof.
  intros h o h1 x d [[t T] M] O H L. destruct o as [s|b|b]; cbn [hstep] in H; cbn [gives_back].
  - unfold append_string in H. destruct s as [|c s].
    { apply some_inj in H; apply pair_equal_spec in H; destruct H as [<- <-]. rewrite T. cbn [app]. apply read_string_null. }
    destruct (str_find (h_map h) (c :: s)) as [r|] eqn:F.
    { apply some_inj in H; apply pair_equal_spec in H; destruct H as [<- <-]. apply str_find_in in F.
      destruct (M _ _ F) as (p & b & q & A & _ & B & C & ->).
      rewrite C in *. rewrite <- !app_assoc in *. cbn [app] in *. apply read_string_at; auto. }
    rewrite (upto_nul_text _ O) in H.
    destruct (utf8_encode (c :: s)) as [b|] eqn:E; [|discriminate].
    apply some_inj in H; apply pair_equal_spec in H; destruct H as [<- <-]. cbn [h_bytes] in *. rewrite <- !app_assoc in *. cbn [app] in *.
    apply read_string_at; auto.
  - unfold append_block in H. destruct b as [|y b].
    { apply some_inj in H; apply pair_equal_spec in H; destruct H as [<- <-]. rewrite T. cbn [app]. apply read_block_null. }
    apply some_inj in H; apply pair_equal_spec in H; destruct H as [<- <-]. cbn [h_bytes] in *. rewrite <- (app_assoc (h_bytes h)) in *.
    destruct O as [O1 O2]. apply read_block_at; auto. discriminate.
  - intros N. unfold append_bytes in H. destruct b as [|y b]; [congruence|].
    apply some_inj in H; apply pair_equal_spec in H; destruct H as [<- <-]. cbn [h_bytes] in *. rewrite <- (app_assoc (h_bytes h)) in *.
    unfold hsize. rewrite read_bytes_at by auto.
    rewrite !app_length in *. rewrite to_res_small by lia.
    destruct d as [|z d]; [left|right]; cbn [length] in *; split; auto; lia.
Qed.

Lemma hrun_gives_back : forall ops h h1 xs d, heap_inv h -> Forall storable ops ->
  hrun h ops = Some (h1, xs) -> Z.of_nat (length (h_bytes h1 ++ d)) < 4294967296 ->
  Forall2 (gives_back (h_bytes h1 ++ d)) ops xs.
Proof.
  induction ops as [|o ops IH]; intros h h1 xs d I O H L; cbn [hrun] in H.
  - injection H as <- <-. constructor.
  - inversion O; subst.
    destruct (hstep h o) as [[h2 x]|] eqn:E; [|discriminate].
    destruct (hrun h2 ops) as [[h3 ys]|] eqn:E2; [|discriminate].
    injection H as <- <-. constructor.
    + destruct (hrun_grows _ _ _ _ E2) as [d2 D2]. rewrite D2, <- app_assoc in *.
      eapply hstep_gives_back; eauto.
    + apply (IH h2 h3 ys d); auto. exact (hstep_inv h o h2 x I H2 E).
Qed.

Lemma heap_roundtrip : forall ops, Forall storable ops ->
  exists h xs, hrun heap_new ops = Some (h, xs)
    /\ (hsize h < 4294967296 -> Forall2 (gives_back (h_bytes h)) ops xs).
Proof.
  intros ops O. destruct (hrun_ok ops heap_new O) as (h & xs & E).
  exists h, xs. split; [exact E|]. intros L.
  pose proof (hrun_gives_back ops heap_new h xs [] heap_inv_new O E) as G.
  rewrite app_nil_r in G. apply G. exact L.
Qed.

(** * Constants *)

Lemma le_val_bytes : forall n v, 0 <= v < 256 ^ Z.of_nat n -> le_val (le_bytes n v) = v.
Proof.
  induction n as [|n IH]; intros v H.
  - cbn in *. lia.
  - cbn [le_bytes le_val]. rewrite Nat2Z.inj_succ, Z.pow_succ_r in H by lia.
    rewrite IH by lia. lia.
Qed.

Lemma le_bytes_length : forall n v, length (le_bytes n v) = n.
Proof. induction n; intros; cbn [le_bytes length]; auto. Qed.

Lemma ctype_split : forall k c, 0 <= c < 32 -> kind_of_ctype (ctype_of k c) = k
  /\ vt_of_ctype (ctype_of k c) = c.
Proof. intros. unfold kind_of_ctype, vt_of_ctype, ctype_of. lia. Qed.

Lemma nty_code_of : forall t, nty_of_code (nty_code t) = Some t.
Proof. now destruct t. Qed.

Lemma nty_code_range : forall t, 0 <= nty_code t < 32.
Proof. destruct t; cbn; lia. Qed.

Lemma read_const_number : forall l c t, c_type c = ctype_of 1 (nty_code t) ->
  read_const l c = read_number l c t.
Proof.
  intros l c t H. unfold read_const. rewrite H.
  destruct (ctype_split 1 (nty_code t) (nty_code_range t)) as [-> ->].
  now rewrite nty_code_of.
Qed.

Lemma number_row_type : forall h t raw, c_type (snd (number_row h t raw)) = ctype_of 1 (nty_code t).
Proof.
  intros. unfold number_row. destruct (wide t); [|reflexivity].
  unfold assign_uint64. destruct (_ <=? _); [reflexivity|]. destruct (_ <=? _); [reflexivity|].
  destruct (append_bytes _ _). reflexivity.
Qed.

Lemma narrow_number_roundtrip : forall h t raw l, wide t = false ->
  0 <= raw < 2 ^ bits t ->
  read_const l (snd (number_row h t raw)) = OK (CNum t raw).
Proof.
  intros h t raw l W R. rewrite (read_const_number _ _ t) by apply number_row_type.
  unfold read_number, number_row. rewrite W. cbn [snd c_d2 c_type].
  f_equal. f_equal. unfold put.
  rewrite firstn_app, le_bytes_length, Nat.sub_diag. cbn [firstn]. rewrite app_nil_r.
  rewrite <- (le_bytes_length (nty_size t) raw) at 1. rewrite firstn_all.
  apply le_val_bytes. replace (256 ^ Z.of_nat (nty_size t)) with (2 ^ bits t) by (destruct t; reflexivity). exact R.
Qed.

Lemma number_row_heap_narrow : forall h t raw, wide t = false -> fst (number_row h t raw) = h.
Proof. intros. unfold number_row. now rewrite H. Qed.

Lemma le_bytes_read : forall n v, le_val (le_bytes n v) = v mod 256 ^ Z.of_nat n.
Proof.
  induction n as [|n IH]; intros v.
  - cbn [le_bytes le_val]. change (256 ^ Z.of_nat 0) with 1. now rewrite Z.mod_1_r.
  - cbn [le_bytes le_val]. rewrite IH, Nat2Z.inj_succ, Z.pow_succ_r by lia.
    rewrite Z.rem_mul_r; lia.
Qed.

Lemma ok_num_inj : forall t v w, OK (CNum t v) = OK (CNum t w) -> v = w.
Proof. congruence. Qed.

Lemma wide_number_roundtrip : forall h t raw d, wide t = true ->
  0 <= raw < 18446744073709551616 ->
  let h1 := fst (number_row h t raw) in
  Z.of_nat (length (h_bytes h1 ++ d)) < 4294967296 ->
  (read_const (h_bytes h1 ++ d) (snd (number_row h t raw)) = OK (CNum t raw)
   <-> (goes_to_heap raw /\ d <> []) \/ (~ goes_to_heap raw /\ raw mod 65536 = 0)).
Proof.
  intros h t raw d W R h1 L. rewrite (read_const_number _ _ t) by apply number_row_type.
  unfold read_number. rewrite W. subst h1. unfold number_row in *. rewrite W in *.
  unfold assign_uint64 in *. unfold goes_to_heap.
  destruct (raw / 4294967296 <=? 65535) eqn:A.
  - apply Z.leb_le in A. unfold read_uint64.
    cbn [snd c_extern c_cpl c_d1 c_d2 negb le_bytes app firstn le_val].
    split; intro H.
    + right. apply ok_num_inj in H. lia.
    + f_equal. f_equal. lia.
  - apply Z.leb_gt in A. destruct (4294967295 - raw / 4294967296 <=? 65535) eqn:B.
    + apply Z.leb_le in B. unfold read_uint64.
      cbn [snd c_extern c_cpl c_d1 c_d2 negb le_bytes app firstn le_val].
      split; intro H.
      * right. apply ok_num_inj in H. lia.
      * f_equal. f_equal. lia.
    + apply Z.leb_gt in B. destruct (append_bytes h (le_bytes 8 raw)) as [h1 r] eqn:E.
      unfold append_bytes in E. change (le_bytes 8 raw) with (raw mod 256 :: le_bytes 7 (raw / 256)) in E.
      cbv beta iota in E. apply pair_equal_spec in E. destruct E as [<- <-]. cbn [fst snd h_bytes] in *.
      change (raw mod 256 :: le_bytes 7 (raw / 256)) with (le_bytes 8 raw) in *.
      unfold read_uint64. cbn [c_extern negb c_d2].
      rewrite le_bytes_read. change (256 ^ Z.of_nat 4) with 4294967296.
      unfold to_res, hsize. rewrite Z.mod_mod by lia.
      rewrite <- app_assoc in *.
      pose proof (read_bytes_at (h_bytes h) (le_bytes 8 raw) d L) as P.
      rewrite le_bytes_length in P. unfold to_res in P. rewrite P.
      destruct d as [|z d].
      * split; intro H; [discriminate|]. destruct H as [[_ H]|[H _]]; [congruence|lia].
      * split; intro H; [left; split; [lia|discriminate]|].
        rewrite le_val_bytes by (change (256 ^ Z.of_nat 8) with 18446744073709551616; lia).
        reflexivity.
Qed.

(** What a small or complemented 64-bit number becomes. *)
Lemma wide_number_read : forall h t raw l, wide t = true ->
  0 <= raw < 18446744073709551616 -> ~ goes_to_heap raw ->
  exists v, read_const l (snd (number_row h t raw)) = OK (CNum t v) /\
    v mod 4294967296 = raw mod 4294967296.
Proof.
  intros h t raw l W R N. rewrite (read_const_number _ _ t) by apply number_row_type.
  unfold read_number. rewrite W. unfold number_row. rewrite W.
  unfold assign_uint64, goes_to_heap in *.
  destruct (raw / 4294967296 <=? 65535) eqn:A.
  - unfold read_uint64.
    cbn [snd c_extern c_cpl c_d1 c_d2 negb le_bytes app firstn le_val].
    eexists. split; [reflexivity|]. lia.
  - apply Z.leb_gt in A. destruct (4294967295 - raw / 4294967296 <=? 65535) eqn:B.
    + unfold read_uint64.
      cbn [snd c_extern c_cpl c_d1 c_d2 negb le_bytes app firstn le_val].
      eexists. split; [reflexivity|]. lia.
    + apply Z.leb_gt in B. lia.
Qed.

(** * The constants table *)

Definition restores (s : cstate) (c : crow) (w : cval) : Prop :=
  forall d, d <> [] -> Z.of_nat (length (h_bytes (s_heap s) ++ d)) < 4294967296 ->
    read_const (h_bytes (s_heap s) ++ d) c = OK w.

Definition is_num (v : cval) : bool := match v with CNum _ _ => true | _ => false end.
Definition is_ty (v : cval) : bool := match v with CType _ => true | _ => false end.

(** [strict] when the history has no type constants; otherwise it has no numbers. *)
Definition cinv (strict : bool) (seen : list cval) (s : cstate) : Prop :=
  heap_inv (s_heap s) /\ (forall k i, In (k, i) (s_keys s) -> is_ty k = false) /\ (forall k i, In (k, i) (s_keys s) -> strict || negb (is_num k) = true ->
     In k seen /\ exists c, nth_error (s_rows s) i = Some c /\ restores s c k).

Lemma key_find_in : forall m v i, key_find m v = Some i ->
  exists k, In (k, i) m /\ cval_same k v = true.
Proof.
  induction m as [|[k j] m IH]; intros v i H; cbn [key_find] in H; [discriminate|].
  destruct (cval_same k v) eqn:E.
  - injection H as <-. exists k. split; [now left|assumption].
  - destruct (IH _ _ H) as (k' & I & S). exists k'. split; [now right|assumption].
Qed.

Lemma key_set_none : forall m v i, key_find m v = None -> key_set m v i = m ++ [(v, i)].
Proof.
  induction m as [|[k j] m IH]; intros v i H; cbn [key_find key_set] in *; [reflexivity|].
  destruct (cval_same k v); [discriminate|]. cbn [app]. f_equal. auto.
Qed.

Lemma key_set_in : forall m v i k j, In (k, j) (key_set m v i) ->
  In (k, j) m \/ (k = v /\ j = i) \/ (cval_same k v = true /\ exists j', In (k, j') m).
Proof.
  induction m as [|[k0 j0] m IH]; intros v i k j H; cbn [key_set] in H.
  - destruct H as [H|[]]. injection H as <- <-. auto.
  - destruct (cval_same k0 v) eqn:E.
    + destruct H as [H|H].
      * injection H as <- <-. right. right. split; [assumption|]. exists j0. now left.
      * left. now right.
    + destruct H as [H|H].
      * left. now left.
      * destruct (IH _ _ _ _ H) as [H'|[H'|[H1 [j' H2]]]].
        -- left. now right.
        -- auto.
        -- right. right. split; [assumption|]. exists j'. now right.
Qed.

Lemma cval_same_kind : forall a b, cval_same a b = true -> kind_code a = kind_code b.
Proof.
  intros a b H. unfold cval_same, cval_ltb in H.
  rewrite (Z.eqb_sym (kind_code b)) in H.
  destruct (kind_code a =? kind_code b) eqn:E; [now apply Z.eqb_eq|].
  apply Z.eqb_neq in E. cbn [negb] in H. rewrite andb_true_iff, !negb_true_iff, !Z.ltb_ge in H. lia.
Qed.

Lemma restores_grow : forall s s1 c w d, h_bytes (s_heap s1) = h_bytes (s_heap s) ++ d ->
  restores s c w -> restores s1 c w.
Proof.
  intros s s1 c w d G R d' N L. rewrite G, <- app_assoc in *. apply R; auto.
  destruct d; [assumption|discriminate].
Qed.

(** Extending the table with a row for a new key. *)
Lemma cinv_append : forall strict seen s v h c key s1 x d,
  cinv strict seen s -> heap_inv h ->
  h_bytes h = h_bytes (s_heap s) ++ d ->
  append_row s key h c = (s1, x) ->
  is_ty key = false ->
  (strict || negb (is_num key) = true -> key = v /\ key_find (s_keys s) key = None) ->
  restores s1 c v ->
  cinv strict (v :: seen) s1 /\ True /\ x = Some (length (s_rows s)) /\ nth_error (s_rows s1) (length (s_rows s)) = Some c.
Proof.
  intros strict seen s v h c key s1 x d (I1 & I2 & I3) HI G A T F R.
  unfold append_row in A. injection A as <- <-. cbn [s_heap s_rows s_keys] in *.
  assert (N : nth_error (s_rows s ++ [c]) (length (s_rows s)) = Some c).
  { rewrite nth_error_app2 by lia. now rewrite Nat.sub_diag. }
  split; [|split; [exact Logic.I|split; [reflexivity|exact N]]].
  split; [exact HI|]. split.
  - cbn [s_keys]. intros k i H. apply key_set_in in H.
    destruct H as [H|[[-> _]|[_ [j H]]]]; eauto.
  - cbn [s_keys s_rows]. intros k i H P. apply key_set_in in H.
    destruct H as [H|[[-> ->]|[E [j H]]]].
    + destruct (I3 k i H P) as [Sn (c' & N' & R')]. split; [now right|].
      exists c'. split.
      * rewrite nth_error_app1; [assumption|]. apply nth_error_Some. congruence.
      * apply (restores_grow s _ _ _ d); [exact G|exact R'].
    + destruct (F P) as [-> _]. split; [now left|]. exists c. split; assumption.
    + (* an equivalent key was already present *)
      destruct (strict || negb (is_num key)) eqn:Q.
      * destruct (F eq_refl) as [_ F']. exfalso. clear - H E F'.
        induction (s_keys s) as [|[k0 j0] m IH]; [destruct H|].
        cbn [key_find] in F'. destruct H as [H|H].
        -- injection H as -> ->. rewrite E in F'. discriminate.
        -- destruct (cval_same k0 key); [discriminate|]. auto.
      * apply orb_false_iff in Q. destruct Q as [-> Q]. cbn [orb] in P.
        apply negb_false_iff in Q. apply cval_same_kind in E.
        destruct key; try discriminate. destruct k; cbn in E, P; discriminate.
Qed.

Lemma append_string_map_ok : forall h s h1 r, heap_inv h -> text s ->
  append_string h s = Some (h1, r) ->
  heap_inv h1 /\ (exists d, h_bytes h1 = h_bytes h ++ d) /\
  forall d, Z.of_nat (length (h_bytes h1 ++ d)) < 4294967296 ->
    0 <= r < 4294967296 /\ read_string (h_bytes h1 ++ d) r = OK s.
Proof.
  intros h s h1 r I T H.
  assert (E : hstep h (AString s) = Some (h1, r)) by exact H.
  split; [exact (hstep_inv h (AString s) h1 r I T E)|].
  split; [exact (hstep_grows h (AString s) h1 r E)|].
  intros d L. split; [|exact (hstep_gives_back h (AString s) h1 r d I T E L)].
  unfold append_string in H. destruct s as [|c s]; [injection H as <- <-; lia|].
  destruct (str_find (h_map h) (c :: s)) as [r0|] eqn:F.
  - injection H as <- <-. apply str_find_in in F. destruct I as [_ M].
    destruct (M _ _ F) as (p & b & q & _ & _ & _ & _ & ->). unfold to_res. lia.
  - destruct (utf8_encode (upto_nul (c :: s))); [|discriminate].
    injection H as <- <-. unfold to_res. lia.
Qed.

Lemma number_row_restores : forall h t raw rows keys, const_ok (CNum t raw) ->
  exact_number (CNum t raw) ->
  restores (CState (fst (number_row h t raw)) rows keys) (snd (number_row h t raw)) (CNum t raw).
Proof.
  intros h t raw rows keys K X d N L. cbn [s_heap const_ok] in *.
  destruct (wide t) eqn:W.
  - assert (R : 0 <= raw < 18446744073709551616) by (destruct t; try discriminate; exact K).
    apply (wide_number_roundtrip h t raw d W R L).
    assert (E : goes_to_heap raw \/ raw mod 65536 = 0).
    { apply X. destruct t; try discriminate; cbn; auto. }
    assert (goes_to_heap raw \/ ~ goes_to_heap raw) as [G|G] by (unfold goes_to_heap; lia).
    + left. auto.
    + right. destruct E; [contradiction|auto].
  - apply narrow_number_roundtrip; assumption.
Qed.

Lemma number_row_heap : forall h t raw, heap_inv h ->
  heap_inv (fst (number_row h t raw)) /\
  exists d, h_bytes (fst (number_row h t raw)) = h_bytes h ++ d.
Proof.
  intros h t raw I. unfold number_row. destruct (wide t); [|split; [exact I|exists []; symmetry; apply app_nil_r]].
  unfold assign_uint64. destruct (_ <=? _); [split; [exact I|exists []; symmetry; apply app_nil_r]|].
  destruct (_ <=? _); [split; [exact I|exists []; symmetry; apply app_nil_r]|].
  unfold append_bytes. change (le_bytes 8 raw) with (raw mod 256 :: le_bytes 7 (raw / 256)).
  cbv beta iota. cbn [fst]. split; [apply heap_inv_grow; auto|]. cbn [h_bytes]. eauto.
Qed.

(** One commit. *)
Lemma commit_spec : forall strict seen s v s1 x,
  cinv strict seen s -> const_ok v -> exact_number v -> v <> CNull ->
  (if strict then is_ty v = false else is_num v = false) ->
  commit s v = Some (s1, x) ->
  cinv strict (v :: seen) s1 /\ (exists d, h_bytes (s_heap s1) = h_bytes (s_heap s) ++ d) /\
  (exists more, s_rows s1 = s_rows s ++ more) /\
  exists i c w, x = Some i /\ nth_error (s_rows s1) i = Some c /\ restores s1 c w
    /\ In w (v :: seen) /\ (w = v \/ (cval_same w v = true /\ is_ty v = false)).
Proof.
  intros strict seen s v s1 x I K X N M H.
  assert (H' : match key_find (s_keys s) v with
      | Some i => Some (s, Some i)
      | None =>
          match v with
          | CNum t raw =>
              let '(h, c) := number_row (s_heap s) t raw in
              Some (append_row s v h c)
          | CStr str =>
              match append_string (s_heap s) (upto_nul str) with
              | None => None
              | Some (h, r) =>
                  Some (append_row s v h
                          (CRow (ctype_of 2 0) true false [0; 0] (le_bytes 4 r)))
              end
          | CType ref =>
              Some (append_row s (CNum NBool 1) (s_heap s)
                      (CRow (ctype_of 4 0) true false [0; 0] (le_bytes 4 ref)))
          | CNull => Some (s, None)
          end
      end = Some (s1, x)) by (destruct v; [exact H|exact H|congruence|exact H]).
  clear H. rename H' into H.
  destruct (key_find (s_keys s) v) as [i|] eqn:F.
  - (* found *)
    injection H as <- <-. destruct (key_find_in _ _ _ F) as (k & Ik & Sk).
    destruct I as (I1 & I2 & I3).
    pose proof (cval_same_kind _ _ Sk) as KK.
    assert (Tk : is_ty k = false) by eauto.
    assert (Tv : is_ty v = false) by (destruct k, v; cbn in *; congruence).
    assert (P : strict || negb (is_num k) = true).
    { destruct strict; [reflexivity|]. destruct k, v; cbn in *; congruence. }
    destruct (I3 k i Ik P) as [Sn (c & Nc & R)].
    split; [|split; [exists []; symmetry; apply app_nil_r|split; [exists []; symmetry; apply app_nil_r|]]].
    + split; [assumption|]. split; [assumption|]. intros k' i' A B.
      destruct (I3 k' i' A B) as [C D]. split; [now right|assumption].
    + exists i, c, k. repeat split; auto. now right.
  - destruct v as [t raw|str| |ref].
    + destruct (number_row (s_heap s) t raw) as [h c] eqn:E. apply some_inj in H.
      assert (Eh : h = fst (number_row (s_heap s) t raw)) by now rewrite E.
      assert (Ec : c = snd (number_row (s_heap s) t raw)) by now rewrite E.
      destruct (number_row_heap (s_heap s) t raw (proj1 I)) as [HI [d G]].
      rewrite <- Eh in HI, G.
      pose proof (number_row_restores (s_heap s) t raw (s_rows s ++ [c]) (key_set (s_keys s) (CNum t raw) (length (s_rows s))) K X) as R.
      rewrite <- Eh, <- Ec in R.
      destruct (cinv_append strict seen s (CNum t raw) h c (CNum t raw) s1 x d I HI G H eq_refl) as (A & _ & B & C).
      { intros _. auto. }
      { unfold append_row in H. injection H as <- <-. exact R. }
      unfold append_row in H. injection H as <- <-. cbn [s_heap s_rows] in *.
      split; [exact A|]. split; [eauto|]. split; [eauto|].
      exists (length (s_rows s)), c, (CNum t raw). repeat split; auto. now left.
    + cbn [const_ok] in K. rewrite (upto_nul_text _ K) in H.
      destruct (append_string (s_heap s) str) as [[h r]|] eqn:E; [|discriminate].
      apply some_inj in H.
      destruct (append_string_map_ok _ _ _ _ (proj1 I) K E) as (HI & [d G] & RS).
      set (c := CRow (ctype_of 2 0) true false [0; 0] (le_bytes 4 r)) in *.
      assert (R : restores s1 c (CStr str)).
      { unfold append_row in H. injection H as <- <-. intros d' _ L. cbn [s_heap] in *.
        destruct (RS d' L) as [Rr Rs].
        unfold read_const. subst c. cbn [c_type c_d2].
        change (kind_of_ctype (ctype_of 2 0)) with 2. cbv beta iota.
        rewrite le_val_bytes by exact Rr. now rewrite Rs. }
      destruct (cinv_append strict seen s (CStr str) h c (CStr str) s1 x d I HI G H eq_refl) as (A & _ & B & C).
      { intros _. auto. }
      { exact R. }
      unfold append_row in H. injection H as <- <-. cbn [s_heap s_rows] in *.
      split; [exact A|]. split; [eauto|]. split; [eauto|].
      exists (length (s_rows s)), c, (CStr str). repeat split; auto. now left.
    + congruence.
    + apply some_inj in H. destruct strict; [discriminate|].
      set (c := CRow (ctype_of 4 0) true false [0; 0] (le_bytes 4 ref)) in *.
      assert (R : restores s1 c (CType ref)).
      { intros d' _ _. unfold read_const. subst c. cbn [c_type c_d2].
        change (kind_of_ctype (ctype_of 4 0)) with 4. cbv beta iota.
        rewrite le_val_bytes by exact K. reflexivity. }
      destruct (cinv_append false seen s (CType ref) (s_heap s) c (CNum NBool 1) s1 x [] I (proj1 I)
                  (eq_sym (app_nil_r _)) H eq_refl) as (A & _ & B & C).
      { cbn. discriminate. }
      { exact R. }
      unfold append_row in H. injection H as <- <-. cbn [s_heap s_rows] in *.
      split; [exact A|]. split; [exists []; symmetry; apply app_nil_r|]. split; [eauto|].
      exists (length (s_rows s)), c, (CType ref). repeat split; auto. now left.
Qed.

Lemma commit_ok : forall s v, const_ok v -> exists s1 x, commit s v = Some (s1, x).
Proof.
  intros s v K. unfold commit. destruct v as [t raw|str| |ref]; [| |eauto|].
  - destruct (key_find _ _); [eauto|]. destruct (number_row _ _ _) as [h c].
    unfold append_row. eauto.
  - destruct (key_find _ _); [eauto|]. cbn [const_ok] in K. rewrite (upto_nul_text _ K).
    destruct (hstep_ok (s_heap s) (AString str) K) as (h & r & E). cbn [hstep] in E. rewrite E.
    unfold append_row. eauto.
  - destruct (key_find _ _); [eauto|]. unfold append_row. eauto.
Qed.

Lemma crun_ok : forall ops s, Forall cop_ok ops -> exists s1 xs, crun s ops = Some (s1, xs).
Proof.
  induction ops as [|o ops IH]; intros s H; cbn [crun]; [eauto|].
  inversion H; subst. destruct o as [v|o].
  - destruct (commit_ok s v H2) as (s1 & x & ->). destruct (IH s1 H3) as (s2 & xs & ->). eauto.
  - destruct (hstep_ok (s_heap s) o H2) as (h1 & x & ->).
    destruct (IH (CState h1 (s_rows s) (s_keys s)) H3) as (s2 & xs & ->). eauto.
Qed.

Lemma cinv_seen : forall strict a b s, (forall v, In v a -> In v b) -> cinv strict a s -> cinv strict b s.
Proof.
  intros strict a b s S (I1 & I2 & I3). split; [assumption|]. split; [assumption|].
  intros k i H P. destruct (I3 k i H P) as [A B]. auto.
Qed.

Definition answer (s : cstate) (d : list Z) (all : list cval) (o : cop) (x : option nat) : Prop :=
  match o with
  | CommitConst CNull => x = None
  | CommitConst v =>
      exists w, reads_as (s_rows s) (h_bytes (s_heap s) ++ d) x w /\ In w all
        /\ (w = v \/ (cval_same w v = true /\ is_ty v = false))
  | Other _ => True
  end.

Lemma crun_grow : forall ops s s1 xs, crun s ops = Some (s1, xs) ->
  (exists d, h_bytes (s_heap s1) = h_bytes (s_heap s) ++ d) /\
  (exists m, s_rows s1 = s_rows s ++ m).
Proof.
  assert (CG : forall s v s1 x, commit s v = Some (s1, x) ->
    (exists d, h_bytes (s_heap s1) = h_bytes (s_heap s) ++ d) /\
    (exists m, s_rows s1 = s_rows s ++ m)).
  { assert (AR : forall s k h c s1 x, append_row s k h c = (s1, x) ->
      s_heap s1 = h /\ s_rows s1 = s_rows s ++ [c]).
    { intros. unfold append_row in H. injection H as <- <-. auto. }
    intros s v s1 x H. unfold commit in H. destruct v as [t raw|str| |ref].
    - destruct (key_find _ _).
      { injection H as <- <-. split; exists []; symmetry; apply app_nil_r. }
      destruct (number_row (s_heap s) t raw) as [h c] eqn:E. apply some_inj in H.
      apply AR in H. destruct H as [-> ->]. split; [|eauto].
      unfold number_row in E. destruct (wide t).
      + unfold assign_uint64 in E. destruct (_ <=? _).
        { apply pair_equal_spec in E; destruct E as [<- _]. exists []; symmetry; apply app_nil_r. }
        destruct (_ <=? _).
        { apply pair_equal_spec in E; destruct E as [<- _]. exists []; symmetry; apply app_nil_r. }
        unfold append_bytes in E. change (le_bytes 8 raw) with (raw mod 256 :: le_bytes 7 (raw / 256)) in E.
        cbv beta iota in E. apply pair_equal_spec in E. destruct E as [<- _]. cbn [h_bytes]. eauto.
      + apply pair_equal_spec in E; destruct E as [<- _]. exists []; symmetry; apply app_nil_r.
    - destruct (key_find _ _).
      { injection H as <- <-. split; exists []; symmetry; apply app_nil_r. }
      destruct (append_string (s_heap s) (upto_nul str)) as [[h r]|] eqn:E; [|discriminate].
      apply some_inj in H. apply AR in H. destruct H as [-> ->]. split; [|eauto].
      exact (hstep_grows (s_heap s) (AString (upto_nul str)) h r E).
    - injection H as <- <-. split; exists []; symmetry; apply app_nil_r.
    - destruct (key_find _ _).
      { injection H as <- <-. split; exists []; symmetry; apply app_nil_r. }
      apply some_inj in H. apply AR in H. destruct H as [-> ->].
      split; [exists []; symmetry; apply app_nil_r|eauto]. }
  induction ops as [|o ops IH]; intros s s1 xs H; cbn [crun] in H.
  - injection H as <- <-. split; exists []; symmetry; apply app_nil_r.
  - destruct o as [v|o].
    + destruct (commit s v) as [[s2 x]|] eqn:E; [|discriminate].
      destruct (crun s2 ops) as [[s3 ys]|] eqn:E2; [|discriminate]. injection H as <- <-.
      destruct (CG _ _ _ _ E) as [[d D] [m M]]. destruct (IH _ _ _ E2) as [[d' D'] [m' M']].
      split; [exists (d ++ d')|exists (m ++ m')].
      * now rewrite D', D, app_assoc.
      * now rewrite M', M, app_assoc.
    + destruct (hstep (s_heap s) o) as [[h x]|] eqn:E; [|discriminate].
      destruct (crun (CState h (s_rows s) (s_keys s)) ops) as [[s3 ys]|] eqn:E2; [|discriminate].
      injection H as <- <-. destruct (hstep_grows _ _ _ _ E) as [d D].
      destruct (IH _ _ _ E2) as [[d' D'] [m' M']]. cbn [s_heap s_rows] in *.
      split; [exists (d ++ d')|exists m'; assumption].
      now rewrite D', D, app_assoc.
Qed.

Lemma crun_spec : forall strict ops seen s s1 xs d,
  cinv strict seen s -> Forall cop_ok ops -> Forall exact_number (consts ops) ->
  (forall v, In v (consts ops) -> if strict then is_ty v = false else is_num v = false) ->
  crun s ops = Some (s1, xs) -> d <> [] ->
  Z.of_nat (length (h_bytes (s_heap s1) ++ d)) < 4294967296 ->
  Forall2 (answer s1 d (seen ++ consts ops)) ops xs.
Proof.
  intros strict. induction ops as [|o ops IH]; intros seen s s1 xs d I O X M H Nd L; cbn [crun] in H.
  - injection H as <- <-. constructor.
  - inversion O; subst. destruct o as [v|o].
    + cbn [consts] in *. inversion X; subst.
      destruct (commit s v) as [[s2 x]|] eqn:E; [|discriminate].
      destruct (crun s2 ops) as [[s3 ys]|] eqn:E2; [|discriminate]. injection H as <- <-.
      assert (D : v = CNull \/ v <> CNull) by (destruct v; [right|right|left|right]; congruence).
      destruct D as [->|D].
      * cbn [commit] in E. injection E as <- <-. constructor; [reflexivity|].
        specialize (IH (seen ++ [CNull]) s s3 ys d).
        replace (seen ++ CNull :: consts ops) with ((seen ++ [CNull]) ++ consts ops)
          by now rewrite <- app_assoc.
        apply IH; auto.
        -- apply (cinv_seen strict seen); [|assumption]. intros. apply in_app_iff. auto.
        -- intros v Hv. apply M. now right.
      * destruct (commit_spec strict seen s v s2 x I H2 H4 D (M v (or_introl eq_refl)) E)
          as (A & [d1 G1] & _ & i & c & w & -> & Nc & R & Iw & Sw).
        destruct (crun_grow _ _ _ _ E2) as [[d2 G2] [m2 M2]].
        constructor.
        -- assert (W : exists w0, reads_as (s_rows s3) (h_bytes (s_heap s3) ++ d) (Some i) w0
              /\ In w0 (seen ++ v :: consts ops)
              /\ (w0 = v \/ (cval_same w0 v = true /\ is_ty v = false))).
           { exists w. split; [|split; [|exact Sw]].
             - exists i, c. split; [reflexivity|]. split.
               + rewrite M2. rewrite nth_error_app1; [assumption|]. apply nth_error_Some. congruence.
               + rewrite G2, <- app_assoc in *. apply R; [|assumption].
                 destruct d2; [assumption|discriminate].
             - destruct Iw as [<-|Iw]; apply in_app_iff; [right; now left|now left]. }
           unfold answer. destruct v; try exact W. congruence.
        -- specialize (IH (seen ++ [v]) s2 s3 ys d).
           replace (seen ++ v :: consts ops) with ((seen ++ [v]) ++ consts ops)
             by now rewrite <- app_assoc.
           apply IH; auto.
           ++ apply (cinv_seen strict (v :: seen)); [|assumption].
              intros u [<-|Hu]; apply in_app_iff; [right; now left|now left].
           ++ intros u Hu. apply M. now right.
    + cbn [consts] in *.
      destruct (hstep (s_heap s) o) as [[h x]|] eqn:E; [|discriminate].
      destruct (crun (CState h (s_rows s) (s_keys s)) ops) as [[s3 ys]|] eqn:E2; [|discriminate].
      injection H as <- <-. constructor; [exact Logic.I|].
      apply (IH seen (CState h (s_rows s) (s_keys s)) s3 ys d); auto.
      destruct I as (I1 & I2 & I3). destruct (hstep_grows _ _ _ _ E) as [d0 D0].
      split; [exact (hstep_inv _ _ _ _ I1 H2 E)|]. split; [exact I2|].
      intros k i Hk P. destruct (I3 k i Hk P) as [A (c & B & C)]. split; [assumption|].
      exists c. split; [assumption|]. apply (restores_grow s _ _ _ d0); auto.
Qed.

Lemma is_ty_false : forall v, ~ is_type v -> is_ty v = false.
Proof. intros [ | | |r] H; auto. exfalso. apply H. now exists r. Qed.

Lemma is_num_false : forall v, ~ is_number v -> is_num v = false.
Proof. intros [t r| | | ] H; auto. exfalso. apply H. now exists t, r. Qed.

Lemma constants_roundtrip : forall ops, Forall cop_ok ops -> Forall exact_number (consts ops) ->
  Forall (fun v => ~ is_type v) (consts ops) \/ Forall (fun v => ~ is_number v) (consts ops) ->
  exists s xs, crun cstate_new ops = Some (s, xs) /\
    forall d, d <> [] -> Z.of_nat (length (h_bytes (s_heap s) ++ d)) < 4294967296 ->
    Forall2 (answer s d (consts ops)) ops xs.
Proof.
  intros ops O X M. destruct (crun_ok ops cstate_new O) as (s & xs & E).
  exists s, xs. split; [exact E|]. intros d Nd L.
  destruct M as [M|M]; rewrite Forall_forall in M.
  - apply (crun_spec true ops [] cstate_new s xs d); auto.
    + split; [exact heap_inv_new|]. split; intros k i [].
    + intros v Hv. apply is_ty_false. auto.
  - apply (crun_spec false ops [] cstate_new s xs d); auto.
    + split; [exact heap_inv_new|]. split; intros k i [].
    + intros v Hv. apply is_num_false. auto.
Qed.

(** * Exactness *)

(** The answer in terms of the order of the map itself. *)
Definition comes_back0 (rows : list crow) (l : list Z) (all : list cval) (o : cop) (x : option nat)
  : Prop :=
  match o with
  | CommitConst CNull => x = None
  | CommitConst v =>
      exists w, reads_as rows l x w /\ In w all /\ (w = v \/ (cval_same w v = true /\ ~ is_type v))
  | Other _ => True
  end.

Lemma answer_comes_back : forall s d all o x, answer s d all o x ->
  comes_back0 (s_rows s) (h_bytes (s_heap s) ++ d) all o x.
Proof.
  intros s d all o x A. destruct o as [v|o]; [|exact Logic.I].
  assert (T : is_ty v = false -> ~ is_type v) by (intros H [r ->]; discriminate).
  destruct v; cbn [answer comes_back0] in *; auto;
    destruct A as (w & A & B & C); exists w; split; auto; split; auto; tauto.
Qed.

Lemma constants_come_back0 : forall ops, Forall cop_ok ops -> Forall exact_number (consts ops) ->
  Forall (fun v => ~ is_type v) (consts ops) \/ Forall (fun v => ~ is_number v) (consts ops) ->
  exists s xs, crun cstate_new ops = Some (s, xs) /\
    forall d, d <> [] -> Z.of_nat (length (h_bytes (s_heap s) ++ d)) < 4294967296 ->
    Forall2 (comes_back0 (s_rows s) (h_bytes (s_heap s) ++ d) (consts ops)) ops xs.
Proof.
  intros ops O X M. destruct (constants_roundtrip ops O X M) as (s & xs & E & F).
  exists s, xs. split; [exact E|]. intros d Nd L.
  specialize (F d Nd L). clear - F.
  assert (G : forall all l ys, Forall2 (answer s d all) l ys ->
    Forall2 (comes_back0 (s_rows s) (h_bytes (s_heap s) ++ d) all) l ys).
  { intros all l ys H. induction H; constructor; auto. now apply answer_comes_back. }
  auto.
Qed.

Lemma str_same_eq : forall a b, str_ltb a b = false -> str_ltb b a = false -> a = b.
Proof.
  induction a as [|x a IH]; intros [|y b] H1 H2; cbn [str_ltb] in *; try discriminate; auto.
  apply orb_false_iff in H1. apply orb_false_iff in H2. destruct H1 as [A1 B1], H2 as [A2 B2].
  apply Z.ltb_ge in A1. apply Z.ltb_ge in A2. assert (x = y) by lia. subst y.
  rewrite Z.eqb_refl in *. cbn [andb] in *. f_equal. auto.
Qed.

Lemma fin_same : forall a b, fin_ltb a 0 b 0 = false -> fin_ltb b 0 a 0 = false -> a = b.
Proof.
  intros a b H1 H2. unfold fin_ltb in *. change (Z.min 0 0) with 0 in *. change (2 ^ (0 - 0)) with 1 in *.
  apply Z.ltb_ge in H1. apply Z.ltb_ge in H2. lia.
Qed.

Lemma signed_inj : forall n a b, (0 < n)%Z -> 0 <= a < 2 ^ n -> 0 <= b < 2 ^ n ->
  signed n a = signed n b -> a = b.
Proof.
  intros n a b N A B H. unfold signed in H.
  assert (E : 2 ^ n = 2 * 2 ^ (n - 1)) by (rewrite <- Z.pow_succ_r by lia; f_equal; lia).
  destruct (a <? 2 ^ (n - 1)) eqn:E1; destruct (b <? 2 ^ (n - 1)) eqn:E2;
    rewrite ?Z.ltb_lt, ?Z.ltb_ge in *; lia.
Qed.

Lemma number_same_eq : forall t a b, is_float t = false ->
  const_ok (CNum t a) -> const_ok (CNum t b) -> cval_same (CNum t a) (CNum t b) = true -> a = b.
Proof.
  intros t a b F A B H. unfold cval_same, cval_ltb in H. cbn [kind_code] in H.
  change (negb (1 =? 1)) with false in H. cbv iota in H.
  unfold tvalue_ltb in H. replace (nty_eqb t t) with true in H
    by (symmetry; unfold nty_eqb; apply Z.eqb_refl).
  cbn [orb] in H. apply andb_true_iff in H. destruct H as [H1 H2].
  apply negb_true_iff in H1. apply negb_true_iff in H2. cbn [const_ok] in A, B.
  destruct t; try discriminate; cbn [num_of num_ltb] in H1, H2; pose proof (fin_same _ _ H1 H2) as E;
    try exact E; cbn [bits] in A, B.
  - apply (signed_inj 8); auto; lia.
  - apply (signed_inj 16); auto; lia.
  - apply (signed_inj 32); auto; lia.
  - apply (signed_inj 64); auto; lia.
  - apply (signed_inj 32); auto; lia.
Qed.

Lemma string_same_eq : forall a b, text a -> text b -> cval_same (CStr a) (CStr b) = true -> a = b.
Proof.
  intros a b A B H. unfold cval_same, cval_ltb in H. cbn [kind_code] in H.
  change (negb (2 =? 2)) with false in H. cbv iota in H.
  rewrite !upto_nul_text in H by assumption.
  apply andb_true_iff in H. destruct H as [H1 H2].
  apply negb_true_iff in H1. apply negb_true_iff in H2. now apply str_same_eq.
Qed.

Lemma int_value_num : forall t raw x, int_value t raw = Some x -> num_of t raw = Fin x 0 /\ is_float t = false.
Proof. intros t raw x H. destruct t; cbn [int_value] in H; try discriminate; apply some_inj in H; subst x; split; reflexivity. Qed.

(** What the comparison takes a number for is what it stands for. *)
Definition stands_for (n : num) (v : value) : Prop :=
  match n with
  | Fin m e => -1074 <= e /\ v = Number (m * 2 ^ (e + 1074))
  | PInf => v = Infinite false
  | NInf => v = Infinite true
  | NaN => v = NoNumber
  end.

Lemma ieee_stands : forall fb eb shift raw, 0 < fb -> 1 < eb ->
  shift = 1075 - 2 ^ (eb - 1) - fb + 1 -> 0 <= shift ->
  0 <= raw < 2 ^ (fb + eb + 1) ->
  stands_for (ieee fb eb raw) (float_value fb eb shift raw).
Proof.
  intros fb eb shift raw F E SH S0 R. unfold ieee, float_value.
  assert (NEG : (raw / 2 ^ (fb + eb) =? 1) = (2 ^ (fb + eb) <=? raw)).
  { assert (P : 0 < 2 ^ (fb + eb)) by (apply Z.pow_pos_nonneg; lia).
    rewrite Z.pow_add_r in R by lia. change (2 ^ 1) with 2 in R.
    destruct (Z.leb_spec (2 ^ (fb + eb)) raw) as [L|L].
    - apply Z.eqb_eq. symmetry. apply (Z.div_unique raw (2 ^ (fb + eb)) 1 (raw - 2 ^ (fb + eb))); lia.
    - apply Z.eqb_neq. rewrite Z.div_small; lia. }
  rewrite NEG. clear NEG. set (neg := 2 ^ (fb + eb) <=? raw).
  set (ex := raw / 2 ^ fb mod 2 ^ eb). set (fr := raw mod 2 ^ fb).
  assert (EX : 0 <= ex < 2 ^ eb) by (apply Z.mod_pos_bound; apply Z.pow_pos_nonneg; lia).
  destruct (ex =? 2 ^ eb - 1).
  - destruct (fr =? 0); [destruct neg|]; reflexivity.
  - destruct (Z.eqb_spec ex 0) as [E0|E0]; cbn [stands_for].
    + rewrite E0. split; [lia|]. f_equal. f_equal. f_equal. lia.
    + split; [lia|]. f_equal. f_equal; [destruct neg; lia|]. f_equal. lia.
Qed.

Lemma number_stands : forall t raw, const_ok (CNum t raw) -> stands_for (num_of t raw) (real_value t raw).
Proof.
  intros t raw R. cbn [const_ok] in R. unfold real_value.
  destruct t; cbn [int_value num_of stands_for bits] in *; try (split; [lia | reflexivity]);
    apply ieee_stands; try lia; try reflexivity; exact R.
Qed.

Lemma fin_stands : forall m1 e1 m2 e2, -1074 <= e1 -> -1074 <= e2 ->
  fin_ltb m1 e1 m2 e2 = false -> fin_ltb m2 e2 m1 e1 = false ->
  m1 * 2 ^ (e1 + 1074) = m2 * 2 ^ (e2 + 1074).
Proof.
  intros m1 e1 m2 e2 L1 L2 H1 H2. unfold fin_ltb in *. rewrite (Z.min_comm e2 e1) in H2.
  set (e := Z.min e1 e2) in *. apply Z.ltb_ge in H1. apply Z.ltb_ge in H2.
  assert (M : m1 * 2 ^ (e1 - e) = m2 * 2 ^ (e2 - e)) by lia.
  replace (e1 + 1074) with (e1 - e + (e + 1074)) by lia.
  replace (e2 + 1074) with (e2 - e + (e + 1074)) by lia.
  rewrite (Z.pow_add_r 2 (e1 - e)), (Z.pow_add_r 2 (e2 - e)) by lia.
  rewrite !Z.mul_assoc, M. reflexivity.
Qed.

Lemma num_same_stands : forall a b x y, stands_for a x -> stands_for b y ->
  num_ltb a b = false -> num_ltb b a = false -> x = NoNumber \/ y = NoNumber \/ x = y.
Proof.
  intros a b x y A B H1 H2.
  destruct a as [m1 e1| | |]; destruct b as [m2 e2| | |]; cbn [stands_for num_ltb] in *;
    try discriminate; try (left; exact A); try (right; left; exact B); right; right.
  - destruct A as [L1 ->]. destruct B as [L2 ->]. f_equal. now apply fin_stands.
  - congruence.
  - congruence.
Qed.

Lemma nty_eqb_sym : forall t u, nty_eqb t u = nty_eqb u t.
Proof. intros t u. unfold nty_eqb. apply Z.eqb_sym. Qed.

Lemma float_case : forall t a u b, const_ok (CNum t a) -> const_ok (CNum u b) ->
  nty_eqb t u || is_float t || is_float u = true ->
  cval_same (CNum t a) (CNum u b) = true ->
  real_value t a = NoNumber \/ real_value u b = NoNumber \/ real_value t a = real_value u b.
Proof.
  intros t a u b A B F H. unfold cval_same, cval_ltb in H. cbn [kind_code] in H.
  change (negb (1 =? 1)) with false in H. cbv iota in H. unfold tvalue_ltb in H.
  replace (nty_eqb u t || is_float u || is_float t) with (nty_eqb t u || is_float t || is_float u) in H
    by (rewrite (nty_eqb_sym u t), <- !orb_assoc, (orb_comm (is_float u)); reflexivity).
  rewrite F in H. apply andb_true_iff in H. destruct H as [H1 H2].
  apply negb_true_iff in H1. apply negb_true_iff in H2.
  exact (num_same_stands _ _ _ _ (number_stands t a A) (number_stands u b B) H1 H2).
Qed.

Lemma same_same_value : forall w v, const_ok w -> const_ok v -> ~ is_type v -> v <> CNull ->
  cval_same w v = true -> same_value w v.
Proof.
  intros w v W V T N H. pose proof (cval_same_kind _ _ H) as K.
  destruct v as [u b|b| |ref]; [| |congruence|exfalso; apply T; now exists ref];
    destruct w as [t a|a| |ref']; try discriminate.
  - unfold same_value. destruct (int_value t a) as [x|] eqn:X; [|].
    + destruct (int_value u b) as [y|] eqn:Y.
      * destruct (int_value_num _ _ _ X) as [Nx Fx]. destruct (int_value_num _ _ _ Y) as [Ny Fy].
        unfold cval_same, cval_ltb in H. cbn [kind_code] in H.
        change (negb (1 =? 1)) with false in H. cbv iota in H.
        unfold tvalue_ltb in H. rewrite Fx, Fy, Nx, Ny in H. rewrite !orb_false_r in H.
        replace (nty_eqb u t) with (nty_eqb t u) in H by apply Z.eqb_sym.
        apply andb_true_iff in H. destruct H as [H1 H2].
        apply negb_true_iff in H1. apply negb_true_iff in H2.
        destruct (nty_eqb t u).
        { left. cbn [num_ltb] in *. now apply fin_same. }
        rewrite (orb_comm (nty_eqb u NU64)) in H2.
        destruct (nty_eqb t NU64 || nty_eqb u NU64) eqn:U.
        { right. split.
          - apply orb_true_iff in U. destruct U as [U|U]; [left|right]; [destruct t|destruct u];
              try discriminate; reflexivity.
          - apply Z.ltb_ge in H1. apply Z.ltb_ge in H2.
            change (2 ^ 64) with 18446744073709551616. rewrite Zminus_mod.
            replace (x mod 18446744073709551616) with (y mod 18446744073709551616) by lia.
            now rewrite Z.sub_diag. }
        { left. apply Z.ltb_ge in H1. apply Z.ltb_ge in H2. lia. }
      * assert (F : nty_eqb t u || is_float t || is_float u = true)
          by (destruct u; try discriminate; destruct (nty_eqb t _), (is_float t); reflexivity).
        now apply float_case.
    + assert (F : nty_eqb t u || is_float t || is_float u = true)
        by (destruct t; try discriminate; destruct (nty_eqb _ u); reflexivity).
      now apply float_case.
  - cbn [same_value]. now apply string_same_eq.
Qed.

Lemma consts_ok : forall ops, Forall cop_ok ops -> forall v, In v (consts ops) -> const_ok v.
Proof.
  intros ops O. induction ops as [|o ops IH]; intros v H; [destruct H|].
  inversion O; subst. destruct o as [w|o]; cbn [consts] in H; [|auto].
  destruct H as [<-|H]; auto.
Qed.

Lemma constants_come_back : forall ops, Forall cop_ok ops -> Forall exact_number (consts ops) ->
  Forall (fun v => ~ is_type v) (consts ops) \/ Forall (fun v => ~ is_number v) (consts ops) ->
  exists s xs, crun cstate_new ops = Some (s, xs) /\
    forall d, d <> [] -> Z.of_nat (length (h_bytes (s_heap s) ++ d)) < 4294967296 ->
    Forall2 (comes_back (s_rows s) (h_bytes (s_heap s) ++ d) (consts ops)) ops xs.
Proof.
  intros ops O X M. destruct (constants_come_back0 ops O X M) as (s & xs & E & R).
  exists s, xs. split; [exact E|]. intros d Nd L. specialize (R d Nd L).
  pose proof (consts_ok ops O) as C.
  assert (G : forall l ys, (forall v, In v (consts l) -> In v (consts ops)) ->
    Forall2 (comes_back0 (s_rows s) (h_bytes (s_heap s) ++ d) (consts ops)) l ys ->
    Forall2 (comes_back (s_rows s) (h_bytes (s_heap s) ++ d) (consts ops)) l ys).
  { intros l ys S H. induction H as [|o x l ys H1 H2 IH]; constructor.
    - destruct o as [v|o]; [|exact Logic.I].
      assert (Iv : In v (consts ops)) by (apply S; cbn [consts]; now left).
      assert (D : v = CNull \/ v <> CNull) by (destruct v; auto; right; discriminate).
      destruct D as [->|D]; [exact H1|].
      assert (H1' : exists w, reads_as (s_rows s) (h_bytes (s_heap s) ++ d) x w /\ In w (consts ops)
                      /\ (w = v \/ cval_same w v = true /\ ~ is_type v))
        by (destruct v; try exact H1; congruence).
      destruct H1' as (w & A & B & Q).
      assert (Z1 : exists w, reads_as (s_rows s) (h_bytes (s_heap s) ++ d) x w /\ In w (consts ops)
                      /\ (w = v \/ same_value w v)).
      { exists w. split; [exact A|]. split; [exact B|]. destruct Q as [Q|[Q1 Q2]]; [now left|right].
        apply same_same_value; auto. }
      destruct v; try exact Z1; congruence.
    - apply IH. intros v Hv. apply S. destruct o; cbn [consts]; [now right|assumption]. }
  apply G; auto.
Qed.

Lemma constants_exact : forall ops t, Forall cop_ok ops -> Forall exact_number (consts ops) ->
  is_float t = false ->
  (forall u raw, In (CNum u raw) (consts ops) -> u = t) ->
  Forall (fun v => ~ is_type v) (consts ops) \/ Forall (fun v => ~ is_number v) (consts ops) ->
  exists s xs, crun cstate_new ops = Some (s, xs) /\
    forall d, d <> [] -> Z.of_nat (length (h_bytes (s_heap s) ++ d)) < 4294967296 ->
    Forall2 (comes_back_exactly (s_rows s) (h_bytes (s_heap s) ++ d)) ops xs.
Proof.
  intros ops t O X F T M. destruct (constants_come_back0 ops O X M) as (s & xs & E & R).
  exists s, xs. split; [exact E|]. intros d Nd L. specialize (R d Nd L).
  assert (C : forall v, In v (consts ops) -> const_ok v).
  { clear - O. induction ops as [|o ops IH]; intros v H; [destruct H|].
    inversion O; subst. destruct o as [w|o]; cbn [consts] in H; [|auto].
    destruct H as [<-|H]; auto. }
  assert (G : forall l ys, (forall v, In v (consts l) -> In v (consts ops)) ->
    Forall2 (comes_back0 (s_rows s) (h_bytes (s_heap s) ++ d) (consts ops)) l ys ->
    Forall2 (comes_back_exactly (s_rows s) (h_bytes (s_heap s) ++ d)) l ys).
  { intros l ys S H. induction H as [|o x l ys H1 H2 IH]; constructor.
    - destruct o as [v|o]; [|exact Logic.I].
      assert (Iv : In v (consts ops)) by (apply S; cbn [consts]; now left).
      destruct v as [u raw|str| |ref]; cbn [comes_back0 comes_back_exactly] in *; auto.
      + destruct H1 as (w & A & B & [->|[D _]]); [exact A|].
        pose proof (cval_same_kind _ _ D) as K.
        destruct w as [u' raw'|?| |?]; try discriminate.
        assert (u = t) by eauto. assert (u' = t) by eauto. subst u u'.
        assert (raw' = raw) by (eapply number_same_eq; eauto). now subst.
      + destruct H1 as (w & A & B & [->|[D _]]); [exact A|].
        pose proof (cval_same_kind _ _ D) as K.
        destruct w as [?|str'| |?]; try discriminate.
        assert (str' = str) by (eapply string_same_eq; eauto; [apply (C _ B)|apply (C _ Iv)]).
        now subst.
      + destruct H1 as (w & A & B & [->|[_ D]]); [exact A|].
        exfalso. apply D. now exists ref.
    - apply IH. intros v Hv. apply S. destruct o; cbn [consts]; [now right|assumption]. }
  apply G; auto.
Qed.

(** * Counterexamples *)

Lemma long_block : forall h b h1 r,
  hsize h < 4294967296 -> 268435456 <= Z.of_nat (length b) < 4294967296 ->
  append_block h b = (h1, r) -> read_block (h_bytes h1) r = Throw.
Proof.
  intros h b h1 r Hh L E. unfold append_block in E. destruct b as [|x b]; [cbn in L; lia|].
  apply pair_equal_spec in E. destruct E as [<- <-]. cbn [h_bytes].
  rewrite <- (app_nil_r (_ ++ x :: b)). unfold hsize. apply read_block_long; assumption.
Qed.

Lemma long_block_exists :
  hsize heap_new < 4294967296
  /\ 268435456 <= Z.of_nat (length (repeat 0 (Z.to_nat 268435456))) < 4294967296.
Proof. split; [reflexivity|]. rewrite repeat_length. lia. Qed.

Lemma last_entry : forall h b h1 r,
  b <> [] -> append_bytes h b = (h1, r) -> hsize h1 < 4294967296 ->
  read_bytes (h_bytes h1) r (length b) = Throw.
Proof.
  intros h b h1 r N E L. unfold append_bytes in E. destruct b as [|x b]; [congruence|].
  apply pair_equal_spec in E. destruct E as [<- <-]. unfold hsize in *. cbn [h_bytes] in *.
  pose proof (read_bytes_at (h_bytes h) (x :: b) []) as P. rewrite app_nil_r in P. exact (P L).
Qed.

Lemma wide_numbers_iff : forall h t raw d, In t [NI64; NU64; NF64] ->
  0 <= raw < 18446744073709551616 ->
  let h1 := fst (number_row h t raw) in
  Z.of_nat (length (h_bytes h1 ++ d)) < 4294967296 ->
  (read_const (h_bytes h1 ++ d) (snd (number_row h t raw)) = OK (CNum t raw)
   <-> (goes_to_heap raw /\ d <> []) \/ (~ goes_to_heap raw /\ raw mod 65536 = 0)).
Proof.
  intros h t raw d T. apply wide_number_roundtrip.
  destruct T as [<-|[<-|[<-|[]]]]; reflexivity.
Qed.
