From Coq Require Import NArith ZArith ZifyN ZifyNat List Bool Lia.
From Verif Require Import XilModel XilSpec.
Import ListNotations.
Open Scope N_scope.
Ltac Zify.zify_post_hook ::= Z.div_mod_to_equations.

(** *** Little endian *)

Lemma le_bytes_length n v : length (le_bytes n v) = n.
Proof. revert v; induction n; intros; cbn; auto. Qed.

Lemma le_val_bytes n : forall v, v < 256 ^ N.of_nat n -> le_val (le_bytes n v) = v.
Proof.
  induction n as [|n IH]; intros v H.
  - cbn in H. cbn. lia.
  - cbn [le_bytes le_val]. rewrite IH.
    + pose proof (N.div_mod v 256). lia.
    + rewrite Nat2N.inj_succ, N.pow_succ_r' in H.
      apply N.div_lt_upper_bound; lia.
Qed.

Lemma le_bytes_byte n : forall v b, In b (le_bytes n v) -> b < 256.
Proof.
  induction n as [|n IH]; intros v b H; cbn in H; [tauto|].
  destruct H as [<-|H]; [apply N.mod_lt; lia | eauto].
Qed.

Lemma read_le_app pre n v x :
  v < 256 ^ N.of_nat n ->
  read_le (pre ++ le_bytes n v ++ x) (length pre) n = Some v.
Proof.
  intros H. unfold read_le.
  rewrite !app_length, le_bytes_length.
  replace (Nat.leb _ _) with true by (symmetry; apply Nat.leb_le; lia).
  f_equal. rewrite skipn_app, Nat.sub_diag, skipn_all. cbn [app skipn].
  rewrite firstn_app, le_bytes_length, Nat.sub_diag. cbn [firstn].
  rewrite app_nil_r, firstn_all2 by (rewrite le_bytes_length; lia).
  apply le_val_bytes; auto.
Qed.

Lemma read_le_app1 h n v x :
  v < 256 ^ N.of_nat n -> read_le (h :: le_bytes n v ++ x) 1 n = Some v.
Proof. apply (read_le_app [h]). Qed.

Lemma read_le_app2 h b n v x :
  v < 256 ^ N.of_nat n -> read_le (h :: b :: le_bytes n v ++ x) 2 n = Some v.
Proof. apply (read_le_app [h; b]). Qed.

(** *** Nibbles *)

Lemma h_command2 c p : c < 15 -> h_command (header2 c p) = c.
Proof.
  intros. unfold h_command, header2.
  rewrite (N.mul_comm 16), N.mod_add, N.mod_mod by lia.
  rewrite (N.mod_small c) by lia.
  destruct (N.eqb_spec c 15); lia.
Qed.

Lemma h_data2 c p : p < 16 -> h_data (header2 c p) = p.
Proof.
  intros. unfold h_data, header2.
  rewrite (N.mul_comm 16), N.div_add by lia.
  rewrite (N.div_small (c mod 16)) by (apply N.mod_lt; lia).
  rewrite N.mod_small; lia.
Qed.

Lemma lo_nib a b : a < 16 -> lo (nib a b) = a.
Proof.
  intros. unfold lo, nib. rewrite (N.mul_comm 16), N.mod_add, N.mod_mod by lia.
  apply N.mod_small; lia.
Qed.

Lemma hi_nib a b : b < 16 -> hi (nib a b) = b.
Proof.
  intros. unfold hi, nib. rewrite (N.mul_comm 16), N.div_add by lia.
  rewrite (N.div_small (a mod 16)) by (apply N.mod_lt; lia).
  rewrite N.mod_small; lia.
Qed.

Lemma h_command1 c : c < 31 -> h_command (header1 c) = c.
Proof.
  intros. unfold h_command, header1.
  destruct (N.leb_spec 15 c).
  - rewrite (N.mul_comm 16), N.mod_add by lia.
    replace (15 mod 16 =? 15) with true by reflexivity.
    rewrite N.div_add by lia. rewrite N.mod_small by lia.
    change (15 / 16) with 0. lia.
  - rewrite N.mod_mod, (N.mod_small c) by lia.
    destruct (N.eqb_spec c 15); lia.
Qed.

Lemma id_nibble_lt id : id_nibble id < 16.
Proof. unfold id_nibble. destruct (N.ltb_spec (id mod 65536) 15); lia. Qed.

Lemma push_stype_head s b : 1 <= s -> s <= 21 -> hi b = (if 15 <? s then s - 15 else 0) \/ s < 15 ->
  push_stype (push_head s) b = s.
Proof.
  intros H1 H2 H. unfold push_stype, push_head.
  destruct (N.leb_spec 15 s).
  - rewrite h_data2 by lia. cbn [N.eqb Pos.eqb].
    destruct H as [->|]; [|lia]. destruct (N.ltb_spec 15 s); lia.
  - rewrite h_data2 by lia. destruct (N.eqb_spec s 15); lia.
Qed.

(** *** Jumps *)

Lemma sign_extend_8 step : (-128 <= step <= 127)%Z ->
  sign_extend 8 (Z.to_N (step mod 256)) = step.
Proof.
  intros. unfold sign_extend. rewrite Z2N.id by (apply Z.mod_pos_bound; lia).
  change (2 ^ (8 - 1))%Z with 128%Z. change (2 ^ 8)%Z with 256%Z.
  destruct (Z.ltb_spec (step mod 256) 128); lia.
Qed.

Lemma sign_extend_24 step : (-8388608 <= step <= 8388607)%Z ->
  sign_extend 24 (Z.to_N (step mod 16777216)) = step.
Proof.
  intros. unfold sign_extend. rewrite Z2N.id by (apply Z.mod_pos_bound; lia).
  change (2 ^ (24 - 1))%Z with 8388608%Z. change (2 ^ 24)%Z with 16777216%Z.
  destruct (Z.ltb_spec (step mod 16777216) 8388608); lia.
Qed.

Lemma set_step_ok step : (-8388608 <= step <= 8388607)%Z ->
  exists d bs, set_step step = Some (d, bs) /\ d < 2 /\
    (forall m x, m < 8 -> get_step (header2 5 (m mod 8 + 8 * d) :: bs ++ x) = Some step) /\
    length bs = (if d =? 1 then 3%nat else 1%nat).
Proof.
  intros H. unfold set_step.
  destruct (Z.leb_spec step 127) as [H1|H1], (Z.leb_spec (-128) step) as [H2|H2]; cbn [andb].
  1:{ do 2 eexists; split; [reflexivity|]. split; [lia|]. split; [|reflexivity].
      intros m x Hm. unfold get_step. rewrite h_data2 by lia.
      replace ((m mod 8 + 8 * 0) / 8 =? 0) with true
        by (symmetry; apply N.eqb_eq; lia).
      change (le_bytes 1 (Z.to_N (step mod 256)) ++ x)
        with (le_bytes 1 (Z.to_N (step mod 256)) ++ x).
      rewrite read_le_app1 by (change (256 ^ N.of_nat 1) with 256; lia).
      cbn [option_map]. rewrite sign_extend_8 by lia. reflexivity. }
  all: destruct (Z.leb_spec step 8388607) as [H3|H3], (Z.leb_spec (-8388608) step) as [H4|H4];
    try lia; cbn [andb];
    do 2 eexists; (split; [reflexivity|]); (split; [lia|]); (split; [|reflexivity]);
    intros m x Hm; unfold get_step; rewrite h_data2 by lia;
    replace ((m mod 8 + 8 * 1) / 8 =? 0) with false
      by (symmetry; apply N.eqb_neq; lia);
    rewrite read_le_app1 by (change (256 ^ N.of_nat 3) with 16777216; lia);
    cbn [option_map]; rewrite sign_extend_24 by lia; reflexivity.
Qed.

Lemma set_step_out step : ~ (-8388608 <= step <= 8388607)%Z -> set_step step = None.
Proof.
  intros H. unfold set_step.
  destruct (Z.leb_spec step 127), (Z.leb_spec (-128) step),
    (Z.leb_spec step 8388607), (Z.leb_spec (-8388608) step); cbn [andb]; auto; lia.
Qed.

(** *** One instruction *)

Definition pad (i : xinstr) : nat := match i with XCallCommand _ => 3%nat | _ => 0%nat end.

Lemma get_identity_app h dt id x : id < 65536 ->
  get_identity (h :: nib dt (id_nibble id) :: id_extra id ++ x) (nib dt (id_nibble id)) = Some id.
Proof.
  intros H. unfold get_identity. rewrite hi_nib by apply id_nibble_lt.
  unfold id_nibble, id_extra. rewrite (N.mod_small id) by lia.
  destruct (N.ltb_spec id 15).
  - destruct (N.ltb_spec id 15); [auto|lia].
  - destruct (N.ltb_spec 15 15); [lia|].
    apply read_le_app2. change (256 ^ N.of_nat 2) with 65536. lia.
Qed.

Lemma id_extra_length dt id :
  length (id_extra id) = (if hi (nib dt (id_nibble id)) =? 15 then 2%nat else 0%nat).
Proof.
  rewrite hi_nib by apply id_nibble_lt. unfold id_extra, id_nibble.
  destruct (N.ltb_spec (id mod 65536) 15).
  - destruct (N.eqb_spec (id mod 65536) 15); [lia|reflexivity].
  - reflexivity.
Qed.

Lemma id_nibble_small id : id < 15 -> id_nibble id <> 15 /\ id_extra id = [].
Proof.
  intros H. unfold id_nibble, id_extra. rewrite (N.mod_small id) by lia.
  destruct (N.ltb_spec id 15); split; auto; lia.
Qed.

Lemma word32_256 r : word32 r -> r < 256 ^ N.of_nat 4.
Proof. unfold word32. change (256 ^ N.of_nat 4) with (2 ^ 32). auto. Qed.

Ltac heads :=
  repeat first
    [ rewrite h_command2 by lia | rewrite h_data2 by lia
    | rewrite lo_nib by assumption | rewrite hi_nib by (first [assumption | lia | apply id_nibble_lt])
    | rewrite h_command1 by lia ].

Ltac inlist H := cbn [In] in H;
  repeat match type of H with _ \/ _ => destruct H as [<-|H] end; [..|tauto].

Lemma push_head_cmd s : h_command (push_head s) = 1.
Proof. apply h_command2. lia. Qed.

Lemma some_inj {A} (a b : A) : Some a = Some b -> a = b.
Proof. congruence. Qed.

Lemma constant_bytes_ok dt : dt < 16 -> constant_bytes dt = N.of_nat (size_of_type dt).
Proof.
  intros H.
  assert (D : In dt [0;1;2;3;4;5;6;7;8;9;10;11;12;13;14;15]) by (cbn; lia).
  inlist D; reflexivity.
Qed.

Lemma image_spec i im : operands_ok i -> written_whole i -> image i = Some im ->
  forall x, view (im ++ x) = Some i /\ size_of (im ++ x) = Some (length im + pad i)%nat.
Proof.
  intros Hok Hw Him x.
  destruct i; cbn [operands_ok written_whole image pad] in *; unfold nibble in *;
    try (apply some_inj in Him; subst im).
  - (* empty *) cbn [app view size_of]. heads. split; reflexivity.
  - (* push id *)
    destruct Hok as (Hs & Hdt & Hid).
    pose proof (get_identity_app (push_head s) dt id x Hid) as Hg.
    pose proof (id_extra_length dt id) as Hl.
    cbn [app view size_of length second]. rewrite push_head_cmd.
    rewrite Hl.
    inlist Hs; (rewrite !push_stype_head by lia); rewrite ?lo_nib by assumption;
      cbn [second push_operand]; rewrite Hg; cbn [option_map]; split; auto;
      try (f_equal; lia); try (do 2 f_equal; lia).
    all: rewrite hi_nib by apply id_nibble_lt;
      assert (Hn : id_nibble id <> 15) by (apply id_nibble_small, Hw; cbn; auto);
      apply N.eqb_neq in Hn; rewrite Hn; reflexivity.
  - (* push ref *)
    destruct Hok as (Hs & Hdt & Hr). apply word32_256 in Hr.
    cbn [app view size_of length second]. rewrite push_head_cmd, le_bytes_length.
    unfold push_second.
    inlist Hs;
      try (exfalso; apply Hw; cbn; tauto);
      (rewrite !push_stype_head by lia); rewrite ?lo_nib by assumption;
      rewrite read_le_app2 by exact Hr; split; reflexivity.
  - (* push const *)
    destruct Hok as (Hdt & Hne & Hv). rewrite constant_bytes_ok in Hv by assumption.
    cbn [app view size_of length second]. rewrite push_head_cmd, le_bytes_length.
    unfold push_second.
    rewrite !push_stype_head by lia.
    cbn [second push_operand].
    change (if 15 <? 9 then 9 - 15 else 0) with 0.
    rewrite !lo_nib by assumption.
    apply N.eqb_neq in Hne. rewrite Hne, read_le_app2 by exact Hv.
    split; [reflexivity|]. rewrite Nat.add_0_r. reflexivity.
  - (* push generic *)
    apply word32_256 in Hok.
    cbn [app view size_of length second]. rewrite push_head_cmd, le_bytes_length.
    rewrite !push_stype_head by lia.
    cbn [second push_operand].
    change (lo (push_second 9 0) =? 0) with true. cbv iota.
    rewrite read_le_app2 by exact Hok. split; reflexivity.
  - (* push object *)
    destruct Hok as (Ho & Hr). apply word32_256 in Hr.
    cbn [app view size_of length second]. rewrite push_head_cmd, le_bytes_length.
    change (hi (push_second 16 0)) with 1.
    rewrite !push_stype_head by (try lia; left; rewrite hi_nib by lia; reflexivity).
    cbn [second push_operand].
    rewrite lo_nib by assumption. rewrite read_le_app2 by exact Hr. split; reflexivity.
  - (* plain *)
    inlist Hok; cbn [app]; split; reflexivity.
  - (* convert *)
    destruct Hok as (H1 & H2).
    cbn [app view size_of length second]. rewrite push_head_cmd.
    change (hi (push_second 19 0)) with 4.
    rewrite !push_stype_head by (try lia; left; rewrite hi_nib by lia; reflexivity).
    cbn [second push_operand].
    rewrite lo_nib by assumption.
    change ((dt2 mod 256) :: x) with (le_bytes 1 dt2 ++ x).
    rewrite read_le_app2 by (change (256 ^ N.of_nat 1) with 256; lia).
    split; reflexivity.
  - (* box *)
    destruct Hok as (Hs & Hb & Hr). apply word32_256 in Hr.
    cbn [app view size_of length second]. rewrite push_head_cmd, le_bytes_length.
    inlist Hs;
      [change (hi (push_second 20 0)) with 5 | change (hi (push_second 21 0)) with 6];
      (rewrite !push_stype_head by (try lia; left; rewrite hi_nib by lia; reflexivity));
      cbn [second push_operand]; rewrite lo_nib by assumption;
      rewrite read_le_app2 by exact Hr; split; reflexivity.
  - (* pop empty *)
    destruct Hok as (H1 & H2). apply N.eqb_neq in H2.
    cbn [app view size_of length second]. heads. cbn [pop_operand]. heads. rewrite H2.
    split; reflexivity.
  - (* pop struct *)
    apply word32_256 in Hok.
    cbn [app view size_of length second]. rewrite le_bytes_length. heads. cbn [pop_operand].
    change (lo (nib 0 0) =? 0) with true. cbv iota.
    rewrite read_le_app2 by exact Hok. split; reflexivity.
  - (* pop id *)
    destruct Hok as (Hs & Hdt & Hid).
    pose proof (get_identity_app (header2 2 s) dt id x Hid) as Hg.
    pose proof (id_extra_length dt id) as Hl.
    cbn [app view size_of length second].
    rewrite Hl.
    inlist Hs; heads;
      cbn [second pop_operand]; rewrite Hg; cbn [option_map]; split; auto;
      heads; rewrite ?Nat.add_0_r; try reflexivity.
    all: assert (Hn : id_nibble id <> 15) by (apply id_nibble_small, Hw; cbn; auto);
      apply N.eqb_neq in Hn; rewrite Hn; reflexivity.
  - (* pop ref *)
    destruct Hok as (Hs & Hdt & Hr). apply word32_256 in Hr.
    cbn [app view size_of length second]. rewrite le_bytes_length.
    inlist Hs; try (exfalso; apply Hw; cbn; tauto);
      heads; cbn [pop_operand];
      rewrite read_le_app2 by exact Hr; split; reflexivity.
  - (* pick id *)
    destruct Hok as (Hs & Hdt & Hid).
    pose proof (get_identity_app (header2 3 s) dt id x Hid) as Hg.
    pose proof (id_extra_length dt id) as Hl.
    cbn [app view size_of length second].
    rewrite Hl.
    inlist Hs; heads;
      cbn [second pick_operand]; rewrite Hg; cbn [option_map]; split; auto;
      heads; rewrite ?Nat.add_0_r; try reflexivity.
    all: assert (Hn : id_nibble id <> 15) by (apply id_nibble_small, Hw; cbn; auto);
      apply N.eqb_neq in Hn; rewrite Hn; reflexivity.
  - (* pick ref *)
    destruct Hok as (Hs & Hdt & Hr). apply word32_256 in Hr.
    cbn [app view size_of length second]. rewrite le_bytes_length.
    inlist Hs; try (exfalso; apply Hw; cbn; tauto);
      heads; cbn [pick_operand];
      rewrite read_le_app2 by exact Hr; split; reflexivity.
  - (* call *)
    destruct Hok as (Hc & Hne & Hr). apply word32_256 in Hr. apply N.eqb_neq in Hne.
    cbn [app view size_of length second]. rewrite le_bytes_length. heads.
    rewrite Hne, read_le_app1 by exact Hr. split; reflexivity.
  - (* call command *)
    cbn [app view size_of length second]. heads.
    change (5 =? 5) with true. cbv iota.
    change ((c mod 256) :: x) with (le_bytes 1 c ++ x).
    rewrite read_le_app1 by (change (256 ^ N.of_nat 1) with 256; lia).
    split; reflexivity.
  - (* jmp *)
    destruct Hok as (Hm & Hne & Hst).
    destruct (set_step_ok step Hst) as (d & bs & E & Hd & Hg & Hl).
    rewrite E in Him. apply some_inj in Him; subst im.
    cbn [app view size_of length second]. rewrite !h_command2, !h_data2 by lia.
    rewrite Hg by lia. unfold jmp_operand. rewrite Hl.
    replace ((model mod 8 + 8 * d) mod 8) with model by lia.
    replace ((model mod 8 + 8 * d) / 8) with d by lia.
    apply N.eqb_neq in Hne. rewrite Hne.
    split; [reflexivity|]. f_equal. lia.
  - (* switch *)
    destruct (N.leb_spec tbl 255); [|discriminate]. apply some_inj in Him; subst im.
    cbn [app view size_of length second]. heads.
    change (3 mod 8 =? 3) with true. cbv iota.
    replace (tbl :: x) with (le_bytes 1 tbl ++ x)
      by (cbn; rewrite N.mod_small by lia; reflexivity).
    rewrite read_le_app1 by (change (256 ^ N.of_nat 1) with 256; lia).
    split; reflexivity.
  - cbn [app view size_of length second]. heads. split; reflexivity.
  - destruct Hok as (H1 & H2 & H3). cbn [app view size_of length second]. heads. split; reflexivity.
  - destruct Hok as (H1 & H2 & H3). cbn [app view size_of length second]. heads. split; reflexivity.
  - destruct Hok as (H1 & H2 & H3). cbn [app view size_of length second]. heads. split; reflexivity.
  - cbn [app view size_of length second]. heads. split; reflexivity.
  - (* cast *)
    destruct Hok as (Hc & Hr). apply word32_256 in Hr.
    cbn [app view size_of length second]. rewrite le_bytes_length. heads.
    rewrite read_le_app1 by exact Hr. split; reflexivity.
  - (* new *)
    destruct Hok as (Hc & Hne & Hr). apply word32_256 in Hr. apply N.eqb_neq in Hne.
    cbn [app view size_of length second]. rewrite le_bytes_length. heads.
    rewrite Hne, read_le_app1 by exact Hr. split; reflexivity.
  - (* new allocs *)
    destruct Hok as (Hr & Hc). apply word32_256 in Hr. apply word32_256 in Hc.
    cbn [app view size_of length second]. rewrite app_length, !le_bytes_length. heads.
    change (4 =? 4) with true. cbv iota.
    rewrite <- app_assoc.
    rewrite read_le_app1 by exact Hr.
    pose proof (read_le_app (header2 12 4 :: le_bytes 4 r) 4 count x Hc) as E.
    change (length (header2 12 4 :: le_bytes 4 r)) with 5%nat in E.
    cbn [app] in E. rewrite E. split; reflexivity.
  - (* copy *)
    destruct Hok as (Ht & Hk & Hr). apply word32_256 in Hr.
    cbn [app view size_of length second]. rewrite le_bytes_length. heads.
    assert (ty < 16) by (inlist Ht; lia).
    rewrite read_le_app2 by exact Hr. rewrite lo_nib by assumption.
    inlist Ht; split; reflexivity.
  - (* init *)
    destruct Hok as (H1 & H2 & H3). apply N.eqb_neq in H3.
    cbn [app view size_of length second]. heads. rewrite H3. split; reflexivity.
  - (* init ref *)
    destruct Hok as (H1 & Hr). apply word32_256 in Hr.
    cbn [app view size_of length second]. rewrite le_bytes_length. heads.
    change (0 =? 0) with true. cbv iota.
    rewrite read_le_app2 by exact Hr. split; reflexivity.
Qed.

(** *** Lists of instructions *)

Definition fits (p : xinstr * list N) : Prop :=
  operands_ok (fst p) /\ written_whole (fst p) /\ pool_slack (fst p) (snd p).

Lemma image_total i : operands_ok i -> exists im, image i = Some im.
Proof.
  intros H. destruct i; cbn [image]; eauto.
  - destruct H as (_ & _ & H). destruct (set_step_ok step H) as (d & bs & -> & _). eauto.
  - cbn in H. destruct (N.leb_spec tbl 255); eauto; lia.
Qed.

Lemma image_nonempty i im : image i = Some im -> (1 <= length im)%nat.
Proof.
  destruct i; cbn [image];
    try (intros E; apply some_inj in E; subst im; cbn [length]; lia).
  - destruct (set_step step) as [[]|]; [|discriminate].
    intros E; apply some_inj in E; subst im; cbn [length]; lia.
  - destruct (tbl <=? 255); [|discriminate].
    intros E; apply some_inj in E; subst im; cbn [length]; lia.
Qed.

Lemma write1_spec i junk : fits (i, junk) ->
  exists bs, write1 i junk = Some bs /\ (1 <= length bs)%nat /\
    forall x, view (bs ++ x) = Some i /\ size_of (bs ++ x) = Some (length bs).
Proof.
  intros (Hok & Hw & Hj); cbn [fst snd] in *.
  destruct (image_total i Hok) as [im Him].
  pose proof (image_spec i im Hok Hw Him) as Hs.
  pose proof (image_nonempty i im Him) as Hne.
  unfold write1. rewrite Him.
  destruct (Hs junk) as [_ ->].
  eexists; split; [reflexivity|].
  assert (Hp : (pad i <= length junk)%nat)
    by (destruct i; cbn [pad pool_slack] in *; lia).
  rewrite firstn_app, firstn_all2 by lia.
  replace (length im + pad i - length im)%nat with (pad i) by lia.
  split; [rewrite app_length; lia|].
  intros x. rewrite <- app_assoc. destruct (Hs (firstn (pad i) junk ++ x)) as [-> ->].
  split; auto. f_equal. rewrite app_length, firstn_length. lia.
Qed.

Lemma stream_round_trip is : Forall fits is ->
  exists bs, write_all is = Some bs /\
    read_all (S (length is)) bs = Some (map fst is).
Proof.
  induction 1 as [|[i junk] is Hi _ (bs & Hw & Hr)].
  - exists []. split; reflexivity.
  - destruct (write1_spec i junk Hi) as (b1 & Hw1 & Hlen & Hs).
    cbn [write_all]. rewrite Hw1, Hw.
    exists (b1 ++ bs). split; [reflexivity|].
    cbn [length map fst]. remember (S (length is)) as f. cbn [read_all].
    destruct (Hs bs) as [Hv Hz]. unfold read. rewrite Hz.
    destruct (b1 ++ bs) as [|h t] eqn:E.
    { apply (f_equal (@length N)) in E. rewrite app_length in E. cbn in E. lia. }
    rewrite <- E in *. rewrite app_length.
    replace (length b1 - (length b1 + length bs))%nat with 0%nat by lia.
    cbn [Nat.ltb Nat.leb]. rewrite Hv.
    rewrite skipn_app, skipn_all, Nat.sub_diag. cbn [app skipn].
    rewrite Hr. reflexivity.
Qed.

(** *** Reader progress *)

Lemma size_of_known h rest n : known_command h -> size_of (h :: rest) = Some n -> (1 <= n)%nat.
Proof.
  unfold known_command. intros H. cbn [size_of].
  assert (D : h_command h = 0 \/ h_command h = 1 \/ h_command h = 2 \/ h_command h = 3 \/
    h_command h = 4 \/ h_command h = 5 \/ h_command h = 6 \/ h_command h = 7 \/ h_command h = 8 \/
    h_command h = 9 \/ h_command h = 10 \/ h_command h = 11 \/ h_command h = 12 \/
    h_command h = 15 \/ h_command h = 16) by lia.
  repeat (destruct D as [->|D]); try rewrite D; unfold second;
    destruct rest; intros E; try discriminate; apply some_inj in E; subst n; try lia.
  all: try (destruct (h_data h =? 4); lia).
  all: repeat match goal with |- context [if ?c then _ else _] => destruct c end; lia.
Qed.

Lemma size_of_unknown h rest : h < 256 -> ~ known_command h -> size_of (h :: rest) = Some 0%nat.
Proof.
  unfold known_command. intros Hb H. cbn [size_of].
  assert (B : h_command h < 31)
    by (unfold h_command; destruct (N.eqb_spec (h mod 16) 15); lia).
  assert (D : h_command h = 13 \/ h_command h = 14 \/ 17 <= h_command h) by lia.
  destruct D as [->|[->|D]]; auto.
  remember (h_command h) as c eqn:Ec. clear Ec H.
  assert (D' : In c [17;18;19;20;21;22;23;24;25;26;27;28;29;30]) by (cbn; lia).
  inlist D'; reflexivity.
Qed.

Lemma read_advances h t rest over : known_command h -> read (h :: t) = ReadOk rest over ->
  (length rest < length (h :: t))%nat.
Proof.
  intros Hk. unfold read. destruct (size_of (h :: t)) as [n|] eqn:E; [|discriminate].
  pose proof (size_of_known _ _ _ Hk E) as Hn.
  intros [= <- <-]. change (match n with O => h :: t | S m => skipn m t end) with (skipn n (h :: t)).
  rewrite skipn_length. cbn [length]. lia.
Qed.

Lemma read_stuck h t : h < 256 -> ~ known_command h -> read (h :: t) = ReadOk (h :: t) 0.
Proof.
  intros Hb Hk. unfold read. rewrite size_of_unknown by auto. cbn [skipn]. f_equal.
Qed.

Lemma known_dec h : known_command h \/ ~ known_command h.
Proof. unfold known_command. lia. Qed.

Lemma reader_outcome l : Forall (fun b => b < 256) l ->
  exists k l', (k <= length l)%nat /\ reads_to k l l' /\
    (l' = [] \/ read l' = ReadOob \/
     (exists h t, l' = h :: t /\ ~ known_command h /\ read l' = ReadOk l' 0)).
Proof.
  remember (length l) as n eqn:En. revert l En.
  induction n as [n IH] using lt_wf_ind. intros l En Hb.
  destruct l as [|h t].
  { exists 0%nat, []. repeat split; auto; [lia|constructor]. }
  inversion Hb as [|? ? Hh Ht]; subst.
  destruct (known_dec h) as [Hk|Hk].
  - destruct (read (h :: t)) as [|rest over|] eqn:E.
    + unfold read in E. destruct (size_of (h :: t)); discriminate.
    + pose proof (read_advances _ _ _ _ Hk E) as Hl.
      assert (Hr : Forall (fun b => b < 256) rest).
      { unfold read in E. destruct (size_of (h :: t)) as [m|]; [|discriminate].
        assert (rest = skipn m (h :: t)) as -> by congruence.
        rewrite <- (firstn_skipn m (h :: t)) in Hb. apply Forall_app in Hb. tauto. }
      destruct (IH (length rest) Hl rest eq_refl Hr) as (k & l' & H1 & H2 & H3).
      exists (S k), l'. split; [lia|]. split; auto. econstructor; eauto.
    + exists 0%nat, (h :: t). split; [lia|]. split; [constructor|]. auto.
  - exists 0%nat, (h :: t). split; [lia|]. split; [constructor|].
    right; right. exists h, t. split; [auto|]. split; [auto|]. apply read_stuck; auto.
Qed.

(** *** Refs *)

Lemma ref_u32_inj a b : ref_fits a -> ref_fits b -> ref_u32 a = ref_u32 b -> a = b.
Proof.
  intros (A1 & A2 & A3) (B1 & B2 & B3). destruct a as [i e c], b as [i' e' c'].
  unfold ref_u32; cbn [r_index r_extra r_count] in *.
  change (2 ^ 20) with 1048576 in *. change (2 ^ 3) with 8 in *. change (2 ^ 9) with 512 in *.
  intros H. assert (i = i') by lia. subst. assert (e = e') by lia. subst.
  assert (c = c') by lia. subst. reflexivity.
Qed.

Lemma ref_round_trip r : ref_fits r ->
  ref_of_u32 (ref_u32 r) = r /\ new_ref (r_index r) (r_count r) (r_extra r) = r /\ ref_u32 r < 2 ^ 32.
Proof.
  intros (A1 & A2 & A3). destruct r as [i e c].
  unfold ref_u32, ref_of_u32, new_ref; cbn [r_index r_extra r_count] in *.
  change (2 ^ 32) with 4294967296. change (2 ^ 23) with 8388608.
  change (2 ^ 20) with 1048576 in *. change (2 ^ 3) with 8 in *. change (2 ^ 9) with 512 in *.
  split; [|split; [|lia]].
  - f_equal; lia.
  - rewrite !N.mod_small by lia. reflexivity.
Qed.

Lemma ref_loop_spec e0 x0 : e0 < 2 ^ 20 ->
  forall n i, i < 2 ^ 20 -> N.of_nat n < 2 ^ 20 -> (i + N.of_nat n) mod 2 ^ 20 = e0 ->
  ref_loop (S n) (mkref i x0 1) (mkref e0 x0 1) =
  Some (map (fun k => mkref ((i + N.of_nat k) mod 2 ^ 20) x0 1) (seq 0 n)).
Proof.
  change (2 ^ 20) with 1048576.
  intros He. induction n as [|n IH]; intros i Hi Hn E.
  - assert (i = e0) by lia. subst i. cbn [ref_loop].
    unfold ref_eqb. rewrite N.eqb_refl. reflexivity.
  - cbn [ref_loop].
    assert (i <> e0) by lia.
    assert (ref_eqb (mkref i x0 1) (mkref e0 x0 1) = false) as ->.
    { unfold ref_eqb, ref_u32; cbn [r_index r_extra r_count].
      change (1 =? 0) with false. cbn [andb]. rewrite orb_false_r. apply N.eqb_neq. lia. }
    unfold ref_next at 1; cbn [r_index r_extra r_count]. change (2 ^ 20) with 1048576.
    cbn [ref_loop] in IH. rewrite IH; [|lia|lia|lia].
    cbn [option_map seq map]. f_equal. f_equal.
    + rewrite N.add_0_r, N.mod_small by lia. reflexivity.
    + rewrite <- seq_shift, map_map. apply map_ext. intros k. f_equal. lia.
Qed.

Lemma ref_iteration r : ref_fits r ->
  ref_loop (S (N.to_nat (r_count r))) (ref_begin r) (ref_end r) =
  Some (map (fun k => mkref ((r_index r + N.of_nat k) mod 2 ^ 20) (r_extra r) 1)
            (seq 0 (N.to_nat (r_count r)))).
Proof.
  intros (A1 & A2 & A3). destruct r as [i e c]; cbn [r_index r_extra r_count] in *.
  unfold ref_begin, ref_end, new_ref; cbn [r_index r_extra r_count].
  change (1 mod 2 ^ 9) with 1. rewrite (N.mod_small e) by auto. rewrite (N.mod_small i) by auto.
  change (2 ^ 20) with 1048576 in *. change (2 ^ 9) with 512 in *.
  apply ref_loop_spec; change (2 ^ 20) with 1048576; try lia.
Qed.

Lemma denotes_length r : length (denotes r) = N.to_nat (r_count r).
Proof. unfold denotes. rewrite map_length, seq_length. reflexivity. Qed.

Lemma ref_eq_denotes a b : ref_fits a -> ref_fits b ->
  (ref_eqb a b = true <-> denotes a = denotes b).
Proof.
  intros Ha Hb. unfold ref_eqb.
  rewrite orb_true_iff, andb_true_iff, !N.eqb_eq. split.
  - intros [H|[H1 H2]].
    + apply ref_u32_inj in H; auto. subst; auto.
    + unfold denotes. rewrite H1, H2. reflexivity.
  - intros H.
    assert (L : r_count a = r_count b)
      by (apply (f_equal (@length (N * N))) in H; rewrite !denotes_length in H; lia).
    destruct (N.eq_dec (r_count a) 0) as [Z|Z]; [right; lia|left].
    f_equal. destruct a as [i e c], b as [i' e' c']; cbn [r_index r_extra r_count] in *.
    subst c'. unfold denotes in H; cbn [r_index r_extra r_count] in H.
    destruct (N.to_nat c) as [|m] eqn:E; [lia|].
    cbn [seq map] in H. injection H as E1 E2 _. f_equal; lia.
Qed.

(** *** Forms used by the property file *)

Lemma header2_round_trip cmd payload : cmd < 15 -> payload < 16 ->
  h_command (header2 cmd payload) = cmd /\ h_data (header2 cmd payload) = payload
  /\ header2 cmd payload < 256.
Proof.
  intros. split; [apply h_command2; auto|]. split; [apply h_data2; auto|].
  unfold header2. lia.
Qed.

Lemma header1_round_trip cmd : cmd < 31 -> h_command (header1 cmd) = cmd /\ header1 cmd < 256.
Proof.
  intros. split; [apply h_command1; auto|]. unfold header1. destruct (15 <=? cmd); lia.
Qed.

Lemma push_storage_round_trip s dt : s <= 30 -> dt < 16 ->
  h_command (push_head s) = 1 /\
  push_stype (push_head s) (push_second s dt) = s /\ lo (push_second s dt) = dt.
Proof.
  intros Hs Hd. split; [apply push_head_cmd|]. split; [|apply lo_nib; auto].
  unfold push_stype, push_head, push_second.
  destruct (N.leb_spec 15 s).
  - rewrite h_data2 by lia. change (15 =? 15) with true. cbv iota.
    rewrite hi_nib; destruct (N.ltb_spec 15 s); lia.
  - rewrite h_data2 by lia. destruct (N.eqb_spec s 15); lia.
Qed.

Lemma stream_round_trip_in (is : list (xinstr * list N)) :
  (forall i junk, In (i, junk) is ->
     operands_ok i /\ written_whole i /\ pool_slack i junk) ->
  exists bs, write_all is = Some bs /\
    read_all (S (length is)) bs = Some (map fst is).
Proof.
  intros H. apply stream_round_trip. apply Forall_forall. intros [i junk] Hin.
  apply (H i junk Hin).
Qed.

Ltac bad := repeat split; cbn; unfold nibble, word32; try lia; try tauto; try discriminate.

Lemma lost_identity : exists i j, operands_ok i /\ operands_ok j /\ i <> j /\
    write_all [(i, [])] = write_all [(j, [])] /\
    (forall f bs, write_all [(i, [])] = Some bs -> read_all f bs <> Some [i]).
Proof.
  exists (XPushId 10 5 20), (XPushId 10 5 21). bad.
  intros f bs [= <-]. destruct f as [|[|f]]; cbn; discriminate.
Qed.

Lemma lost_pop_identity : exists i j, operands_ok i /\ operands_ok j /\ i <> j /\
    (exists s dt id, i = XPopId s dt id) /\
    write_all [(i, [])] = write_all [(j, [])].
Proof.
  exists (XPopId 6 5 20), (XPopId 6 5 21). bad. do 3 eexists; reflexivity.
Qed.

Lemma lost_ref : exists i j, operands_ok i /\ operands_ok j /\ i <> j /\
    (exists s dt r, i = XPushRef s dt r) /\
    write_all [(i, [])] = write_all [(j, [])].
Proof.
  exists (XPushRef 12 5 20), (XPushRef 12 5 21). bad. do 3 eexists; reflexivity.
Qed.

Lemma jump_round_trip model step : model < 8 -> (-8388608 <= step <= 8388607)%Z ->
  exists bs, image (XJmp model step) = Some bs /\ forall rest, get_step (bs ++ rest) = Some step.
Proof.
  intros Hm H. cbn [image]. destruct (set_step_ok step H) as (d & bs & -> & _ & Hg & _).
  eexists; split; [reflexivity|]. intros rest. cbn [app]. apply Hg; auto.
Qed.

Lemma jump_rejected model step : ~ (-8388608 <= step <= 8388607)%Z -> image (XJmp model step) = None.
Proof. intros H. cbn [image]. rewrite set_step_out; auto. Qed.

Lemma ref_packing index count extra : index < 2 ^ 20 -> count < 2 ^ 9 -> extra < 2 ^ 3 ->
  let r := ref_of_u32 (ref_u32 (new_ref index count extra)) in
  r_index r = index /\ r_count r = count /\ r_extra r = extra.
Proof.
  intros H1 H2 H3.
  assert (E : new_ref index count extra = mkref index extra count)
    by (unfold new_ref; rewrite !N.mod_small by auto; reflexivity).
  assert (F : ref_fits (mkref index extra count)) by (split; auto).
  cbv zeta. rewrite E. destruct (ref_round_trip _ F) as [-> _]. auto.
Qed.

Lemma ref_unpacking w : w < 2 ^ 32 -> ref_u32 (ref_of_u32 w) = w.
Proof.
  unfold ref_u32, ref_of_u32; cbn [r_index r_extra r_count].
  change (2 ^ 32) with 4294967296. change (2 ^ 23) with 8388608.
  change (2 ^ 20) with 1048576. change (2 ^ 3) with 8. change (2 ^ 9) with 512.
  intros. lia.
Qed.

Lemma ref_iteration_denotes r : ref_fits r -> r_index r + r_count r <= 2 ^ 20 ->
  option_map (map (fun x => (r_extra x, r_index x)))
    (ref_loop (S (N.to_nat (r_count r))) (ref_begin r) (ref_end r)) = Some (denotes r).
Proof.
  intros Hf Hi. rewrite (ref_iteration r Hf). cbn [option_map]. f_equal.
  rewrite map_map. cbn [r_index r_extra]. unfold denotes.
  apply map_ext_in. intros k Hk. apply in_seq in Hk.
  rewrite N.mod_small by lia. reflexivity.
Qed.

Lemma ref_truncated : exists index count extra, r_index (new_ref index count extra) <> index /\
    r_count (new_ref index count extra) <> count.
Proof. exists 1048576, 512, 0. vm_compute. split; discriminate. Qed.

Lemma reader_loops : exists l, forall k, reads_to k l l.
Proof.
  exists [13]. induction k; [constructor|]. apply (RTS k [13] [13] [13] 0); auto.
Qed.

Lemma reader_overruns : exists l rest over, read l = ReadOk rest over /\ (0 < over)%nat.
Proof. exists [4; 0], [], 3%nat. split; [reflexivity|lia]. Qed.

Lemma reader_outcome_in l : (forall b, In b l -> b < 256) ->
  exists k l', (k <= length l)%nat /\ reads_to k l l' /\
    (l' = [] \/ read l' = ReadOob \/
     (exists h t, l' = h :: t /\ ~ known_command h /\ read l' = ReadOk l' 0)).
Proof. intros H. apply reader_outcome. apply Forall_forall. exact H. Qed.
