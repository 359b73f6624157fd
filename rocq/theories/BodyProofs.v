(** Proofs about method bodies. *)
From Coq Require Import ZArith List Bool Lia Sorting.Sorted Sorting.Permutation.
From Verif Require Import CommonModel CommonProofs BodyModel BodySpec.
Import ListNotations.
Open Scope Z_scope.

(* ------------------------------------------------------------------ *)
(** * Numbers *)

Lemma bytes_length n : forall v, length (bytes_of n v) = n.
Proof. induction n as [|n IH]; intros v; cbn [bytes_of length]; [reflexivity | now rewrite IH]. Qed.

Lemma value_bytes n : forall v, value_of (bytes_of n v) = v mod 2 ^ (8 * Z.of_nat n).
Proof.
  induction n as [|n IH]; intros v.
  - cbn [bytes_of value_of]. change (8 * Z.of_nat 0) with 0. now rewrite Z.pow_0_r, Z.mod_1_r.
  - cbn [bytes_of value_of]. rewrite IH.
    replace (8 * Z.of_nat (S n)) with (8 + 8 * Z.of_nat n) by lia.
    rewrite Z.pow_add_r by lia. change (2 ^ 8) with 256.
    rewrite Z.rem_mul_r; [lia | lia | apply Z.pow_pos_nonneg; lia].
Qed.

Lemma value_unsigned n v : unsigned (8 * Z.of_nat n) v -> value_of (bytes_of n v) = v.
Proof. intros H. rewrite value_bytes. apply Z.mod_small. exact H. Qed.

Lemma value_signed n v : (0 < n)%nat -> signed (8 * Z.of_nat n) v ->
  signed_of n (value_of (bytes_of n v)) = v.
Proof.
  intros Hn [L R]. rewrite value_bytes. unfold signed_of.
  assert (E : 2 ^ (8 * Z.of_nat n) = 2 * 2 ^ (8 * Z.of_nat n - 1)).
  { rewrite <- Z.pow_succ_r by lia. f_equal. lia. }
  assert (0 < 2 ^ (8 * Z.of_nat n - 1)) by (apply Z.pow_pos_nonneg; lia).
  destruct (Z_lt_le_dec v 0) as [N|N].
  - assert (M : v mod 2 ^ (8 * Z.of_nat n) = v + 2 ^ (8 * Z.of_nat n)).
    { symmetry. apply Z.mod_unique with (-1); [left; lia | lia]. }
    rewrite M. destruct (Z.ltb_spec (v + 2 ^ (8 * Z.of_nat n)) (2 ^ (8 * Z.of_nat n - 1))); lia.
  - rewrite Z.mod_small by lia.
    destruct (Z.ltb_spec v (2 ^ (8 * Z.of_nat n - 1))); lia.
Qed.

Lemma firstn_bytes n v l : firstn n (bytes_of n v ++ l) = bytes_of n v.
Proof.
  rewrite firstn_app, bytes_length, Nat.sub_diag, firstn_O, app_nil_r.
  rewrite <- (bytes_length n v) at 1. apply firstn_all.
Qed.

Lemma skipn_bytes n v l : skipn n (bytes_of n v ++ l) = l.
Proof.
  rewrite skipn_app, bytes_length, Nat.sub_diag, skipn_O.
  rewrite <- (bytes_length n v) at 1. now rewrite skipn_all.
Qed.

Lemma read_bytes_app n v l : read_bytes n (bytes_of n v ++ l) = Got (bytes_of n v) l.
Proof.
  unfold read_bytes. rewrite app_length, bytes_length.
  destruct (Nat.ltb_spec (n + length l) n); [lia|]. now rewrite firstn_bytes, skipn_bytes.
Qed.

Lemma read_uint_app n v l : unsigned (8 * Z.of_nat n) v ->
  read_uint n (bytes_of n v ++ l) = Got v l.
Proof. intros H. unfold read_uint. rewrite read_bytes_app. cbn [bind]. now rewrite value_unsigned. Qed.

Lemma read_int_app n v l : (0 < n)%nat -> signed (8 * Z.of_nat n) v ->
  read_int n (bytes_of n v ++ l) = Got v l.
Proof. intros N H. unfold read_int. rewrite read_bytes_app. cbn [bind]. now rewrite value_signed. Qed.

(* ------------------------------------------------------------------ *)
(** * Parts *)

Lemma read_stub_app type count l : 0 <= type < 16 ->
  read_stub type (stub type count ++ l) = Got (Some (count mod 2 ^ 16)) l.
Proof.
  intros H. unfold stub. cbn [app read_stub]. rewrite Z.mod_small by exact H. rewrite Z.eqb_refl.
  cbn [length]. rewrite app_length, bytes_length.
  destruct (Nat.ltb_spec (S (S (2 + length l))) 4); [lia|].
  change (skipn 2 (type :: 0 :: bytes_of 2 count ++ l)) with (bytes_of 2 count ++ l).
  change (skipn 4 (type :: 0 :: bytes_of 2 count ++ l)) with (skipn 2 (bytes_of 2 count ++ l)).
  rewrite firstn_bytes, skipn_bytes, value_bytes. reflexivity.
Qed.

Lemma read_stub_other type type' count l : 0 <= type' < 16 -> type <> type' ->
  read_stub type (stub type' count ++ l) = Got None (stub type' count ++ l).
Proof.
  intros H N. unfold stub. cbn [app read_stub]. rewrite Z.mod_small by exact H.
  destruct (Z.eqb_spec type' type); [congruence | reflexivity].
Qed.

Lemma read_times_app {A B : Type} (f : list Z -> read_result B) (w : A -> list Z) (g : A -> B) :
  forall l rest, (forall a r, In a l -> f (w a ++ r) = Got (g a) r) ->
  read_times (length l) f (flat_map w l ++ rest) = Got (map g l) rest.
Proof.
  induction l as [|a l IH]; intros rest H; cbn [length read_times flat_map map]; [reflexivity|].
  rewrite <- app_assoc. rewrite H by (now left). cbn [bind].
  rewrite IH by (intros; apply H; now right). reflexivity.
Qed.

Lemma read_part_app {A B : Type} type (f : list Z -> read_result B) (w : A -> list Z) (g : A -> B) l rest :
  0 <= type < 16 -> Z.of_nat (length l) < 2 ^ 16 ->
  (forall a r, In a l -> f (w a ++ r) = Got (g a) r) ->
  read_part type f (stub type (Z.of_nat (length l)) ++ flat_map w l ++ rest) = Got (map g l) rest.
Proof.
  intros T L H. unfold read_part. rewrite read_stub_app by exact T. cbn [bind].
  rewrite Z.mod_small by lia. rewrite Nat2Z.id. now apply read_times_app.
Qed.

Lemma concat_flat_map {A : Type} (w : A -> list (list Z)) l :
  concat (flat_map w l) = flat_map (fun a => concat (w a)) l.
Proof.
  induction l as [|a l IH]; cbn [flat_map concat]; [reflexivity|]. now rewrite concat_app, IH.
Qed.

(** *** Variables *)

Lemma insert_perm v l : Permutation (insert_variable v l) (v :: l).
Proof.
  induction l as [|w l IH]; cbn [insert_variable]; [reflexivity|].
  destruct (v_identity v <=? v_identity w); [reflexivity|].
  rewrite IH. apply perm_swap.
Qed.

Lemma sort_perm l : Permutation (sort_variables l) l.
Proof.
  induction l as [|v l IH]; cbn [sort_variables]; [reflexivity|].
  rewrite insert_perm. now constructor.
Qed.

Lemma insert_sorted v l : Sorted (fun v w => v_identity v <= v_identity w) l ->
  Sorted (fun v w => v_identity v <= v_identity w) (insert_variable v l).
Proof.
  induction l as [|w l IH]; intros H; cbn [insert_variable].
  - repeat constructor.
  - destruct (Z.leb_spec (v_identity v) (v_identity w)) as [L|L].
    + constructor; [exact H | constructor; exact L].
    + inversion H as [|? ? H1 H2]; subst. constructor; [now apply IH|].
      destruct l as [|u l]; cbn [insert_variable].
      * constructor. lia.
      * destruct (v_identity v <=? v_identity u); constructor; [lia|].
        now inversion H2.
Qed.

Lemma sort_sorted l : Sorted (fun v w => v_identity v <= v_identity w) (sort_variables l).
Proof. induction l as [|v l IH]; cbn [sort_variables]; [constructor | now apply insert_sorted]. Qed.

Definition variable_bytes (v : variable) : list Z :=
  bytes_of 4 (v_type v) ++ bytes_of 2 (v_index v).

Lemma read_variable_app v r : unsigned 32 (v_type v) -> unsigned 16 (v_index v) ->
  read_variable (variable_bytes v ++ r) = Got (v_type v, v_index v) r.
Proof.
  intros H1 H2. unfold read_variable, variable_bytes. rewrite <- app_assoc.
  rewrite (read_uint_app 4) by exact H1. cbn [bind].
  rewrite (read_uint_app 2) by exact H2. reflexivity.
Qed.

Lemma variables_bytes vs : vs <> [] ->
  concat (write_variables vs) =
  stub stub_variable (Z.of_nat (length vs)) ++ flat_map variable_bytes (sort_variables vs).
Proof.
  intros H. destruct vs as [|v vs]; [contradiction|]. unfold write_variables.
  cbn [concat]. f_equal. rewrite concat_flat_map. apply flat_map_ext. intros a.
  cbn [concat]. now rewrite app_nil_r.
Qed.

(** The part after the variables begins with the stub of the tables. *)
Lemma read_variables vs n rest : Z.of_nat (length vs) < 2 ^ 16 ->
  (forall v, In v vs -> unsigned 32 (v_type v) /\ unsigned 16 (v_index v)) ->
  read_part stub_variable read_variable
    (concat (write_variables vs) ++ stub stub_switch n ++ rest) =
  Got (map (fun v => (v_type v, v_index v)) (sort_variables vs)) (stub stub_switch n ++ rest).
Proof.
  intros L R. destruct vs as [|v0 vs0].
  - cbn [write_variables concat app]. unfold read_part.
    rewrite read_stub_other; [reflexivity | unfold stub_switch; lia | discriminate].
  - set (vs := v0 :: vs0) in *. rewrite variables_bytes by discriminate. rewrite <- app_assoc.
    rewrite <- (Permutation_length (sort_perm vs)) in L |- *.
    apply read_part_app; [unfold stub_variable; lia | exact L|].
    intros v r Hv. destruct (R v) as [R1 R2].
    + apply Permutation_in with (sort_variables vs); [apply sort_perm | exact Hv].
    + now apply read_variable_app.
Qed.

(** *** Tables *)

Definition row_bytes (r : row) : list Z := bytes_of 4 (fst r) ++ bytes_of 4 (snd r).

Lemma read_row_app r rest : signed 32 (fst r) -> signed 32 (snd r) ->
  read_row (row_bytes r ++ rest) = Got r rest.
Proof.
  intros H1 H2. unfold read_row, row_bytes. rewrite <- app_assoc.
  rewrite (read_int_app 4) by (exact H1 || lia). cbn [bind].
  rewrite (read_int_app 4) by (exact H2 || lia). destruct r; reflexivity.
Qed.

Definition exec_of (t : table) : exec_table :=
  mk_exec_table (signed_of 2 (Z.of_nat (length (t_rows t)))) (t_default t) (t_rows t).

Lemma table_bytes t : Z.of_nat (length (t_rows t)) < 2 ^ 16 ->
  concat (write_table t) =
  bytes_of 2 (Z.of_nat (length (t_rows t))) ++ bytes_of 2 0 ++ bytes_of 4 (t_default t) ++
  flat_map row_bytes (t_rows t).
Proof.
  intros L. unfold write_table, row_count. rewrite Z.mod_small by lia. rewrite Nat2Z.id, firstn_all.
  cbn [concat]. rewrite <- app_assoc. do 3 f_equal.
  rewrite concat_flat_map. apply flat_map_ext. intros a. cbn [concat]. now rewrite app_nil_r.
Qed.

Lemma read_table_app t rest : Z.of_nat (length (t_rows t)) < 2 ^ 16 -> signed 32 (t_default t) ->
  (forall r, In r (t_rows t) -> signed 32 (fst r) /\ signed 32 (snd r)) ->
  read_table (concat (write_table t) ++ rest) = Got (exec_of t) rest.
Proof.
  intros L D R. rewrite table_bytes by exact L. rewrite <- !app_assoc. unfold read_table.
  rewrite (read_uint_app 2) by (split; [lia | exact L]). cbn [bind].
  rewrite (read_uint_app 2) by (unfold unsigned; cbn; lia). cbn [bind].
  rewrite (read_int_app 4) by (exact D || lia). cbn [bind]. rewrite Nat2Z.id.
  rewrite (read_times_app read_row row_bytes (fun r => r)).
  - cbn [bind]. now rewrite map_id.
  - intros r l Hr. destruct (R r Hr). now apply read_row_app.
Qed.

Lemma read_tables ts rest : Z.of_nat (length ts) < 2 ^ 16 ->
  (forall t, In t ts -> Z.of_nat (length (t_rows t)) < 2 ^ 16) ->
  (forall t, In t ts -> signed 32 (t_default t) /\
     forall r, In r (t_rows t) -> signed 32 (fst r) /\ signed 32 (snd r)) ->
  read_part stub_switch read_table (concat (write_tables ts) ++ rest) = Got (map exec_of ts) rest.
Proof.
  intros L C R. unfold write_tables. cbn [concat]. rewrite concat_flat_map, <- app_assoc.
  apply read_part_app; [unfold stub_switch; lia | exact L|].
  intros t r Ht. destruct (R t Ht) as [R1 R2]. apply read_table_app; auto.
Qed.

(** *** Blocks *)

Lemma block_length b : length (block_bytes b) = 20%nat.
Proof. unfold block_bytes. rewrite !app_length, !bytes_length. reflexivity. Qed.

Lemma skipn_bytes' k n v l : skipn (n + k) (bytes_of n v ++ l) = skipn k l.
Proof.
  rewrite skipn_app, bytes_length. rewrite skipn_all2 by (rewrite bytes_length; lia).
  cbn [app]. f_equal. lia.
Qed.

Lemma read_block_app b r : unsigned 8 (b_type b) -> unsigned 32 (b_start b) ->
  unsigned 32 (b_end b) -> unsigned 32 (b_entry b) -> unsigned 32 (b_relation b) ->
  read_block (block_bytes b ++ r) = Got b r.
Proof.
  intros H1 H2 H3 H4 H5. unfold read_block, read_bytes.
  rewrite app_length, block_length. destruct (Nat.ltb_spec (20 + length r) 20); [lia|].
  rewrite firstn_app, skipn_app, block_length, Nat.sub_diag, firstn_O, skipn_O, app_nil_r.
  rewrite <- (block_length b) at 1 2. rewrite firstn_all, skipn_all. cbn [bind app].
  f_equal. unfold block_bytes.
  change (skipn 4) with (@skipn Z (1 + (1 + (2 + 0)))).
  change (skipn 8) with (@skipn Z (1 + (1 + (2 + (4 + 0))))).
  change (skipn 12) with (@skipn Z (1 + (1 + (2 + (4 + (4 + 0)))))).
  change (skipn 16) with (@skipn Z (1 + (1 + (2 + (4 + (4 + (4 + 0))))))).
  rewrite !skipn_bytes', !skipn_O, !firstn_bytes.
  replace (firstn 4 (bytes_of 4 (b_relation b))) with (bytes_of 4 (b_relation b))
    by (symmetry; rewrite <- (app_nil_r (bytes_of 4 (b_relation b))) at 1; apply firstn_bytes).
  rewrite !value_unsigned by assumption. destruct b; reflexivity.
Qed.

Lemma read_blocks bs n rest : Z.of_nat (length bs) < 2 ^ 16 ->
  (forall b, In b bs -> unsigned 8 (b_type b) /\ unsigned 32 (b_start b) /\
     unsigned 32 (b_end b) /\ unsigned 32 (b_entry b) /\ unsigned 32 (b_relation b)) ->
  read_part stub_block read_block (concat (write_blocks bs) ++ stub stub_xil n ++ rest) =
  Got bs (stub stub_xil n ++ rest).
Proof.
  intros L R. destruct bs as [|b0 bs0].
  - cbn [write_blocks concat app]. unfold read_part.
    rewrite read_stub_other; [reflexivity | unfold stub_xil; lia | discriminate].
  - set (bs := b0 :: bs0) in *. unfold write_blocks, bs. fold bs. cbn [concat].
    rewrite <- flat_map_concat_map, <- app_assoc.
    rewrite <- (map_id bs) at 3.
    apply read_part_app; [unfold stub_block; lia | exact L|].
    intros b r Hb. destruct (R b Hb) as (A & B & C & D & E). now apply read_block_app.
Qed.

(* ------------------------------------------------------------------ *)
(** * Whole bodies *)

Lemma read_pieces m : in_range m -> countable (2 ^ 16) m ->
  read_body (concat (pieces m)) =
  Got (mk_exec_body (map (fun v => (v_type v, v_index v)) (sort_variables (m_variables m)))
         (map exec_of (m_tables m)) (m_blocks m) (concat (m_code m))) [].
Proof.
  intros [RV RT RB] [CV CT CR CB]. unfold pieces, read_body.
  rewrite !concat_app. cbn [concat].
  assert (E : concat (write_tables (m_tables m)) =
    stub stub_switch (Z.of_nat (length (m_tables m))) ++ concat (flat_map write_table (m_tables m)))
    by reflexivity.
  rewrite E at 1. rewrite <- app_assoc.
  rewrite read_variables by assumption. cbn [bind]. rewrite app_assoc, <- E.
  rewrite read_tables by assumption. cbn [bind].
  rewrite read_blocks by assumption. cbn [bind].
  rewrite read_stub_app by (unfold stub_xil; lia). reflexivity.
Qed.

(** *** The buffer *)

Lemma buffer_write_ok b l :
  Z.of_nat (length (data b)) + Z.of_nat (length l) < 2 ^ 62 ->
  match cap b with Some c => 0 < c < 2 ^ 63 | None => data b = [] end ->
  exists b', buffer_write b l = Some b' /\ data b' = data b ++ l /\
    exists c, cap b' = Some c /\ 0 < c < 2 ^ 63.
Proof.
  intros L C. unfold buffer_write, ensure.
  set (need := Z.of_nat (length (data b)) + Z.of_nat (length l)) in *.
  assert (E62 : 2 ^ 63 = 2 * 2 ^ 62) by (rewrite <- Z.pow_succ_r by lia; reflexivity).
  assert (E64 : 2 ^ 64 = 2 * 2 ^ 63) by (rewrite <- Z.pow_succ_r by lia; reflexivity).
  assert (B62 : 256 <= 2 ^ 62) by (change 256 with (2 ^ 8); apply Z.pow_le_mono_r; lia).
  destruct (cap b) as [c|] eqn:EC.
  - destruct (Z.ltb_spec c need) as [Lt|Ge].
    + destruct (alignd_spec c need ltac:(lia) ltac:(lia)) as (j & Hj & E & G & M). rewrite E.
      cbn [cap]. set (c' := Z.max 1 c * 2 ^ j) in *. destruct (Z.ltb_spec c' need); [lia|].
      eexists. split; [reflexivity|]. cbn [data cap]. split; [reflexivity|]. eexists. split; [reflexivity|].
      assert (c' < 2 * need); [|lia].
      assert (0 < j).
      { destruct (Z.eq_dec j 0) as [->|]; [|lia]. subst c'. change (2 ^ 0) with 1 in *. lia. }
      specialize (M (j - 1) ltac:(lia)). subst c'. replace j with (Z.succ (j - 1)) by lia.
      rewrite Z.pow_succ_r by lia. lia.
    + rewrite EC. destruct (Z.ltb_spec c need); [lia|].
      eexists. split; [reflexivity|]. cbn [data cap]. split; [reflexivity|]. eauto.
  - assert (0 <= need) by lia.
    destruct (alignd_spec need 128 ltac:(lia) ltac:(lia)) as (j & Hj & E & G & M). rewrite E.
    cbn [cap]. set (c' := Z.max 1 need * 2 ^ j) in *.
    assert (1 <= 2 ^ j) by (assert (0 < 2 ^ j) by (apply Z.pow_pos_nonneg; lia); lia).
    assert (need <= c') by (subst c'; nia).
    destruct (Z.ltb_spec c' need); [lia|].
    eexists. split; [reflexivity|]. cbn [data cap]. split; [reflexivity|]. eexists. split; [reflexivity|].
    split; [lia|]. destruct (Z.eq_dec j 0) as [->|].
    + subst c'. change (2 ^ 0) with 1. lia.
    + specialize (M (j - 1) ltac:(lia)). assert (c' < 256); [|lia].
      subst c'. replace j with (Z.succ (j - 1)) by lia. rewrite Z.pow_succ_r by lia. lia.
Qed.

Lemma buffer_writes_ok ls : forall b,
  Z.of_nat (length (data b ++ concat ls)) < 2 ^ 62 ->
  match cap b with Some c => 0 < c < 2 ^ 63 | None => data b = [] end ->
  exists b', buffer_writes b ls = Some b' /\ data b' = data b ++ concat ls.
Proof.
  induction ls as [|l ls IH]; intros b L C; cbn [buffer_writes concat].
  - exists b. split; [reflexivity | now rewrite app_nil_r].
  - cbn [concat] in L. rewrite !app_length in L.
    destruct (buffer_write_ok b l ltac:(lia) C) as (b1 & E1 & D1 & c & C1 & R1). rewrite E1.
    destruct (IH b1) as (b2 & E2 & D2).
    + rewrite D1, !app_length. lia.
    + now rewrite C1.
    + exists b2. split; [exact E2|]. now rewrite D2, D1, <- app_assoc.
Qed.

Lemma compile_small m : small m ->
  compile_method m = Some (if Nat.eqb (code_size m) 0 then None else Some (concat (pieces m))).
Proof.
  intros L. unfold compile_method.
  destruct (buffer_writes_ok (pieces m) (mk_buffer None [])) as (b & E & D); [exact L | reflexivity|].
  rewrite E. cbn [data app] in D. now rewrite D.
Qed.

Lemma signed_small t : Z.of_nat (length (t_rows t)) < 2 ^ 15 -> same_table t (exec_of t).
Proof.
  intros L. constructor; try reflexivity. cbn [exec_of x_count]. unfold signed_of.
  change (8 * Z.of_nat 2 - 1) with 15. destruct (Z.ltb_spec (Z.of_nat (length (t_rows t))) (2 ^ 15)); lia.
Qed.

Lemma roundtrip m : in_range m -> countable (2 ^ 15) m -> small m -> concat (m_code m) <> [] ->
  exists bytes x, compile_method m = Some (Some bytes) /\ read_body bytes = Got x [] /\ as_compiled m x.
Proof.
  intros R [CV CT CR CB] L N. rewrite compile_small by exact L. unfold code_size.
  destruct (Nat.eqb_spec (length (concat (m_code m))) 0) as [E|E].
  { apply length_zero_iff_nil in E. contradiction. }
  eexists. eexists. split; [reflexivity|]. split.
  - apply read_pieces; [exact R|]. constructor; auto. intros t Ht. specialize (CR t Ht). lia.
  - constructor; cbn; auto.
    + exists (sort_variables (m_variables m)). split; [apply sort_perm|]. split; [apply sort_sorted | reflexivity].
    + revert CR. clear. induction (m_tables m) as [|t ts IH]; intros C; cbn [map]; constructor.
      * apply signed_small, C. now left.
      * apply IH. intros u Hu. apply C. now right.
Qed.

(** 65536 variables are written with the count zero. *)
Lemma many_variables m bytes x r : Z.of_nat (length (m_variables m)) = 2 ^ 16 ->
  compile_method m = Some (Some bytes) -> read_body bytes = Got x r -> e_variables x = [].
Proof.
  intros L C H.
  assert (B : exists rest, bytes = stub stub_variable (2 ^ 16) ++ rest).
  { unfold compile_method in C.
    destruct (buffer_writes (mk_buffer None []) (pieces m)) as [b|] eqn:E; [|discriminate C].
    assert (D : forall ls b b', buffer_writes b ls = Some b' -> data b' = data b ++ concat ls).
    { induction ls as [|l ls IH]; intros b0 b1; cbn [buffer_writes concat].
      - intros [= <-]. now rewrite app_nil_r.
      - unfold buffer_write. set (nd := Z.of_nat (length (data b0)) + Z.of_nat (length l)).
        destruct (ensure b0 nd) as [b2|] eqn:E2; [|discriminate].
        destruct (cap b2) as [c|]; [|discriminate]. destruct (c <? nd); [discriminate|].
        intros X. rewrite (IH _ _ X). cbn [data]. rewrite <- app_assoc. f_equal.
        unfold ensure in E2. destruct (cap b0).
        + destruct (z <? nd); [|now injection E2 as <-].
          destruct (alignd z nd); [|discriminate E2]. now injection E2 as <-.
        + destruct (alignd nd 128); [|discriminate E2]. now injection E2 as <-. }
    specialize (D _ _ _ E). cbn [data app] in D. destruct (Nat.eqb (code_size m) 0); [discriminate C|].
    injection C as <-. rewrite D. unfold pieces. rewrite concat_app.
    destruct (m_variables m) as [|v vs] eqn:EV; [cbn in L; lia|].
    rewrite variables_bytes by discriminate. rewrite L, <- app_assoc. eauto. }
  destruct B as (rest & ->). unfold read_body, read_part in H.
  rewrite read_stub_app in H by (unfold stub_variable; lia).
  rewrite Z.mod_same in H by lia. cbn [bind] in H. change (Z.to_nat 0) with 0%nat in H.
  cbn [read_times bind] in H.
  repeat match goal with
  | H : bind ?a _ = Got _ _ |- _ => destruct a; cbn [bind] in H; try discriminate H
  end.
  injection H as <- _. reflexivity.
Qed.

(** *** Bodies that are not read as compiled *)

Definition full (bits : Z) : nat := Z.to_nat (2 ^ bits).

Lemma compile_some m : small m -> concat (m_code m) <> [] ->
  compile_method m = Some (Some (concat (pieces m))).
Proof.
  intros L N. rewrite compile_small by exact L. unfold code_size.
  destruct (Nat.eqb_spec (length (concat (m_code m))) 0) as [E|E]; [|reflexivity].
  apply length_zero_iff_nil in E. contradiction.
Qed.

Lemma full_of bits : 0 <= bits -> Z.of_nat (full bits) = 2 ^ bits.
Proof. intros H. unfold full. rewrite Z2Nat.id; [reflexivity | apply Z.pow_nonneg; lia]. Qed.

Lemma variables_size l : length (flat_map variable_bytes l) = (6 * length l)%nat.
Proof.
  induction l as [|v l IH]; [reflexivity|]. cbn [flat_map length]. rewrite app_length, IH.
  unfold variable_bytes. rewrite app_length, !bytes_length. lia.
Qed.

Lemma small_variables vs : Z.of_nat (length vs) = 2 ^ 16 -> small (mk_body vs [] [] [[16]]).
Proof.
  intros L. unfold small, pieces. cbn [m_variables m_tables m_blocks m_code].
  rewrite concat_app, app_length. rewrite variables_bytes.
  2:{ intros E. subst vs. discriminate L. }
  rewrite app_length, variables_size, (Permutation_length (sort_perm _)).
  unfold stub at 1. rewrite app_length, bytes_length. cbn [length].
  change (2 ^ 62) with 4611686018427387904. change (2 ^ 16) with 65536 in L. cbn -[Z.of_nat Nat.mul]. lia.
Qed.

Lemma lost_generic vs : Z.of_nat (length vs) = 2 ^ 16 ->
  (forall v, In v vs -> unsigned 32 (v_type v) /\ unsigned 16 (v_index v)) ->
  ~ (forall m, in_range m -> small m -> concat (m_code m) <> [] ->
     exists bytes x, compile_method m = Some (Some bytes) /\
       read_body bytes = Got x [] /\ as_compiled m x).
Proof.
  intros L R H. set (m := mk_body vs [] [] [[16]]).
  destruct (H m) as (bytes & x & C & B & [(us & P & _ & V) _ _ _]).
  - constructor; [exact R | intros t [] | intros b []].
  - now apply small_variables.
  - discriminate.
  - rewrite (many_variables m bytes x [] L C B) in V.
    apply (f_equal (@length _)) in V. rewrite map_length, (Permutation_length P) in V.
    cbn [length m m_variables] in V. rewrite <- V in L. discriminate L.
Qed.

Lemma lost_refutes :
  ~ (forall m, in_range m -> small m -> concat (m_code m) <> [] ->
     exists bytes x, compile_method m = Some (Some bytes) /\
       read_body bytes = Got x [] /\ as_compiled m x).
Proof.
  apply (lost_generic (map (fun i => mk_variable (Z.of_nat i) 7 0) (seq 0 (full 16)))).
  - rewrite map_length, seq_length. now apply full_of.
  - intros v Hv. apply in_map_iff in Hv. destruct Hv as (i & <- & _). cbn [v_type v_index].
    unfold unsigned. split; split; reflexivity || discriminate.
Qed.

Lemma many_rows m bytes t : in_range m -> countable (2 ^ 16) m -> small m ->
  compile_method m = Some (Some bytes) -> In t (m_tables m) ->
  2 ^ 15 <= Z.of_nat (length (t_rows t)) ->
  exists x e, read_body bytes = Got x [] /\ In e (e_tables x) /\
    x_rows e = t_rows t /\ x_count e = Z.of_nat (length (t_rows t)) - 2 ^ 16.
Proof.
  intros R C L E Ht G. rewrite compile_small in E by exact L.
  destruct (Nat.eqb (code_size m) 0); [discriminate E|]. injection E as <-.
  eexists. exists (exec_of t). split; [now apply read_pieces|]. cbn [e_tables].
  split; [now apply in_map|]. split; [reflexivity|].
  cbn [exec_of x_count]. unfold signed_of. change (8 * Z.of_nat 2 - 1) with 15.
  change (8 * Z.of_nat 2) with 16.
  destruct (Z.ltb_spec (Z.of_nat (length (t_rows t))) (2 ^ 15)); lia.
Qed.

Lemma rows_size l : length (flat_map row_bytes l) = (8 * length l)%nat.
Proof.
  induction l as [|v l IH]; [reflexivity|]. cbn [flat_map length]. rewrite app_length, IH.
  unfold row_bytes. rewrite app_length, !bytes_length. lia.
Qed.

Lemma wide_ok (rows : list row) : Z.of_nat (length rows) = 2 ^ 15 ->
  (forall r, In r rows -> signed 32 (fst r) /\ signed 32 (snd r)) ->
  let m := mk_body [] [mk_table 0 rows] [] [[16]] in
  in_range m /\ countable (2 ^ 16) m /\ small m.
Proof.
  intros L R m. split; [|split].
  - constructor; cbn [m m_variables m_tables m_blocks].
    + intros v [].
    + intros t [<-|[]]. cbn [t_default t_rows]. split; [|exact R].
      unfold signed. split; reflexivity || discriminate.
    + intros b [].
  - constructor; cbn [m m_variables m_tables m_blocks]; try reflexivity.
    intros t [<-|[]]. cbn [t_rows]. rewrite L. reflexivity.
  - unfold small, pieces, m. cbn [m_variables m_tables m_blocks m_code write_variables write_blocks app].
    unfold write_tables. cbn [flat_map app]. rewrite app_nil_r.
    rewrite concat_cons, concat_app, table_bytes by (cbn [t_rows]; rewrite L; reflexivity).
    cbn [t_rows t_default]. rewrite !app_length, rows_size, !bytes_length.
    unfold stub. cbn [concat]. rewrite !app_length, !bytes_length. cbn [length].
    change (2 ^ 62) with 4611686018427387904. change (2 ^ 15) with 32768 in L. lia.
Qed.

Lemma wide_generic (rows : list row) : Z.of_nat (length rows) = 2 ^ 15 ->
  (forall r, In r rows -> signed 32 (fst r) /\ signed 32 (snd r)) ->
  ~ (forall m, in_range m -> countable (2 ^ 16) m -> small m -> concat (m_code m) <> [] ->
     exists bytes x, compile_method m = Some (Some bytes) /\
       read_body bytes = Got x [] /\ as_compiled m x).
Proof.
  intros G Q H. destruct (wide_ok rows G Q) as (R & C & L).
  set (m := mk_body [] [mk_table 0 rows] [] [[16]]) in *.
  destruct (H m R C L) as (bytes & x & E & X & A); [discriminate|].
  destruct (many_rows m bytes (mk_table 0 rows) R C L E) as (x' & e & X' & He & _ & N).
  - now left.
  - cbn [t_rows]. rewrite G. reflexivity.
  - rewrite X in X'. injection X' as <-. cbn [t_rows] in N. rewrite G in N.
    destruct A as [_ T _ _]. cbn [m m_tables] in T.
    destruct (e_tables x) as [|y [|z l]]; inversion T as [|? ? ? ? S1 S2]; subst; [|inversion S2].
    destruct He as [->|[]]. destruct S1 as [_ _ S3]. cbn [t_rows] in S3. rewrite G, N in S3.
    discriminate S3.
Qed.

Lemma wide_refutes :
  ~ (forall m, in_range m -> countable (2 ^ 16) m -> small m -> concat (m_code m) <> [] ->
     exists bytes x, compile_method m = Some (Some bytes) /\
       read_body bytes = Got x [] /\ as_compiled m x).
Proof.
  apply (wide_generic (repeat (0, 0) (full 15))).
  - rewrite repeat_length. now apply full_of.
  - intros r Hr. apply repeat_spec in Hr. subst r. cbn [fst snd]. unfold signed.
    split; split; reflexivity || discriminate.
Qed.

Lemma no_code m : small m -> (compile_method m = Some None <-> concat (m_code m) = []).
Proof.
  intros L. rewrite compile_small by exact L. unfold code_size.
  destruct (Nat.eqb_spec (length (concat (m_code m))) 0) as [E|E]; split; intros X; auto.
  - now apply length_zero_iff_nil.
  - discriminate X.
  - rewrite X in E. now destruct E.
Qed.

(* ------------------------------------------------------------------ *)
(** * Any bytes *)

(** A reader leaves an end of the bytes it is given, and never reads behind them. *)
Definition within {A : Type} (f : list Z -> read_result A) : Prop :=
  forall l, f l <> Beyond /\ forall a r, f l = Got a r -> exists p, l = p ++ r.

Lemma within_bytes n : within (read_bytes n).
Proof.
  intros l. unfold read_bytes. destruct (Nat.ltb (length l) n); split; try discriminate.
  intros a r [= _ <-]. exists (firstn n l). symmetry. apply firstn_skipn.
Qed.

Lemma within_bind {A B : Type} (f : list Z -> read_result A) (g : A -> list Z -> read_result B) :
  within f -> (forall a, within (g a)) -> within (fun l => bind (f l) g).
Proof.
  intros F G l. destruct (F l) as [NB S1]. destruct (f l) as [a rest| |]; cbn [bind].
  - destruct (S1 a rest eq_refl) as (p & ->). destruct (G a rest) as [NB2 S2]. split; [exact NB2|].
    intros b r E. destruct (S2 b r E) as (q & ->). exists (p ++ q). now rewrite app_assoc.
  - split; discriminate.
  - now destruct NB.
Qed.

Lemma within_ret {A B : Type} (h : A -> B) a : within (fun l => Got (h a) l).
Proof. intros l. split; [discriminate|]. intros b r [= _ <-]. now exists []. Qed.

Lemma within_times {A : Type} n (f : list Z -> read_result A) : within f -> within (read_times n f).
Proof.
  intros F. induction n as [|n IH]; cbn [read_times].
  - exact (within_ret (fun _ : unit => []) tt).
  - apply (within_bind f); [exact F|]. intros a. apply (within_bind (read_times n f)); [exact IH|].
    intros l0. exact (within_ret (fun x => a :: x) l0).
Qed.

Lemma within_uint n : within (read_uint n).
Proof. apply (within_bind (read_bytes n)); [apply within_bytes|]. intros b. exact (within_ret value_of b). Qed.

Lemma within_int n : within (read_int n).
Proof.
  apply (within_bind (read_bytes n)); [apply within_bytes|]. intros b.
  exact (within_ret (fun b => signed_of n (value_of b)) b).
Qed.

Lemma within_variable : within read_variable.
Proof.
  apply (within_bind (read_uint 4)); [apply within_uint|]. intros t.
  apply (within_bind (read_uint 2)); [apply within_uint|]. intros i. exact (within_ret (fun i => (t, i)) i).
Qed.

Lemma within_row : within read_row.
Proof.
  apply (within_bind (read_int 4)); [apply within_int|]. intros t.
  apply (within_bind (read_int 4)); [apply within_int|]. intros i. exact (within_ret (fun i => (t, i)) i).
Qed.

Lemma within_table : within read_table.
Proof.
  apply (within_bind (read_uint 2)); [apply within_uint|]. intros n.
  apply (within_bind (read_uint 2)); [apply within_uint|]. intros _.
  apply (within_bind (read_int 4)); [apply within_int|]. intros d.
  apply (within_bind (read_times (Z.to_nat n) read_row)); [apply within_times, within_row|].
  intros rows. exact (within_ret (mk_exec_table (signed_of 2 n) d) rows).
Qed.

Lemma within_block : within read_block.
Proof.
  apply (within_bind (read_bytes 20)); [apply within_bytes|]. intros bs.
  exact (within_ret (fun bs => mk_block (value_of (firstn 1 bs))
    (value_of (firstn 4 (skipn 4 bs))) (value_of (firstn 4 (skipn 8 bs)))
    (value_of (firstn 4 (skipn 12 bs))) (value_of (firstn 4 (skipn 16 bs)))) bs).
Qed.

(** Three zeros at the end of the bytes, as far as they are not read. *)
Definition padded (l : list Z) : Prop := exists p n, l = p ++ repeat 0 n /\ (p = [] \/ n = 3%nat) /\ (n <= 3)%nat.

Lemma padded_suffix p l : padded (p ++ l) -> padded l.
Proof.
  induction p as [|b p IH]; [trivial|]. intros (q & n & E & C & N). apply IH. cbn [app] in E.
  destruct q as [|c q].
  - cbn [app] in E. destruct n as [|n]; [discriminate E|]. injection E as _ E.
    exists [], n. split; [exact E|]. split; [now left | lia].
  - injection E as _ E. exists q, n. split; [exact E|]. split; [|exact N].
    destruct C as [C|C]; [discriminate C | now right].
Qed.

Lemma stub_padded type l : type <> 0 -> padded l ->
  read_stub type l <> Beyond /\ forall o r, read_stub type l = Got o r -> padded r.
Proof.
  intros T P. destruct l as [|b l]; cbn [read_stub].
  - split; [discriminate|]. now intros o r [= _ <-].
  - destruct (Z.eqb_spec (b mod 16) type) as [E|E].
    + destruct (Nat.ltb_spec (length (b :: l)) 4) as [L|L].
      * exfalso. destruct P as (q & n & Q & C & N). destruct q as [|c q].
        { destruct n as [|n]; [discriminate Q|]. injection Q as -> _. apply T. now rewrite <- E. }
        destruct C as [C|C]; [discriminate C|]. subst n. rewrite Q, app_length, repeat_length in L.
        cbn [length] in L. lia.
      * split; [discriminate|]. intros o r [= _ <-].
        apply padded_suffix with (firstn 4 (b :: l)).
        change (skipn 3 l) with (skipn 4 (b :: l)). now rewrite firstn_skipn.
    + split; [discriminate|]. now intros o r [= _ <-].
Qed.

Lemma part_padded {A : Type} type (f : list Z -> read_result A) l : type <> 0 -> within f -> padded l ->
  read_part type f l <> Beyond /\ forall a r, read_part type f l = Got a r -> padded r.
Proof.
  intros T F P. unfold read_part. destruct (stub_padded type l T P) as [NB S1].
  destruct (read_stub type l) as [o rest| |]; cbn [bind]; [|split; discriminate | now destruct NB].
  specialize (S1 o rest eq_refl). destruct o as [n|].
  - destruct (within_times (Z.to_nat n) f F rest) as [NB2 S2]. split; [exact NB2|].
    intros a r E. destruct (S2 a r E) as (p & ->). now apply padded_suffix in S1.
  - split; [discriminate|]. now intros a r [= _ <-].
Qed.

Lemma zeros_behind bytes : read_body (bytes ++ [0; 0; 0]) <> Beyond.
Proof.
  assert (P : padded (bytes ++ [0; 0; 0])) by (exists bytes, 3%nat; repeat split; auto).
  unfold read_body. revert P. generalize (bytes ++ [0; 0; 0]) as l. intros l P.
  destruct (part_padded stub_variable read_variable l ltac:(discriminate) within_variable P) as [N1 S1].
  destruct (read_part stub_variable read_variable l) as [vs l1| |]; cbn [bind]; [|discriminate | now destruct N1].
  specialize (S1 _ _ eq_refl).
  destruct (part_padded stub_switch read_table l1 ltac:(discriminate) within_table S1) as [N2 S2].
  destruct (read_part stub_switch read_table l1) as [ts l2| |]; cbn [bind]; [|discriminate | now destruct N2].
  specialize (S2 _ _ eq_refl).
  destruct (part_padded stub_block read_block l2 ltac:(discriminate) within_block S2) as [N3 S3].
  destruct (read_part stub_block read_block l2) as [bs l3| |]; cbn [bind]; [|discriminate | now destruct N3].
  specialize (S3 _ _ eq_refl).
  destruct (stub_padded stub_xil l3 ltac:(discriminate) S3) as [N4 _].
  destruct (read_stub stub_xil l3); cbn [bind]; [discriminate | discriminate | now destruct N4].
Qed.
