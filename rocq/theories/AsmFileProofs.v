(** Proofs about the assembly file. *)

From Coq Require Import ZArith Lia List Bool.
From Verif Require Import AsmHeapModel AsmHeapProofs AsmFileModel AsmFileSpec.
Import ListNotations.
Open Scope Z_scope.

Ltac Zify.zify_post_hook ::= Z.div_mod_to_equations.

(** The same in terms of the field lists. *)
Definition row_fits0 (sc : list member) (r : row) : Prop :=
  Forall2 (fun m v => 0 <= v < 256 ^ Z.of_nat (fst m)) sc r.

Definition tables_fit0 (tables : list (list row)) : Prop :=
  Forall2 (fun sc t => Forall (row_fits0 sc) t /\ Z.of_nat (length t) < 4294967296) schemas tables.

Fixpoint kept (sc : list member) (r : row) : list (option Z) :=
  match sc, r with
  | (_, b) :: sc', v :: r' => (if b then Some v else None) :: kept sc' r'
  | _, _ => []
  end.

Fixpoint kept_tables (scs : list (list member)) (tables : list (list row))
  : list (list (list (option Z))) :=
  match scs, tables with
  | sc :: scs', t :: ts => map (kept sc) t :: kept_tables scs' ts
  | _, _ => []
  end.

Definition widths (sc : list member) : list Z := map (fun m => Z.of_nat (fst m)) sc.

Lemma widths_schemas : struct_bytes = map widths schemas.
Proof. reflexivity. Qed.

Lemma row_fits_0 : forall sc r, row_fits (widths sc) r -> row_fits0 sc r.
Proof.
  unfold row_fits, row_fits0, widths. induction sc as [|m sc IH]; intros r H; inversion H; subst;
    constructor; auto.
Qed.

Lemma tables_fit_0 : forall tables, tables_fit tables -> tables_fit0 tables.
Proof.
  intros tables H. unfold tables_fit in H. rewrite widths_schemas in H. unfold tables_fit0.
  revert H. generalize schemas as scs. intros scs. revert tables.
  induction scs as [|sc scs IH]; intros tables H; inversion H; subst; constructor; auto.
  destruct H2 as [A B]. split; [|exact B]. eapply Forall_impl; [|exact A]. apply row_fits_0.
Qed.

Lemma kept_all : forall ws r, row_fits0 (listed ws) r -> kept (listed ws) r = map Some r.
Proof.
  unfold row_fits0, listed. induction ws as [|w ws IH]; intros r H; inversion H; subst; [reflexivity|].
  cbn [map kept]. f_equal. auto.
Qed.

Lemma kept_all_table : forall ws t, Forall (row_fits0 (listed ws)) t ->
  map (kept (listed ws)) t = all_back t.
Proof.
  intros ws t H. unfold all_back. apply map_ext_in. intros r Hr. apply kept_all.
  rewrite Forall_forall in H. auto.
Qed.

Lemma kept_type : forall t, Forall (row_fits0 (nth 4 schemas [])) t ->
  map (kept (nth 4 schemas [])) t = map type_row_back t.
Proof.
  intros t H. apply map_ext_in. intros r Hr. rewrite Forall_forall in H. specialize (H r Hr).
  unfold row_fits0 in H. cbn [nth schemas listed map app] in *.
  repeat (match goal with X : Forall2 _ (_ :: _) _ |- _ => inversion X; clear X; subst end).
  match goal with X : Forall2 _ [] _ |- _ => inversion X; clear X; subst end.
  reflexivity.
Qed.

Lemma kept_back : forall tables, tables_fit0 tables -> kept_tables schemas tables = tables_back tables.
Proof.
  intros tables H. unfold tables_fit0 in H.
  repeat (match goal with X : Forall2 _ _ _ |- _ => inversion X; clear X; subst end).
  repeat (match goal with X : _ /\ _ |- _ => destruct X end).
  unfold tables_back. cbn [firstn skipn map app].
  unfold schemas. cbn [kept_tables].
  repeat (apply f_equal2; [first [apply kept_all_table; assumption | apply kept_type; assumption]|]).
  reflexivity.
Qed.

(** [r] consumes exactly [x] and yields [a]; it throws on every shorter piece of [x]. *)
Definition exact {A} (r : reader A) (x : list Z) (a : A) : Prop :=
  (forall rest, r (x ++ rest) = OK (a, rest)) /\
  (forall p q, x = p ++ q -> q <> [] -> r p = Throw).

Lemma exact_ret : forall A (a : A), exact (ret a) [] a.
Proof.
  intros A a. split; [reflexivity|]. intros p q H N.
  symmetry in H. apply app_eq_nil in H. destruct H. congruence.
Qed.

Lemma exact_bind : forall A B (r : reader A) (f : A -> reader B) x a y b,
  exact r x a -> exact (f a) y b -> exact (bind r f) (x ++ y) b.
Proof.
  intros A B r f x a y b [R1 R2] [F1 F2]. split.
  - intros rest. unfold bind. rewrite <- app_assoc, R1. apply F1.
  - intros p q H N. unfold bind.
    destruct (Nat.lt_ge_cases (length p) (length x)) as [L|L].
    + (* cut inside x *)
      assert (E : x = p ++ skipn (length p) x).
      { rewrite <- (firstn_skipn (length p) x) at 1. f_equal.
        assert (F : firstn (length p) (x ++ y) = firstn (length p) (p ++ q)) by now rewrite H.
        rewrite firstn_app in F. replace (length p - length x)%nat with 0%nat in F by lia.
        cbn [firstn] in F. rewrite app_nil_r in F. rewrite F.
        rewrite firstn_app, Nat.sub_diag, firstn_all. cbn [firstn]. apply app_nil_r. }
      rewrite (R2 p _ E); [reflexivity|].
      intros C. apply (f_equal (@length Z)) in C. rewrite skipn_length in C. cbn in C. lia.
    + assert (E : p = x ++ skipn (length x) p).
      { rewrite <- (firstn_skipn (length x) p) at 1. f_equal.
        assert (F : firstn (length x) (x ++ y) = firstn (length x) (p ++ q)) by now rewrite H.
        rewrite (firstn_app (length x) p) in F. replace (length x - length p)%nat with 0%nat in F by lia.
        cbn [firstn] in F. rewrite app_nil_r in F. rewrite <- F.
        rewrite firstn_app, Nat.sub_diag, firstn_all. cbn [firstn]. apply app_nil_r. }
      rewrite E. rewrite R1. rewrite E in H. rewrite <- app_assoc in H.
      apply app_inv_head in H. exact (F2 _ _ H N).
Qed.

Lemma exact_bind_ret : forall A B (r : reader A) (f : A -> B) x a,
  exact r x a -> exact (bind r (fun v => ret (f v))) x (f a).
Proof.
  intros. rewrite <- (app_nil_r x). apply (exact_bind _ _ _ _ x a); [assumption|].
  apply exact_ret.
Qed.

Lemma exact_read_n : forall x, exact (read_n (length x)) x x.
Proof.
  intros x. split.
  - intros rest. unfold read_n.
    replace (length (x ++ rest) <? length x)%nat with false
      by (symmetry; apply Nat.ltb_ge; rewrite app_length; lia).
    now rewrite firstn_exact, skipn_exact.
  - intros p q H N. unfold read_n.
    replace (length p <? length x)%nat with true; [reflexivity|].
    symmetry. apply Nat.ltb_lt. rewrite H, app_length. destruct q; [congruence|cbn [length]; lia].
Qed.

Lemma exact_num : forall w v, 0 <= v < 256 ^ Z.of_nat w -> exact (read_num w) (le_bytes w v) v.
Proof.
  intros w v H. unfold read_num.
  rewrite <- (le_val_bytes w v H) at 2.
  apply exact_bind_ret.
  rewrite <- (le_bytes_length w v) at 1. apply exact_read_n.
Qed.

Lemma exact_row : forall sc r, row_fits0 sc r -> exact (read_row sc) (write_row sc r) (kept sc r).
Proof.
  intros sc r H. induction H as [|[w b] v sc r Hv H IH].
  - apply exact_ret.
  - cbn [fst] in Hv. destruct b; cbn [write_row read_row kept].
    + apply (exact_bind _ _ _ _ (le_bytes w v) v); [now apply exact_num|].
      apply exact_bind_ret. exact IH.
    + apply exact_bind_ret. exact IH.
Qed.

Lemma exact_rows : forall sc t, Forall (row_fits0 sc) t ->
  exact (read_rows (length t) sc) (write_table sc t) (map (kept sc) t).
Proof.
  intros sc t H. induction H as [|r t Hr H IH].
  - apply exact_ret.
  - cbn [length read_rows map]. unfold write_table. cbn [map concat].
    apply (exact_bind _ _ _ _ (write_row sc r) (kept sc r)); [now apply exact_row|].
    apply exact_bind_ret. exact IH.
Qed.

Definition counts_of (tables : list (list row)) : list Z :=
  map (fun t => Z.of_nat (length t)) tables.

Lemma exact_tables : forall scs tables,
  Forall2 (fun sc t => Forall (row_fits0 sc) t /\ Z.of_nat (length t) < 4294967296) scs tables ->
  exact (read_tables scs (counts_of tables)) (write_tables scs tables) (kept_tables scs tables).
Proof.
  intros scs tables H. induction H as [|sc t scs ts [Ht _] H IH].
  - apply exact_ret.
  - cbn [counts_of map read_tables write_tables kept_tables].
    apply (exact_bind _ _ _ _ (write_table sc t) (map (kept sc) t)).
    + rewrite Nat2Z.id. now apply exact_rows.
    + apply exact_bind_ret. exact IH.
Qed.

Lemma exact_dir : forall es, Forall (fun e => 0 <= snd e < 4294967296) es ->
  exact (read_dir (length es)) (dir_bytes es) (map snd es).
Proof.
  intros es H. induction H as [|[o n] es He H IH].
  - apply exact_ret.
  - cbn [length read_dir map]. unfold dir_bytes. cbn [map concat fst snd] in *.
    rewrite <- app_assoc.
    apply (exact_bind _ _ _ _ (le_bytes 4 o) (le_val (le_bytes 4 o))).
    { unfold read_num. apply exact_bind_ret.
      rewrite <- (le_bytes_length 4 o) at 1. apply exact_read_n. }
    apply (exact_bind _ _ _ _ (le_bytes 4 n) n).
    { apply exact_num. change (256 ^ Z.of_nat 4) with 4294967296. exact He. }
    apply exact_bind_ret. exact IH.
Qed.

Lemma dir_entries_counts : forall scs tables o, length scs = length tables ->
  map snd (fst (dir_entries o scs tables)) = counts_of tables
  /\ length (fst (dir_entries o scs tables)) = length scs.
Proof.
  induction scs as [|sc scs IH]; intros [|t ts] o H; try discriminate.
  - split; reflexivity.
  - cbn [dir_entries]. injection H as H.
    specialize (IH ts (o + row_size sc * Z.of_nat (length t)) H).
    destruct (dir_entries (o + row_size sc * Z.of_nat (length t)) scs ts) as [r e].
    cbn [fst map snd counts_of length] in *. destruct IH as [A B]. split; [f_equal; exact A|lia].
Qed.

(** The chunk loop takes exactly [total] bytes, or throws. *)
Lemma read_chunks_ok : forall fuel total acc x rest, length x = total ->
  (total < fuel)%nat -> read_chunks fuel total acc (x ++ rest) = OK (acc ++ x, rest).
Proof.
  induction fuel as [|fuel IH]; intros total acc x rest L F; [lia|].
  cbn [read_chunks].
  assert (E : firstn (Nat.min 1024 total) (x ++ rest) = firstn (Nat.min 1024 total) x).
  { rewrite firstn_app. replace (Nat.min 1024 total - length x)%nat with 0%nat by lia.
    cbn [firstn]. apply app_nil_r. }
  rewrite E. destruct (firstn (Nat.min 1024 total) x) as [|c ch] eqn:C.
  - assert (length (firstn (Nat.min 1024 total) x) = 0%nat) by now rewrite C.
    rewrite firstn_length in H. assert (total = 0)%nat by lia. subst total.
    destruct x; [|discriminate]. cbn [Nat.eqb app]. now rewrite app_nil_r.
  - assert (Lc : length (c :: ch) = Nat.min 1024 total).
    { rewrite <- C, firstn_length. lia. }
    rewrite skipn_app. replace (length (c :: ch) - length x)%nat with 0%nat by lia.
    cbn [skipn]. rewrite IH.
    + rewrite <- app_assoc. f_equal. f_equal. f_equal.
      rewrite Lc, <- C. apply firstn_skipn.
    + rewrite skipn_length. lia.
    + rewrite Lc. cbn [length] in Lc. lia.
Qed.

Lemma read_chunks_short : forall fuel total acc x, (length x < total)%nat ->
  (length x < fuel)%nat -> read_chunks fuel total acc x = Throw.
Proof.
  induction fuel as [|fuel IH]; intros total acc x L F; [lia|].
  cbn [read_chunks]. destruct (firstn (Nat.min 1024 total) x) as [|c ch] eqn:C.
  - destruct (Nat.eqb_spec total 0); [lia|reflexivity].
  - assert (Lc : length (c :: ch) = Nat.min (Nat.min 1024 total) (length x))
      by (rewrite <- C; apply firstn_length).
    cbn [length] in Lc. apply IH; rewrite skipn_length; cbn [length]; lia.
Qed.

Lemma exact_heap : forall t, exact (read_heap (Z.of_nat (length t))) t (0 :: t).
Proof.
  intros t. unfold read_heap. split.
  - intros rest. rewrite Nat2Z.id.
    rewrite (read_chunks_ok _ (length t) [0] t rest); [reflexivity|reflexivity|].
    rewrite app_length. lia.
  - intros p q H N. rewrite Nat2Z.id. apply read_chunks_short; [|lia].
    rewrite H, app_length. destruct q; [congruence|cbn [length]; lia].
Qed.

Lemma bytes_eqb_refl : forall a, bytes_eqb a a = true.
Proof. induction a; cbn [bytes_eqb]; [reflexivity|]. rewrite Z.eqb_refl. exact IHa. Qed.

Lemma bytes_eqb_eq : forall a b, bytes_eqb a b = true -> a = b.
Proof.
  induction a as [|x a IH]; intros [|y b] H; cbn [bytes_eqb] in H; try discriminate; auto.
  apply andb_true_iff in H. destruct H as [H1 H2]. apply Z.eqb_eq in H1. f_equal; auto.
Qed.

Lemma exact_guide : exact read_guide guide_bytes tt.
Proof.
  unfold read_guide, guide_bytes.
  apply (exact_bind _ _ _ _ flag flag).
  { apply (exact_read_n flag). }
  apply (exact_bind _ _ _ _ (le_bytes 2 1) 1).
  { apply exact_num. split; [lia|reflexivity]. }
  rewrite <- (app_nil_r (le_bytes 2 0)).
  apply (exact_bind _ _ _ _ (le_bytes 2 0) 0).
  { apply exact_num. split; [lia|reflexivity]. }
  rewrite bytes_eqb_refl. cbn [negb]. apply exact_ret.
Qed.

Definition head_bytes (tables : list (list row)) (heap : list Z) : list Z :=
  let '(entries, end_) := dir_entries 8 schemas tables in
  le_bytes 4 end_ ++ le_bytes 4 (Z.of_nat (length heap) - 1) ++ dir_bytes entries.

Lemma write_file_shape : forall tables heap f, heap_image heap -> write_file tables heap = Some f ->
  f = guide_bytes ++ head_bytes tables heap ++ write_tables schemas tables ++ skipn 1 heap
  /\ Z.of_nat (length heap) - 1 <= max_heap.
Proof.
  intros tables heap f (t & -> & _ & L) H. unfold write_file, head_bytes in *.
  destruct (dir_entries 8 schemas tables) as [es e].
  replace ((Z.of_nat (length (0 :: t)) - 1) mod 4294967296) with (Z.of_nat (length (0 :: t)) - 1) in H
    by (cbn [length]; symmetry; apply Z.mod_small; lia).
  destruct (max_heap <? Z.of_nat (length (0 :: t)) - 1) eqn:E; [discriminate|].
  apply some_inj in H. subst f. split.
  - now rewrite <- !app_assoc.
  - apply Z.ltb_ge in E. exact E.
Qed.

Lemma counts_range : forall scs tables,
  Forall2 (fun sc t => Forall (row_fits0 sc) t /\ Z.of_nat (length t) < 4294967296) scs tables ->
  Forall (fun n => 0 <= n < 4294967296) (counts_of tables).
Proof.
  intros scs tables H. induction H as [|sc t scs ts [_ Hn] H IH]; constructor; auto. lia.
Qed.

Lemma Forall2_len : forall A B (P : A -> B -> Prop) l m, Forall2 P l m -> length l = length m.
Proof. intros. induction H; cbn [length]; auto. Qed.

Lemma dir_exact : forall tables, tables_fit0 tables ->
  exact (read_dir (length schemas)) (dir_bytes (fst (dir_entries 8 schemas tables))) (counts_of tables).
Proof.
  intros tables H.
  destruct (dir_entries_counts schemas tables 8 (Forall2_len _ _ _ _ _ H)) as [A B].
  rewrite <- A, <- B. apply exact_dir.
  pose proof (counts_range _ _ H) as R. rewrite <- A in R.
  apply Forall_map in R. exact R.
Qed.

Lemma file_exact : forall tables heap f, tables_fit0 tables -> heap_image heap ->
  write_file tables heap = Some f ->
  exact (bind read_guide (fun _ => read_body)) f (kept_tables schemas tables, heap).
Proof.
  intros tables heap f T HI W.
  destruct (write_file_shape tables heap f HI W) as [-> L].
  destruct HI as (t & -> & B & Lt).
  apply (exact_bind _ _ _ _ guide_bytes tt); [apply exact_guide|].
  unfold read_body, head_bytes. pose proof (dir_exact tables T) as D.
  destruct (dir_entries 8 schemas tables) as [es e]. cbn [fst] in D.
  rewrite <- !app_assoc.
  apply (exact_bind _ _ _ _ (le_bytes 4 e) (le_val (le_bytes 4 e))).
  { unfold read_num. apply exact_bind_ret. rewrite <- (le_bytes_length 4 e) at 1. apply exact_read_n. }
  apply (exact_bind _ _ _ _ (le_bytes 4 (Z.of_nat (length (0 :: t)) - 1)) (Z.of_nat (length t))).
  { replace (Z.of_nat (length (0 :: t)) - 1) with (Z.of_nat (length t)) by (cbn [length]; lia).
    apply exact_num. change (256 ^ Z.of_nat 4) with 4294967296. lia. }
  apply (exact_bind _ _ _ _ (dir_bytes es) (counts_of tables)); [exact D|].
  apply (exact_bind _ _ _ _ (write_tables schemas tables) (kept_tables schemas tables)).
  { apply exact_tables. exact T. }
  cbn [skipn].
  change (kept_tables schemas tables, 0 :: t) with ((fun h => (kept_tables schemas tables, h)) (0 :: t)).
  apply (exact_bind_ret _ _ (read_heap (Z.of_nat (length t))) (fun h => (kept_tables schemas tables, h)) t (0 :: t)).
  apply exact_heap.
Qed.

Lemma file_roundtrip : forall tables heap f junk, tables_fit0 tables -> heap_image heap ->
  write_file tables heap = Some f ->
  read_file (f ++ junk) = OK (kept_tables schemas tables, heap).
Proof.
  intros tables heap f junk T HI W. unfold read_file.
  now rewrite (proj1 (file_exact tables heap f T HI W)).
Qed.

Lemma file_truncated : forall tables heap f p q, tables_fit0 tables -> heap_image heap ->
  write_file tables heap = Some f -> f = p ++ q -> q <> [] -> read_file p = Throw.
Proof.
  intros tables heap f p q T HI W E N. unfold read_file.
  now rewrite (proj2 (file_exact tables heap f T HI W) p q E N).
Qed.

(** The guide alone decides about foreign files. *)
Lemma bad_flag : forall l, firstn 16 l <> flag -> read_file l = Throw /\ read_brief l = Throw.
Proof.
  assert (G : forall l, firstn 16 l <> flag -> read_guide l = Throw).
  { intros l H. unfold read_guide, bind. unfold read_n at 1.
    destruct (length l <? 16)%nat; [reflexivity|].
    destruct (read_num 2 (skipn 16 l)) as [[lay l2]| |] eqn:E; [|reflexivity|].
    - destruct (read_num 2 l2) as [[r l3]| |] eqn:E2; [|reflexivity|].
      + destruct (bytes_eqb (firstn 16 l) flag) eqn:B; [apply bytes_eqb_eq in B; contradiction|].
        reflexivity.
      + unfold read_num, bind, read_n in E2. destruct (_ <? _)%nat; discriminate.
    - unfold read_num, bind, read_n in E. destruct (_ <? _)%nat; discriminate. }
  intros l H. unfold read_file, read_brief. unfold bind at 1.
  rewrite (G l H). split; [reflexivity|]. unfold bind at 1. now rewrite (G l H).
Qed.

Lemma bad_layout : forall l, le_val (firstn 2 (skipn 16 l)) <> 1 ->
  read_file l = Throw /\ read_brief l = Throw.
Proof.
  assert (G : forall l, le_val (firstn 2 (skipn 16 l)) <> 1 -> read_guide l = Throw).
  { intros l H. unfold read_guide, bind. unfold read_n at 1.
    destruct (length l <? 16)%nat; [reflexivity|].
    unfold read_num at 1, bind at 1, read_n at 1.
    destruct (length (skipn 16 l) <? 2)%nat; [reflexivity|]. unfold ret at 1.
    destruct (read_num 2 (skipn 2 (skipn 16 l))) as [[r l3]| |] eqn:E2; [|reflexivity|].
    - destruct (bytes_eqb (firstn 16 l) flag); [|reflexivity]. cbn [negb].
      apply Z.eqb_neq in H. rewrite H. reflexivity.
    - unfold read_num, bind, read_n in E2. destruct (_ <? _)%nat; discriminate. }
  intros l H. unfold read_file, read_brief. unfold bind at 1.
  rewrite (G l H). split; [reflexivity|]. unfold bind at 1. now rewrite (G l H).
Qed.

(** Where the rows of the first table really start. *)
Lemma head_bytes_length : forall tables heap, length schemas = length tables ->
  length (guide_bytes ++ head_bytes tables heap) = 276%nat.
Proof.
  intros tables heap H. unfold head_bytes.
  destruct (dir_entries_counts schemas tables 8 H) as [_ B].
  destruct (dir_entries 8 schemas tables) as [es e]. cbn [fst] in B.
  rewrite !app_length, !le_bytes_length.
  assert (L : forall l, length (dir_bytes l) = (8 * length l)%nat).
  { induction l as [|[a b] l IH]; [reflexivity|]. unfold dir_bytes in *. cbn [map concat].
    rewrite app_length, IH. cbn [fst snd]. rewrite app_length, !le_bytes_length. cbn [length]. lia. }
  rewrite L, B. reflexivity.
Qed.

Lemma write_row_length : forall sc r, row_fits0 sc r -> Z.of_nat (length (write_row sc r)) = row_size sc.
Proof.
  intros sc r H. induction H as [|[w b] v sc r Hv H IH]; [reflexivity|].
  destruct b; cbn [write_row]; unfold row_size; cbn [fold_right fst snd]; fold (row_size sc).
  - rewrite app_length, le_bytes_length. lia.
  - lia.
Qed.

Lemma write_table_length : forall sc t, Forall (row_fits0 sc) t ->
  Z.of_nat (length (write_table sc t)) = row_size sc * Z.of_nat (length t).
Proof.
  intros sc t H. induction H as [|r t Hr H IH]; [cbn; lia|].
  unfold write_table in *. cbn [map concat length]. rewrite app_length.
  pose proof (write_row_length _ _ Hr). lia.
Qed.

Lemma dir_entries_end : forall scs tables o,
  Forall2 (fun sc t => Forall (row_fits0 sc) t /\ Z.of_nat (length t) < 4294967296) scs tables ->
  snd (dir_entries o scs tables) = o + Z.of_nat (length (write_tables scs tables)).
Proof.
  intros scs tables o H. revert o. induction H as [|sc t scs ts [Ht _] H IH]; intro o.
  - cbn. lia.
  - cbn [dir_entries write_tables]. specialize (IH (o + row_size sc * Z.of_nat (length t))).
    destruct (dir_entries _ scs ts) as [r e]. cbn [snd] in *.
    rewrite app_length. pose proof (write_table_length _ _ Ht). lia.
Qed.

(** A brief read. *)
Lemma brief_read : forall t ts heap f p q junk, tables_fit0 (t :: ts) -> heap_image heap ->
  write_file (t :: ts) heap = Some f -> f = p ++ q ->
  let needed := 276 + 20 * Z.of_nat (length t) in
  (needed <= Z.of_nat (length p) -> read_brief (p ++ junk) = OK (map (kept (hd [] schemas)) t))
  /\ (Z.of_nat (length p) < needed -> read_brief p = Throw).
Proof.
  intros t ts heap f p q junk T HI W E needed. subst needed.
  destruct (write_file_shape _ heap f HI W) as [F L].
  pose proof (head_bytes_length (t :: ts) heap (Forall2_len _ _ _ _ _ T)) as HL.
  destruct HI as (x & -> & B & Lt).
  pose proof (dir_exact (t :: ts) T) as D. unfold head_bytes in *.
  destruct (dir_entries 8 schemas (t :: ts)) as [es e]. cbn [fst] in D.
  set (X := guide_bytes ++ le_bytes 4 e ++ le_bytes 4 (Z.of_nat (length (0 :: x)) - 1)
              ++ dir_bytes es ++ write_table (hd [] schemas) t).
  assert (Tt : Forall (row_fits0 (hd [] schemas)) t) by (inversion T; subst; exact (proj1 H2)).
  assert (LX : Z.of_nat (length X) = 276 + 20 * Z.of_nat (length t)).
  { pose proof (write_table_length _ _ Tt) as W1.
    change (row_size (hd [] schemas)) with 20 in W1. subst X.
    rewrite !app_length in *. lia. }
  assert (FX : exists tail, f = X ++ tail).
  { exists (write_tables (tl schemas) ts ++ skipn 1 (0 :: x)). rewrite F. subst X.
    change (write_tables schemas (t :: ts))
      with (write_table (hd [] schemas) t ++ write_tables (tl schemas) ts).
    now rewrite <- !app_assoc. }
  unfold read_brief.
  match goal with |- context [match ?r (p ++ junk) with _ => _ end] =>
    assert (XE : exact r X (map (kept (hd [] schemas)) t)) end.
  { subst X. apply (exact_bind _ _ _ _ guide_bytes tt); [apply exact_guide|].
    apply (exact_bind _ _ _ _ (le_bytes 4 e) (le_val (le_bytes 4 e))).
    { unfold read_num. apply exact_bind_ret. rewrite <- (le_bytes_length 4 e) at 1. apply exact_read_n. }
    apply (exact_bind _ _ _ _ (le_bytes 4 (Z.of_nat (length (0 :: x)) - 1)) (Z.of_nat (length x))).
    { replace (Z.of_nat (length (0 :: x)) - 1) with (Z.of_nat (length x)) by (cbn [length]; lia).
      apply exact_num. change (256 ^ Z.of_nat 4) with 4294967296. lia. }
    apply (exact_bind _ _ _ _ (dir_bytes es) (counts_of (t :: ts))); [exact D|].
    cbn [counts_of map hd].
    rewrite <- (app_nil_r (write_table (hd [] schemas) t)).
    apply (exact_bind _ _ _ _ (write_table (hd [] schemas) t) (map (kept (hd [] schemas)) t)).
    - rewrite Nat2Z.id. apply exact_rows. exact Tt.
    - apply exact_ret. }
  destruct FX as [tail FX]. rewrite FX in E. clearbody X. split; intro N.
  - assert (P : p = X ++ skipn (length X) p).
    { rewrite <- (firstn_skipn (length X) p) at 1. f_equal.
      assert (G : firstn (length X) (X ++ tail) = firstn (length X) (p ++ q)) by now rewrite E.
      rewrite firstn_exact in G. rewrite firstn_app in G.
      replace (length X - length p)%nat with 0%nat in G by lia.
      cbn [firstn] in G. rewrite app_nil_r in G. now symmetry. }
    rewrite P, <- app_assoc. now rewrite (proj1 XE).
  - assert (P : X = p ++ skipn (length p) X).
    { rewrite <- (firstn_skipn (length p) X) at 1. f_equal.
      assert (G : firstn (length p) (X ++ tail) = firstn (length p) (p ++ q)) by now rewrite E.
      rewrite firstn_exact in G. rewrite firstn_app in G.
      replace (length p - length X)%nat with 0%nat in G by lia.
      cbn [firstn] in G. rewrite app_nil_r in G. exact G. }
    rewrite (proj2 XE p _ P); [reflexivity|].
    intros C. apply (f_equal (@length Z)) in C. rewrite skipn_length in C. cbn in C. lia.
Qed.

(** The offset recorded for the heap is 268 bytes short of where the heap is. *)
Lemma recorded_heap_offset : forall tables heap f, tables_fit0 tables -> heap_image heap ->
  write_file tables heap = Some f -> Z.of_nat (length f) < 4294967296 ->
  exists before, f = before ++ skipn 1 heap
    /\ le_val (firstn 4 (skipn 20 f)) = Z.of_nat (length before) - 268.
Proof.
  intros tables heap f T HI W L.
  destruct (write_file_shape tables heap f HI W) as [F _].
  exists (guide_bytes ++ head_bytes tables heap ++ write_tables schemas tables).
  split; [rewrite F; now rewrite <- !app_assoc|].
  pose proof (head_bytes_length tables heap (Forall2_len _ _ _ _ _ T)) as HL.
  assert (LB : Z.of_nat (length (guide_bytes ++ head_bytes tables heap ++ write_tables schemas tables))
               = 276 + Z.of_nat (length (write_tables schemas tables))).
  { rewrite !app_length in *. lia. }
  rewrite LB.
  assert (LF : Z.of_nat (length f) >= 276 + Z.of_nat (length (write_tables schemas tables))).
  { rewrite F. rewrite !app_length in *. lia. }
  pose proof (dir_entries_end schemas tables 8 T) as E.
  rewrite F. unfold head_bytes. destruct (dir_entries 8 schemas tables) as [es e].
  cbn [snd] in E. change 20%nat with (length guide_bytes). rewrite skipn_exact.
  rewrite <- !app_assoc.
  change 4%nat with (length (le_bytes 4 e)) at 1. rewrite firstn_exact.
  rewrite le_val_bytes; [lia|]. change (256 ^ Z.of_nat 4) with 4294967296. lia.
Qed.

(** When the file is written at all. *)
Lemma write_file_some : forall tables heap, heap_image heap ->
  (Z.of_nat (length heap) - 1 <= 67108864 <-> exists f, write_file tables heap = Some f).
Proof.
  intros tables heap HI. split.
  - intro L. destruct HI as (t & -> & _ & Lt). unfold write_file.
    destruct (dir_entries 8 schemas tables) as [es e].
    rewrite Z.mod_small by (cbn [length]; lia).
    replace (max_heap <? _) with false by (symmetry; apply Z.ltb_ge; unfold max_heap; exact L).
    eexists. reflexivity.
  - intros [f W]. exact (proj2 (write_file_shape tables heap f HI W)).
Qed.

(** * In terms of the specification *)

Lemma file_roundtrip_spec : forall tables heap f junk, tables_fit tables -> heap_image heap ->
  write_file tables heap = Some f -> read_file (f ++ junk) = OK (tables_back tables, heap).
Proof.
  intros tables heap f junk T H W. apply tables_fit_0 in T.
  rewrite <- (kept_back tables T). now apply file_roundtrip.
Qed.

Lemma file_truncated_spec : forall tables heap f p q, tables_fit tables -> heap_image heap ->
  write_file tables heap = Some f -> f = p ++ q -> q <> [] -> read_file p = Throw.
Proof. intros tables heap f p q T. apply tables_fit_0 in T. now apply file_truncated. Qed.

Lemma brief_read_spec : forall t ts heap f p q junk, tables_fit (t :: ts) -> heap_image heap ->
  write_file (t :: ts) heap = Some f -> f = p ++ q ->
  let needed := 276 + 20 * Z.of_nat (length t) in
  (needed <= Z.of_nat (length p) -> read_brief (p ++ junk) = OK (all_back t))
  /\ (Z.of_nat (length p) < needed -> read_brief p = Throw).
Proof.
  intros t ts heap f p q junk T H W E. apply tables_fit_0 in T.
  assert (A : map (kept (hd [] schemas)) t = all_back t).
  { apply kept_all_table. inversion T; subst. tauto. }
  rewrite <- A. exact (brief_read t ts heap f p q junk T H W E).
Qed.

Lemma recorded_heap_offset_spec : forall tables heap f, tables_fit tables -> heap_image heap ->
  write_file tables heap = Some f -> Z.of_nat (length f) < 4294967296 ->
  exists before, f = before ++ skipn 1 heap
    /\ le_val (firstn 4 (skipn 20 f)) = Z.of_nat (length before) - 268.
Proof. intros tables heap f T. apply tables_fit_0 in T. now apply recorded_heap_offset. Qed.
