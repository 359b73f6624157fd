(** Proofs about the heaps. *)

From Coq Require Import ZArith List Bool Lia.
Import ListNotations.
From Verif Require Import CppInt CommonModel CommonProofs HeapModel HeapSpec.
Open Scope Z_scope.

Section Heap.
Variable V : Type.
Variable rs : Z.
Hypothesis rs_pos : 0 < rs.

Notation heap := (heap V). Notation cells := (cells V).

Lemma lex_lt : forall q c fr fc, 0 <= c < rs -> 0 <= fc < rs -> (q * rs + c < fr * rs + fc <-> q < fr \/ (q = fr /\ c < fc)).
Proof. intros. split; [|intros [H1|[-> H1]]]; nia. Qed.

Lemma lex_eq : forall q c fr fc, 0 <= c < rs -> 0 <= fc < rs -> (q * rs + c = fr * rs + fc <-> q = fr /\ c = fc).
Proof. intros. split; [|intros [-> ->]; reflexivity]. intro E. assert (q = fr) by nia. subst. lia. Qed.

Lemma div_mod_flat : forall k, k = (k / rs) * rs + k mod rs /\ 0 <= k mod rs < rs.
Proof. intro k. pose proof (Z.div_mod k rs ltac:(lia)). pose proof (Z.mod_pos_bound k rs rs_pos). lia. Qed.

(** The heap [h] holds the list: representation invariant. *)
Definition placed (h : heap) : Prop :=
  0 <= rows V h /\
  match ptr V h with
  | None => row V h = -1 /\ col V h = 0 /\ size V h = 0
  | Some p => p = row V h /\ 0 <= row V h < rows V h /\ 0 <= col V h <= rs /\ size V h = row V h * rs + col V h /\
              (row V h = 0 \/ 1 <= col V h)
  end.

Definition filled (c : cells) (l : list V) : Prop :=
  forall q k, 0 <= q -> 0 <= k < rs -> q * rs + k < count V l -> c q k = nth_error l (Z.to_nat (q * rs + k)).

Definition rep (h : heap) (l : list V) : Prop := placed h /\ size V h = count V l /\ filled (cell V h) l.

Lemma filled_get : forall c l i, filled c l -> 0 <= i < count V l -> c (i / rs) (i mod rs) = nth_error l (Z.to_nat i).
Proof.
  intros c l i F H. destruct (div_mod_flat i) as [E B]. rewrite (F (i / rs) (i mod rs)); [rewrite <- E; reflexivity| |exact B|lia].
  apply Z.div_pos; lia.
Qed.

Lemma rep_holds : forall h l, rep h l -> holds V rs h l.
Proof. intros h l (P & S & F). split; [exact S|]. intros i H. apply filled_get; assumption. Qed.

Lemma hole_spec : forall h l, rep h l -> exists h1 r k,
  current_hole V rs h = (h1, (r, k)) /\ 0 <= r < rows V h1 /\ 0 <= k < rs /\ r * rs + k = count V l /\
  cell V h1 = cell V h /\ ptr V h1 = Some r /\ row V h1 = r /\ col V h1 = k + 1 /\ size V h1 = count V l + 1 /\ 0 <= rows V h1.
Proof.
  intros h l ((R & P) & S & F). unfold current_hole. destruct h as [rw ce pt co ro si]. cbn [ptr row col size rows cell] in *.
  destruct pt as [p|].
  - destruct P as (-> & B1 & B2 & E & _). destruct (Z.leb_spec rs co) as [L|L].
    + assert (co = rs) by lia. subst co. destruct (Z.ltb_spec (ro + 1) rw) as [L1|L1]; cbv zeta; cbn [ptr row col size rows cell].
      * do 3 eexists. split; [reflexivity|]. cbn [ptr row col size rows cell]. repeat split; try lia; nia.
      * do 3 eexists. split; [reflexivity|]. cbn [ptr row col size rows cell].
        assert (rw = ro + 1) by lia. subst rw. repeat split; try lia; nia.
    + do 3 eexists. split; [reflexivity|]. cbn [ptr row col size rows cell]. repeat split; try lia.
  - destruct P as (-> & -> & ->). destruct (Z.ltb_spec (-1 + 1) rw) as [L1|L1]; cbv zeta; cbn [ptr row col size rows cell].
    + do 3 eexists. split; [reflexivity|]. cbn [ptr row col size rows cell]. repeat split; try lia.
    + do 3 eexists. split; [reflexivity|]. cbn [ptr row col size rows cell]. assert (rw = 0) by lia. subst rw. repeat split; try lia.
Qed.

Lemma placed_after : forall h1 r k n, 0 <= r < rows V h1 -> 0 <= k < rs -> r * rs + k = n ->
  ptr V h1 = Some r -> row V h1 = r -> col V h1 = k + 1 -> size V h1 = n + 1 -> placed h1.
Proof. intros. unfold placed. rewrite H2, H3, H4, H5. repeat split; try lia. Qed.

Lemma placed_cells : forall h c, placed (set_cell V h c) <-> placed h.
Proof. intros h c. destruct h. unfold placed, set_cell. cbn. tauto. Qed.

Lemma new_rep : forall h l v, rep h l -> rep (new_obj V rs v h) (l ++ [v]).
Proof.
  intros h l v R. destruct (hole_spec h l R) as (h1 & r & k & E & B1 & B2 & N & C & P & Ro & Co & Si & Rw).
  unfold new_obj. rewrite E. destruct R as (_ & S & F).
  assert (CL : count V (l ++ [v]) = count V l + 1) by (unfold count; rewrite app_length; cbn; lia).
  split; [apply placed_cells; eapply placed_after; eassumption|]. split; [destruct h1; cbn in *; lia|].
  destruct h1 as [rw ce pt co ro si]. cbn [set_cell cell ptr row col size rows] in *. subst ce.
  intros q c Hq Hc L. rewrite CL in L. unfold write.
  destruct (Z.eqb_spec q r) as [->|Nq]; destruct (Z.eqb_spec c k) as [->|Nc]; cbn [andb].
  - rewrite nth_error_app2 by (unfold count in N; lia). rewrite N. unfold count. rewrite Nat2Z.id, Nat.sub_diag. reflexivity.
  - assert (q := lex_eq r c r k Hc B2). assert (r * rs + c < count V l) by lia. rewrite F by assumption.
    rewrite nth_error_app1; [reflexivity|]. unfold count in *. lia.
  - assert (q * rs + k < count V l). { pose proof (lex_eq q k r k Hc B2). lia. }
    rewrite F by assumption. rewrite nth_error_app1; [reflexivity|]. unfold count in *. lia.
  - assert (q * rs + c < count V l). { pose proof (lex_eq q c r k Hc B2). lia. }
    rewrite F by assumption. rewrite nth_error_app1; [reflexivity|]. unfold count in *. lia.
Qed.

(** *** Insertion *)

Lemma copy_spec : forall rw dr dc sr sc n c, 0 <= dr < rw -> 0 <= sr < rw -> 0 <= n -> (n = 0 \/ 0 <= dc /\ dc + n <= rs /\ 0 <= sc /\ sc + n <= rs) ->
  exists c', copy V rs rw dr dc sr sc n c = Some c' /\
    forall r k, c' r k = if (r =? dr) && (dc <=? k) && (k <? dc + n) then c sr (sc + (k - dc)) else c r k.
Proof.
  intros rw dr dc sr sc n c H1 H2 H3 H4. unfold copy.
  rewrite (proj2 (Z.leb_le 0 dr)), (proj2 (Z.ltb_lt dr rw)), (proj2 (Z.leb_le 0 sr)), (proj2 (Z.ltb_lt sr rw)) by lia. cbn [andb negb].
  destruct (Z.eqb_spec n 0) as [->|N].
  - exists c. split; [reflexivity|]. intros r k. destruct (Z.eqb_spec r dr), (Z.leb_spec dc k), (Z.ltb_spec k (dc + 0)); cbn [andb]; try reflexivity; lia.
  - destruct H4 as [H4|(A & B & C & D)]; [contradiction|].
    rewrite (proj2 (Z.leb_le 0 n)), (proj2 (Z.leb_le 0 dc)), (proj2 (Z.leb_le (dc + n) rs)), (proj2 (Z.leb_le 0 sc)), (proj2 (Z.leb_le (sc + n) rs)) by lia.
    cbn [andb negb]. eexists. split; [reflexivity|]. reflexivity.
Qed.

Ltac known_true b := replace b with true by (symmetry; first [apply Z.eqb_eq | apply Z.leb_le | apply Z.ltb_lt]; lia).
Ltac known_false b := replace b with false by (symmetry; first [apply Z.eqb_neq | apply Z.leb_gt | apply Z.ltb_ge]; lia).
Ltac decide_one b := first [known_true b | known_false b |
  match b with
  | ?x =? ?y => destruct (Z.eqb_spec x y)
  | ?x <=? ?y => destruct (Z.leb_spec x y)
  | ?x <? ?y => destruct (Z.ltb_spec x y)
  end].
Ltac cells_cases :=
  repeat (match goal with
  | |- context [?x =? ?y] => decide_one (x =? y)
  | |- context [?x <=? ?y] => decide_one (x <=? y)
  | |- context [?x <? ?y] => decide_one (x <? y)
  end; cbn [andb]).

Lemma shift_rows_spec : forall rw n from c, 0 <= from -> from + Z.of_nat n + 1 < rw ->
  exists c', shift_rows V rs rw n (from + Z.of_nat n) c = Some c' /\
    forall q k, 0 <= k < rs -> c' q k =
      if (from <? q) && (q <=? from + Z.of_nat n) && (1 <=? k) then c q (k - 1)
      else if (from + 1 <? q) && (q <=? from + Z.of_nat n + 1) && (k =? 0) then c (q - 1) (rs - 1)
      else c q k.
Proof.
  intros rw n. induction n as [|n IH]; intros from c H0 H1.
  - exists c. split; [reflexivity|]. intros q k Hk. cells_cases; try reflexivity; lia.
  - cbn [shift_rows].
    destruct (copy_spec rw (from + Z.of_nat (S n) + 1) 0 (from + Z.of_nat (S n)) (rs - 1) 1 c ltac:(lia) ltac:(lia) ltac:(lia) ltac:(lia)) as (c1 & E1 & C1).
    rewrite E1.
    destruct (copy_spec rw (from + Z.of_nat (S n)) 1 (from + Z.of_nat (S n)) 0 (rs - 1) c1 ltac:(lia) ltac:(lia) ltac:(lia) ltac:(lia)) as (c2 & E2 & C2).
    rewrite E2. replace (from + Z.of_nat (S n) - 1) with (from + Z.of_nat n) by lia.
    destruct (IH from c2 H0 ltac:(lia)) as (c' & E & C'). exists c'. split; [exact E|].
    intros q k Hk. rewrite C' by exact Hk. rewrite !C2, !C1.
    replace (from + Z.of_nat (S n)) with (from + Z.of_nat n + 1) by lia.
    set (t := from + Z.of_nat n) in *. assert (from <= t) by (unfold t; lia). clearbody t. clear IH E E1 E2 C1 C2 C'.
    cells_cases; try lia; try reflexivity; f_equal; lia.
Qed.

Lemma move_next_spec : forall h l index, rep h l -> 0 <= index < count V l ->
  exists h1 c, move_next V rs index h = Some (set_cell V h1 c, (index / rs, index mod rs)) /\ placed h1 /\ size V h1 = count V l + 1 /\
    forall q k, 0 <= q -> 0 <= k < rs -> q * rs + k <= count V l ->
      (q * rs + k < index -> c q k = cell V h q k) /\
      (index < q * rs + k -> c q k = nth_error l (Z.to_nat (q * rs + k - 1))).
Proof.
  intros h l index R HI. destruct (hole_spec h l R) as (h1 & r & k0 & E & B1 & B2 & N & C & P & Ro & Co & Si & Rw).
  destruct R as (_ & S & F). unfold move_next. rewrite E, Ro, Co. replace (k0 + 1 - 1) with k0 by lia.
  destruct (div_mod_flat index) as [EI BI]. set (fr := index / rs) in *. set (fc := index mod rs) in *.
  assert (Hfr : 0 <= fr) by (unfold fr; apply Z.div_pos; lia). clearbody fr fc.
  assert (Lr : fr < r \/ (fr = r /\ fc < k0)). { apply (lex_lt fr fc r k0 BI B2). lia. }
  assert (PL : placed h1) by (exact (placed_after h1 r k0 (count V l) B1 B2 N P Ro Co Si)).
  assert (Prev : forall q k, 0 <= q -> 0 <= k < rs -> 1 <= q * rs + k <= count V l ->
     (1 <= k -> cell V h q (k - 1) = nth_error l (Z.to_nat (q * rs + k - 1))) /\
     (k = 0 -> cell V h (q - 1) (rs - 1) = nth_error l (Z.to_nat (q * rs + k - 1)))).
  { intros q k Hq Hk L. split; intro X.
    - rewrite (F q (k - 1)) by lia. f_equal. f_equal. lia.
    - subst k. assert (1 <= q) by nia. rewrite (F (q - 1) (rs - 1)) by nia. f_equal. f_equal. nia. }
  exists h1. destruct (Z.ltb_spec fr r) as [L|L].
  - destruct (copy_spec (rows V h1) r 1 r 0 k0 (cell V h1) ltac:(lia) ltac:(lia) ltac:(lia) ltac:(lia)) as (c1 & E1 & C1). rewrite E1.
    destruct (shift_rows_spec (rows V h1) (Z.to_nat (r - 1 - fr)) fr c1 Hfr ltac:(lia)) as (c2 & E2 & C2).
    replace (fr + Z.of_nat (Z.to_nat (r - 1 - fr))) with (r - 1) in E2 by lia. rewrite E2.
    destruct (copy_spec (rows V h1) (fr + 1) 0 fr (rs - 1) 1 c2 ltac:(lia) ltac:(lia) ltac:(lia) ltac:(lia)) as (c3 & E3 & C3). rewrite E3.
    destruct (copy_spec (rows V h1) fr (fc + 1) fr fc (rs - fc - 1) c3 ltac:(lia) ltac:(lia) ltac:(lia) ltac:(lia)) as (c4 & E4 & C4). rewrite E4.
    exists c4. split; [reflexivity|]. split; [exact PL|]. split; [exact Si|].
    intros q k Hq Hk LE.
    assert (Q : q < r \/ (q = r /\ k <= k0)). { destruct (Z.lt_trichotomy q r) as [X|[X|X]]; [auto| |]; [right; subst; split; lia|nia]. }
    assert (X : c4 q k = if (q =? fr) && (fc + 1 <=? k) then cell V h fr (k - 1)
                        else if (fr <? q) && (1 <=? k) then cell V h q (k - 1)
                        else if (fr <? q) then cell V h (q - 1) (rs - 1)
                        else cell V h q k).
    { clear - BI B2 B1 Hfr L Hq Hk Q rs_pos C1 C2 C3 C4 C.
      replace (fr + Z.of_nat (Z.to_nat (r - 1 - fr))) with (r - 1) in C2 by lia.
      rewrite C4. cells_cases; rewrite C3; cells_cases; try lia; rewrite C2 by lia; cells_cases; try lia; rewrite C1, C; cells_cases;
        try lia; try reflexivity; f_equal; lia. }
    rewrite X. split; intro LI.
    + rewrite EI in LI. apply lex_lt in LI; [|assumption|assumption]. clear - LI. cells_cases; try reflexivity; lia.
    + rewrite EI in LI. assert (LI' := LI). apply lex_lt in LI; [|assumption|assumption].
      destruct (Prev q k Hq Hk ltac:(lia)) as [P1 P2].
      destruct (Z.eqb_spec q fr) as [->|Nq].
      * destruct (Z.leb_spec (fc + 1) k); [|lia]. cbn [andb]. apply P1. lia.
      * cbn [andb]. destruct (Z.ltb_spec fr q); [|lia]. cbn [andb]. destruct (Z.leb_spec 1 k); [apply P1; lia|apply P2; lia].
  - assert (X : fr = r /\ fc < k0) by lia. destruct X as [-> Lk].
    destruct (copy_spec (rows V h1) r (fc + 1) r fc (k0 - fc) (cell V h1) ltac:(lia) ltac:(lia) ltac:(lia) ltac:(lia)) as (c1 & E1 & C1). rewrite E1.
    exists c1. split; [reflexivity|]. split; [exact PL|]. split; [exact Si|].
    intros q k Hq Hk LE. rewrite C1, C. split; intro LI.
    + rewrite EI in LI. apply lex_lt in LI; [|assumption|assumption]. clear - LI. cells_cases; try reflexivity; lia.
    + rewrite EI in LI. assert (LI' := LI). apply lex_lt in LI; [|assumption|assumption].
      assert (q = r). { destruct LI as [LI|[LI _]]; [nia|auto]. } subst q.
      destruct (Prev r k Hq Hk ltac:(lia)) as [P1 P2].
      destruct (Z.eqb_spec r r); [|lia]. destruct (Z.leb_spec (fc + 1) k); [|lia]. destruct (Z.ltb_spec k (fc + 1 + (k0 - fc))); [|lia]. cbn [andb].
      rewrite <- P1 by lia. f_equal. lia.
Qed.

Lemma nth_insert : forall (l : list V) i v j, (i <= length l)%nat ->
  nth_error (firstn i l ++ v :: skipn i l) j =
  if (j <? i)%nat then nth_error l j else if (j =? i)%nat then Some v else nth_error l (j - 1).
Proof.
  induction l as [|x l IH]; intros i v j H.
  - cbn in H. assert (i = 0%nat) by lia. subst. destruct j as [|j]; [reflexivity|]. cbn. destruct j; reflexivity.
  - destruct i as [|i]; [destruct j as [|j]; [reflexivity|]; cbn; rewrite Nat.sub_0_r; reflexivity|].
    cbn [firstn skipn app]. destruct j as [|j]; [reflexivity|]. cbn [nth_error]. rewrite IH by (cbn in H; lia).
    change (S j <? S i)%nat with (j <? i)%nat. change (S j =? S i)%nat with (j =? i)%nat.
    destruct (Nat.ltb_spec j i); [reflexivity|]. destruct (Nat.eqb_spec j i); [reflexivity|].
    destruct j as [|j]; [lia|]. cbn [Nat.sub]. rewrite Nat.sub_0_r. reflexivity.
Qed.

Lemma nth_error_nil_any : forall j, nth_error (@nil V) j = None.
Proof. destruct j; reflexivity. Qed.

Lemma nth_remove : forall (l : list V) i j,
  nth_error (firstn i l ++ skipn (S i) l) j = if (j <? i)%nat then nth_error l j else nth_error l (S j).
Proof.
  induction l as [|x l IH]; intros i j.
  - rewrite firstn_nil, skipn_nil. cbn [app]. rewrite !nth_error_nil_any. destruct (j <? i)%nat; reflexivity.
  - destruct i as [|i]; [reflexivity|]. destruct j as [|j]; [reflexivity|]. cbn [firstn skipn app nth_error].
    change (S j <? S i)%nat with (j <? i)%nat. specialize (IH i j). cbn [skipn] in IH. rewrite IH. destruct (j <? i)%nat; reflexivity.
Qed.

Lemma insert_rep : forall h l index v, rep h l -> 0 <= index < count V l ->
  exists h1, (match move_next V rs index h with
              | Some (h1, (r, k)) => Went V (set_cell V h1 (write V r k v (cell V h1)))
              | None => Undefined V end) = Went V h1 /\
    rep h1 (firstn (Z.to_nat index) l ++ v :: skipn (Z.to_nat index) l).
Proof.
  intros h l index v R HI. destruct (move_next_spec h l index R HI) as (h1 & c & E & PL & Si & C).
  rewrite E. eexists. split; [reflexivity|]. destruct R as (_ & S & F).
  assert (CL : count V (firstn (Z.to_nat index) l ++ v :: skipn (Z.to_nat index) l) = count V l + 1).
  { unfold count. rewrite app_length. cbn [length]. rewrite firstn_length, skipn_length. unfold count in HI. lia. }
  split; [apply placed_cells, placed_cells; exact PL|]. split; [destruct h1; cbn in *; lia|].
  intros q k Hq Hk L. rewrite CL in L. cbn [set_cell cell]. unfold write.
  rewrite nth_insert by (unfold count in HI; lia).
  destruct (div_mod_flat index) as [EI BI]. destruct (C q k Hq Hk ltac:(lia)) as [C1 C2].
  destruct (Z.eqb_spec q (index / rs)) as [Eq|Nq]; destruct (Z.eqb_spec k (index mod rs)) as [Ek|Nk]; cbn [andb].
  - assert (X : q * rs + k = index) by lia. rewrite X. destruct (Nat.ltb_spec (Z.to_nat index) (Z.to_nat index)); [lia|].
    rewrite Nat.eqb_refl. reflexivity.
  - assert (X : q * rs + k <> index) by (intro X; rewrite EI in X; apply lex_eq in X; tauto).
    destruct (Nat.ltb_spec (Z.to_nat (q * rs + k)) (Z.to_nat index)).
    + rewrite C1 by lia. apply F; [lia|lia|lia].
    + destruct (Nat.eqb_spec (Z.to_nat (q * rs + k)) (Z.to_nat index)); [nia|]. rewrite C2 by nia. f_equal. lia.
  - assert (X : q * rs + k <> index) by (intro X; rewrite EI in X; apply lex_eq in X; tauto).
    destruct (Nat.ltb_spec (Z.to_nat (q * rs + k)) (Z.to_nat index)).
    + rewrite C1 by nia. apply F; [lia|lia|nia].
    + destruct (Nat.eqb_spec (Z.to_nat (q * rs + k)) (Z.to_nat index)); [nia|]. rewrite C2 by nia. f_equal. lia.
  - assert (X : q * rs + k <> index) by (intro X; rewrite EI in X; apply lex_eq in X; tauto).
    destruct (Nat.ltb_spec (Z.to_nat (q * rs + k)) (Z.to_nat index)).
    + rewrite C1 by nia. apply F; [lia|lia|nia].
    + destruct (Nat.eqb_spec (Z.to_nat (q * rs + k)) (Z.to_nat index)); [nia|]. rewrite C2 by nia. f_equal. lia.
Qed.

(** *** Deletion within the last row *)

Lemma last_row : forall h l, rep h l -> l <> [] -> exists p, ptr V h = Some p /\ p = row V h /\ 0 <= row V h < rows V h /\
  1 <= col V h <= rs /\ count V l = row V h * rs + col V h.
Proof.
  intros h l ((_ & P) & S & _) N. assert (0 < count V l) by (destruct l; [contradiction|unfold count; cbn; lia]).
  destruct (ptr V h) as [p|]; [|lia]. exists p. destruct P as (-> & A & B & C & D). repeat split; try lia. 
Qed.

Lemma delete_rep : forall h l i, rep h l -> 0 <= i < count V l -> within_last_row rs (count V l) i ->
  exists h1, move_previous V rs (i + 1) h = Some h1 /\ rep h1 (firstn (Z.to_nat i) l ++ skipn (S (Z.to_nat i)) l).
Proof.
  intros h l i R HI (W1 & W2 & W3).
  destruct (last_row h l R ltac:(intros ->; cbn in HI; lia)) as (p & EP & Ep & B1 & B2 & N).
  destruct R as ((Rw & _) & S & F). unfold move_previous.
  assert (Row : (count V l - 1) / rs = row V h).
  { rewrite N. replace (row V h * rs + col V h - 1) with (col V h - 1 + row V h * rs) by lia. rewrite Z.div_add by lia.
    rewrite Z.div_small by lia. lia. }
  assert (Md : (count V l - 1) mod rs = col V h - 1).
  { rewrite N. replace (row V h * rs + col V h - 1) with (col V h - 1 + row V h * rs) by lia. rewrite Z_mod_plus_full.
    apply Z.mod_small. lia. }
  rewrite Row in W1. rewrite Md in W3.
  destruct (div_mod_flat (i + 1)) as [EI BI]. rewrite W1 in *. set (fc := (i + 1) mod rs) in *. clearbody fc.
  destruct (Z.ltb_spec (row V h) (row V h)); [lia|].
  assert (Hfc : fc <= col V h) by lia.
  destruct (copy_spec (rows V h) (row V h) (fc - 1) (row V h) fc (col V h - 1 - fc + 1) (cell V h) ltac:(lia) ltac:(lia) ltac:(lia) ltac:(lia)) as (c1 & E1 & C1).
  rewrite E1. destruct (Z.eqb_spec (col V h) 0); [lia|]. eexists. split; [reflexivity|].
  assert (CL : count V (firstn (Z.to_nat i) l ++ skipn (Datatypes.S (Z.to_nat i)) l) = count V l - 1).
  { unfold count. rewrite app_length, firstn_length, skipn_length. unfold count in HI. lia. }
  split; [|split].
  - unfold placed. cbn [ptr row col size rows]. rewrite EP. split; [lia|]. split; [exact Ep|]. split; [exact B1|]. split; [lia|]. split; [lia|].
    destruct W3 as [W3|W3]; [right; lia|]. left. nia.
  - cbn [size]. lia.
  - intros q k Hq Hk L. rewrite CL in L. cbn [cell]. rewrite C1, nth_remove.
    destruct (Z.eqb_spec q (row V h)) as [->|Nq]; cbn [andb].
    + destruct (Z.leb_spec (fc - 1) k); cbn [andb].
      * destruct (Z.ltb_spec k (fc - 1 + (col V h - 1 - fc + 1))); [|lia].
        rewrite F by lia. destruct (Nat.ltb_spec (Z.to_nat (row V h * rs + k)) (Z.to_nat i)); [lia|]. f_equal. lia.
      * rewrite F by lia. destruct (Nat.ltb_spec (Z.to_nat (row V h * rs + k)) (Z.to_nat i)); [reflexivity|]. nia.
    + assert (X : q * rs + k < row V h * rs) by nia. rewrite F by lia.
      destruct (Nat.ltb_spec (Z.to_nat (q * rs + k)) (Z.to_nat i)); [reflexivity|]. nia.
Qed.

Lemma empty_rep : rep (empty V) [].
Proof. split; [|split]; [unfold placed; cbn; lia|reflexivity|]. intros q k Hq Hk L. cbn in L. nia. Qed.

Lemma clear_rep : forall h l, rep h l -> rep (Heap V (rows V h) (cell V h) None 0 (-1) 0) [].
Proof. intros h l ((Rw & _) & _). split; [|split]; [unfold placed; cbn; lia|reflexivity|]. intros q k Hq Hk L. cbn in L. nia. Qed.

Lemma run_rep : forall os h l, rep h l -> gentle V rs l os -> exists h1, run V rs h os = Some h1 /\ rep h1 (fold_left (on_list V) os l).
Proof.
  induction os as [|o os IH]; intros h l R G; cbn [run fold_left]; [eauto|].
  destruct G as (U & D & G). assert (S : size V h = count V l) by (destruct R as (_ & S & _); exact S).
  destruct o as [v|i v|i|]; cbn [step unsigned on_list] in *.
  - apply IH; [apply new_rep; exact R|exact G].
  - rewrite S in *. destruct (Z.eqb_spec i (count V l)) as [->|N].
    + rewrite Z.leb_refl in *. unfold count in *. rewrite Nat2Z.id in *. rewrite firstn_all, skipn_all in *. apply IH; [apply new_rep; exact R|exact G].
    + destruct (Z.ltb_spec (count V l) i).
      * rewrite (proj2 (Z.leb_gt i (count V l))) in * by lia. apply IH; assumption.
      * rewrite (proj2 (Z.leb_le i (count V l))) in * by lia.
        destruct (insert_rep h l i v R ltac:(lia)) as (h1 & E & R1). rewrite E. apply IH; assumption.
  - rewrite S in *. destruct (Z.leb_spec (count V l) i).
    + rewrite (proj2 (Z.ltb_ge i (count V l))) in * by lia. apply IH; assumption.
    + rewrite (proj2 (Z.ltb_lt i (count V l))) in * by lia.
      destruct (delete_rep h l i R ltac:(lia) (D ltac:(lia))) as (h1 & E & R1). rewrite E. apply IH; assumption.
  - apply IH; [eapply clear_rep; exact R|exact G].
Qed.

Lemma no_delete_gentle : forall os l, no_delete V os -> gentle V rs l os.
Proof.
  induction os as [|o os IH]; intros l H; [exact I|]. inversion H as [|? ? [U D] H']; subst. cbn [gentle]. split; [exact U|].
  split; [destruct o; auto; contradiction|]. apply IH. exact H'.
Qed.

Lemma last_spec : forall h l, rep h l -> l <> [] -> exists r k, last V h = Some (r, k) /\
  cell V h r k = nth_error l (length l - 1) /\ r * rs + k = count V l - 1 /\ 0 <= k < rs.
Proof.
  intros h l R N. destruct (last_row h l R N) as (p & EP & -> & B1 & B2 & C). destruct R as (_ & _ & F).
  unfold last. rewrite EP. exists (row V h), (col V h - 1). split; [reflexivity|].
  split; [|split; lia]. rewrite F by lia. f_equal. unfold count in C. lia.
Qed.

End Heap.
