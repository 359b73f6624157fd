(** Proofs about the string functions. *)

From Coq Require Import ZArith List Bool Lia.
Import ListNotations.
From Verif Require Import CppInt StrModel StrSpec.
Open Scope Z_scope.
Ltac Zify.zify_post_hook ::= Z.div_mod_to_equations.

(** ** Searching *)

Section Search.
Variable eq : char -> char -> bool.
Notation same := (fun a b => eq a b = true).

Lemma occurs_cons : forall p c s i, occurs same p (c :: s) (S i) <-> occurs same p s i.
Proof.
  intros p c s i. split.
  - intros (a & m & b & E & L & F). destruct a as [|x a]; [discriminate|]. injection E as <- E. exists a, m, b. cbn in L. auto.
  - intros (a & m & b & E & L & F). exists (c :: a), m, b. subst. cbn. auto.
Qed.

Lemma occurs_zero : forall p s, occurs same p s 0 <-> exists m b, s = m ++ b /\ Forall2 same m p.
Proof.
  intros p s. split.
  - intros (a & m & b & E & L & F). destruct a; [|discriminate]. exists m, b. auto.
  - intros (m & b & E & F). exists [], m, b. auto.
Qed.

Lemma equals_spec : forall s p, match str_equals eq s p with
  | Yes => exists m b, s = m ++ b /\ Forall2 same m p
  | No => ~ exists m b, s = m ++ b /\ Forall2 same m p
  | No_longer => (length s < length p)%nat
  end.
Proof.
  intro s. induction s as [|c s IH]; intros [|d p]; cbn [str_equals].
  - exists [], []. split; [reflexivity|constructor].
  - cbn. lia.
  - exists [], (c :: s). split; [reflexivity|constructor].
  - destruct (eq c d) eqn:E.
    + specialize (IH p). destruct (str_equals eq s p).
      * destruct IH as (m & b & -> & F). exists (c :: m), b. split; [reflexivity|]. constructor; assumption.
      * intros (m & b & X & F). inversion F; subst. injection X as <- X. apply IH. eauto.
      * cbn. lia.
    + intros (m & b & X & F). inversion F; subst. injection X as <- X. congruence.
Qed.

Lemma occurs_length : forall p s j, occurs same p s j -> (j + length p <= length s)%nat.
Proof.
  intros p s j (a & m & b & E & L & F). apply (f_equal (@length _)) in E. rewrite !app_length in E.
  assert (length m = length p) by (clear - F; induction F; cbn; congruence). lia.
Qed.

Lemma strstr_ok : forall s p pos, match strstr_from eq pos s p with
  | Some r => exists i, r = (pos + i)%nat /\ occurs same p s i /\ forall j, occurs same p s j -> (i <= j)%nat
  | None => forall j, ~ occurs same p s j
  end.
Proof.
  intro s. induction s as [|c s IH]; intros p pos; destruct p as [|d p]; cbn [strstr_from].
  - exists 0%nat. split; [lia|]. split; [apply occurs_zero; exists [], []; split; [reflexivity|constructor]|]. intros. lia.
  - intros j H. apply occurs_length in H. cbn in H. lia.
  - exists 0%nat. split; [lia|]. split; [apply occurs_zero; exists [], (c :: s); split; [reflexivity|constructor]|]. intros. lia.
  - assert (Later : ~ occurs same (d :: p) (c :: s) 0 ->
      match strstr_from eq (S pos) s (d :: p) with
      | Some r => exists i, r = (pos + i)%nat /\ occurs same (d :: p) (c :: s) i /\ forall j, occurs same (d :: p) (c :: s) j -> (i <= j)%nat
      | None => forall j, ~ occurs same (d :: p) (c :: s) j
      end).
    { intro N0. specialize (IH (d :: p) (S pos)). destruct (strstr_from eq (S pos) s (d :: p)).
      - destruct IH as (i & -> & O & M). exists (S i). split; [lia|]. split; [apply occurs_cons; exact O|].
        intros [|j] H; [contradiction|]. apply (proj1 (occurs_cons _ _ _ _)) in H. specialize (M j H). lia.
      - intros [|j] H; [contradiction|]. apply (proj1 (occurs_cons _ _ _ _)) in H. exact (IH j H). }
    destruct (eq c d) eqn:E.
    + pose proof (equals_spec s p) as Q. destruct (str_equals eq s p).
      * exists 0%nat. split; [lia|]. split; [|intros; lia]. destruct Q as (m & b & -> & F). apply occurs_zero. exists (c :: m), b. split; [reflexivity|]. constructor; assumption.
      * apply Later. intro O. apply (proj1 (occurs_zero _ _)) in O. destruct O as (m & b & X & F). inversion F; subst. injection X as <- X. apply Q. eauto.
      * intros j H. apply occurs_length in H. cbn [length] in H. lia.
    + apply Later. intro O. apply (proj1 (occurs_zero _ _)) in O. destruct O as (m & b & X & F). inversion F; subst. injection X as <- X. congruence.
Qed.
End Search.

Lemma occurs_same : forall (R S : Z -> Z -> Prop) p s i, (forall a b, R a b <-> S a b) -> occurs R p s i -> occurs S p s i.
Proof.
  intros R S p s i H (a & m & b & E & L & F). exists a, m, b. split; [exact E|]. split; [exact L|].
  clear - H F. induction F; constructor; [apply H; assumption|assumption].
Qed.

Lemma strstr_first : forall s p, first_occurrence (fun a b => a = b) p s (strstr s p).
Proof.
  intros s p. pose proof (strstr_ok plain_eq s p 0) as H. unfold strstr.
  assert (R : forall a b, plain_eq a b = true <-> a = b) by (intros a b; apply Z.eqb_eq).
  destruct (strstr_from plain_eq 0 s p) as [r|]; cbn [first_occurrence].
  - destruct H as (i & -> & O & M). cbn [plus]. split; [exact (occurs_same _ _ _ _ _ R O)|]. intros j Hj. apply M.
    apply (occurs_same (fun a b => a = b)); [intros a b; symmetry; apply R|exact Hj].
  - intros j Hj. apply (H j). apply (occurs_same (fun a b => a = b)); [intros a b; symmetry; apply R|exact Hj].
Qed.

Lemma stristr_first : forall s p, first_occurrence (fun a b => to_upper a = to_upper b) p s (stristr s p).
Proof.
  intros s p. pose proof (strstr_ok nocase_eq s p 0) as H. unfold stristr.
  assert (R : forall a b, nocase_eq a b = true <-> to_upper a = to_upper b).
  { intros a b. unfold nocase_eq. rewrite orb_true_iff, !Z.eqb_eq. split; [intros [->|]; auto|auto]. }
  destruct (strstr_from nocase_eq 0 s p) as [r|]; cbn [first_occurrence].
  - destruct H as (i & -> & O & M). cbn [plus]. split; [exact (occurs_same _ _ _ _ _ R O)|]. intros j Hj. apply M.
    apply (occurs_same (fun a b => to_upper a = to_upper b)); [intros a b; symmetry; apply R|exact Hj].
  - intros j Hj. apply (H j). apply (occurs_same (fun a b => to_upper a = to_upper b)); [intros a b; symmetry; apply R|exact Hj].
Qed.

(** Upper case on ASCII characters. *)
Lemma ascii_index : forall c, 0 < c < 127 -> index c = c /\ overlimit c = false.
Proof.
  intros c H. assert (E : index c = c).
  { unfold index. rewrite (wrap_id I8) by (unfold in_range, tmin, tmax; cbn; lia). apply wrap_id. unfold in_range. change (tmin U64) with 0. change (tmax U64) with (2 ^ 64 - 1). lia. }
  split; [exact E|]. unfold overlimit. rewrite E. apply Z.leb_gt. lia.
Qed.

Lemma ascii_upper : forall c, 0 < c < 127 -> to_upper c = upper c.
Proof. intros c H. destruct (ascii_index c H) as [E O]. unfold to_upper, upper. rewrite O, E. reflexivity. Qed.

Lemma upper_pos : forall c, 0 < c -> 0 < upper c.
Proof. intros c H. unfold upper. destruct (Z.leb_spec 97 c), (Z.leb_spec c 122); cbn [andb]; lia. Qed.

Lemma stristr_ascii : forall s p, ascii s -> ascii p -> first_occurrence (fun a b => upper a = upper b) p s (stristr s p).
Proof.
  intros s p As Ap. pose proof (stristr_first s p) as H.
  assert (G : forall i, occurs (fun a b => to_upper a = to_upper b) p s i <-> occurs (fun a b => upper a = upper b) p s i).
  { intro i. unfold ascii in As, Ap. rewrite Forall_forall in As, Ap. split; intros (a & m & b & E & L & F); exists a, m, b; (split; [exact E|]; split; [exact L|]).
    - assert (Am : forall c, In c m -> 0 < c < 127) by (intros c Hc; apply As; rewrite E; apply in_app_iff; right; apply in_app_iff; auto).
      clear - F Am Ap. induction F; constructor.
      + rewrite <- (ascii_upper x), <- (ascii_upper y); [assumption|apply Ap; left; reflexivity|apply Am; left; reflexivity].
      + apply IHF; [intros c Hc; apply Ap; right; exact Hc|intros c Hc; apply Am; right; exact Hc].
    - assert (Am : forall c, In c m -> 0 < c < 127) by (intros c Hc; apply As; rewrite E; apply in_app_iff; right; apply in_app_iff; auto).
      clear - F Am Ap. induction F; constructor.
      + rewrite (ascii_upper x), (ascii_upper y); [assumption|apply Ap; left; reflexivity|apply Am; left; reflexivity].
      + apply IHF; [intros c Hc; apply Ap; right; exact Hc|intros c Hc; apply Am; right; exact Hc]. }
  destruct (stristr s p) as [r|]; cbn [first_occurrence] in *.
  - destruct H as [O M]. split; [apply G; exact O|]. intros j Hj. apply M. apply G. exact Hj.
  - intros j Hj. apply (H j). apply G. exact Hj.
Qed.

Lemma strchr_ok : forall s c pos, match strchr_from plain_eq pos s c with
  | Some r => exists i, r = (pos + i)%nat /\ nth_error s i = Some c /\ forall j, nth_error s j = Some c -> (i <= j)%nat
  | None => ~ In c s
  end.
Proof.
  induction s as [|d s IH]; intros c pos; cbn [strchr_from]; [intros []|]. change (plain_eq d c) with (d =? c). destruct (Z.eqb_spec d c) as [->|N].
  - exists 0%nat. split; [lia|]. split; [reflexivity|]. intros. lia.
  - specialize (IH c (S pos)). destruct (strchr_from plain_eq (S pos) s c) as [r|].
    + destruct IH as (i & -> & E & M). exists (S i). split; [lia|]. split; [exact E|]. intros [|j] Hj; [cbn in Hj; congruence|]. specialize (M j Hj). lia.
    + intros [H|H]; [congruence|contradiction].
Qed.

(** ** Comparing *)

Lemma before_cons : forall {A} (lt : A -> A -> Prop) x s t, before lt s t -> before lt (x :: s) (x :: t).
Proof.
  intros A lt x s t [(y & r & ->)|(p & a & s' & b & t' & -> & -> & L)].
  - left. exists y, r. reflexivity.
  - right. exists (x :: p), a, s', b, t'. auto.
Qed.

Lemma before_nil : forall {A} (lt : A -> A -> Prop) x s, before lt [] (x :: s).
Proof. intros. left. exists x, s. reflexivity. Qed.

Lemma before_head : forall {A} (lt : A -> A -> Prop) x y s t, lt x y -> before lt (x :: s) (y :: t).
Proof. intros A lt x y s t L. right. exists [], x, s, y, t. auto. Qed.

Lemma compares_cons : forall {A} (lt : A -> A -> Prop) x s t c, compares lt s t c -> compares lt (x :: s) (x :: t) c.
Proof. intros A lt x s t []; cbn; [congruence|apply before_cons|apply before_cons]. Qed.

Lemma strcmp_ok : forall s t, proper_text s -> proper_text t -> exists c, strcmp s t = Some c /\ compares Z.lt s t c.
Proof.
  unfold strcmp. induction s as [|x s IH]; intros t Hs Ht; destruct t as [|y t]; cbn [compare].
  - exists Eq. split; reflexivity.
  - inversion Ht; subst. unfold plain_eq, plain_gt. destruct (Z.eqb_spec 0 y); [lia|]. destruct (Z.ltb_spec y 0); [lia|]. exists Lt. split; [reflexivity|apply before_nil].
  - inversion Hs; subst. unfold plain_eq, plain_gt. destruct (Z.eqb_spec x 0); [lia|]. destruct (Z.ltb_spec 0 x); [|lia]. exists Gt. split; [reflexivity|apply before_nil].
  - inversion Hs; inversion Ht; subst. unfold plain_eq, plain_gt. destruct (Z.eqb_spec x y) as [->|N].
    + destruct (IH t ltac:(assumption) ltac:(assumption)) as (c & E & C). exists c. split; [exact E|]. apply compares_cons. exact C.
    + destruct (Z.ltb_spec y x).
      * exists Gt. split; [reflexivity|]. apply before_head. exact H.
      * exists Lt. split; [reflexivity|]. apply before_head. lia.
Qed.

Lemma stricmp_ok : forall s t, ascii s -> ascii t -> exists c, stricmp s t = Some c /\ compares Z.lt (map upper s) (map upper t) c.
Proof.
  unfold stricmp. induction s as [|x s IH]; intros t Hs Ht; destruct t as [|y t]; cbn [compare map].
  - exists Eq. split; reflexivity.
  - inversion Ht; subst. unfold nocase_eq, nocase_gt. change (to_upper 0) with 0. rewrite (ascii_upper y) by assumption. pose proof (upper_pos y ltac:(lia)).
    destruct (Z.eqb_spec 0 y); [lia|]. destruct (Z.eqb_spec 0 (upper y)); [lia|]. cbn [orb]. destruct (Z.ltb_spec (upper y) 0); [lia|].
    exists Lt. split; [reflexivity|apply before_nil].
  - inversion Hs; subst. unfold nocase_eq, nocase_gt. change (to_upper 0) with 0. rewrite (ascii_upper x) by assumption. pose proof (upper_pos x ltac:(lia)).
    destruct (Z.eqb_spec x 0); [lia|]. destruct (Z.eqb_spec (upper x) 0); [lia|]. cbn [orb]. destruct (Z.ltb_spec 0 (upper x)); [|lia].
    exists Gt. split; [reflexivity|apply before_nil].
  - inversion Hs; inversion Ht; subst. unfold nocase_eq, nocase_gt. rewrite (ascii_upper x), (ascii_upper y) by assumption.
    assert (((x =? y) || (upper x =? upper y)) = (upper x =? upper y)) as ->.
    { destruct (Z.eqb_spec x y) as [->|]; [rewrite Z.eqb_refl; reflexivity|reflexivity]. }
    destruct (Z.eqb_spec (upper x) (upper y)) as [E0|N].
    + destruct (IH t ltac:(assumption) ltac:(assumption)) as (c & E & C). exists c. split; [exact E|]. rewrite E0. apply compares_cons. exact C.
    + destruct (Z.ltb_spec (upper y) (upper x)).
      * exists Gt. split; [reflexivity|]. apply before_head. exact H.
      * exists Lt. split; [reflexivity|]. apply before_head. lia.
Qed.

(** The order is total: exactly one outcome. *)
Section Order.
Context {A : Type}.
Variable lt : A -> A -> Prop.
Hypothesis irr : forall a, ~ lt a a.
Hypothesis tr : forall a b c, lt a b -> lt b c -> lt a c.

Lemma before_inv : forall x y s t, before lt (x :: s) (y :: t) -> lt x y \/ (x = y /\ before lt s t).
Proof.
  intros x y s t [(z & r & E)|(p & a & s' & b & t' & E1 & E2 & L)].
  - injection E as <- ->. right. split; [reflexivity|]. left. exists z, r. reflexivity.
  - destruct p as [|q p]; cbn in E1, E2; injection E1 as -> ->; injection E2 as -> ->; [left; exact L|]. right. split; [reflexivity|].
    right. exists p, a, s', b, t'. auto.
Qed.

Lemma before_none : forall s, ~ before lt s [].
Proof. intros s [(y & r & E)|(p & a & s' & b & t' & _ & E & _)]; [destruct s|destruct p]; discriminate. Qed.

Lemma before_irr : forall s, ~ before lt s s.
Proof.
  induction s as [|x s IH]; [apply before_none|]. intro H. apply before_inv in H. destruct H as [H|[_ H]]; [exact (irr x H)|exact (IH H)].
Qed.

Lemma before_trans : forall s t u, before lt s t -> before lt t u -> before lt s u.
Proof.
  induction s as [|x s IH]; intros t u H1 H2.
  - destruct u as [|z u]; [destruct (before_none _ H2)|apply before_nil].
  - destruct t as [|y t]; [destruct (before_none _ H1)|]. destruct u as [|z u]; [destruct (before_none _ H2)|].
    apply before_inv in H1. apply before_inv in H2. destruct H1 as [L1|[-> H1]], H2 as [L2|[-> H2]].
    + apply before_head. exact (tr x y z L1 L2).
    + apply before_head. exact L1.
    + apply before_head. exact L2.
    + apply before_cons. exact (IH t u H1 H2).
Qed.
End Order.

(** ** starts_with *)

Lemma starts_with_ok : forall prefix s, proper_text prefix -> (starts_with s prefix = true <-> exists b, s = prefix ++ b).
Proof.
  induction prefix as [|d r IH]; intros s P; cbn [starts_with app].
  - split; [intros _; exists s; reflexivity|reflexivity].
  - inversion P; subst. destruct s as [|c s].
    + destruct (Z.eqb_spec 0 d); [lia|]. split; [discriminate|intros (b & E); discriminate].
    + rewrite andb_true_iff, Z.eqb_eq, IH by assumption. split.
      * intros [-> (b & ->)]. exists b. reflexivity.
      * intros (b & E). injection E as -> ->. eauto.
Qed.

Lemma equals_ok : forall s t, proper_text t -> (equals s t = true <-> s = t).
Proof.
  intros s t P. unfold equals. rewrite andb_true_iff, starts_with_ok, Nat.eqb_eq by exact P. split.
  - intros [(b & ->) L]. rewrite app_length in L. destruct b; [rewrite app_nil_r; reflexivity|cbn in L; lia].
  - intros ->. split; [exists []; rewrite app_nil_r; reflexivity|reflexivity].
Qed.

(** ** Keys *)

Section Key.
Variable K : Type.
Variable ltb : K -> K -> bool.
Notation lt := (fun a b => ltb a b = true).
Hypothesis asym : forall a b, ltb a b = true -> ltb b a = false.
Hypothesis total : forall a b, ltb a b = false -> ltb b a = false -> a = b.

Lemma cmp_items_ok : forall a b, length a = length b ->
  (cmp_items K ltb a b < 0 <-> before lt a b) /\ (cmp_items K ltb a b > 0 <-> before lt b a) /\ (cmp_items K ltb a b = 0 <-> a = b).
Proof.
  induction a as [|x a IH]; intros [|y b] L; try discriminate; cbn [cmp_items].
  - split; [|split]; split; intro H; try lia; try reflexivity; destruct (before_none _ _ H).
  - injection L as L. specialize (IH b L). destruct IH as (I1 & I2 & I3).
    destruct (ltb x y) eqn:E1; [|destruct (ltb y x) eqn:E2].
    + pose proof (asym _ _ E1) as E2. split; [|split]; split; intro H; try lia.
      * apply before_head. exact E1.
      * apply before_inv in H. destruct H as [H|[-> _]]; congruence.
      * injection H as -> ->. congruence.
    + split; [|split]; split; intro H; try lia.
      * apply before_inv in H. destruct H as [H|[-> _]]; congruence.
      * apply before_head. exact E2.
      * injection H as -> ->. congruence.
    + pose proof (total _ _ E1 E2). subst y. split; [|split].
      * rewrite I1. split; [apply before_cons|]. intro H. apply before_inv in H. destruct H as [H|[_ H]]; [congruence|exact H].
      * rewrite I2. split; [apply before_cons|]. intro H. apply before_inv in H. destruct H as [H|[_ H]]; [congruence|exact H].
      * rewrite I3. split; [congruence|]. intro H. injection H as ->. reflexivity.
Qed.

Lemma multikey_ok : forall a b, Z.of_nat (length a) < 2 ^ 31 -> Z.of_nat (length b) < 2 ^ 31 ->
  exists d, multikey_cmp K ltb a b = Some d /\ (d < 0 <-> key_before lt a b) /\ (d > 0 <-> key_before lt b a) /\ (d = 0 <-> a = b).
Proof.
  intros a b La Lb. unfold multikey_cmp, key_before. destruct (Z.eqb_spec (Z.of_nat (length a)) (Z.of_nat (length b))) as [E|N]; cbn [negb].
  - assert (L : length a = length b) by lia. destruct (cmp_items_ok a b L) as (C1 & C2 & C3). eexists. split; [reflexivity|].
    rewrite C1, C2, C3. split; [|split].
    + split; [auto|]. intros [H|[_ H]]; [lia|exact H].
    + split; [auto|]. intros [H|[_ H]]; [lia|exact H].
    + reflexivity.
  - rewrite !(wrap_id I32) by (unfold in_range; change (tmin I32) with (- 2 ^ 31); change (tmax I32) with (2 ^ 31 - 1); lia).
    assert (in_rangeb I32 (Z.of_nat (length a) - Z.of_nat (length b)) = true) as ->.
    { apply in_rangeb_iff. unfold in_range. change (tmin I32) with (- 2 ^ 31). change (tmax I32) with (2 ^ 31 - 1). lia. }
    eexists. split; [reflexivity|]. split; [|split].
    + split; [lia|]. intros [H|[H _]]; lia.
    + split; [lia|]. intros [H|[H _]]; lia.
    + split; [lia|]. intros ->. lia.
Qed.
End Key.

(** ** Characters beyond ASCII *)

Lemma index_high : forall c k, index (c + 256 * k) = index c.
Proof. intros c k. unfold index. f_equal. replace (c + 256 * k) with (c + k * modulus I8) by (change (modulus I8) with 256; lia). apply wrap_add_modulus. Qed.

Lemma upper_high : forall c k, 0 <= c < 127 -> to_upper (c + 256 * k) = to_upper c.
Proof.
  intros c k H. unfold to_upper, overlimit. rewrite index_high. destruct (127 <=? index c) eqn:E; [|reflexivity].
  destruct (Z.eq_dec c 0) as [->|N]; [discriminate|]. destruct (ascii_index c ltac:(lia)) as [I O]. unfold overlimit in O. congruence.
Qed.

Lemma found_high : forall c k, 0 < c < 127 -> stristr [c + 256 * k] [c] = Some 0%nat.
Proof.
  intros c k H. unfold stristr. cbn [strstr_from str_equals]. unfold nocase_eq. rewrite upper_high by lia. rewrite (Z.eqb_refl (to_upper c)), orb_true_r. reflexivity.
Qed.

Lemma equal_high : forall c k, 0 < c < 127 -> stricmp [c + 256 * k] [c] = Some Eq.
Proof.
  intros c k H. unfold stricmp. cbn [compare]. unfold nocase_eq at 1. rewrite upper_high by lia. rewrite (Z.eqb_refl (to_upper c)), orb_true_r. reflexivity.
Qed.

Lemma over_end : forall k s, stricmp (256 * k :: s) [] = None.
Proof.
  intros k s. unfold stricmp. cbn [compare]. unfold nocase_eq. replace (256 * k) with (0 + 256 * k) by lia. rewrite upper_high by lia.
  rewrite (Z.eqb_refl (to_upper 0)), orb_true_r. reflexivity.
Qed.

Lemma high_digit : forall c k, digit_value (c + 256 * k) = digit_value c.
Proof. intros c k. unfold digit_value, overlimit. rewrite index_high. reflexivity. Qed.

(** ** Digits *)

Lemma digit_ascii : forall c radix, 0 < c < 127 -> 2 <= radix <= 16 ->
  (is_digit_of c radix = true <->
   (48 <= c <= 57 /\ c - 48 < radix) \/ (97 <= c <= 102 /\ c - 87 < radix) \/ (65 <= c <= 70 /\ c - 55 < radix)).
Proof.
  intros c radix H R. destruct (ascii_index c H) as [I O]. unfold is_digit_of, digit_value. rewrite O, I. rewrite Z.ltb_lt.
  assert (M : wrap U32 (-1) = 2 ^ 32 - 1) by reflexivity.
  assert (W : forall z, 0 <= z < 100 -> wrap U32 z = z).
  { intros z Hz. apply wrap_id. unfold in_range. change (tmin U32) with 0. change (tmax U32) with (2 ^ 32 - 1). lia. }
  destruct (Z.leb_spec 48 c), (Z.leb_spec c 57), (Z.leb_spec 97 c), (Z.leb_spec c 102), (Z.leb_spec 65 c), (Z.leb_spec c 70); cbn [andb];
    rewrite ?M; try rewrite W by lia; lia.
Qed.
