(** Proofs about numeric literals. *)

From Coq Require Import ZArith Lia List Bool.
Import ListNotations.
From Verif Require Import CppInt StrModel LitModel LitSpec StrProofs.
Open Scope Z_scope.

Ltac Zify.zify_post_hook ::= Z.div_mod_to_equations.

(** ** Characters *)

Lemma within_ascii : forall c, within c = true <-> 0 <= c < 127 \/ exists k, k <> 0 /\ 0 <= c - k * 2 ^ 64 < 127.
Proof.
  intros c. unfold within, wrap. cbn [is_signed modulus half].
  split.
  - intros H. apply Z.ltb_lt in H.
    destruct (Z.eq_dec (c / 18446744073709551616) 0) as [E | E].
    + left. lia.
    + right. exists (c / 18446744073709551616). split; [exact E |]. change (2 ^ 64) with 18446744073709551616. lia.
  - intros [H | (k & Hk & H)]; apply Z.ltb_lt.
    + lia.
    + change (2 ^ 64) with 18446744073709551616 in H. lia.
Qed.

Lemma is_word_char : forall c, is_word c = true <-> word_char c.
Proof.
  intros c. unfold is_word, word_char. split; intro H.
  - apply andb_prop in H. destruct H as (_ & H). lia.
  - assert (W : within c = true) by (apply within_ascii; left; lia). rewrite W. cbn [andb]. lia.
Qed.

Lemma is_digit_char : forall c, is_digit c = true <-> decimal_digit c.
Proof.
  intros c. unfold is_digit, decimal_digit. split; intro H.
  - apply andb_prop in H. destruct H as (_ & H). lia.
  - assert (W : within c = true) by (apply within_ascii; left; lia). rewrite W. cbn [andb]. lia.
Qed.

(** A digit below the radix. *)
Definition a_digit (radix c : Z) : Prop := exists d, 0 <= d < radix /\ digit_char d c.

Lemma a_digit_value : forall radix c d, 2 <= radix <= 16 -> 0 <= d < radix -> digit_char d c ->
  digit_value c = d /\ is_digit_of c radix = true.
Proof.
  intros radix c d Hr Hd Hc.
  assert (A : 0 < c < 127) by (unfold digit_char in Hc; lia).
  destruct (ascii_index c A) as (I & O).
  assert (V : digit_value c = d).
  { unfold digit_value. rewrite O, I. unfold digit_char in Hc.
    destruct Hc as [(H1 & ->) | (H1 & [-> | ->])].
    - replace ((48 <=? 48 + d) && (48 + d <=? 57)) with true by lia. lia.
    - replace ((48 <=? 65 + (d - 10)) && (65 + (d - 10) <=? 57)) with false by lia.
      replace ((97 <=? 65 + (d - 10)) && (65 + (d - 10) <=? 102)) with false by lia.
      replace ((65 <=? 65 + (d - 10)) && (65 + (d - 10) <=? 70)) with true by lia. lia.
    - replace ((48 <=? 97 + (d - 10)) && (97 + (d - 10) <=? 57)) with false by lia.
      replace ((97 <=? 97 + (d - 10)) && (97 + (d - 10) <=? 102)) with true by lia. lia. }
  split; [exact V |].
  unfold is_digit_of. rewrite V. unfold wrap. cbn [is_signed modulus]. apply Z.ltb_lt. lia.
Qed.

Lemma digit_range : forall radix c, a_digit radix c -> 2 <= radix <= 16 ->
  48 <= c <= 57 \/ (radix = 16 \/ 10 < radix) /\ (65 <= c <= 70 \/ 97 <= c <= 102).
Proof. intros radix c (d & Hd & Hc) Hr. unfold digit_char in Hc. lia. Qed.

(** ** Scanning digits *)

(** The value of a text of digits and quotes, continuing from [a]. *)
Fixpoint text_value (radix a : Z) (s : list Z) : Z :=
  match s with
  | [] => a
  | c :: r => if c =? 39 then text_value radix a r else text_value radix (a * radix + digit_value c) r
  end.

(** Digits and quotes. *)
Definition digits_quotes (radix : Z) (s : list Z) : Prop := Forall (fun c => c = 39 \/ a_digit radix c) s.

(** All values on the way, [a] excluded. *)
Fixpoint steps (radix a : Z) (s : list Z) : list Z :=
  match s with
  | [] => []
  | c :: r => if c =? 39 then steps radix a r
              else (a * radix + digit_value c) :: steps radix (a * radix + digit_value c) r
  end.

Lemma text_value_le : forall radix s a, 2 <= radix <= 16 -> digits_quotes radix s -> 0 <= a -> a <= text_value radix a s.
Proof.
  intros radix s. induction s as [| c r IH]; intros a Hr Hs Ha; cbn [text_value]; [lia |].
  apply Forall_cons_iff in Hs. destruct Hs as (Hc & Hs).
  destruct (Z.eqb_spec c 39) as [E | E]; [apply IH; assumption |].
  destruct Hc as [Hc | (d & Hd & Hc)]; [contradiction |].
  destruct (a_digit_value radix c d Hr Hd Hc) as (-> & _).
  assert (a <= a * radix + d) by nia.
  eapply Z.le_trans; [| apply IH]; try assumption; lia.
Qed.

Lemma tmin_max : forall t, tmin t <= 0 /\ 0 < tmax t.
Proof. intros []; vm_compute; split; congruence. Qed.

Lemma unsigned_wrap : forall t v, 0 <= v <= tmax t -> wrap (to_unsigned t) v = v.
Proof. intros t v H. apply wrap_id. unfold in_range. destruct t; cbn in *; lia. Qed.

Lemma push_ok : forall t positive radix v c d, 2 <= radix <= 16 -> 0 <= d < radix -> digit_char d c -> 0 <= v <= tmax t ->
  (positive = true \/ is_signed t = false \/ v * radix + d <> tmax t + 1) ->
  push t positive radix v c = if v * radix + d <=? tmax t then Pushed (v * radix + d) else Too_big.
Proof.
  intros t positive radix v c d Hr Hd Hc Hv P.
  destruct (a_digit_value radix c d Hr Hd Hc) as (V & D).
  unfold push. rewrite D, V. cbn [negb]. rewrite unsigned_wrap by exact Hv.
  set (m := max_value t positive).
  assert (M : m = tmax t \/ (m = tmax t + 1 /\ positive = false /\ is_signed t = true)).
  { unfold m, max_value. destruct (is_signed t); [destruct positive |]; auto. }
  assert (Q : ((prelimit t positive radix <? v) || ((v =? prelimit t positive radix) && (prelimit_mod t positive radix <? d)))
              = (m <? v * radix + d)).
  { unfold prelimit, prelimit_mod. fold m.
    assert (E : m = radix * (m / radix) + m mod radix) by (apply Z.div_mod; lia).
    assert (B : 0 <= m mod radix < radix) by (apply Z.mod_pos_bound; lia).
    set (q := m / radix) in *. set (k := m mod radix) in *. clearbody q k m.
    destruct (Z.ltb_spec q v) as [L | L]; cbn [orb].
    - symmetry. apply Z.ltb_lt. nia.
    - destruct (Z.eqb_spec v q) as [L2 | L2]; cbn [andb].
      + subst v. destruct (Z.ltb_spec k d); symmetry; [apply Z.ltb_lt | apply Z.ltb_ge]; nia.
      + symmetry. apply Z.ltb_ge. nia. }
  rewrite Q.
  assert (S0 : (m <? v * radix + d) = negb (v * radix + d <=? tmax t)).
  { destruct M as [M | (M & M1 & M2)]; [lia |].
    destruct P as [P | [P | P]]; [congruence | congruence |]. lia. }
  rewrite S0. destruct (Z.leb_spec (v * radix + d) (tmax t)) as [L | L]; cbn [negb]; [| reflexivity].
  pose proof (tmin_max t) as (T1 & T2).
  assert (R1 : in_range t (v * radix)) by (unfold in_range; nia).
  assert (R2 : in_range t (v * radix + d)) by (unfold in_range; nia).
  destruct (is_signed t).
  - apply in_rangeb_iff in R1. apply in_rangeb_iff in R2. rewrite R1, R2. reflexivity.
  - rewrite wrap_id by exact R2. reflexivity.
Qed.

Lemma scan_ok : forall t positive radix s v, 2 <= radix <= 16 -> digits_quotes radix s -> 0 <= v <= tmax t ->
  (positive = true \/ is_signed t = false \/ ~ In (tmax t + 1) (steps radix v s)) ->
  (text_value radix v s <= tmax t /\ scan t positive radix v s = All (text_value radix v s))
  \/ (exists v' s1 s2, scan t positive radix v s = Rest v' s2 /\ s = s1 ++ s2 /\ 0 <= v' <= tmax t
        /\ tmax t < text_value radix v s /\ text_value radix v' s2 = text_value radix v s
        /\ (forall x, In x (steps radix v' s2) -> In x (steps radix v s))).
Proof.
  intros t positive radix s. induction s as [| c r IH]; intros v Hr Hs Hv P; cbn [text_value scan].
  - left. split; [lia | reflexivity].
  - apply Forall_cons_iff in Hs. destruct Hs as (Hc & Hs).
    destruct (Z.eqb_spec c 39) as [E | E].
    + destruct (IH v Hr Hs Hv) as [(H1 & H2) | (v' & s1 & s2 & H1 & H2 & H3 & H4 & H5 & H6)].
      * cbn [steps] in P. rewrite E, Z.eqb_refl in P. exact P.
      * left. split; assumption.
      * right. exists v', (c :: s1), s2. repeat split; try assumption; try lia.
        -- subst r. reflexivity.
        -- cbn [steps]. rewrite E, Z.eqb_refl. exact H6.
    + destruct Hc as [Hc | (d & Hd & Hc)]; [contradiction |].
      pose proof (a_digit_value radix c d Hr Hd Hc) as (V & _).
      assert (N : (c =? 39) = false) by lia.
      cbn [steps] in P. rewrite N, V in P. rewrite V.
      assert (P1 : positive = true \/ is_signed t = false \/ v * radix + d <> tmax t + 1).
      { destruct P as [P | [P | P]]; auto. right. right. intros X. apply P. left. exact X. }
      rewrite (push_ok t positive radix v c d Hr Hd Hc Hv P1).
      destruct (Z.leb_spec (v * radix + d) (tmax t)) as [L | L].
      * destruct (IH (v * radix + d) Hr Hs) as [(H1 & H2) | (v' & s1 & s2 & H1 & H2 & H3 & H4 & H5 & H6)].
        -- nia.
        -- destruct P as [P | [P | P]]; auto. right. right. intros X. apply P. right. exact X.
        -- left. split; assumption.
        -- right. exists v', (c :: s1), s2. repeat split; try assumption; try lia.
           ++ subst r. reflexivity.
           ++ cbn [steps]. rewrite N, V. intros x X. right. apply H6. exact X.
      * right. exists v, [], (c :: r). repeat split; try lia.
        -- pose proof (text_value_le radix r (v * radix + d) Hr Hs ltac:(nia)). lia.
        -- cbn [text_value]. rewrite N, V. reflexivity.
        -- intros x X. exact X.
Qed.

(** Types in increasing order of their greatest values. *)
Inductive rising : list ity -> Prop :=
| Rising_nil : rising []
| Rising_one : forall t, rising [t]
| Rising_cons : forall t u ts, tmax t <= tmax u -> rising (u :: ts) -> rising (t :: u :: ts).

Lemma parse_types_ok : forall ts positive radix s v pos, 2 <= radix <= 16 -> digits_quotes radix s -> 0 <= v ->
  match ts with [] => True | t :: _ => v <= tmax t end -> rising ts ->
  (positive = true \/ forall t, In t ts -> is_signed t = true -> ~ In (tmax t + 1) (steps radix v s)) ->
  (exists t, first_fit (text_value radix v s) ts t /\ parse_types ts positive radix v s pos = Integer t (text_value radix v s) pos)
  \/ ((forall t, ~ first_fit (text_value radix v s) ts t) /\ parse_types ts positive radix v s pos = Overflow).
Proof.
  induction ts as [| t ts IH]; intros positive radix s v pos Hr Hs Hv Hm Ri P; cbn [parse_types].
  - right. split; [| reflexivity]. intros t F. inversion F.
  - pose proof (tmin_max t) as (T1 & T2).
    rewrite wrap_id by (unfold in_range; lia).
    assert (P1 : positive = true \/ is_signed t = false \/ ~ In (tmax t + 1) (steps radix v s)).
    { destruct P as [P | P]; auto. destruct (is_signed t) eqn:Sg; auto. right. right. apply P; [left; reflexivity | exact Sg]. }
    destruct (scan_ok t positive radix s v Hr Hs ltac:(lia) P1)
      as [(H1 & H2) | (v' & s1 & s2 & H1 & H2 & H3 & H4 & H5 & H6)].
    + left. exists t. rewrite H2. split; [| reflexivity]. constructor.
      pose proof (text_value_le radix s v Hr Hs Hv). lia.
    + rewrite H1. rewrite <- H5.
      assert (Hs2 : digits_quotes radix s2).
      { unfold digits_quotes in *. subst s. apply Forall_app in Hs. apply Hs. }
      destruct (IH positive radix s2 v' pos Hr Hs2 ltac:(lia)) as [(u & F & E) | (F & E)].
      * destruct ts as [| u us]; [exact I |]. inversion Ri; subst. lia.
      * inversion Ri; subst; [constructor | assumption].
      * destruct P as [P | P]; auto. right. intros u Hu Sg X. apply (P u); [right; exact Hu | exact Sg |].
        apply H6. exact X.
      * left. exists u. split; [| exact E]. apply Later; [| exact F]. lia.
      * right. split; [| exact E]. intros u X. inversion X; subst; [lia |]. eapply F. eassumption.
Qed.

(** ** Reading the characters of a literal *)

(** Digits with quotes, each quote directly after a decimal digit. *)
Fixpoint good (radix : Z) (prev : option Z) (s : list Z) : Prop :=
  match s with
  | [] => exists c, prev = Some c /\ c <> 39
  | c :: r => (a_digit radix c \/ (c = 39 /\ exists b, prev = Some b /\ decimal_digit b)) /\ good radix (Some c) r
  end.

Definition last_of (prev : option Z) (s : list Z) : option Z := fold_left (fun _ c => Some c) s prev.

Lemma good_last : forall radix s prev, good radix prev s -> exists c, last_of prev s = Some c /\ c <> 39.
Proof.
  intros radix s. induction s as [| c r IH]; intros prev G; cbn [good] in G.
  - exact G.
  - destruct G as (_ & G). apply (IH (Some c) G).
Qed.

Lemma good_digits : forall radix s prev, good radix prev s -> digits_quotes radix s.
Proof.
  intros radix s. induction s as [| c r IH]; intros prev G; cbn [good] in G; constructor.
  - destruct G as ([G | (G & _)] & _); auto.
  - destruct G as (_ & G). exact (IH _ G).
Qed.

(** The radix known while reading. *)
Definition reading (radix known : Z) : Prop :=
  (radix = 10 /\ known = 0) \/ (known = radix /\ (radix = 2 \/ radix = 8 \/ radix = 16)).

Lemma reading_range : forall r k, reading r k -> 2 <= r <= 16.
Proof. intros r k [(-> & _) | (_ & [-> | [-> | ->]])]; lia. Qed.

Ltac chars := repeat match goal with
  | |- context [?c =? ?n] => let E := fresh "E" in destruct (Z.eqb_spec c n) as [E | E]; [try lia |]; cbn [orb andb]
  end.

Lemma read_digits : forall rdx s p prev pos tail, reading rdx (radix p) -> good rdx prev s ->
  continue_read p None prev pos (s ++ tail) = continue_read p None (last_of prev s) (pos + length s)%nat tail.
Proof.
  intros rdx s. induction s as [| c r IH]; intros p prev pos tail Rd G.
  - cbn [app length last_of fold_left]. rewrite Nat.add_0_r. reflexivity.
  - pose proof (reading_range _ _ Rd) as Rr.
    cbn [good] in G. destruct G as (Hc & G).
    cbn [app continue_read].
    assert (T : continue_read p None (Some c) (S pos) (r ++ tail)
                = continue_read p None (last_of prev (c :: r)) (pos + length (c :: r))%nat tail).
    { rewrite (IH p (Some c) (S pos) tail Rd G). cbn [length last_of fold_left].
      replace (S pos + length r)%nat with (pos + S (length r))%nat by lia. reflexivity. }
    destruct Hc as [Hc | (-> & b & -> & Hb)].
    + pose proof (digit_range rdx c Hc Rr) as D.
      assert (W : is_word c = true) by (apply is_word_char; unfold word_char; lia).
      replace (c =? 46) with false by lia.
      replace (((c =? 69) || (c =? 101)) && (radix p =? 10)) with false
        by (unfold reading in Rd; lia).
      replace (((c =? 70) || (c =? 102)) && ((radix p =? 10) || (radix p =? 0))) with false
        by (unfold reading in Rd; lia).
      replace ((c =? 76) || (c =? 108)) with false by lia.
      replace ((c =? 85) || (c =? 117)) with false by lia.
      replace ((c =? 72) || (c =? 104)) with false by lia.
      replace (c =? 39) with false by lia.
      rewrite W. cbn [word]. exact T.
    + cbn [Z.eqb Pos.eqb orb andb]. apply is_digit_char in Hb. rewrite Hb. exact T.
Qed.

Lemma read_end : forall p e prev pos rest, ends_here rest -> continue_read p e prev pos rest = stop p e prev pos.
Proof.
  intros p e prev pos rest H. destruct rest as [| c r]; [reflexivity |].
  cbn [ends_here] in H. cbn [continue_read].
  assert (N : ~ word_char c) by (intros X; apply H; left; exact X).
  assert (N1 : c <> 46) by (intros X; apply H; right; left; exact X).
  assert (N2 : c <> 39) by (intros X; apply H; right; right; exact X).
  assert (W : is_word c = false).
  { destruct (is_word c) eqn:E; [| reflexivity]. exfalso. apply N. apply is_word_char. exact E. }
  unfold word_char in N.
  replace (c =? 46) with false by lia.
  replace ((c =? 69) || (c =? 101)) with false by lia.
  replace ((c =? 70) || (c =? 102)) with false by lia.
  replace ((c =? 76) || (c =? 108)) with false by lia.
  replace ((c =? 85) || (c =? 117)) with false by lia.
  replace ((c =? 72) || (c =? 104)) with false by lia.
  replace (c =? 39) with false by lia.
  cbn [andb]. rewrite W. reflexivity.
Qed.

(** The properties after the prefix: only the sign and the radix are known. *)
Definition opened (neg : option bool) (r : Z) : props := Props None neg false None r false false false.

Definition flag (b : bool) : option bool := if b then Some true else None.

Lemma read_suffix : forall u l suf rest neg r c pos, suffix u l suf -> ends_here rest -> c <> 39 ->
  continue_read (opened neg r) None (Some c) pos (suf ++ rest)
  = Some (Props (flag u) neg l None r false false false, pos, (pos + length suf)%nat).
Proof.
  intros u l suf rest neg r c pos Hs He Hc.
  assert (C39 : (c =? 39) = false) by lia.
  destruct u, l; cbn [suffix] in Hs.
  - destruct Hs as (a & b & H & ->). cbn [app length].
    destruct H as [([-> | ->] & [-> | ->]) | ([-> | ->] & [-> | ->])];
      cbn [continue_read Z.eqb Pos.eqb orb andb set_end]; rewrite read_end by exact He;
      unfold stop; cbn [set_end]; rewrite C39; cbn; f_equal; f_equal; lia.
  - destruct Hs as (a & H & ->). cbn [app length].
    destruct H as [-> | ->];
      cbn [continue_read Z.eqb Pos.eqb orb andb set_end]; rewrite read_end by exact He;
      unfold stop; cbn [set_end]; rewrite C39; cbn; f_equal; f_equal; lia.
  - destruct Hs as (a & H & ->). cbn [app length].
    destruct H as [-> | ->];
      cbn [continue_read Z.eqb Pos.eqb orb andb set_end]; rewrite read_end by exact He;
      unfold stop; cbn [set_end]; rewrite C39; cbn; f_equal; f_equal; lia.
  - subst suf. cbn [app length]. rewrite read_end by exact He. unfold stop. cbn [set_end]. rewrite C39, Nat.add_0_r. reflexivity.
Qed.

(** ** A literal after its prefix *)

Definition rising_ladder : forall f u l, rising (ladder f u l).
Proof. intros [] [] []; cbn [ladder]; repeat constructor; vm_compute; congruence. Qed.

Lemma types_ladder : forall f u l neg, types (complete (Props (flag u) neg l None
    (match f with Decimal => 0 | _ => base f end) false false false)) = ladder f u l.
Proof. intros [] [] [] neg; reflexivity. Qed.

Definition known (f : form) : Z := match f with Decimal => 0 | _ => base f end.

Lemma known_reading : forall f, reading (base f) (known f).
Proof. intros []; unfold reading; cbn; lia. Qed.

Lemma complete_props : forall f u l neg, exists x,
  complete (Props (flag u) neg l None (known f) false false false) = Props (Some x) neg l None (base f) false false false.
Proof. intros [] [] [] neg; eexists; reflexivity. Qed.

(** The outcome after the digits and the suffix have been read. *)
Lemma parse_after_prefix : forall f u l neg s suf rest prev start,
  good (base f) prev s -> suffix u l suf -> ends_here rest ->
  (is_true neg = false \/ forall t, In t (ladder f u l) -> is_signed t = true -> ~ In (tmax t + 1) (steps (base f) 0 s)) ->
  exists out,
  (let pos := (start + length s + length suf)%nat in
   (exists t, first_fit (text_value (base f) 0 s) (ladder f u l) t /\ out = Integer t (text_value (base f) 0 s) pos)
   \/ ((forall t, ~ first_fit (text_value (base f) 0 s) (ladder f u l) t) /\ out = Overflow))
  /\ match continue_read (opened neg (known f)) None prev start (s ++ suf ++ rest) with
     | None => Undefined
     | Some (p, stop, pos) =>
       let p := complete p in
       if error p then Format_error else revise p (parse_digits p (firstn (stop - start) (s ++ suf ++ rest)) pos)
     end = revise (opened neg (base f)) out.
Proof.
  intros f u l neg s suf rest prev start G Hs He P.
  destruct (good_last _ _ _ G) as (c & L & Nc).
  rewrite (read_digits (base f) s (opened neg (known f)) prev start (suf ++ rest) (known_reading f) G).
  rewrite L.
  rewrite (read_suffix u l suf rest neg (known f) c _ Hs He Nc).
  destruct (complete_props f u l neg) as (x & C).
  pose proof (types_ladder f u l neg) as Ty. fold (known f) in Ty.
  cbn zeta. rewrite C in *. cbn [error].
  replace (start + length s - start)%nat with (length s) by lia.
  rewrite firstn_app, firstn_all, Nat.sub_diag. cbn [firstn]. rewrite app_nil_r.
  unfold parse_digits. cbn [floating negative radix]. rewrite Ty.
  assert (Hr : 2 <= base f <= 16) by (destruct f; cbn; lia).
  destruct (parse_types_ok (ladder f u l) (negb (is_true neg)) (base f) s 0 (start + length s + length suf)%nat Hr
              (good_digits _ _ _ G)) as [(t & F & E) | (F & E)].
  - lia.
  - destruct (ladder f u l) as [| t ts]; [exact I |]. pose proof (tmin_max t). lia.
  - apply rising_ladder.
  - destruct P as [P | P]; [left; rewrite P; reflexivity | right; exact P].
  - exists (Integer t (text_value (base f) 0 s) (start + length s + length suf)%nat). split.
    + left. exists t. split; [exact F | reflexivity].
    + rewrite E. reflexivity.
  - exists Overflow. split.
    + right. split; [exact F | reflexivity].
    + rewrite E. reflexivity.
Qed.

(** ** Quotes and values *)

Lemma spelled_cons : forall r d ds c s, spelled r (d :: ds) (c :: s) <-> (0 <= d < r /\ digit_char d c) /\ spelled r ds s.
Proof.
  intros. unfold spelled. split; intro H.
  - inversion H; subst. auto.
  - constructor; apply H.
Qed.

Lemma digit_not_quote : forall d c, digit_char d c -> c <> 39.
Proof. intros d c H. unfold digit_char in H. lia. Qed.

(** A quoted text of digits is readable. *)
Lemma quoted_good : forall r s s', quoted decimal_digit s s' -> forall ds prev, spelled r ds s -> s <> [] -> good r prev s'.
Proof.
  intros r s s' Q. induction Q as [| c | c d s s' Q IH | c d s s' Hc Q IH]; intros ds prev Sp Ne.
  - congruence.
  - destruct ds as [| x ds]; [inversion Sp |]. apply spelled_cons in Sp. destruct Sp as ((H1 & H2) & _).
    cbn [good]. split; [left; exists x; auto |]. exists c. split; [reflexivity | exact (digit_not_quote _ _ H2)].
  - destruct ds as [| x ds]; [inversion Sp |]. apply spelled_cons in Sp. destruct Sp as ((H1 & H2) & Sp).
    cbn [good]. split; [left; exists x; auto |]. apply (IH ds); [exact Sp | congruence].
  - destruct ds as [| x ds]; [inversion Sp |]. apply spelled_cons in Sp. destruct Sp as ((H1 & H2) & Sp).
    cbn [good]. split; [left; exists x; auto |]. split; [right; split; [reflexivity | exists c; auto] |].
    apply (IH ds); [exact Sp | congruence].
Qed.

Definition value_from (r a : Z) (ds : list Z) : Z := fold_left (fun a d => a * r + d) ds a.

Lemma quoted_value : forall ok r s s', 2 <= r <= 16 -> quoted ok s s' -> forall ds a, spelled r ds s ->
  text_value r a s' = value_from r a ds.
Proof.
  intros ok r s s' Hr Q. induction Q as [| c | c d s s' Q IH | c d s s' Hc Q IH]; intros ds a Sp.
  - inversion Sp. reflexivity.
  - destruct ds as [| x ds]; [inversion Sp |]. apply spelled_cons in Sp. destruct Sp as ((H1 & H2) & Sp). inversion Sp; subst.
    cbn [text_value value_from fold_left]. pose proof (digit_not_quote _ _ H2).
    replace (c =? 39) with false by lia. rewrite (proj1 (a_digit_value r c x Hr H1 H2)). reflexivity.
  - destruct ds as [| x ds]; [inversion Sp |]. apply spelled_cons in Sp. destruct Sp as ((H1 & H2) & Sp).
    cbn [text_value value_from fold_left]. pose proof (digit_not_quote _ _ H2).
    replace (c =? 39) with false by lia. rewrite (proj1 (a_digit_value r c x Hr H1 H2)). apply IH. exact Sp.
  - destruct ds as [| x ds]; [inversion Sp |]. apply spelled_cons in Sp. destruct Sp as ((H1 & H2) & Sp).
    cbn [text_value value_from fold_left]. pose proof (digit_not_quote _ _ H2).
    replace (c =? 39) with false by lia. rewrite (proj1 (a_digit_value r c x Hr H1 H2)).
    change (39 =? 39) with true. cbv iota. apply IH. exact Sp.
Qed.

(** ** The prefix *)

(** The digits of an octal literal after its leading zeros. *)
Lemma octal_prefix : forall s neg pos suf rest u l, good 8 (Some 48) s -> suffix u l suf -> ends_here rest ->
  exists k s2, read_prefix (opened neg 0) pos (48 :: s ++ suf ++ rest)
               = (opened neg 8, (pos + S k)%nat, s2 ++ suf ++ rest)
    /\ s = repeat 48 k ++ s2 /\ good 8 (Some 48) s2 /\ length s = (k + length s2)%nat.
Proof.
  induction s as [| c r IH]; intros neg pos suf rest u l G Hs He.
  - exists 0%nat, []. split; [| split; [reflexivity | split; [exact G | reflexivity]]].
    cbn [app repeat]. cbn [read_prefix Z.eqb Pos.eqb].
    assert (F : forall x, front (suf ++ rest) = x -> x <> 88 /\ x <> 120 /\ x <> 66 /\ x <> 98 /\ x <> 46 /\ x <> 48).
    { intros x <-. unfold suffix in Hs.
      destruct u, l; repeat match goal with H : exists _, _ |- _ => destruct H end.
      - destruct H as (H & ->). cbn [app front hd]. lia.
      - destruct H as (H & ->). cbn [app front hd]. lia.
      - destruct H as (H & ->). cbn [app front hd]. lia.
      - subst suf. cbn [app]. destruct rest as [| x xs]; cbn [front hd]; [lia |]. cbn [ends_here] in He.
        unfold literal_char, word_char in He. lia. }
    specialize (F _ eq_refl). cbv zeta.
    replace ((front (suf ++ rest) =? 88) || (front (suf ++ rest) =? 120)) with false by lia.
    replace ((front (suf ++ rest) =? 66) || (front (suf ++ rest) =? 98)) with false by lia.
    replace (front (suf ++ rest) =? 46) with false by lia.
    replace (front (suf ++ rest) =? 48) with false by lia.
    replace (pos + 1)%nat with (S pos) by lia. reflexivity.
  - cbn [good] in G. destruct G as (Hc & G).
    destruct (Z.eq_dec c 48) as [-> | N].
    + destruct (IH neg (S pos) suf rest u l G Hs He) as (k & s2 & E & E2 & G2 & L2).
      exists (S k), s2. split; [| split; [cbn [repeat app]; rewrite E2; reflexivity | split; [exact G2 | cbn [length]; lia]]].
      cbn [app]. replace (pos + S (S k))%nat with (S pos + S k)%nat by lia. rewrite <- E. reflexivity.
    + exists 0%nat, (c :: r). split; [| split; [reflexivity | split; [cbn [good]; auto | reflexivity]]].
      cbn [app read_prefix Z.eqb Pos.eqb front hd]. cbv zeta.
      assert (R : 48 <= c <= 57 \/ c = 39).
      { destruct Hc as [Hc | (-> & _)]; [| lia]. pose proof (digit_range 8 c Hc ltac:(lia)). lia. }
      replace ((c =? 88) || (c =? 120)) with false by lia.
      replace ((c =? 66) || (c =? 98)) with false by lia.
      replace (c =? 46) with false by lia.
      replace (c =? 48) with false by lia.
      replace (pos + 1)%nat with (S pos) by lia. reflexivity.
Qed.

Lemma read_sign : forall neg sg s, sign_text neg sg ->
  read_prefix no_props 0 (sg ++ s) = read_prefix (opened neg 0) (length sg) s.
Proof. intros neg sg s H. destruct H; reflexivity. Qed.

Lemma nth_sign : forall sg s k, nth (length sg + k) (sg ++ s) 0 = nth k s 0.
Proof. intros. rewrite app_nth2 by lia. f_equal. lia. Qed.

Lemma nth_repeat_lt : forall k n, (k < n)%nat -> nth k (repeat 48 n) 0 = 48.
Proof.
  induction k as [| k IH]; intros [| n] H; try lia; [reflexivity |]. cbn [repeat nth]. apply IH. lia.
Qed.

Lemma repeat_value : forall k s r a, text_value r a (repeat 48 k ++ s) = text_value r (a * r ^ Z.of_nat k) s.
Proof.
  induction k as [| k IH]; intros s r a.
  - cbn [repeat app]. f_equal. change (Z.of_nat 0) with 0. lia.
  - cbn [repeat app text_value]. change (48 =? 39) with false. cbv iota. change (digit_value 48) with 0.
    rewrite IH. f_equal. rewrite Nat2Z.inj_succ, Z.pow_succ_r by lia. lia.
Qed.

Lemma repeat_steps : forall k s r x, In x (steps r 0 s) -> In x (steps r 0 (repeat 48 k ++ s)).
Proof.
  induction k as [| k IH]; intros s r x H; [exact H |].
  cbn [repeat app steps]. change (48 =? 39) with false. cbv iota. change (digit_value 48) with 0.
  cbn [Z.mul Z.add]. right. apply IH. exact H.
Qed.

(** ** Whole literals *)

Definition signed_outcome (f : form) (u l : bool) (neg : option bool) (v : Z) (pos : nat) (out : literal) : Prop :=
  exists o, out = revise (opened neg (base f)) o /\
   ((exists t, first_fit v (ladder f u l) t /\ o = Integer t v pos)
    \/ ((forall t, ~ first_fit v (ladder f u l) t) /\ o = Overflow)).

Lemma literal_ok : forall f op ds s s' u l suf rest before neg sg,
  sign_text neg sg -> opening f op -> proper f ds -> spelled (base f) ds s -> quoted decimal_digit s s' -> suffix u l suf ->
  ends_here rest ->
  (is_true neg = false \/ forall t, In t (ladder f u l) -> is_signed t = true -> ~ In (tmax t + 1) (steps (base f) 0 s')) ->
  signed_outcome f u l neg (value (base f) ds) (length (sg ++ op ++ s' ++ suf))
    (parse_numeric before (sg ++ op ++ s' ++ suf ++ rest)).
Proof.
  intros f op ds s s' u l suf rest before neg sg Hsg Hop Hp Sp Q Hs He P.
  assert (Hr : 2 <= base f <= 16) by (destruct f; cbn; lia).
  assert (Ne : s <> []).
  { intros ->. inversion Sp; subst. destruct f; cbn [proper] in Hp.
    - destruct Hp as (d & r & H & _). discriminate.
    - destruct Hp as (r & H). discriminate.
    - congruence.
    - congruence. }
  assert (V : text_value (base f) 0 s' = value (base f) ds) by (apply (quoted_value _ _ _ _ Hr Q ds 0 Sp)).
  pose proof (quoted_good (base f) s s' Q ds) as G.
  unfold parse_numeric. rewrite (read_sign _ _ _ Hsg).
  (* what follows once the prefix has been read *)
  assert (Go : forall start s2 b, good (base f) (Some b) s2 ->
    (is_true neg = false \/ forall t, In t (ladder f u l) -> is_signed t = true -> ~ In (tmax t + 1) (steps (base f) 0 s2)) ->
    text_value (base f) 0 s2 = value (base f) ds ->
    (start + length s2 + length suf)%nat = length (sg ++ op ++ s' ++ suf) ->
    signed_outcome f u l neg (value (base f) ds) (length (sg ++ op ++ s' ++ suf))
      (match continue_read (opened neg (known f)) None (Some b) start (s2 ++ suf ++ rest) with
       | None => Undefined
       | Some (p, stop, pos) =>
         let p := complete p in
         if error p then Format_error else revise p (parse_digits p (firstn (stop - start) (s2 ++ suf ++ rest)) pos)
       end)).
  { intros start s2 b G2 P2 V2 L2.
    destruct (parse_after_prefix f u l neg s2 suf rest (Some b) start G2 Hs He P2) as (out & O & E).
    exists out. split; [exact E |]. cbn zeta in O. rewrite V2, L2 in O. exact O. }
  destruct f; cbn [opening] in Hop.
  - (* decimal *)
    subst op. cbn [proper] in Hp. destruct Hp as (d & r & -> & Nd).
    assert (exists c q, s' = c :: q /\ 49 <= c <= 57) as (c & q & -> & Rc).
    { destruct s as [| c s]; [congruence |]. apply spelled_cons in Sp. destruct Sp as ((H1 & H2) & _).
      assert (49 <= c <= 57) by (unfold digit_char in H2; cbn [base] in H1; lia).
      inversion Q; subst; eexists; eexists; split; try reflexivity; assumption. }
    cbn [app]. cbn [read_prefix].
    replace (c =? 45) with false by lia. replace (c =? 43) with false by lia. replace (c =? 48) with false by lia.
    replace (c =? 0) with false by lia.
    change (opened neg 0) with (opened neg (known Decimal)).
    assert (Ex : exists out,
      (let pos := (length sg + length (c :: q) + length suf)%nat in
       (exists t, first_fit (text_value 10 0 (c :: q)) (ladder Decimal u l) t /\ out = Integer t (text_value 10 0 (c :: q)) pos)
       \/ ((forall t, ~ first_fit (text_value 10 0 (c :: q)) (ladder Decimal u l) t) /\ out = Overflow))
      /\ match continue_read (opened neg (known Decimal)) None
            (match length sg with O => before | S k => Some (nth k (sg ++ c :: q ++ suf ++ rest) 0) end)
            (length sg) ((c :: q) ++ suf ++ rest) with
         | None => Undefined
         | Some (p, stop, pos) =>
           let p := complete p in
           if error p then Format_error
           else revise p (parse_digits p (firstn (stop - length sg) ((c :: q) ++ suf ++ rest)) pos)
         end = revise (opened neg 10) out).
    { apply (parse_after_prefix Decimal); try assumption. apply G; [exact Sp | exact Ne]. }
    destruct Ex as (out & O & E). exists out. split; [exact E |].
    cbn zeta in O. cbn [base] in V. rewrite V in O. cbn [base].
    assert (LL : length (sg ++ [] ++ (c :: q) ++ suf) = (length sg + length (c :: q) + length suf)%nat)
      by (rewrite !app_length; cbn [length]; lia).
    cbn [app] in LL |- *. rewrite LL. exact O.
  - (* octal *)
    subst op. cbn [proper] in Hp. destruct Hp as (r & ->).
    assert (exists q, s' = 48 :: q) as (q & ->).
    { destruct s as [| c s]; [congruence |]. apply spelled_cons in Sp. destruct Sp as ((H1 & H2) & _).
      assert (c = 48) by (unfold digit_char in H2; lia). subst c. inversion Q; subst; eexists; reflexivity. }
    assert (G1 : good 8 (Some 48) q) by (exact (proj2 (G None Sp Ne))).
    cbn [app].
    destruct (octal_prefix q neg (length sg) suf rest u l G1 Hs He) as (k & s2 & E & E2 & G2 & L2).
    rewrite E.
    replace (match (length sg + S k)%nat with O => before | S k0 => Some (nth k0 (sg ++ 48 :: q ++ suf ++ rest) 0) end)
      with (Some 48).
    2:{ replace (length sg + S k)%nat with (S (length sg + k)) by lia. f_equal. rewrite nth_sign.
        subst q. destruct k as [| k]; [reflexivity |].
        change (48 :: (repeat 48 (S k) ++ s2) ++ suf ++ rest) with ((repeat 48 (S (S k)) ++ s2) ++ suf ++ rest).
        rewrite <- app_assoc. rewrite app_nth1 by (rewrite repeat_length; lia).
        symmetry. apply nth_repeat_lt. lia. }
    change (opened neg 8) with (opened neg (known Octal)). apply (Go (length sg + S k)%nat s2 48); try assumption.
    + destruct P as [P | P]; [left; exact P |]. right. intros t Ht Sg X. apply (P t Ht Sg).
      change (48 :: q) with (repeat 48 1 ++ q). apply repeat_steps. rewrite E2. apply repeat_steps. exact X.
    + rewrite <- V. change (48 :: q) with (repeat 48 1 ++ q). rewrite repeat_value, E2, repeat_value. reflexivity.
    + rewrite !app_length. cbn [length]. lia.
  - (* hexadecimal *)
    destruct Hop as [-> | ->]; cbn [app]; cbn [read_prefix Z.eqb Pos.eqb front hd orb tl];
      change (set_radix 16 (opened neg 0)) with (opened neg (known Hexadecimal));
      eapply Go; try assumption; try (apply G; assumption);
      rewrite !app_length; cbn [length]; lia.
  - (* binary *)
    destruct Hop as [-> | ->]; cbn [app]; cbn [read_prefix Z.eqb Pos.eqb front hd orb tl];
      change (set_radix 2 (opened neg 0)) with (opened neg (known Binary));
      eapply Go; try assumption; try (apply G; assumption);
      rewrite !app_length; cbn [length]; lia.
Qed.

(** ** Non-negative literals *)

Lemma plain_quoted : forall ok s, quoted ok s s.
Proof.
  intros ok s. induction s as [| c [| d r] IH]; constructor. exact IH.
Qed.

Lemma ladder_top : forall f u l v, 0 <= v -> (forall t, ~ first_fit v (ladder f u l) t) -> 2 ^ 64 <= v.
Proof.
  intros f u l v Hv H.
  assert (X : ~ (v <= tmax U64)).
  { intros L.
    assert (E : exists t, first_fit v (ladder f u l) t); [| destruct E as (t & E); exact (H t E)].
    assert (U : first_fit v [U64] U64) by (constructor; cbn in *; lia).
    assert (Add : forall t ts, (exists w, first_fit v ts w) -> exists w, first_fit v (t :: ts) w).
    { intros t ts (w & W). destruct (Z_le_dec (tmin t) v); [destruct (Z_le_dec v (tmax t)) |].
      - exists t. constructor. lia.
      - exists w. apply Later; [lia | exact W].
      - exists w. apply Later; [lia | exact W]. }
    destruct f, u, l; cbn [ladder]; repeat first [exists U64; exact U | apply Add]. }
  cbn in X. lia.
Qed.

Lemma value_from_nonneg : forall r ds s a, 0 <= r -> spelled r ds s -> 0 <= a -> 0 <= value_from r a ds.
Proof.
  intros r ds. induction ds as [| d ds IH]; intros s a Hr Sp Ha; [exact Ha |].
  inversion Sp as [| x y l l' H H0]; subst. cbn [value_from fold_left]. eapply IH; [exact Hr | eassumption | nia].
Qed.

Lemma nonnegative_ok : forall f op ds s s' u l suf rest before neg sg,
  sign_text neg sg -> neg <> Some true ->
  opening f op -> proper f ds -> spelled (base f) ds s -> quoted decimal_digit s s' -> suffix u l suf -> ends_here rest ->
  (exists t, first_fit (value (base f) ds) (ladder f u l) t
     /\ parse_numeric before (sg ++ op ++ s' ++ suf ++ rest)
        = Integer t (value (base f) ds) (length (sg ++ op ++ s' ++ suf)))
  \/ (2 ^ 64 <= value (base f) ds /\ parse_numeric before (sg ++ op ++ s' ++ suf ++ rest) = Overflow).
Proof.
  intros f op ds s s' u l suf rest before neg sg Hsg Hn Hop Hp Sp Q Hs He.
  destruct (literal_ok f op ds s s' u l suf rest before neg sg Hsg Hop Hp Sp Q Hs He) as (o & E & O).
  { left. destruct neg as [[] |]; cbn; congruence. }
  rewrite E.
  assert (R : forall x, revise (opened neg (base f)) x = x).
  { intros x. destruct x; try reflexivity. cbn [revise opened negative]. destruct neg as [[] |]; cbn; congruence. }
  rewrite R.
  destruct O as [(t & F & ->) | (F & ->)].
  - left. exists t. split; [exact F | reflexivity].
  - right. split; [| reflexivity]. eapply ladder_top; [| exact F].
    apply (value_from_nonneg (base f) ds s 0); [destruct f; cbn; lia | exact Sp | lia].
Qed.

(** ** Negative literals *)

Fixpoint ndigits (s : list Z) : nat :=
  match s with [] => O | c :: r => if c =? 39 then ndigits r else S (ndigits r) end.

Lemma text_value_split : forall r s, 2 <= r <= 16 -> digits_quotes r s ->
  (forall a, text_value r a s = a * r ^ Z.of_nat (ndigits s) + text_value r 0 s)
  /\ 0 <= text_value r 0 s < r ^ Z.of_nat (ndigits s).
Proof.
  intros r s Hr. induction s as [| c q IH]; intros Hs; cbn [text_value ndigits].
  - change (Z.of_nat 0) with 0. rewrite Z.pow_0_r. split; [intros a |]; lia.
  - apply Forall_cons_iff in Hs. destruct Hs as (Hc & Hs). destruct (IH Hs) as (E & B).
    destruct (Z.eqb_spec c 39) as [E39 | E39]; [split; assumption |].
    destruct Hc as [Hc | (d & Hd & Hc)]; [contradiction |].
    rewrite (proj1 (a_digit_value r c d Hr Hd Hc)).
    rewrite Nat2Z.inj_succ, Z.pow_succ_r by lia.
    rewrite (E (0 * r + d)). split; [intros a; rewrite (E (a * r + d)); lia |].
    set (w := r ^ Z.of_nat (ndigits q)) in *. nia.
Qed.

(** The values on the way are the value without its last digits. *)
Lemma steps_prefix : forall r s a x, 2 <= r <= 16 -> digits_quotes r s -> In x (steps r a s) ->
  exists k, 0 <= k /\ x = text_value r a s / r ^ k.
Proof.
  intros r s. induction s as [| c q IH]; intros a x Hr Hs Hx; cbn [text_value steps] in *; [contradiction |].
  apply Forall_cons_iff in Hs. destruct Hs as (Hc & Hs).
  destruct (Z.eqb_spec c 39) as [E39 | E39]; [eapply IH; eassumption |].
  destruct Hx as [<- | Hx]; [| eapply IH; eassumption].
  exists (Z.of_nat (ndigits q)). split; [lia |].
  destruct (text_value_split r q Hr Hs) as (E & B). rewrite E.
  rewrite Z.div_add_l by lia. rewrite (Z.div_small (text_value r 0 q)) by lia. lia.
Qed.

Lemma negative_ok : forall ds s s' l suf rest before,
  proper Decimal ds -> spelled 10 ds s -> quoted decimal_digit s s' -> suffix false l suf -> ends_here rest ->
  value 10 ds <= 2 ^ 63 -> (forall k, 0 <= k -> value 10 ds / 10 ^ k <> 2 ^ 31 /\ value 10 ds / 10 ^ k <> 2 ^ 63) ->
  exists t, first_fit (- value 10 ds) (if l then [I64] else [I32; I64]) t
    /\ parse_numeric before (45 :: s' ++ suf ++ rest) = Integer t (- value 10 ds) (length (45 :: s' ++ suf)).
Proof.
  intros ds s s' l suf rest before Hp Sp Q Hs He Hv Hk.
  assert (V : text_value 10 0 s' = value 10 ds) by (apply (quoted_value _ 10 _ _ ltac:(lia) Q ds 0 Sp)).
  assert (Ne : s <> []) by (intros ->; inversion Sp; subst; destruct Hp as (d & r & H & _); discriminate).
  pose proof (good_digits _ _ _ (quoted_good 10 s s' Q ds None Sp Ne)) as Dq.
  assert (N0 : 0 <= value 10 ds) by (apply (value_from_nonneg 10 ds s 0); [lia | exact Sp | lia]).
  destruct (literal_ok Decimal [] ds s s' false l suf rest before (Some true) [45] Minus eq_refl Hp Sp Q Hs He)
    as (o & E & O).
  { right. intros t Ht Sg X. destruct (steps_prefix 10 s' 0 _ ltac:(lia) Dq X) as (k & K1 & K2).
    rewrite V in K2. destruct (Hk k K1) as (A & B).
    destruct l; cbn [ladder] in Ht; destruct Ht as [<- | Ht]; try discriminate;
      [change (tmax I64 + 1) with (2 ^ 63) in K2; congruence | destruct Ht as [<- | []]; discriminate
      | change (tmax I32 + 1) with (2 ^ 31) in K2; congruence | ].
    destruct Ht as [<- | [<- | []]]; [change (tmax I64 + 1) with (2 ^ 63) in K2; congruence | discriminate]. }
  cbn [app] in E. rewrite E. clear E.
  destruct (Hk 0 ltac:(lia)) as (A & B). rewrite Z.pow_0_r, Z.div_1_r in A, B.
  change (2 ^ 31) with 2147483648 in *. change (2 ^ 63) with 9223372036854775808 in *.
  cbn [base] in O. cbn [app] in O.
  assert (Fin : forall t, is_signed t = true -> value 10 ds <= tmax t ->
    revise (opened (Some true) (base Decimal)) (Integer t (value 10 ds) (length (45 :: s' ++ suf)))
    = Integer t (- value 10 ds) (length (45 :: s' ++ suf))).
  { intros t Sg L. cbn [revise opened negative is_true]. rewrite Sg.
    assert (R : in_rangeb t (- value 10 ds) = true).
    { apply in_rangeb_iff. unfold in_range. destruct t; try discriminate; cbn in *; lia. }
    rewrite R. reflexivity. }
  destruct O as [(t & F & ->) | (F & ->)].
  - destruct l; cbn [ladder] in F.
    + inversion F as [t1 ts R | t1 ts u R F1]; subst.
      * exists I64. split; [constructor; cbn in *; lia |]. apply Fin; [reflexivity | cbn in *; lia].
      * exfalso. cbn in R. lia.
    + inversion F as [t1 ts R | t1 ts u R F1]; subst.
      * exists I32. split; [constructor; cbn in *; lia |]. apply Fin; [reflexivity | cbn in *; lia].
      * inversion F1 as [t2 ts2 R2 | t2 ts2 u2 R2 F2]; subst.
        -- exists I64. split; [apply Later; [cbn in *; lia |]; constructor; cbn in *; lia |].
           apply Fin; [reflexivity | cbn in *; lia].
        -- exfalso. cbn in R2. lia.
  - exfalso. pose proof (ladder_top Decimal false l (value 10 ds) N0 F). lia.
Qed.

(** ** The end of the literal *)

Lemma set_error_error : forall p, error (set_error p) = true.
Proof. reflexivity. Qed.

(** Nothing takes an error back. *)
Ltac keep := match goal with |- context [match ?x with _ => _ end] => destruct x end; cbn; congruence || reflexivity || assumption.

Lemma error_kept : forall p, error p = true ->
  error (set_point p) = true /\ error (set_float p) = true /\ error (set_long p) = true /\ error (set_unsigned p) = true
  /\ (forall r, error (set_radix r p) = true) /\ error (set_e p) = true /\ (forall b, error (set_negative b p) = true)
  /\ (forall e, error (word p e) = true).
Proof.
  intros p H. unfold set_point, set_float, set_long, set_unsigned, set_radix, set_e, set_negative, word.
  repeat split; intros;
    repeat match goal with |- context [match ?x with _ => _ end] => destruct x end; cbn; assumption || reflexivity.
Qed.

Lemma radix_kept : forall p, radix p <> 10 ->
  radix (set_point p) <> 10 /\ radix (set_float p) <> 10 /\ radix (set_long p) <> 10 /\ radix (set_unsigned p) <> 10
  /\ (forall r, r <> 10 -> radix (set_radix r p) <> 10) /\ (forall b, radix (set_negative b p) <> 10)
  /\ (forall e, radix (word p e) <> 10) /\ radix (set_error p) <> 10.
Proof.
  intros p H. unfold set_point, set_float, set_long, set_unsigned, set_radix, set_negative, word.
  repeat split; intros;
    repeat match goal with |- context [match ?x with _ => _ end] => destruct x end; cbn; assumption.
Qed.

Lemma if_radix : forall (b : bool) p, radix p <> 10 -> radix (if b then p else set_error p) <> 10.
Proof. intros [] p H; exact H. Qed.

Lemma if_error : forall (b : bool) p, error p = true -> error (if b then p else set_error p) = true.
Proof. intros [] p H; [exact H | reflexivity]. Qed.

Lemma stop_pos : forall p e prev pos p' pe pos', stop p e prev pos = Some (p', pe, pos') ->
  pos' = pos /\ (match e with Some (k, _) => pe = k | None => pe = pos end) /\ (error p = true -> error p' = true).
Proof.
  intros p e prev pos p' pe pos' H. unfold stop in H.
  destruct e as [[k [c |]] |]; cbn [set_end] in H; try discriminate.
  - injection H as <- <- <-. repeat split. intros X. destruct (c =? 39); [reflexivity | exact X].
  - destruct prev as [c |]; try discriminate. injection H as <- <- <-. repeat split. intros X. destruct (c =? 39); [reflexivity | exact X].
Qed.

(** Where the scanner stops. *)
Lemma continue_pos : forall s p e prev pos p' pe pos', radix p <> 10 ->
  match e with Some (k, _) => (k <= pos)%nat | None => True end ->
  continue_read p e prev pos s = Some (p', pe, pos') ->
  exists body rest, s = body ++ rest /\ Forall literal_char body /\ ends_here rest /\ pos' = (pos + length body)%nat
    /\ (match e with Some (k, _) => pe = k | None => (pos <= pe)%nat end) /\ (pe <= pos')%nat
    /\ (error p = true -> error p' = true).
Proof.
  induction s as [| c r IH]; intros p e prev pos p' pe pos' Hr He H.
  - cbn [continue_read] in H. apply stop_pos in H. destruct H as (-> & H2 & H3).
    exists [], []. cbn. repeat split; auto; destruct e as [[k x] |]; subst; lia.
  - cbn [continue_read] in H.
    assert (Step : forall q e1 c1, literal_char c -> radix q <> 10 -> (error p = true -> error q = true) ->
      match e1 with Some (k, _) => (k <= S pos)%nat | None => True end ->
      (match e, e1 with Some (k, _), Some (k1, _) => k1 = k | None, Some (k1, _) => k1 = pos
       | None, None => True | Some _, None => False end) ->
      continue_read q e1 c1 (S pos) r = Some (p', pe, pos') ->
      exists body rest, c :: r = body ++ rest /\ Forall literal_char body /\ ends_here rest /\ pos' = (pos + length body)%nat
        /\ (match e with Some (k, _) => pe = k | None => (pos <= pe)%nat end) /\ (pe <= pos')%nat
        /\ (error p = true -> error p' = true)).
    { intros q e1 c1 Lc Hq Eq B1 B2 H1.
      destruct (IH q e1 c1 (S pos) p' pe pos' Hq B1 H1) as (body & rest & -> & F & En & -> & P1 & P2 & P3).
      exists (c :: body), rest. cbn [app length]. repeat split; auto; try lia.
      destruct e as [[k x] |], e1 as [[k1 x1] |]; subst; try contradiction; lia. }
    pose proof (radix_kept p Hr) as (R1 & R2 & R3 & R4 & R5 & _ & R7 & R8).
    pose proof (error_kept p) as EK.
    assert (B0 : match e with Some (k, _) => (k <= S pos)%nat | None => True end)
      by (destruct e as [[k x] |]; [lia | exact I]).
    assert (Same : match e, e with Some (k, _), Some (k1, _) => k1 = k | None, Some (k1, _) => k1 = pos
       | None, None => True | Some _, None => False end) by (destruct e as [[k x] |]; auto).
    assert (B3 : match set_end e pos prev with Some (k, _) => (k <= S pos)%nat | None => True end)
      by (destruct e as [[k x] |]; cbn; lia).
    assert (Ends : match e, set_end e pos prev with Some (k, _), Some (k1, _) => k1 = k | None, Some (k1, _) => k1 = pos
       | None, None => True | Some _, None => False end) by (destruct e as [[k x] |]; cbn; auto).
    destruct (Z.eqb_spec c 46) as [E | E].
    { eapply Step; [| | | | | exact H]; auto; [right; left; exact E | apply EK]. }
    replace (((c =? 69) || (c =? 101)) && (radix p =? 10)) with false in H
      by (replace (radix p =? 10) with false by lia; rewrite andb_false_r; reflexivity).
    destruct (((c =? 70) || (c =? 102)) && ((radix p =? 10) || (radix p =? 0))) eqn:E1.
    { eapply Step; [| | | | | exact H]; auto; [left; unfold word_char; lia | apply EK]. }
    destruct ((c =? 76) || (c =? 108)) eqn:E2.
    { eapply Step; [| | | | | exact H]; auto; [left; unfold word_char; lia | apply EK]. }
    destruct ((c =? 85) || (c =? 117)) eqn:E3.
    { eapply Step; [| | | | | exact H]; auto; [left; unfold word_char; lia | apply EK]. }
    destruct ((c =? 72) || (c =? 104)) eqn:E4.
    { eapply Step; [| | | | | exact H]; auto; [left; unfold word_char; lia | apply R5; lia |].
      intros X. apply EK. exact X. }
    destruct (Z.eqb_spec c 39) as [E5 | E5].
    { destruct prev as [b |]; [| discriminate].
      eapply Step; [| | | | | exact H]; auto; [right; right; exact E5 | apply if_radix; exact Hr | apply if_error]. }
    destruct (is_word c) eqn:W.
    { eapply Step; [| | | | | exact H]; auto; [left; apply is_word_char; exact W |]. intros X. apply EK. exact X. }
    apply stop_pos in H. destruct H as (-> & H2 & H3).
    exists [], (c :: r). cbn [app length ends_here]. repeat split; auto; try lia.
    + intros [X | [X | X]]; try contradiction. apply is_word_char in X. congruence.
    + destruct e as [[k x] |]; subst; lia.
    + destruct e as [[k x] |]; subst; lia.
Qed.

(** Where the digits start: after at most one sign, unless an error was found. *)
Lemma prefix_literal : forall pre, Forall prefix_char pre -> Forall literal_char pre.
Proof.
  intros pre F. eapply Forall_impl; [| exact F]. intros c H. left. unfold prefix_char in H. cbn in H. unfold word_char. lia.
Qed.

Lemma prefix_pos : forall s p pos p' start rest, radix p <> 10 -> read_prefix p pos s = (p', start, rest) ->
  exists sg pre, s = sg ++ pre ++ rest /\ start = (pos + length (sg ++ pre))%nat /\ Forall prefix_char pre
    /\ Forall (fun c => c = 45 \/ c = 43) sg /\ radix p' <> 10
    /\ (error p = true -> error p' = true)
    /\ (error p' = false -> match negative p with Some _ => sg = [] | None => sign_text (negative p') sg end).
Proof.
  induction s as [| c r IH]; intros p pos p' start rest Hr H; cbn [read_prefix] in H.
  - injection H as <- <- <-. exists [], []. cbn. repeat split; auto; try lia; try congruence.
  - pose proof (radix_kept p Hr) as (R1 & R2 & R3 & R4 & R5 & R6 & R7 & R8).
    pose proof (error_kept p) as EK.
    assert (Sgn : forall b, c = (if b : bool then 45 else 43) -> read_prefix (set_negative b p) (S pos) r = (p', start, rest) ->
      exists sg pre, c :: r = sg ++ pre ++ rest /\ start = (pos + length (sg ++ pre))%nat /\ Forall prefix_char pre
        /\ Forall (fun c => c = 45 \/ c = 43) sg /\ radix p' <> 10 /\ (error p = true -> error p' = true)
        /\ (error p' = false -> match negative p with Some _ => sg = [] | None => sign_text (negative p') sg end)).
    { intros b Hc H1.
      destruct (IH (set_negative b p) (S pos) p' start rest (R6 b) H1) as (sg & pre & -> & -> & F & G & Hr' & X1 & X2).
      exists (c :: sg), pre. cbn [app length]. repeat split; auto; try lia.
      - constructor; [| exact G]. destruct b; lia.
      - intros Er. apply X1. apply EK. exact Er.
      - intros Er. specialize (X2 Er). unfold set_negative in X1, X2, H1.
        destruct (negative p) as [n |] eqn:N.
        + exfalso. rewrite set_error_error in X1. specialize (X1 eq_refl). congruence.
        + cbn [negative] in X2. subst sg. cbn [app] in H1.
          assert (Keep : forall s q k q' st rs, negative q = Some b -> read_prefix q k s = (q', st, rs) -> error q' = false ->
                    negative q' = Some b).
          { clear. induction s as [| c r IH]; intros q k q' st rs N H Er; cbn [read_prefix] in H.
            - injection H as <- <- <-. discriminate.
            - assert (SE : forall z, set_negative z q = set_error q) by (intros z; unfold set_negative; rewrite N; reflexivity).
              rewrite !SE in H.
              destruct (c =? 45); [exact (IH (set_error q) _ _ _ _ N H Er) |].
              destruct (c =? 43); [exact (IH (set_error q) _ _ _ _ N H Er) |].
              destruct (c =? 48).
              + cbv zeta in H.
                destruct ((front r =? 88) || (front r =? 120));
                  [injection H as <- <- <-; unfold set_radix in *; destruct (0 <? radix q); exact N |].
                destruct ((front r =? 66) || (front r =? 98));
                  [injection H as <- <- <-; unfold set_radix in *; destruct (0 <? radix q); exact N |].
                destruct (front r =? 46); [injection H as <- <- <-; exact N |].
                destruct (front r =? 48); [exact (IH q _ _ _ _ N H Er) |].
                injection H as <- <- <-; unfold set_radix in *; destruct (0 <? radix q); exact N.
              + destruct (c =? 0); injection H as <- <- <-; [exact N | exact N]. }
          pose proof (fun N => Keep _ _ _ _ _ _ N H1 Er) as K. cbn [negative] in K. rewrite (K eq_refl). subst c. destruct b; constructor. }
    destruct (Z.eqb_spec c 45) as [E | E]; [apply (Sgn true); assumption |].
    destruct (Z.eqb_spec c 43) as [E0 | E0]; [apply (Sgn false); assumption |].
    assert (Nil : forall q, error q = false -> negative q = negative p ->
      match negative p with Some _ => @nil Z = [] | None => sign_text (negative q) [] end).
    { intros q _ ->. destruct (negative p); [reflexivity | constructor]. }
    assert (Two : forall k d r', (k <> 10) -> c = 48 -> r = d :: r' -> prefix_char d ->
      (set_radix k p, S (S pos), tl r) = (p', start, rest) ->
      exists sg pre, c :: r = sg ++ pre ++ rest /\ start = (pos + length (sg ++ pre))%nat /\ Forall prefix_char pre
        /\ Forall (fun c => c = 45 \/ c = 43) sg /\ radix p' <> 10 /\ (error p = true -> error p' = true)
        /\ (error p' = false -> match negative p with Some _ => sg = [] | None => sign_text (negative p') sg end)).
    { intros k d r' Hk -> -> Hd H1. injection H1 as <- <- <-. exists [], [48; d]. cbn [app length tl].
      repeat split; auto; try lia.
      - constructor; [left; reflexivity |]. constructor; [exact Hd | constructor].
      - intros Er. apply EK. exact Er.
      - intros Er. apply Nil; [exact Er |]. unfold set_radix. destruct (0 <? radix p); reflexivity. }
    destruct (Z.eqb_spec c 48) as [E1 | E1].
    + cbv zeta in H.
      destruct ((front r =? 88) || (front r =? 120)) eqn:E2.
      { destruct r as [| d r']; [cbn in E2; discriminate |]. cbn [front hd] in E2.
        apply (Two 16 d r'); auto; [lia |]. unfold prefix_char. cbn. lia. }
      destruct ((front r =? 66) || (front r =? 98)) eqn:E3.
      { destruct r as [| d r']; [cbn in E3; discriminate |]. cbn [front hd] in E3.
        apply (Two 2 d r'); auto; [lia |]. unfold prefix_char. cbn. lia. }
      destruct (front r =? 46) eqn:E4.
      { injection H as <- <- <-. exists [], []. cbn. repeat split; auto; try lia. intros Er. apply Nil; [exact Er | reflexivity]. }
      destruct (front r =? 48) eqn:E5.
      { destruct (IH p (S pos) p' start rest Hr H) as (sg & pre & E6 & -> & F & G & Hr' & X1 & X2).
        destruct sg as [| x sg].
        - exists [], (c :: pre). cbn [app length] in *. rewrite E6. repeat split; auto; try lia.
          constructor; [| exact F]. left. symmetry. exact E1.
        - exfalso. rewrite E6 in E5. cbn [app front hd] in E5. apply Forall_cons_iff in G. destruct G as (G & _). lia. }
      injection H as <- <- <-. exists [], [c]. cbn [app length]. repeat split; auto; try lia.
      * constructor; [| constructor]. left. symmetry. exact E1.
      * apply R5. lia.
      * intros Er. apply EK. exact Er.
      * intros Er. apply Nil; [exact Er |]. unfold set_radix. destruct (0 <? radix p); reflexivity.
    + destruct (Z.eqb_spec c 0) as [E2 | E2]; injection H as <- <- <-; exists [], []; cbn; repeat split; auto; try lia; try congruence.
      intros Er. apply Nil; [exact Er | reflexivity].
Qed.

Lemma parse_types_kind : forall ts positive r v s pos t x q, parse_types ts positive r v s pos = Integer t x q -> q = pos.
Proof.
  induction ts as [| u ts IH]; intros positive r v s pos t x q H; cbn [parse_types] in H; [discriminate |].
  destruct (scan u positive r (wrap u v) s); try discriminate; [injection H; auto | eapply IH; eassumption].
Qed.

Lemma parse_types_not_float : forall ts positive r v s pos k q, parse_types ts positive r v s pos <> Floating k q.
Proof.
  induction ts as [| u ts IH]; intros positive r v s pos k q H; cbn [parse_types] in H; [discriminate |].
  destruct (scan u positive r (wrap u v) s); try discriminate. eapply IH; eassumption.
Qed.

Lemma revised_pos : forall p l pos, accepted (revise p l) = Some pos -> accepted l = Some pos.
Proof.
  intros p l pos H. destruct l; try exact H. cbn [revise] in H.
  destruct (is_true (negative p)); [| exact H].
  destruct (is_signed t); [| exact H]. destruct (in_rangeb t (- v)); [exact H | discriminate].
Qed.

Lemma digits_pos : forall p s pos q, accepted (parse_digits p s pos) = Some q -> q = pos.
Proof.
  intros p s pos q H. unfold parse_digits in H. destruct (floating p) as [k |].
  - destruct (negb (radix p =? 10) || is_true (unsigned p) || match k with Double => false | Float => long p end); [discriminate |].
    injection H. auto.
  - destruct (parse_types (types p) (negb (is_true (negative p))) (radix p) 0 s pos) eqn:E; try discriminate.
    + apply parse_types_kind in E. injection H. congruence.
    + exfalso. eapply parse_types_not_float. exact E.
Qed.

Lemma scan_exact : forall before s pos, accepted (parse_numeric before s) = Some pos ->
  exists neg sg body rest, s = sg ++ body ++ rest /\ sign_text neg sg /\ Forall literal_char body /\ ends_here rest
    /\ pos = length (sg ++ body).
Proof.
  intros before s pos H. unfold parse_numeric in H.
  destruct (read_prefix no_props 0 s) as [[p start] r] eqn:E.
  assert (N10 : radix no_props <> 10) by discriminate.
  destruct (prefix_pos s no_props 0 p start r N10 E) as (sg & pre & -> & -> & F & G & Hr & X1 & X2).
  destruct (continue_read p None _ _ r) as [[[p' pe] q] |] eqn:C; [| discriminate].
  destruct (continue_pos r p None _ _ p' pe q Hr I C) as (body & rest & -> & F2 & En & -> & P1 & P2 & P3).
  cbv zeta in H.
  destruct (error (complete p')) eqn:Er; [discriminate |].
  apply revised_pos in H. apply digits_pos in H. subst pos.
  assert (Ep : error p = false).
  { destruct (error p) eqn:Ep; [| reflexivity]. specialize (P3 eq_refl). cbn in Er. congruence. }
  specialize (X2 Ep). cbn [negative no_props] in X2.
  exists (negative p), sg, (pre ++ body), rest. repeat split; auto.
  - rewrite <- app_assoc. reflexivity.
  - apply Forall_app. split; [apply prefix_literal; exact F | exact F2].
  - rewrite !app_length. lia.
Qed.

(** ** What follows does not matter *)

Lemma prefix_local : forall body p pos rest, body <> [] -> Forall literal_char body -> ends_here rest ->
  exists p' st r, read_prefix p pos body = (p', st, r) /\ read_prefix p pos (body ++ rest) = (p', st, r ++ rest).
Proof.
  induction body as [| c b IH]; intros p pos rest Ne F En; [congruence |].
  apply Forall_cons_iff in F. destruct F as (Hc & F).
  cbn [app read_prefix].
  assert (N : c <> 45 /\ c <> 43 /\ c <> 0) by (unfold literal_char, word_char in Hc; lia).
  replace (c =? 45) with false by lia. replace (c =? 43) with false by lia. replace (c =? 0) with false by lia.
  destruct (c =? 48) eqn:E48; [| do 3 eexists; split; reflexivity].
  destruct b as [| d b].
  - cbn [app]. change (front []) with 0. cbv zeta.
    assert (R : front rest <> 88 /\ front rest <> 120 /\ front rest <> 66 /\ front rest <> 98 /\ front rest <> 46 /\ front rest <> 48).
    { destruct rest as [| x xs]; cbn [front hd]; [lia |]. cbn [ends_here] in En. unfold literal_char, word_char in En. lia. }
    replace ((front rest =? 88) || (front rest =? 120)) with false by lia.
    replace ((front rest =? 66) || (front rest =? 98)) with false by lia.
    replace (front rest =? 46) with false by lia.
    replace (front rest =? 48) with false by lia.
    do 3 eexists; split; reflexivity.
  - cbn [app front hd tl]. cbv zeta.
    destruct ((d =? 88) || (d =? 120)); [do 3 eexists; split; reflexivity |].
    destruct ((d =? 66) || (d =? 98)); [do 3 eexists; split; reflexivity |].
    destruct (d =? 46); [do 3 eexists; split; reflexivity |].
    destruct (d =? 48); [| do 3 eexists; split; reflexivity].
    exact (IH p (S pos) rest ltac:(discriminate) F En).
Qed.

Lemma continue_local : forall body p e prev pos rest, radix p <> 10 -> ends_here rest ->
  continue_read p e prev pos (body ++ rest) = continue_read p e prev pos body.
Proof.
  induction body as [| c b IH]; intros p e prev pos rest Hr En.
  - cbn [app]. rewrite read_end by exact En. reflexivity.
  - cbn [app continue_read].
    pose proof (radix_kept p Hr) as (R1 & R2 & R3 & R4 & R5 & _ & R7 & R8).
    replace (((c =? 69) || (c =? 101)) && (radix p =? 10)) with false
      by (replace (radix p =? 10) with false by lia; rewrite andb_false_r; reflexivity).
    rewrite (IH (set_point p)), (IH (set_float p)), (IH (set_long p)), (IH (set_unsigned p)), (IH (set_radix 16 p)),
      (IH (word p e)) by (auto; apply R5; lia).
    destruct prev as [x |]; [| reflexivity]. rewrite IH by (try apply if_radix; assumption). reflexivity.
Qed.

Lemma parse_local : forall before neg sg body rest, sign_text neg sg -> body <> [] -> Forall literal_char body -> ends_here rest ->
  parse_numeric before (sg ++ body ++ rest) = parse_numeric before (sg ++ body).
Proof.
  intros before neg sg body rest Hs Ne F En. unfold parse_numeric.
  rewrite !(read_sign _ _ _ Hs).
  destruct (prefix_local body (opened neg 0) (length sg) rest Ne F En) as (p & st & r & E1 & E2).
  rewrite E1, E2.
  destruct (prefix_pos body (opened neg 0) (length sg) p st r ltac:(discriminate) E1)
    as (sg1 & pre & Eb & Es & _ & _ & Hr & _).
  assert (Pv : match st with O => before | S k => Some (nth k (sg ++ body ++ rest) 0) end
               = match st with O => before | S k => Some (nth k (sg ++ body) 0) end).
  { destruct st as [| k]; [reflexivity |]. f_equal. rewrite app_assoc, app_nth1; [reflexivity |].
    rewrite app_length. subst body. rewrite app_length in Es. rewrite !app_length. lia. }
  rewrite Pv, continue_local by assumption.
  destruct (continue_read p None _ st r) as [[[p' pe] q] |] eqn:C; [| reflexivity].
  destruct (continue_pos r p None _ _ p' pe q Hr I C) as (b2 & r2 & -> & _ & _ & -> & P1 & P2 & _).
  cbv zeta. destruct (error (complete p')); [reflexivity |].
  f_equal. f_equal. rewrite firstn_app.
  replace (pe - st - length (b2 ++ r2))%nat with 0%nat by (rewrite app_length; lia).
  cbn [firstn]. rewrite app_nil_r. reflexivity.
Qed.

(** ** The form of what is accepted *)

(** Still an integer without errors. *)
Definition whole (p : props) : Prop := error p = false /\ floating p = None /\ point p = false /\ exponent p = false.

Definition small_radix (r : Z) : Prop := r = 0 \/ r = 2 \/ r = 8 \/ r = 16.

Lemma small_not_10 : forall r, small_radix r -> r <> 10. Proof. intros r H. unfold small_radix in H. lia. Qed.

Ltac props_cases := unfold set_point, set_float, set_long, set_unsigned, set_radix, set_error, set_negative, word in *;
  repeat match goal with |- context [match ?x with _ => _ end] => destruct x eqn:? end;
  cbn [radix error floating point exponent] in *; try assumption; try tauto; try congruence.

Lemma radix_small : forall p, small_radix (radix p) ->
  small_radix (radix (set_point p)) /\ small_radix (radix (set_float p)) /\ small_radix (radix (set_long p))
  /\ small_radix (radix (set_unsigned p)) /\ small_radix (radix (set_radix 16 p)) /\ small_radix (radix (set_radix 8 p))
  /\ small_radix (radix (set_radix 2 p))
  /\ (forall b, small_radix (radix (set_negative b p))) /\ (forall e, small_radix (radix (word p e))).
Proof.
  intros p H. repeat split; intros; props_cases; unfold small_radix; lia.
Qed.

Lemma whole_back : forall p,
  (whole (set_point p) -> False) /\ (whole (set_float p) -> False) /\ (whole (set_long p) -> whole p)
  /\ (whole (set_unsigned p) -> whole p) /\ (forall r, whole (set_radix r p) -> whole p) /\ (whole (set_error p) -> False)
  /\ (forall e, whole (word p e) -> whole p).
Proof.
  assert (Er : forall p, whole (set_error p) -> False) by (intros p (A & _); discriminate).
  intros p. repeat apply conj; try exact (Er p).
  - unfold set_point. destruct (point p); [apply Er |]. intros (_ & _ & A & _). discriminate.
  - unfold set_float. destruct (floating p), (unsigned p); try apply Er. intros (_ & A & _). discriminate.
  - unfold set_long. destruct (long p); [intros X; destruct (Er _ X) |]. exact (fun x => x).
  - unfold set_unsigned. destruct (unsigned p), (floating p) eqn:E; try (intros X; destruct (Er _ X)).
    intros (A & B & C & D). repeat split; assumption.
  - intros r. unfold set_radix. destruct (0 <? radix p); [intros X; destruct (Er _ X) |]. exact (fun x => x).
  - intros [e |]; cbn [word]; [intros X; destruct (Er _ X) | exact (fun x => x)].
Qed.

(** What was wrong stays wrong. *)
Lemma continue_whole : forall s p e prev pos p' pe pos', small_radix (radix p) -> continue_read p e prev pos s = Some (p', pe, pos') ->
  whole p' -> whole p /\ small_radix (radix p').
Proof.
  induction s as [| c r IH]; intros p e prev pos p' pe pos' Hr H W.
  - cbn [continue_read] in H. unfold stop in H. destruct (set_end e pos prev) as [[k [x |]] |]; try discriminate.
    injection H as <- <- <-. destruct (x =? 39); [destruct W; discriminate | split; assumption].
  - cbn [continue_read] in H.
    pose proof (radix_small p Hr) as (R1 & R2 & R3 & R4 & R5 & _ & _ & _ & R7).
    pose proof (whole_back p) as (B1 & B2 & B3 & B4 & B5 & B6 & B7).
    assert (Use : forall q e1 x, small_radix (radix q) -> (whole q -> whole p) ->
      continue_read q e1 x (S pos) r = Some (p', pe, pos') -> whole p /\ small_radix (radix p')).
    { intros q e1 x Rq Wq H1. destruct (IH q e1 x (S pos) p' pe pos' Rq H1 W) as (A & B). split; [apply Wq; exact A | exact B]. }
    destruct (c =? 46).
    { eapply Use; [exact R1 | | exact H]. intros X. destruct (B1 X). }
    replace (((c =? 69) || (c =? 101)) && (radix p =? 10)) with false in H
      by (replace (radix p =? 10) with false by (unfold small_radix in Hr; lia); rewrite andb_false_r; reflexivity).
    destruct (((c =? 70) || (c =? 102)) && ((radix p =? 10) || (radix p =? 0))).
    { eapply Use; [exact R2 | | exact H]. intros X. destruct (B2 X). }
    destruct ((c =? 76) || (c =? 108)).
    { eapply Use; [exact R3 | exact B3 | exact H]. }
    destruct ((c =? 85) || (c =? 117)).
    { eapply Use; [exact R4 | exact B4 | exact H]. }
    destruct ((c =? 72) || (c =? 104)).
    { eapply Use; [exact R5 | apply B5 | exact H]. }
    destruct (c =? 39).
    { destruct prev as [b |]; [| discriminate]. eapply Use; [| | exact H]; destruct (is_digit b); auto.
      intros X. destruct (B6 X). }
    destruct (is_word c).
    { eapply Use; [apply R7 | apply B7 | exact H]. }
    unfold stop in H. destruct (set_end e pos prev) as [[k [x |]] |]; try discriminate.
    injection H as <- <- <-. destruct (x =? 39); [destruct W; discriminate | split; assumption].
Qed.

(** The characters after the digits. *)
Lemma continue_suffix : forall s p k x prev pos p' pe pos', small_radix (radix p) ->
  (forall c, prev = Some c -> ~ decimal_digit c \/ True) ->
  continue_read p (Some (k, x)) prev pos s = Some (p', pe, pos') -> whole p' ->
  (exists c, prev = Some c /\ suffix_char c) ->
  exists suf rest, s = suf ++ rest /\ Forall suffix_char suf /\ ends_here rest /\ pos' = (pos + length suf)%nat /\ pe = k.
Proof.
  induction s as [| c r IH]; intros p k x prev pos p' pe pos' Hr _ H W Pv.
  - cbn [continue_read] in H. apply stop_pos in H. destruct H as (-> & -> & _). exists [], []. cbn. repeat split; auto; lia.
  - pose proof (continue_whole (c :: r) p (Some (k, x)) prev pos p' pe pos' Hr H W) as (Wp & _).
    cbn [continue_read] in H.
    pose proof (radix_small p Hr) as (R1 & R2 & R3 & R4 & R5 & _ & _ & _ & R7).
    pose proof (whole_back p) as (B1 & B2 & B3 & B4 & B5 & B6 & B7).
    assert (Use : forall q, suffix_char c -> small_radix (radix q) -> continue_read q (Some (k, x)) (Some c) (S pos) r = Some (p', pe, pos') ->
      exists suf rest, c :: r = suf ++ rest /\ Forall suffix_char suf /\ ends_here rest /\ pos' = (pos + length suf)%nat /\ pe = k).
    { intros q Sc Rq H1. destruct (IH q k x (Some c) (S pos) p' pe pos' Rq ltac:(auto) H1 W ltac:(eauto))
        as (suf & rest & -> & F & En & -> & ->).
      exists (c :: suf), rest. cbn [app length]. repeat split; auto. lia. }
    destruct (Z.eqb_spec c 46) as [E46 | E46].
    { exfalso. apply B1. exact (proj1 (continue_whole r _ _ _ _ _ _ _ R1 H W)). }
    replace (((c =? 69) || (c =? 101)) && (radix p =? 10)) with false in H
      by (replace (radix p =? 10) with false by (unfold small_radix in Hr; lia); rewrite andb_false_r; reflexivity).
    cbn [set_end] in H.
    destruct (((c =? 70) || (c =? 102)) && ((radix p =? 10) || (radix p =? 0))).
    { exfalso. apply B2. exact (proj1 (continue_whole r _ _ _ _ _ _ _ R2 H W)). }
    destruct ((c =? 76) || (c =? 108)) eqn:E2.
    { apply (Use (set_long p)); auto. unfold suffix_char. cbn. lia. }
    destruct ((c =? 85) || (c =? 117)) eqn:E3.
    { apply (Use (set_unsigned p)); auto. unfold suffix_char. cbn. lia. }
    destruct ((c =? 72) || (c =? 104)) eqn:E4.
    { apply (Use (set_radix 16 p)); auto. unfold suffix_char. cbn. lia. }
    destruct (Z.eqb_spec c 39) as [E5 | E5].
    { exfalso. destruct Pv as (y & -> & Sy).
      assert (Dy : is_digit y = false).
      { destruct (is_digit y) eqn:Ey; [| reflexivity]. apply is_digit_char in Ey. unfold decimal_digit, suffix_char in *. cbn in Sy. lia. }
      rewrite Dy in H. destruct (continue_whole r (set_error p) _ _ _ _ _ _ Hr H W) as ((A & _) & _). discriminate. }
    destruct (is_word c) eqn:Wc.
    { exfalso. cbn [word] in H. destruct (continue_whole r (set_error p) _ _ _ _ _ _ Hr H W) as ((A & _) & _). discriminate. }
    apply stop_pos in H. destruct H as (-> & -> & _). exists [], (c :: r). cbn [app length ends_here].
    repeat split; auto; try lia.
    intros [X | [X | X]]; try contradiction. apply is_word_char in X. congruence.
Qed.

(** The characters from the digits on. *)
Lemma continue_form : forall s p prev pos p' pe pos', small_radix (radix p) ->
  continue_read p None prev pos s = Some (p', pe, pos') -> whole p' ->
  exists digs suf rest, s = digs ++ suf ++ rest /\ Forall (fun c => word_char c \/ c = 39) digs /\ Forall suffix_char suf
    /\ ends_here rest /\ pos' = (pos + length digs + length suf)%nat /\ pe = (pos + length digs)%nat.
Proof.
  induction s as [| c r IH]; intros p prev pos p' pe pos' Hr H W.
  - cbn [continue_read] in H. apply stop_pos in H. destruct H as (-> & -> & _). exists [], [], []. cbn. repeat split; auto; lia.
  - pose proof (continue_whole (c :: r) p None prev pos p' pe pos' Hr H W) as (Wp & _).
    cbn [continue_read] in H.
    pose proof (radix_small p Hr) as (R1 & R2 & R3 & R4 & R5 & _ & _ & _ & R7).
    pose proof (whole_back p) as (B1 & B2 & B3 & B4 & B5 & B6 & B7).
    assert (Use : forall q, word_char c \/ c = 39 -> small_radix (radix q) ->
      continue_read q None (Some c) (S pos) r = Some (p', pe, pos') ->
      exists digs suf rest, c :: r = digs ++ suf ++ rest /\ Forall (fun c => word_char c \/ c = 39) digs /\ Forall suffix_char suf
        /\ ends_here rest /\ pos' = (pos + length digs + length suf)%nat /\ pe = (pos + length digs)%nat).
    { intros q Sc Rq H1. destruct (IH q (Some c) (S pos) p' pe pos' Rq H1 W)
        as (digs & suf & rest & -> & F & F2 & En & -> & ->).
      exists (c :: digs), suf, rest. cbn [app length]. repeat split; auto; lia. }
    assert (Suf : forall q, suffix_char c -> small_radix (radix q) ->
      continue_read q (Some (pos, prev)) (Some c) (S pos) r = Some (p', pe, pos') ->
      exists digs suf rest, c :: r = digs ++ suf ++ rest /\ Forall (fun c => word_char c \/ c = 39) digs /\ Forall suffix_char suf
        /\ ends_here rest /\ pos' = (pos + length digs + length suf)%nat /\ pe = (pos + length digs)%nat).
    { intros q Sc Rq H1. destruct (continue_suffix r q pos prev (Some c) (S pos) p' pe pos' Rq ltac:(auto) H1 W ltac:(eauto))
        as (suf & rest & -> & F & En & -> & ->).
      exists [], (c :: suf), rest. cbn [app length]. repeat split; auto; lia. }
    destruct (Z.eqb_spec c 46) as [E46 | E46].
    { exfalso. apply B1. exact (proj1 (continue_whole r _ _ _ _ _ _ _ R1 H W)). }
    replace (((c =? 69) || (c =? 101)) && (radix p =? 10)) with false in H
      by (replace (radix p =? 10) with false by (unfold small_radix in Hr; lia); rewrite andb_false_r; reflexivity).
    cbn [set_end] in H.
    destruct (((c =? 70) || (c =? 102)) && ((radix p =? 10) || (radix p =? 0))).
    { exfalso. apply B2. exact (proj1 (continue_whole r _ _ _ _ _ _ _ R2 H W)). }
    destruct ((c =? 76) || (c =? 108)) eqn:E2.
    { apply (Suf (set_long p)); auto. unfold suffix_char. cbn. lia. }
    destruct ((c =? 85) || (c =? 117)) eqn:E3.
    { apply (Suf (set_unsigned p)); auto. unfold suffix_char. cbn. lia. }
    destruct ((c =? 72) || (c =? 104)) eqn:E4.
    { apply (Suf (set_radix 16 p)); auto. unfold suffix_char. cbn. lia. }
    destruct (Z.eqb_spec c 39) as [E5 | E5].
    { destruct prev as [b |]; [| discriminate]. eapply Use; [| | exact H]; auto. destruct (is_digit b); exact Hr. }
    destruct (is_word c) eqn:Wc.
    { eapply Use; [| | exact H]; auto. left. apply is_word_char. exact Wc. }
    apply stop_pos in H. destruct H as (-> & -> & _). exists [], [], (c :: r). cbn [app length ends_here].
    repeat split; auto; try lia.
    intros [X | [X | X]]; try contradiction. apply is_word_char in X. congruence.
Qed.

(** The digits of an accepted integer. *)
Lemma scan_digits : forall t positive r s v, 2 <= r <= 16 -> Forall (fun c => word_char c \/ c = 39) s ->
  match scan t positive r v s with
  | All _ => digits_quotes r s
  | Rest _ s2 => exists s1, s = s1 ++ s2 /\ digits_quotes r s1
  | _ => True
  end.
Proof.
  intros t positive r s. induction s as [| c q IH]; intros v Hr F; cbn [scan]; [constructor |].
  apply Forall_cons_iff in F. destruct F as (Hc & F).
  destruct (Z.eqb_spec c 39) as [E | E].
  - specialize (IH v Hr F). destruct (scan t positive r v q); auto.
    + constructor; auto.
    + destruct IH as (s1 & -> & D). exists (c :: s1). split; [reflexivity |]. constructor; auto.
  - destruct (push t positive r v c) eqn:P; auto.
    + assert (Dc : a_digit r c).
      { unfold push in P. destruct (is_digit_of c r) eqn:D; [| discriminate].
        assert (A : 0 < c < 127) by (unfold word_char in Hc; lia).
        apply (digit_ascii c r A Hr) in D. destruct D as [D | [D | D]].
        - exists (c - 48). split; [lia |]. left. lia.
        - exists (c - 87). split; [lia |]. right. lia.
        - exists (c - 55). split; [lia |]. right. lia. }
      specialize (IH v0 Hr F). destruct (scan t positive r v0 q); auto.
      * constructor; auto.
      * destruct IH as (s1 & -> & D). exists (c :: s1). split; [reflexivity |]. constructor; auto.
    + exists []. split; [reflexivity | constructor].
Qed.

Lemma types_digits : forall ts positive r s v pos t x, 2 <= r <= 16 -> Forall (fun c => word_char c \/ c = 39) s ->
  parse_types ts positive r v s pos = Integer t x pos -> digits_quotes r s.
Proof.
  induction ts as [| u ts IH]; intros positive r s v pos t x Hr F H; cbn [parse_types] in H; [discriminate |].
  pose proof (scan_digits u positive r s (wrap u v) Hr F) as Sd.
  destruct (scan u positive r (wrap u v) s) as [w | w s2 | |]; try discriminate; [exact Sd |].
  destruct Sd as (s1 & -> & D). apply Forall_app in F. apply Forall_app. split; [exact D |].
  exact (IH positive r s2 w pos t x Hr (proj2 F) H).
Qed.

Lemma digits_spelled : forall r s, digits_quotes r s -> exists ds, spelled r ds (unquoted s).
Proof.
  intros r s F. induction F as [| c q Hc F IH].
  - exists []. constructor.
  - destruct IH as (ds & IH). unfold unquoted. cbn [filter]. destruct (Z.eqb_spec c 39) as [E | E]; cbn [negb].
    + exists ds. exact IH.
    + destruct Hc as [Hc | (d & Hd & Hc)]; [contradiction |]. exists (d :: ds). constructor; [split; assumption | exact IH].
Qed.

Lemma unquoted_value : forall r s ds a, 2 <= r <= 16 -> spelled r ds (unquoted s) -> text_value r a s = value_from r a ds.
Proof.
  intros r s. induction s as [| c q IH]; intros ds a Hr Sp; unfold unquoted in Sp; cbn [filter] in Sp.
  - inversion Sp; subst. reflexivity.
  - cbn [text_value]. destruct (Z.eqb_spec c 39) as [E | E]; cbn [negb] in Sp.
    + apply IH; assumption.
    + destruct ds as [| d ds]; [inversion Sp |]. apply spelled_cons in Sp. destruct Sp as ((H1 & H2) & Sp).
      rewrite (proj1 (a_digit_value r c d Hr H1 H2)). cbn [value_from fold_left]. apply IH; assumption.
Qed.


Lemma prefix_small : forall s p pos p' start rest, small_radix (radix p) -> read_prefix p pos s = (p', start, rest) ->
  small_radix (radix p').
Proof.
  induction s as [| c r IH]; intros p pos p' start rest Hr H; cbn [read_prefix] in H.
  - injection H as <- <- <-. exact Hr.
  - pose proof (radix_small p Hr) as (R1 & R2 & R3 & R4 & R5 & R6 & R8 & R9 & R7).
    destruct (c =? 45); [eapply IH; [apply (R9 true) | exact H] |].
    destruct (c =? 43); [eapply IH; [apply (R9 false) | exact H] |].
    destruct (c =? 48).
    + cbv zeta in H.
      destruct ((front r =? 88) || (front r =? 120)); [injection H as <- <- <-; exact R5 |].
      destruct ((front r =? 66) || (front r =? 98)); [injection H as <- <- <-; exact R8 |].
      destruct (front r =? 46); [injection H as <- <- <-; exact Hr |].
      destruct (front r =? 48); [eapply IH; [exact Hr | exact H] |].
      injection H as <- <- <-; exact R6.
    + destruct (c =? 0); injection H as <- <- <-; exact Hr.
Qed.

Lemma integer_form : forall before s t v pos, parse_numeric before s = Integer t v pos ->
  exists neg sg pre digs suf rest r ds,
    s = sg ++ pre ++ digs ++ suf ++ rest /\ pos = length (sg ++ pre ++ digs ++ suf) /\ sign_text neg sg
    /\ Forall prefix_char pre /\ In r [2; 8; 10; 16] /\ spelled r ds (unquoted digs) /\ Forall suffix_char suf /\ ends_here rest
    /\ (neg <> Some true -> v = value r ds).
Proof.
  intros before s t v pos H. unfold parse_numeric in H.
  destruct (read_prefix no_props 0 s) as [[p start] r] eqn:E.
  assert (N10 : radix no_props <> 10) by discriminate.
  destruct (prefix_pos s no_props 0 p start r N10 E) as (sg & pre & -> & -> & F & G & Hr & X1 & X2).
  assert (Sm : small_radix (radix p)) by (eapply prefix_small; [| exact E]; left; reflexivity).
  destruct (continue_read p None _ _ r) as [[[p' pe] q] |] eqn:C; [| discriminate].
  cbv zeta in H. destruct (error (complete p')) eqn:Er; [discriminate |].
  assert (Fl : floating (complete p') = None).
  { unfold parse_digits in H. destruct (floating (complete p')) as [k |]; [| reflexivity].
    destruct (negb (radix (complete p') =? 10) || is_true (unsigned (complete p'))
              || match k with Double => false | Float => long (complete p') end); discriminate. }
  assert (W : whole p').
  { cbn [complete error floating] in Er, Fl. unfold whole.
    destruct (floating p'); [discriminate |]. destruct (point p'), (exponent p'); try discriminate. auto. }
  destruct (continue_form r p _ _ p' pe q Sm C W) as (digs & suf & rest & -> & F2 & F3 & En & -> & ->).
  destruct (continue_whole _ _ _ _ _ _ _ _ Sm C W) as (Wp & Sp').
  specialize (X2 (proj1 Wp)). cbn [negative no_props] in X2.
  unfold parse_digits in H. rewrite Fl in H.
  replace (0 + length (sg ++ pre) + length digs - (0 + length (sg ++ pre)))%nat with (length digs) in H by lia.
  rewrite firstn_app, firstn_all, Nat.sub_diag in H. cbn [firstn] in H. rewrite app_nil_r in H.
  set (rd := radix (complete p')) in *.
  assert (Rd : In rd [2; 8; 10; 16]).
  { unfold rd, complete. destruct W as (_ & -> & -> & ->). cbn [orb radix]. unfold small_radix in Sp'.
    destruct Sp' as [-> | [-> | [-> | ->]]]; cbn; auto. }
  clearbody rd.
  assert (Rr : 2 <= rd <= 16) by (cbn [In] in Rd; lia).
  assert (Ex : exists x, parse_types (types (complete p')) (negb (is_true (negative (complete p')))) rd 0 digs
              (0 + length (sg ++ pre) + length digs + length suf)%nat = Integer t x pos
            /\ (is_true (negative (complete p')) = false -> x = v)).
  { destruct (parse_types (types (complete p')) (negb (is_true (negative (complete p')))) rd 0 digs
      (0 + length (sg ++ pre) + length digs + length suf)%nat) as [t' x p0 | | | |]; cbn [revise] in H; try discriminate.
    destruct (is_true (negative (complete p'))) eqn:Ng.
    - destruct (is_signed t'); [destruct (in_rangeb t' (- x)); [| discriminate] |]; injection H as <- _ <-; eexists; split; try reflexivity; discriminate.
    - injection H as <- <- <-. eexists. split; [reflexivity | auto]. }
  destruct Ex as (x & Ex & Xv).
  pose proof (parse_types_kind _ _ _ _ _ _ _ _ _ Ex) as Pos.
  rewrite Pos in Ex.
  pose proof (types_digits _ _ _ _ _ _ _ _ Rr F2 Ex) as Dq.
  destruct (digits_spelled rd digs Dq) as (ds & Ds).
  exists (negative p), sg, pre, digs, suf, rest, rd, ds.
  split; [reflexivity |]. split; [rewrite Pos, !app_length; lia |].
  repeat (split; [assumption |]).
  intros Ng.
  (* the sign is not changed after the prefix *)
  assert (Keep : forall s p e prev pos p' pe q, continue_read p e prev pos s = Some (p', pe, q) -> negative p' = negative p).
  { clear. induction s as [s IH] using (well_founded_induction (Wf_nat.well_founded_ltof _ (@length Z))).
    intros p e prev pos p' pe q H.
    assert (St : forall p e prev pos, stop p e prev pos = Some (p', pe, q) -> negative p' = negative p).
    { clear. intros p e prev pos H. unfold stop in H. destruct (set_end e pos prev) as [[k [x |]] |]; try discriminate.
      injection H as <- _ _. destruct (x =? 39); reflexivity. }
    destruct s as [| c r]; cbn [continue_read] in H; [exact (St _ _ _ _ H) |].
    assert (Go : forall r1 q1 e1 prev1 pos1, (length r1 < length (c :: r))%nat -> negative q1 = negative p ->
      continue_read q1 e1 prev1 pos1 r1 = Some (p', pe, q) -> negative p' = negative p).
    { intros r1 q1 e1 prev1 pos1 L N H1. rewrite <- N. exact (IH r1 L _ _ _ _ _ _ _ H1). }
    assert (Kn : forall p, negative (set_point p) = negative p /\ negative (set_float p) = negative p /\ negative (set_long p) = negative p
      /\ negative (set_unsigned p) = negative p /\ (forall r, negative (set_radix r p) = negative p) /\ negative (set_e p) = negative p
      /\ (forall e, negative (word p e) = negative p)).
    { clear. intros p. unfold set_point, set_float, set_long, set_unsigned, set_radix, set_e, word.
      repeat split; intros; repeat match goal with |- context [match ?x with _ => _ end] => destruct x end; reflexivity. }
    destruct (Kn p) as (K1 & K2 & K3 & K4 & K5 & K6 & K7).
    destruct (c =? 46); [eapply Go; [| | exact H]; cbn [length]; auto |].
    destruct (((c =? 69) || (c =? 101)) && (radix p =? 10)).
    { cbv zeta in H.
      assert (Ke : forall e, negative (word (set_error (set_e p)) e) = negative p).
      { intros e0. destruct (Kn (set_error (set_e p))) as (_ & _ & _ & _ & _ & _ & K). rewrite K. exact K6. }
      destruct r as [| d r1]; [rewrite <- (Ke e); exact (St _ _ _ _ H) |].
      destruct ((d =? 43) || (d =? 45)).
      - destruct r1 as [| f r2]; [rewrite <- (Ke e); exact (St _ _ _ _ H) |].
        destruct (is_digit f); (eapply Go; [| | exact H]; cbn [length]; auto; lia).
      - eapply Go; [| | exact H]; cbn [length]; auto. }
    destruct (((c =? 70) || (c =? 102)) && ((radix p =? 10) || (radix p =? 0))); [eapply Go; [| | exact H]; cbn [length]; auto |].
    destruct ((c =? 76) || (c =? 108)); [eapply Go; [| | exact H]; cbn [length]; auto |].
    destruct ((c =? 85) || (c =? 117)); [eapply Go; [| | exact H]; cbn [length]; auto |].
    destruct ((c =? 72) || (c =? 104)); [eapply Go; [| | exact H]; cbn [length]; auto |].
    destruct (c =? 39).
    { destruct prev as [b |]; [| discriminate]. eapply Go; [| | exact H]; cbn [length]; auto. destruct (is_digit b); reflexivity. }
    destruct (is_word c); [eapply Go; [| | exact H]; cbn [length]; auto |].
    exact (St _ _ _ _ H). }
  assert (Ng2 : is_true (negative (complete p')) = false).
  { cbn [complete negative]. rewrite (Keep _ _ _ _ _ _ _ _ C). destruct (negative p) as [[] |]; cbn; congruence. }
  rewrite <- (Xv Ng2).
  assert (Hy : match types (complete p') with [] => True | t0 :: _ => 0 <= tmax t0 end)
    by (destruct (types (complete p')) as [| t0 l0]; [exact I |]; pose proof (tmin_max t0); lia).
  assert (Ri : rising (types (complete p'))).
  { unfold types. destruct (long (complete p')), (unsigned (complete p')) as [[] |]; try destruct (radix (complete p') =? 10);
      repeat constructor; vm_compute; congruence. }
  destruct (parse_types_ok (types (complete p')) (negb (is_true (negative (complete p')))) rd digs 0
    (0 + length (sg ++ pre) + length digs + length suf)%nat Rr Dq ltac:(lia) Hy Ri ltac:(left; rewrite Ng2; reflexivity))
    as [(t1 & _ & E1) | (_ & E1)].
  - rewrite Ex in E1. injection E1 as _ ->. apply (unquoted_value rd digs ds 0 Rr Ds).
  - rewrite Ex in E1. discriminate.
Qed.

(** ** Hexadecimal literals with the suffix H *)

Lemma read_plain_hex : forall s p prev pos tail, radix p = 0 -> Forall (fun c => a_digit 16 c /\ c <> 70 /\ c <> 102) s ->
  continue_read p None prev pos (s ++ tail) = continue_read p None (last_of prev s) (pos + length s)%nat tail.
Proof.
  induction s as [| c r IH]; intros p prev pos tail Rd F.
  - cbn [app length last_of fold_left]. rewrite Nat.add_0_r. reflexivity.
  - apply Forall_cons_iff in F. destruct F as ((Hc & N1 & N2) & F).
    cbn [app continue_read].
    pose proof (digit_range 16 c Hc ltac:(lia)) as D.
    assert (W : is_word c = true) by (apply is_word_char; unfold word_char; lia).
    replace (c =? 46) with false by lia.
    replace (((c =? 69) || (c =? 101)) && (radix p =? 10)) with false by lia.
    replace (((c =? 70) || (c =? 102)) && ((radix p =? 10) || (radix p =? 0))) with false by lia.
    replace ((c =? 76) || (c =? 108)) with false by lia.
    replace ((c =? 85) || (c =? 117)) with false by lia.
    replace ((c =? 72) || (c =? 104)) with false by lia.
    replace (c =? 39) with false by lia.
    rewrite W. cbn [word]. rewrite (IH p (Some c) (S pos) tail Rd F). cbn [length last_of fold_left].
    replace (S pos + length r)%nat with (pos + S (length r))%nat by lia. reflexivity.
Qed.

Lemma hex_suffix_ok : forall ds s h rest before,
  spelled 16 ds s -> (exists c r, s = c :: r /\ c <> 48) -> Forall (fun c => c <> 70 /\ c <> 102) s -> h = 72 \/ h = 104 -> ends_here rest ->
  (exists t, first_fit (value 16 ds) [U32; U64] t
     /\ parse_numeric before (s ++ h :: rest) = Integer t (value 16 ds) (S (length s)))
  \/ (2 ^ 64 <= value 16 ds /\ parse_numeric before (s ++ h :: rest) = Overflow).
Proof.
  intros ds s h rest before Sp (c & r & E & N48) Nf Hh En.
  assert (F : Forall (fun c => a_digit 16 c /\ c <> 70 /\ c <> 102) s).
  { clear - Sp Nf. induction Sp as [| d c ds s (H1 & H2) Sp IH]; constructor.
    - apply Forall_cons_iff in Nf. split; [exists d; auto | apply Nf].
    - apply Forall_cons_iff in Nf. apply IH. apply Nf. }
  assert (Dq : digits_quotes 16 s).
  { eapply Forall_impl; [| exact F]. intros x (X & _). right. exact X. }
  assert (V : text_value 16 0 s = value 16 ds) by (apply (quoted_value _ 16 _ _ ltac:(lia) (plain_quoted any_digit s) ds 0 Sp)).
  assert (Hc : a_digit 16 c) by (subst s; apply Forall_cons_iff in F; apply F).
  pose proof (digit_range 16 c Hc ltac:(lia)) as D.
  assert (Ep : read_prefix no_props 0 (s ++ h :: rest) = (no_props, 0%nat, s ++ h :: rest)).
  { rewrite E. cbn [app read_prefix].
    replace (c =? 45) with false by lia. replace (c =? 43) with false by lia. replace (c =? 48) with false by lia.
    replace (c =? 0) with false by lia. reflexivity. }
  unfold parse_numeric. rewrite Ep. rewrite (read_plain_hex s no_props before 0 (h :: rest) eq_refl F).
  assert (L : exists x, last_of before s = Some x /\ x <> 39).
  { assert (G : good 16 before s).
    { clear - F E. assert (Ne : s <> []) by (subst s; discriminate). clear E. revert before Ne.
      induction F as [| x q (Hx & _) F IH]; intros before Ne; [congruence |]. cbn [good]. split; [left; exact Hx |].
      destruct q as [| y q]; [cbn [good]; exists x; split; [reflexivity |]; destruct Hx as (d & _ & Hx); exact (digit_not_quote _ _ Hx) |].
      apply IH. discriminate. }
    exact (good_last _ _ _ G). }
  destruct L as (x & -> & N39).
  assert (Cr : continue_read no_props None (Some x) (0 + length s) (h :: rest)
               = Some (Props None None false None 16 false false false, length s, S (length s))).
  { cbn [Nat.add]. destruct Hh as [-> | ->]; cbn [continue_read Z.eqb Pos.eqb orb andb set_end];
      rewrite read_end by exact En; unfold stop; cbn [set_end]; replace (x =? 39) with false by lia; reflexivity. }
  rewrite Cr. cbv zeta. rewrite Nat.sub_0_r.
  rewrite firstn_app, firstn_all, Nat.sub_diag. cbn [firstn]. rewrite app_nil_r.
  set (p := complete _). assert (Pe : exists a b, p = Props a None false None 16 false b false /\ types p = [U32; U64] /\ error p = false).
  { do 2 eexists. split; [reflexivity | split; reflexivity]. }
  destruct Pe as (a & b & Pe & Ty & Er). clearbody p. rewrite Er. unfold parse_digits. rewrite Ty. clear Ty Er. subst p.
  cbn [floating negative radix is_true negb].
  destruct (parse_types_ok [U32; U64] true 16 s 0 (S (length s)) ltac:(lia) Dq ltac:(lia)) as [(t & Ft & E1) | (Ft & E1)].
  - vm_compute. congruence.
  - repeat constructor. vm_compute. congruence.
  - left. reflexivity.
  - left. exists t. rewrite <- V. split; [exact Ft |]. rewrite E1. reflexivity.
  - right. rewrite E1. split; [| reflexivity].
    apply (ladder_top Hexadecimal true false); [| cbn [ladder]; rewrite <- V; exact Ft].
    apply (value_from_nonneg 16 ds s 0); [lia | exact Sp | lia].
Qed.

(** ** Separators *)

Lemma separators_neutral : forall f op ds s s' u l suf rest before,
  opening f op -> proper f ds -> spelled (base f) ds s -> quoted decimal_digit s s' -> suffix u l suf -> ends_here rest ->
  same_meaning (parse_numeric before (op ++ s' ++ suf ++ rest)) (parse_numeric before (op ++ s ++ suf ++ rest)).
Proof.
  intros f op ds s s' u l suf rest before Hop Hp Sp Q Hs En.
  assert (Det : forall v ts t1 t2, first_fit v ts t1 -> first_fit v ts t2 -> t1 = t2).
  { clear. intros v ts t1 t2 A. revert t2. induction A as [t ts H | t ts u H A IH]; intros t2 B; inversion B; subst; auto; contradiction. }
  assert (Top : forall v ts t, first_fit v ts t -> v < 2 ^ 64).
  { clear. intros v ts t H. induction H as [t ts H |]; [| assumption]. destruct t; cbn in H; lia. }
  destruct (nonnegative_ok f op ds s s' u l suf rest before None [] No_sign ltac:(discriminate) Hop Hp Sp Q Hs En)
    as [(t1 & F1 & E1) | (F1 & E1)];
  destruct (nonnegative_ok f op ds s s u l suf rest before None [] No_sign ltac:(discriminate) Hop Hp Sp (plain_quoted _ s) Hs En)
    as [(t2 & F2 & E2) | (F2 & E2)]; cbn [app] in E1, E2; rewrite E1, E2.
  - rewrite (Det _ _ _ _ F1 F2). constructor.
  - exfalso. apply Top in F1. lia.
  - exfalso. apply Top in F2. lia.
  - constructor.
Qed.

(** ** Cases *)

Lemma separator_after_letter : exists ds s s',
  proper Hexadecimal ds /\ spelled 16 ds s /\ quoted any_digit s s'
  /\ (exists t v p, forall before, parse_numeric before ([48; 120] ++ s) = Integer t v p)
  /\ (forall before, parse_numeric before ([48; 120] ++ s') = Format_error).
Proof.
  exists [15; 0], [70; 48], [70; 39; 48]. split; [discriminate |]. split; [| split; [| split]].
  - constructor; [split; [lia |]; right; lia |]. constructor; [split; [lia |]; left; lia | constructor].
  - apply Q_quote; [exists 15; right; lia | constructor].
  - exists U32, 240, 4%nat. intros before. vm_compute. reflexivity.
  - intros before. vm_compute. reflexivity.
Qed.

Lemma negative_case : value 10 [2; 1; 4; 7; 4; 8; 3; 6; 4; 9] <= 2 ^ 63
  /\ (forall k, 0 <= k -> value 10 [2; 1; 4; 7; 4; 8; 3; 6; 4; 9] / 10 ^ k <> 2 ^ 31
                        /\ value 10 [2; 1; 4; 7; 4; 8; 3; 6; 4; 9] / 10 ^ k <> 2 ^ 63)
  /\ parse_numeric None [45; 50; 49; 52; 55; 52; 56; 51; 54; 52; 57] = Integer I64 (-2147483649) 11.
Proof.
  change (value 10 [2; 1; 4; 7; 4; 8; 3; 6; 4; 9]) with 2147483649.
  change (2 ^ 63) with 9223372036854775808. change (2 ^ 31) with 2147483648.
  split; [lia | split; [| vm_compute; reflexivity]].
  intros k Hk. destruct (Z.eq_dec k 0) as [-> | N].
  - rewrite Z.pow_0_r, Z.div_1_r. lia.
  - assert (L : 2147483649 / 10 ^ k <= 214748364).
    { replace k with (1 + (k - 1)) by lia. rewrite Z.pow_add_r, Z.pow_1_r by lia.
      rewrite <- Z.div_div by (try apply Z.pow_pos_nonneg; lia). change (2147483649 / 10) with 214748364.
      assert (1 <= 10 ^ (k - 1)) by (pose proof (Z.pow_pos_nonneg 10 (k - 1)); lia).
      apply Z.div_le_upper_bound; [lia |]. nia. }
    lia.
Qed.

Lemma least_undefined : forall before,
  parse_numeric before [45; 50; 49; 52; 55; 52; 56; 51; 54; 52; 56] = Undefined
  /\ parse_numeric before [45; 50; 49; 52; 55; 52; 56; 51; 54; 52; 56; 48] = Undefined
  /\ value 10 [2; 1; 4; 7; 4; 8; 3; 6; 4; 8] = 2 ^ 31.
Proof. intros before. repeat split; vm_compute; reflexivity. Qed.

Lemma documented_rejected : forall before,
  parse_numeric before [49; 50; 51; 101; 43; 49; 48] = Format_error
  /\ parse_numeric before [49; 48; 70; 48; 72] = Format_error
  /\ parse_numeric before [48; 70; 70; 72] = Format_error.
Proof. intros before. repeat split; vm_compute; reflexivity. Qed.

Lemma malformed_accepted : forall before,
  parse_numeric before [48; 120] = Integer U32 0 2 /\ parse_numeric before [48; 98] = Integer I32 0 2
  /\ parse_numeric before [48; 48; 120; 49; 70] = Integer U32 31 5.
Proof. intros before. repeat split; vm_compute; reflexivity. Qed.

Lemma eight_fs : spelled 16 (repeat 15 8) [70; 70; 70; 70; 70; 70; 70; 70].
Proof. cbn [repeat]. repeat (apply Forall2_cons; [split; [lia | right; lia] |]). constructor. Qed.

Lemma one_two_a : spelled 16 [1; 2; 10] [49; 50; 65].
Proof.
  apply Forall2_cons; [split; [lia | left; lia] |]. apply Forall2_cons; [split; [lia | left; lia] |].
  apply Forall2_cons; [split; [lia | right; lia] |]. constructor.
Qed.

Lemma million : quoted decimal_digit [49; 48; 48; 48; 48; 48; 48] [49; 39; 48; 48; 48; 39; 48; 48; 48].
Proof.
  apply Q_quote; [unfold decimal_digit; lia |]. apply Q_cons. apply Q_cons. apply Q_quote; [unfold decimal_digit; lia |].
  apply Q_cons. apply Q_cons. apply Q_last.
Qed.

Lemma twelve_plus : ends_here [43; 51] /\ Forall literal_char [49; 50].
Proof.
  split; [unfold ends_here, literal_char, word_char; lia |]. repeat (apply Forall_cons; [unfold literal_char, word_char; lia |]). constructor.
Qed.
