(** String literals that are not well formed are read with the error flag. *)
From Coq Require Import String Ascii ZArith List Bool Lia.
Import ListNotations.
From Verif Require Import CppInt StrModel LitModel LitSpec TokModel TokSpec TokProofs.
Open Scope Z_scope.

Lemma closed_plain : forall c s, c <> 34 -> c <> 92 -> c <> 0 -> (closed_string (c :: s) <-> closed_string s).
Proof.
  intros c s H1 H2 H3. split.
  - intros (src & str & rest & D & E). destruct D as [|c' src str N1 N2 N3 D|e d src str I O D].
    + injection E as E _. congruence.
    + injection E as _ E. exists src, str, rest. split; [exact D | exact E].
    + injection E as E _. congruence.
  - intros (src & str & rest & D & E). exists (c :: src), (c :: str), rest.
    split; [now apply Denotes_plain | now rewrite E].
Qed.

Lemma closed_escape : forall e c s, In (e, c) escapes -> (closed_string (92 :: e :: s) <-> closed_string s).
Proof.
  intros e c s H. split.
  - intros (src & str & rest & D & E). destruct D as [|c' src str N1 N2 N3 D|e' d src str I O D].
    + injection E as E _. congruence.
    + injection E as E _. congruence.
    + injection E as _ E. exists src, str, rest. split; [exact D | exact E].
  - intros (src & str & rest & D & E). exists (92 :: e :: src), (c :: str), rest.
    split; [now apply Denotes_escape | now rewrite E].
Qed.

Lemma not_closed_escape : forall e s, (forall c, ~ In (e, c) escapes) -> ~ closed_string (92 :: e :: s).
Proof.
  intros e s H (src & str & rest & D & E). destruct D as [|c' src str N1 N2 N3 D|e' d src str I O D].
  - injection E as E _. congruence.
  - injection E as E _. congruence.
  - injection E as <- _. exact (H _ I).
Qed.

Lemma escape_listed : forall e, match escape_char e with
  | Some _ => exists c, In (e, c) escapes
  | None => forall c, ~ In (e, c) escapes
  end.
Proof.
  intros e. unfold escape_char.
  repeat match goal with |- context [if ?a =? ?b then _ else _] => destruct (Z.eqb_spec a b) end;
    try (subst; eexists; cbn; tauto).
  intros c H. cbn in H.
  repeat (destruct H as [H|H]; [injection H as ? ?; congruence|]). exact H.
Qed.

Lemma string_flag : forall s n acc good, exists p str g,
  ends string_step ((n, s), acc, good) (p, String str g) /\ (n <= fst p)%nat /\
  (g = true <-> good = true /\ closed_string s).
Proof.
  intros s. remember (length s) as k eqn:K. revert s K.
  induction k as [k IH] using lt_wf_ind. intros s K n acc good.
  destruct s as [|c s].
  - exists (n, []), (until_zero (rev acc)), false. split; [apply ends_done; reflexivity|].
    split; [cbn; lia|]. split; [discriminate|]. intros (_ & src & str & rest & _ & E).
    destruct src; discriminate E.
  - destruct (Z.eqb_spec c 92) as [->|N1].
    + destruct s as [|d s].
      * exists (S n, []), (until_zero (rev acc)), false. split; [apply ends_done; reflexivity|].
        split; [cbn; lia|]. split; [discriminate|]. intros (_ & src & str & rest & D & E).
        destruct D; [discriminate E|injection E as E; congruence|discriminate E].
      * destruct (Z.eqb_spec d 0) as [->|N2].
        -- exists (S n, 0 :: s), (until_zero (rev acc)), false. split; [apply ends_done; reflexivity|].
           split; [cbn; lia|]. split; [discriminate|]. intros (_ & H).
           exfalso. revert H. apply not_closed_escape. exact (escape_listed 0).
        -- destruct (IH (length s) ltac:(cbn in K; lia) s eq_refl (S (S n))
                       (match escape_char d with Some e => e :: acc | None => acc end)
                       (match escape_char d with Some _ => good | None => false end))
             as (p & str & g & E & L & G).
           exists p, str, g. split; [|split; [lia|]].
           ++ eapply ends_step; [|exact E]. unfold string_step, at_spot.
              cbn [snd front hd advance tl Z.eqb Pos.eqb].
              replace (d =? 0) with false by lia. destruct (escape_char d); reflexivity.
           ++ rewrite G. pose proof (escape_listed d) as X. destruct (escape_char d).
              ** destruct X as (x & X). rewrite (closed_escape d x s X). reflexivity.
              ** split; [intros (A & _); discriminate A|]. intros (_ & A). exfalso. revert A.
                 now apply not_closed_escape.
    + destruct (Z.eqb_spec c 34) as [->|N2].
      * exists (S n, s), (until_zero (rev acc)), good. split; [apply ends_done; reflexivity|].
        split; [cbn; lia|]. split; [|tauto]. intros E. split; [exact E|].
        exists [], [], s. split; [constructor | reflexivity].
      * destruct (Z.eqb_spec c 0) as [->|N3].
        -- exists (n, 0 :: s), (until_zero (rev acc)), false. split; [apply ends_done; reflexivity|].
           split; [cbn; lia|]. split; [discriminate|]. intros (_ & src & str & rest & D & E).
           destruct D; [discriminate E|injection E as E; congruence|discriminate E].
        -- destruct (IH (length s) ltac:(cbn in K; lia) s eq_refl (S n) (c :: acc) good)
             as (p & str & g & E & L & G).
           exists p, str, g. split; [|split; [lia|]].
           ++ eapply ends_step; [|exact E]. unfold string_step, at_spot.
              cbn [snd front hd advance tl].
              replace (c =? 92) with false by lia. replace (c =? 34) with false by lia.
              replace (c =? 0) with false by lia. reflexivity.
           ++ rewrite G, (closed_plain c s) by assumption. reflexivity.
Qed.

Lemma string_flagged : forall r ws body, pending r = None -> remaining r = ws ++ 34 :: body -> Forall white ws ->
  exists n str good,
    gives r (Token (One Value) (position r + length ws) n (String str good))
      (Reader (source r) (position r + length ws + n) (Some (One Value)) None) /\
    (good = true <-> exists src str' rest, denotes (fun _ => True) src str' /\ body = src ++ 34 :: rest).
Proof.
  intros r ws body P E Fw.
  destruct (string_flag body 1 [] true) as ([n rest] & str & g & (l & K) & _ & G).
  exists n, str, g. split.
  - apply (token_gives r ws 34 body (One Value) n (String str g) P E Fw).
    + unfold white. lia.
    + lia.
    + exists l. intros f L. unfold read_token. rewrite not_keyword by (unfold word_char; lia).
      cbv zeta. cbn [Z.eqb Pos.eqb andb orb]. unfold symbol. cbv zeta. cbn [Z.eqb Pos.eqb].
      rewrite (K f L). reflexivity.
  - rewrite G. split; [intros (_ & H); exact H | intros H; split; [reflexivity | exact H]].
Qed.

(** ** Verbatim strings *)

Lemma verbatim_flag : forall s n acc good, exists p str g,
  ends verbatim_step ((n, s), acc, good) (p, String str g) /\
  (g = true -> good = true /\ exists str' rest, s = str' ++ 34 :: rest /\ ~ In 34 str' /\ ~ In 0 str').
Proof.
  induction s as [|c s IH]; intros n acc good.
  - exists (n, []), (until_zero (rev acc)), false. split; [apply ends_done; reflexivity | discriminate].
  - destruct (Z.eqb_spec c 34) as [->|N1].
    + destruct (Z.eqb_spec (front s) 34) as [F|F].
      * exists (S (S n), tl s), (until_zero (rev (34 :: acc))), false. split; [|discriminate].
        apply ends_done. unfold verbatim_step, at_spot. cbn [snd front hd advance tl Z.eqb Pos.eqb].
        rewrite F. reflexivity.
      * exists (S n, s), (until_zero (rev acc)), good. split.
        -- apply ends_done. unfold verbatim_step, at_spot. cbn [snd advance tl].
           change (front (34 :: s)) with 34. cbn [Z.eqb Pos.eqb].
           replace (front s =? 34) with false by lia. reflexivity.
        -- intros G. split; [exact G|]. exists [], s. split; [reflexivity | split; intros []].
    + destruct (Z.eqb_spec c 0) as [->|N2].
      * exists (n, 0 :: s), (until_zero (rev acc)), false. split; [apply ends_done; reflexivity | discriminate].
      * destruct (IH (S n) (c :: acc) good) as (p & str & g & E & G). exists p, str, g. split.
        -- eapply ends_step; [|exact E]. unfold verbatim_step, at_spot. cbn [snd front hd advance tl].
           replace (c =? 34) with false by lia. replace (c =? 0) with false by lia. reflexivity.
        -- intros Hg. destruct (G Hg) as (A & str' & rest & -> & B & C). split; [exact A|].
           exists (c :: str'), rest. split; [reflexivity|].
           split; intros [X | X]; try lia; [exact (B X) | exact (C X)].
Qed.

Lemma verbatim_flagged : forall r ws body, pending r = None -> remaining r = ws ++ 64 :: 34 :: body -> Forall white ws ->
  exists n str good,
    gives r (Token (One Value) (position r + length ws) n (String str good))
      (Reader (source r) (position r + length ws + n) (Some (One Value)) None) /\
    (good = true -> exists str' rest, body = str' ++ 34 :: rest /\ ~ In 34 str' /\ ~ In 0 str').
Proof.
  intros r ws body P E Fw.
  destruct (verbatim_flag body 2 [] true) as ([n rest] & str & g & (l & K) & G).
  exists n, str, g. split.
  - apply (token_gives r ws 64 (34 :: body) (One Value) n (String str g) P E Fw).
    + unfold white. lia.
    + lia.
    + exists l. intros f L. unfold read_token. rewrite not_keyword by (unfold word_char; lia).
      cbv zeta. cbn [nth Z.eqb Pos.eqb andb orb]. unfold symbol. cbv zeta. cbn [Z.eqb Pos.eqb tl].
      rewrite (K f L). reflexivity.
  - intros H. exact (proj2 (G H)).
Qed.

(** ** Character literals *)

Lemma char_loop : forall src, char_body src -> forall n ret count good rest, exists c k g,
  ends char_step ((n, src ++ 39 :: rest), ret, count, good)
    ((n + S (length src))%nat, rest, Char c (g && Nat.eqb k 1)) /\
  (count <= k)%nat /\
  (g = true /\ k = count <-> good = true /\ src = []) /\
  (g = true /\ k = S count <-> good = true /\ one_char src).
Proof.
  intros src B. induction B as [|c s N1 N2 N3 B IH|d s N B IH]; intros n ret count good rest.
  - exists ret, count, good. split; [|split; [lia|split]].
    + apply ends_done. unfold char_step, at_spot. cbn [app snd front hd Z.eqb Pos.eqb length advance tl].
      unfold char_end. replace (n + 1)%nat with (S n) by lia. reflexivity.
    + tauto.
    + split; [intros (_ & X); lia|]. intros (_ & [(c & X & _) | (e & c & X & _)]); discriminate X.
  - destruct (IH (S n) c (S count) good rest) as (x & k & g & E & L & G0 & _).
    exists x, k, g. split; [|split; [lia|split]].
    + cbn [app length]. replace (n + S (S (length s)))%nat with (S n + S (length s))%nat by lia.
      eapply ends_step; [|exact E]. unfold char_step, at_spot. cbn [snd front hd advance tl].
      unfold line_end in N3.
      replace (c =? 39) with false by lia. replace (c =? 92) with false by lia.
      replace (c =? 13) with false by lia. replace (c =? 10) with false by lia.
      replace (c =? 0) with false by lia. reflexivity.
    + split; [intros (_ & X); lia | intros (_ & X); discriminate X].
    + rewrite G0. split.
      * intros (A & ->). split; [exact A|]. left. exists c. tauto.
      * intros (A & [(y & X & _) | (e & y & X & _)]).
        -- injection X as -> ->. tauto.
        -- injection X as X _. congruence.
  - destruct (IH (S (S n)) (match escape_char d with Some e => e | None => ret end) (S count)
                (match escape_char d with Some _ => good | None => false end) rest)
      as (x & k & g & E & L & G0 & _).
    exists x, k, g. split; [|split; [lia|split]].
    + cbn [app length]. replace (n + S (S (S (length s))))%nat with (S (S n) + S (length s))%nat by lia.
      eapply ends_step; [|exact E]. unfold char_step, at_spot. cbn [snd front hd advance tl Z.eqb Pos.eqb].
      replace (d =? 0) with false by lia. destruct (escape_char d); reflexivity.
    + split; [intros (_ & X); lia | intros (_ & X); discriminate X].
    + rewrite G0. pose proof (escape_listed d) as X. destruct (escape_char d).
      * destruct X as (y & X). split.
        -- intros (A & ->). split; [exact A|]. right. exists d, y. tauto.
        -- intros (A & [(c & Y & _ & Z' & _) | (e & c & Y & _)]).
           ++ discriminate Y.
           ++ injection Y as _ ->. tauto.
      * split; [intros (A & _); discriminate A|].
        intros (A & [(c & Y & _) | (e & c & Y & I)]); [discriminate Y|].
        injection Y as <- _. exfalso. exact (X c I).
Qed.

Lemma char_flagged : forall r ws src rest, pending r = None -> remaining r = ws ++ 39 :: src ++ 39 :: rest -> Forall white ws ->
  char_body src ->
  exists c good,
    gives r (Token (One Value) (position r + length ws) (S (S (length src))) (Char c good))
      (Reader (source r) (position r + length ws + S (S (length src))) (Some (One Value)) None) /\
    (good = true <-> one_char src).
Proof.
  intros r ws src rest P E Fw B.
  destruct (char_loop src B 1 0 0 true rest) as (c & k & g & (l & K) & _ & _ & G).
  exists c, (g && Nat.eqb k 1). split.
  - apply (token_gives r ws 39 (src ++ 39 :: rest) (One Value) _ (Char c (g && Nat.eqb k 1)) P E Fw).
    + unfold white. lia.
    + lia.
    + exists l. intros f L. unfold read_token. rewrite not_keyword by (unfold word_char; lia).
      cbv zeta. cbn [Z.eqb Pos.eqb andb orb]. unfold symbol. cbv zeta. cbn [Z.eqb Pos.eqb].
      rewrite (K f L). reflexivity.
  - rewrite andb_true_iff, Nat.eqb_eq. rewrite G. split; [intros (_ & X); exact X | intros X; split; [reflexivity | exact X]].
Qed.
