(** Plain statements meet the conditions of StmtCond.v. *)
From Coq Require Import List Bool Arith ZArith Lia.
From Verif Require Import StmtModel StmtSpec StmtCond StmtProofs StmtTop.
Import ListNotations.

Section Plain.
Context {St : Type}.
Notation stmt := (@stmt St).
Notation block := (@block St).
Notation cases := (@cases St).

(** A set of flags that is absent. *)
Definition clean (r t d b c : bool) (e : ety) : Prop :=
  (r = true -> x_ret e = false) /\ (t = true -> x_thr e = false) /\
  (d = true -> x_dead e = false) /\ (b = true -> x_brk e = false) /\
  (c = true -> x_cont e = false).

Lemma clean_none r t d b c : clean r t d b c x_none.
Proof. repeat split. Qed.
Lemma clean_or r t d b c e f : clean r t d b c e -> clean r t d b c f -> clean r t d b c (x_or e f).
Proof.
  intros (A1 & A2 & A3 & A4 & A5) (B1 & B2 & B3 & B4 & B5). repeat split; cbn; intro H;
    rewrite ?A1, ?A2, ?A3, ?A4, ?A5, ?B1, ?B2, ?B3, ?B4, ?B5 by auto; reflexivity.
Qed.
Lemma clean_same r t d b c e f :
  x_ret f = x_ret e -> x_thr f = x_thr e -> x_dead f = x_dead e -> x_brk f = x_brk e -> x_cont f = x_cont e ->
  clean r t d b c e -> clean r t d b c f.
Proof. unfold clean. intros -> -> -> -> ->. auto. Qed.
Lemma clean_pass r t d b c e : clean r t d b c e -> clean r t d b c (x_add_pass e).
Proof. apply clean_same; reflexivity. Qed.
Lemma clean_npass r t d b c e : clean r t d b c e -> clean r t d b c (x_del_pass e).
Proof. apply clean_same; reflexivity. Qed.
Lemma clean_nloop r t d b c e : clean r t d false false e -> clean r t d b c (x_del_loop e).
Proof. intros (A1 & A2 & A3 & _). repeat split; auto. Qed.
Lemma clean_nbrk r t d b c e : clean r t d false c e -> clean r t d b c (x_del_brk e).
Proof. intros (A1 & A2 & A3 & _ & A5). repeat split; auto. Qed.
Hint Resolve clean_none clean_or clean_pass clean_npass clean_nloop clean_nbrk : cl.

Lemma calm_clean :
  (forall s : stmt, calm s = true -> clean true true true false false (exit_type s)) /\
  (forall b : block, calm_b b = true -> forall acc, clean true true true false false acc ->
     clean true true true false false (group_exit b acc) /\
     clean true true true false false (case_exit b acc)) /\
  (forall cs : cases, calm_c cs = true -> forall acc, clean true true true false false acc ->
     clean true true true false false (cases_exit cs acc) /\
     forall k, clean true true true false false (const_cases_exit k cs acc)).
Proof.
  apply stmt_mutind; try (intros; discriminate); try (intros; repeat split; auto; discriminate).
  - intros b IH H. apply (IH H). auto with cl.
  - intros c t IHt e IHe H. change (calm t && calm e = true) in H. apply andb_prop in H as [H1 H2].
    destruct c as [[]|f]; cbn [exit_type]; auto. cbv zeta.
    destruct ((x_is_none (exit_type t) || x_is_none (exit_type e)) &&
      negb (x_is_none (x_or (exit_type t) (exit_type e)))); auto with cl.
  - intros c b IH H. change (negb (forever c) && calm b = true) in H. apply andb_prop in H as [H1 H2].
    destruct c as [[[]|f]|]; try discriminate; cbn [exit_type const_of is_null]; auto with cl.
  - intros b IH c H. change (negb (forever c) && calm b = true) in H. apply andb_prop in H as [H1 H2].
    destruct c as [[[]|f]|]; try discriminate; cbn [exit_type const_of is_null]; auto with cl.
  - intros b IH c H. change (negb (forever_until c) && calm b = true) in H. apply andb_prop in H as [H1 H2].
    destruct c as [[[]|f]|]; try discriminate; cbn [exit_type const_of is_null]; auto with cl.
  - intros i c inc b IH H. change (negb (forever c) && calm b = true) in H. apply andb_prop in H as [H1 H2].
    destruct c as [[[]|f]|]; try discriminate; cbn [exit_type const_of is_null]; auto with cl.
  - intros e cs IH H. destruct (IH H x_none (clean_none _ _ _ _ _)) as [A B]. destruct e as [z|f].
    + change (exit_type (SSwitch (LConst z) cs)) with
        (match match find_value z cs with Some k => Some k | None => find_default cs end with
         | None => x_none
         | Some k => x_del_brk (const_cases_exit k cs x_none)
         end).
      destruct (match find_value z cs with Some k => Some k | None => find_default cs end); auto with cl.
    + change (exit_type (SSwitch (LDyn f) cs)) with
        (x_del_brk (if any_default cs then cases_exit cs x_none else x_add_pass (cases_exit cs x_none))).
      destruct (any_default cs); auto with cl.
  - intros H acc A. split; exact A.
  - intros s IHs b IHb H acc A. change (calm s && calm_b b = true) in H. apply andb_prop in H as [H1 H2].
    specialize (IHs H1). rewrite group_exit_cons, case_exit_cons.
    destruct (IHb H2 (x_or acc (exit_type s))) as [B1 B2]; [auto with cl|].
    destruct (unreached (exit_type s)), (case_until (exit_type s)); auto 7 with cl.
  - intros H acc A. split; [exact A|]. intro k. destruct k; exact A.
  - intros ls b IHb rest IHr H acc A. change (calm_b b && calm_c rest = true) in H.
    apply andb_prop in H as [H1 H2]. rewrite cases_exit_cons.
    destruct (IHb H1 x_none (clean_none _ _ _ _ _)) as [_ E].
    split.
    + apply IHr; auto. destruct (x_brk (case_exit b x_none)); auto with cl.
    + intros [|k]; rewrite const_cases_exit_cons; [|apply IHr; auto]. cbv zeta.
      destruct (case_until (case_exit b x_none)); [destruct (x_brk (case_exit b x_none)); auto with cl|].
      apply IHr; auto with cl.
Qed.

Lemma no_continue_clean :
  (forall s : stmt, no_continue s = true -> clean false false false false true (exit_type s)) /\
  (forall b : block, no_continue_b b = true -> forall acc, clean false false false false true acc ->
     clean false false false false true (group_exit b acc) /\
     clean false false false false true (case_exit b acc)) /\
  (forall cs : cases, no_continue_c cs = true -> forall acc, clean false false false false true acc ->
     clean false false false false true (cases_exit cs acc) /\
     forall k, clean false false false false true (const_cases_exit k cs acc)).
Proof.
  assert (F : forall e, clean false false false false true (forever_exit e)).
  { intro e. unfold forever_exit. destruct (negb (x_free e)); repeat split; discriminate. }
  assert (L : forall e, clean false false false false true (x_del_loop e)).
  { intro e. repeat split; discriminate. }
  apply stmt_mutind; try (intros; discriminate); try (intros; repeat split; auto; discriminate).
  - intros b IH H. apply (IH H). auto with cl.
  - intros c t IHt e IHe H. change (no_continue t && no_continue e = true) in H. apply andb_prop in H as [H1 H2].
    destruct c as [[]|f]; cbn [exit_type]; auto. cbv zeta.
    destruct ((x_is_none (exit_type t) || x_is_none (exit_type e)) &&
      negb (x_is_none (x_or (exit_type t) (exit_type e)))); auto with cl.
  - intros c b IH H. destruct c as [[[]|f]|]; cbn [exit_type const_of is_null]; auto with cl.
  - intros b IH c H. destruct c as [[[]|f]|]; cbn [exit_type const_of is_null]; auto with cl.
  - intros b IH c H. destruct c as [[[]|f]|]; cbn [exit_type const_of is_null]; auto with cl.
  - intros i c inc b IH H. destruct c as [[[]|f]|]; cbn [exit_type const_of is_null]; auto with cl.
  - intros e cs IH H. destruct (IH H x_none (clean_none _ _ _ _ _)) as [A B]. destruct e as [z|f].
    + change (exit_type (SSwitch (LConst z) cs)) with
        (match match find_value z cs with Some k => Some k | None => find_default cs end with
         | None => x_none
         | Some k => x_del_brk (const_cases_exit k cs x_none)
         end).
      destruct (match find_value z cs with Some k => Some k | None => find_default cs end); auto with cl.
    + change (exit_type (SSwitch (LDyn f) cs)) with
        (x_del_brk (if any_default cs then cases_exit cs x_none else x_add_pass (cases_exit cs x_none))).
      destruct (any_default cs); auto with cl.
  - intros H acc A. split; exact A.
  - intros s IHs b IHb H acc A. change (no_continue s && no_continue_b b = true) in H. apply andb_prop in H as [H1 H2].
    specialize (IHs H1). rewrite group_exit_cons, case_exit_cons.
    destruct (IHb H2 (x_or acc (exit_type s))) as [B1 B2]; [auto with cl|].
    destruct (unreached (exit_type s)), (case_until (exit_type s)); auto 7 with cl.
  - intros H acc A. split; [exact A|]. intro k. destruct k; exact A.
  - intros ls b IHb rest IHr H acc A. change (no_continue_b b && no_continue_c rest = true) in H.
    apply andb_prop in H as [H1 H2]. rewrite cases_exit_cons.
    destruct (IHb H1 x_none (clean_none _ _ _ _ _)) as [_ E].
    split.
    + apply IHr; auto. destruct (x_brk (case_exit b x_none)); auto with cl.
    + intros [|k]; rewrite const_cases_exit_cons; [|apply IHr; auto]. cbv zeta.
      destruct (case_until (case_exit b x_none)); [destruct (x_brk (case_exit b x_none)); auto with cl|].
      apply IHr; auto with cl.
Qed.

Lemma no_break_clean :
  (forall s : stmt, no_break s = true -> clean false false false true false (exit_type s)) /\
  (forall b : block, no_break_b b = true -> forall acc, clean false false false true false acc ->
     clean false false false true false (group_exit b acc) /\
     clean false false false true false (case_exit b acc)) /\
  (forall cs : cases, True).
Proof.
  assert (F : forall e, clean false false false true false (forever_exit e)).
  { intro e. unfold forever_exit. destruct (negb (x_free e)); repeat split; discriminate. }
  assert (L : forall e, clean false false false true false (x_del_loop e)).
  { intro e. repeat split; discriminate. }
  apply stmt_mutind; try (intros; exact I); try (intros; discriminate); try (intros; repeat split; auto; discriminate).
  - intros b IH H. apply (IH H). auto with cl.
  - intros c t IHt e IHe H. change (no_break t && no_break e = true) in H. apply andb_prop in H as [H1 H2].
    destruct c as [[]|f]; cbn [exit_type]; auto. cbv zeta.
    destruct ((x_is_none (exit_type t) || x_is_none (exit_type e)) &&
      negb (x_is_none (x_or (exit_type t) (exit_type e)))); auto with cl.
  - intros c b IH H. destruct c as [[[]|f]|]; cbn [exit_type const_of is_null]; auto with cl.
  - intros b IH c H. destruct c as [[[]|f]|]; cbn [exit_type const_of is_null]; auto with cl.
  - intros b IH c H. destruct c as [[[]|f]|]; cbn [exit_type const_of is_null]; auto with cl.
  - intros i c inc b IH H. destruct c as [[[]|f]|]; cbn [exit_type const_of is_null]; auto with cl.
  - intros e cs IH H. repeat split; try discriminate. intros _. destruct e as [z|f].
    + change (exit_type (SSwitch (LConst z) cs)) with
        (match match find_value z cs with Some k => Some k | None => find_default cs end with
         | None => x_none
         | Some k => x_del_brk (const_cases_exit k cs x_none)
         end).
      destruct (match find_value z cs with Some k => Some k | None => find_default cs end); reflexivity.
    + reflexivity.
  - intros H acc A. split; exact A.
  - intros s IHs b IHb H acc A. change (no_break s && no_break_b b = true) in H. apply andb_prop in H as [H1 H2].
    specialize (IHs H1). rewrite group_exit_cons, case_exit_cons.
    destruct (IHb H2 (x_or acc (exit_type s))) as [B1 B2]; [auto with cl|].
    destruct (unreached (exit_type s)), (case_until (exit_type s)); auto 7 with cl.
Qed.

(* absent flags *)
Lemma loop_reached e : clean true true true false false e -> unreached (x_del_loop e) = false.
Proof.
  intros (A & B & C & _). destruct e as [p r b c t d]. cbn in *.
  rewrite A, B, C by auto. destruct p; reflexivity.
Qed.
Lemma forever_reached e :
  clean true true true false false e -> unreached (forever_exit e) = true -> x_brk e = false.
Proof.
  intros (A & B & C & _). destruct e as [p r b c t d]. cbn in *.
  rewrite A, B, C by auto. destruct b; [discriminate|reflexivity].
Qed.

Lemma ends_simply_cons s (b : block) : b <> BNil -> ends_simply (BCons s b) = ends_simply b.
Proof. destruct b; [congruence|reflexivity]. Qed.
Lemma ends_with_jump_cons s (b : block) : b <> BNil -> ends_with_jump (BCons s b) = ends_with_jump b.
Proof. destruct b; [congruence|reflexivity]. Qed.

Lemma until_or a e : case_until e = true -> unreached (x_del_pass (x_or a e)) = true.
Proof.
  destruct e as [[] [] [] [] [] []]; cbn; intro H; try discriminate H; destruct a as [p r b c t d];
    unfold unreached, x_is_none; cbn; rewrite ?orb_true_r; reflexivity.
Qed.

(* a block that ends simply is not reported as empty *)
Lemma ends_simply_some (b : block) acc : ends_simply b = true -> x_is_none (case_exit b acc) = false.
Proof.
  revert acc. induction b as [|s b IH]; intros acc H; [discriminate|].
  destruct b as [|s2 b].
  - rewrite case_exit_cons. destruct s; try discriminate; cbn [exit_type case_until];
      destruct acc as [[] [] [] [] [] []]; reflexivity.
  - rewrite ends_simply_cons in H by discriminate. rewrite case_exit_cons.
    destruct (case_until (exit_type s)) eqn:U; [|apply IH; exact H].
    apply (until_or acc) in U. unfold unreached in U. apply andb_prop in U as [U _].
    apply negb_true_iff in U. exact U.
Qed.
Lemma ends_with_jump_unreached (b : block) acc :
  ends_with_jump b = true -> unreached (case_exit b acc) = true.
Proof.
  revert acc. induction b as [|s b IH]; intros acc H; [discriminate|].
  destruct b as [|s2 b].
  - rewrite case_exit_cons. destruct s; try discriminate; cbn [exit_type];
      destruct acc as [[] [] [] [] [] []]; reflexivity.
  - rewrite ends_with_jump_cons in H by discriminate. rewrite case_exit_cons.
    destruct (case_until (exit_type s)) eqn:U; [|apply IH; exact H].
    apply until_or. exact U.
Qed.

Lemma last_ends_simply_cons ls b (r : cases) :
  r <> CNil -> last_ends_simply (CCons ls b r) = last_ends_simply r.
Proof. destruct r; [congruence|reflexivity]. Qed.

(* dynamic switch whose last case ends simply *)
Lemma last_case (cs : cases) acc :
  last_ends_simply cs = true -> x_pass (cases_exit cs acc) = true \/ last_stops cs = true.
Proof.
  revert acc. induction cs as [|ls b r IH]; intros acc H; [discriminate|].
  rewrite cases_exit_cons, last_stops_cons. destruct r as [|ls2 b2 r].
  - change (ends_simply b = true) in H. assert (N := ends_simply_some b x_none H).
    change (cases_exit CNil ?a) with a.
    destruct (unreached (case_exit b x_none)) eqn:U; [auto|left].
    unfold unreached in U. rewrite N in U. cbn [negb andb] in U. apply negb_false_iff in U.
    destruct (x_brk (case_exit b x_none)); cbn; [reflexivity|]. rewrite U. apply orb_true_r.
  - rewrite last_ends_simply_cons in H by discriminate. apply IH. exact H.
Qed.

(* constant switch without breaks whose last case ends simply *)
Lemma const_last_case (cs : cases) k acc :
  no_break_c cs = true -> last_ends_simply cs = true ->
  unreached (const_cases_exit k cs acc) = false \/ stops k cs = true \/ ncases cs <= k.
Proof.
  revert k acc. induction cs as [|ls b r IH]; intros k acc H1 H2; [discriminate|].
  change (no_break_b b && no_break_c r = true) in H1. apply andb_prop in H1 as [Hb Hr].
  rewrite const_cases_exit_cons. cbn [ncases].
  destruct k as [|k].
  - change (stops 0 (CCons ls b r)) with
      (if x_brk (case_exit b x_none) then false else
       if unreached (case_exit b x_none) then true else stops 0 r).
    destruct (proj1 (proj2 no_break_clean) b Hb x_none (clean_none _ _ _ _ _)) as [_ (_ & _ & _ & Nb & _)].
    rewrite Nb by reflexivity. cbv zeta.
    destruct (unreached (case_exit b x_none)) eqn:U; [auto|].
    destruct (case_until (case_exit b x_none)) eqn:C;
      [apply until_unreached in C; congruence|].
    destruct r as [|ls2 b2 r].
    + left. change (ends_simply b = true) in H2. assert (N := ends_simply_some b x_none H2).
      unfold unreached in U. rewrite N in U. cbn [negb andb] in U. apply negb_false_iff in U.
      change (unreached (x_or acc (case_exit b x_none)) = false). apply pass_reached. cbn.
      rewrite U. apply orb_true_r.
    + rewrite last_ends_simply_cons in H2 by discriminate.
      destruct (IH 0 (x_or acc (case_exit b x_none)) Hr H2) as [?|[?|L]]; auto.
      cbn [ncases] in L. lia.
  - change (stops (S k) (CCons ls b r)) with (stops k r).
    destruct r as [|ls2 b2 r]; [right; right; cbn [ncases]; lia|].
    rewrite last_ends_simply_cons in H2 by discriminate.
    destruct (IH k acc Hr H2) as [?|[?|?]]; auto. right; right; lia.
Qed.

Lemma any_default_count (cs : cases) : default_count cs = 0 -> any_default cs = false.
Proof. intro H. apply any_default_first, first_default_none, H. Qed.

Lemma plain_safe :
  (forall s : stmt, plain s = true -> safe s = true) /\
  (forall b : block, plain_b b = true -> safe_b b = true) /\
  (forall cs : cases, plain_c cs = true -> safe_c cs = true).
Proof.
  assert (E1 : forall c, @forever St c = always_true c) by reflexivity.
  assert (E2 : forall c, @forever_until St c = never_true c) by reflexivity.
  assert (NB : forall b : stmt, no_break b = true -> x_brk (exit_type b) = false).
  { intros b H. destruct (proj1 no_break_clean b H) as (_ & _ & _ & N & _). auto. }
  apply stmt_mutind; try reflexivity.
  - intros b IH H. apply IH. exact H.
  - intros c t IHt e IHe H. change (plain t && plain e = true) in H. apply andb_prop in H as [H1 H2].
    change (safe t && safe e = true). rewrite IHt, IHe by auto. reflexivity.
  - intros c b IH H. change (plain b && (calm b || (forever c && no_break b)) = true) in H.
    apply andb_prop in H as [H1 H2].
    change (safe b && (negb (unreached (exit_type (SWhile c b))) ||
               (always_true c && negb (x_brk (exit_type b)))) = true).
    rewrite IH by exact H1. cbn [andb]. apply orb_prop in H2 as [H2|H2].
    + assert (C := proj1 calm_clean b H2). assert (R := loop_reached _ C). assert (F := forever_reached _ C).
      destruct c as [[[]|f]|]; cbn [exit_type const_of is_null always_true].
      * destruct (unreached (forever_exit (exit_type b))); [rewrite F by auto|]; reflexivity.
      * reflexivity.
      * rewrite R. reflexivity.
      * destruct (unreached (forever_exit (exit_type b))); [rewrite F by auto|]; reflexivity.
    + apply andb_prop in H2 as [H2 H3]. rewrite E1 in H2. rewrite H2, NB by auto. apply orb_true_r.
  - intros b IH c H. change (plain b && (calm b || (forever c && no_break b)) = true) in H.
    apply andb_prop in H as [H1 H2].
    change (safe b && (negb (unreached (exit_type (SDo b c))) ||
               (always_true c && negb (x_brk (exit_type b))) ||
               (unreached (exit_type b) && negb (x_brk (exit_type b)) && negb (x_cont (exit_type b)))) = true).
    rewrite IH by exact H1. cbn [andb]. apply orb_true_iff. left. apply orb_prop in H2 as [H2|H2].
    + assert (C := proj1 calm_clean b H2). assert (R := loop_reached _ C). assert (F := forever_reached _ C).
      destruct c as [[[]|f]|]; cbn [exit_type const_of is_null always_true].
      * destruct (unreached (forever_exit (exit_type b))); [rewrite F by auto|]; reflexivity.
      * rewrite R. reflexivity.
      * rewrite R. reflexivity.
      * destruct (unreached (forever_exit (exit_type b))); [rewrite F by auto|]; reflexivity.
    + apply andb_prop in H2 as [H2 H3]. rewrite E1 in H2. rewrite H2, NB by auto. apply orb_true_r.
  - intros b IH c H. change (plain b && (calm b || (forever_until c && no_break b)) = true) in H.
    apply andb_prop in H as [H1 H2].
    change (safe b && (negb (unreached (exit_type (SUntil b c))) ||
               (never_true c && negb (x_brk (exit_type b))) ||
               (unreached (exit_type b) && negb (x_brk (exit_type b)) && negb (x_cont (exit_type b)))) = true).
    rewrite IH by exact H1. cbn [andb]. apply orb_true_iff. left. apply orb_prop in H2 as [H2|H2].
    + assert (C := proj1 calm_clean b H2). assert (R := loop_reached _ C). assert (F := forever_reached _ C).
      destruct c as [[[]|f]|]; cbn [exit_type const_of is_null never_true].
      * reflexivity.
      * destruct (unreached (forever_exit (exit_type b))); [rewrite F by auto|]; reflexivity.
      * rewrite R. reflexivity.
      * destruct (unreached (forever_exit (exit_type b))); [rewrite F by auto|]; reflexivity.
    + apply andb_prop in H2 as [H2 H3]. rewrite E2 in H2. rewrite H2, NB by auto. apply orb_true_r.
  - intros i c inc b IH H. change (plain b && (calm b || (forever c && no_break b)) = true) in H.
    apply andb_prop in H as [H1 H2].
    change (safe b && (negb (unreached (exit_type (SFor i c inc b))) ||
               (always_true c && negb (x_brk (exit_type b)))) = true).
    rewrite IH by exact H1. cbn [andb]. apply orb_prop in H2 as [H2|H2].
    + assert (C := proj1 calm_clean b H2). assert (R := loop_reached _ C). assert (F := forever_reached _ C).
      destruct c as [[[]|f]|]; cbn [exit_type const_of is_null always_true].
      * destruct (unreached (forever_exit (exit_type b))); [rewrite F by auto|]; reflexivity.
      * reflexivity.
      * rewrite R. reflexivity.
      * destruct (unreached (forever_exit (exit_type b))); [rewrite F by auto|]; reflexivity.
    + apply andb_prop in H2 as [H2 H3]. rewrite E1 in H2. rewrite H2, NB by auto. apply orb_true_r.
  - intros e cs IH H. destruct e as [z|f].
    + change (plain_c cs && (default_count cs <=? 1) &&
        ((calm_c cs && no_continue_c cs) || (no_break_c cs && last_ends_simply cs)) = true) in H.
      apply andb_prop in H as [H H3]. apply andb_prop in H as [H1 H2].
      change (safe_c cs && (default_count cs <=? 1) &&
        (negb (unreached (exit_type (SSwitch (LConst z) cs))) ||
         match entry z cs with Some k => stops k cs | None => true end) = true).
      rewrite IH, H2 by exact H1. cbn [andb]. apply Nat.leb_le in H2.
      change (exit_type (SSwitch (LConst z) cs)) with
        (match match find_value z cs with Some k => Some k | None => find_default cs end with
         | None => x_none
         | Some k => x_del_brk (const_cases_exit k cs x_none)
         end).
      rewrite find_value_first, find_default_first by exact H2. fold (entry z cs).
      destruct (entry z cs) as [k|] eqn:Ek; [|reflexivity]. apply entry_lt in Ek.
      apply orb_prop in H3 as [H3|H3]; apply andb_prop in H3 as [H3 H4].
      * destruct (proj2 (proj2 calm_clean) cs H3 x_none (clean_none _ _ _ _ _)) as [_ A].
        destruct (proj2 (proj2 no_continue_clean) cs H4 x_none (clean_none _ _ _ _ _)) as [_ B].
        destruct (A k) as (A1 & A2 & A3 & _). destruct (B k) as (_ & _ & _ & _ & B5).
        assert (U : unreached (x_del_brk (const_cases_exit k cs x_none)) = false).
        { destruct (const_cases_exit k cs x_none) as [p r b c t d]. cbn in *.
          rewrite A1, A2, A3, B5 by auto. destruct p; reflexivity. }
        rewrite U. reflexivity.
      * destruct (const_last_case cs k x_none H3 H4) as [U|[S|L]]; [| |lia].
        -- assert (U' : unreached (x_del_brk (const_cases_exit k cs x_none)) = false).
           { destruct (const_cases_exit k cs x_none) as [[] [] [] [] [] []]; cbn in *; congruence. }
           rewrite U'. reflexivity.
        -- rewrite S. apply orb_true_r.
    + change (plain_c cs && (default_count cs <=? 1) &&
        ((default_count cs =? 0) || last_ends_simply cs) = true) in H.
      apply andb_prop in H as [H H3]. apply andb_prop in H as [H1 H2].
      change (safe_c cs && (default_count cs <=? 1) &&
        (negb (unreached (exit_type (SSwitch (LDyn f) cs))) || last_stops cs) = true).
      rewrite IH, H2 by exact H1. cbn [andb].
      change (exit_type (SSwitch (LDyn f) cs)) with
        (x_del_brk (if any_default cs then cases_exit cs x_none else x_add_pass (cases_exit cs x_none))).
      apply orb_prop in H3 as [H3|H3].
      * apply Nat.eqb_eq in H3. rewrite any_default_count by exact H3. rewrite pass_reached by reflexivity.
        reflexivity.
      * destruct (last_case cs x_none H3) as [P|S]; [|rewrite S; apply orb_true_r].
        rewrite pass_reached; [reflexivity|]. destruct (any_default cs); [exact P|reflexivity].
  - intros s IHs b IHb H. change (plain s && plain_b b = true) in H. apply andb_prop in H as [H1 H2].
    change (safe s && safe_b b = true). rewrite IHs, IHb by auto. reflexivity.
  - intros ls b IHb r IHr H. change (plain_b b && plain_c r = true) in H. apply andb_prop in H as [H1 H2].
    change (safe_b b && safe_c r = true). rewrite IHb, IHr by auto. reflexivity.
Qed.

Lemma simple_shape_if o e (cs : cases) :
  plain_c cs = true -> simple_shape e cs = true -> if_shape o e cs = true.
Proof.
  intros P H. destruct cs as [|ls1 b1 [|ls2 b2 [|ls3 b3 r3]]].
  - reflexivity.
  - destruct ls1; [discriminate|reflexivity].
  - destruct ls1 as [|l1 r1]; [discriminate|]. destruct ls2 as [|l2 r2]; [discriminate|].
    change (plain_b b1 && (plain_b b2 && true) = true) in P. apply andb_prop in P as [P1 P2].
    apply andb_prop in P2 as [P2 _].
    assert (S1 := proj1 (proj2 plain_safe) b1 P1). assert (S2 := proj1 (proj2 plain_safe) b2 P2).
    cbn [simple_shape] in H. cbn [if_shape]. apply andb_prop in H as [Hn H].
    rewrite Hn. cbn [andb]. apply orb_true_iff. apply orb_prop in H as [H|H]; [left|right].
    + apply andb_prop in H as [H Hj]. rewrite H. cbn [andb]. apply orb_prop in Hj as [Hj|Hj].
      * rewrite Hj, orb_true_r. reflexivity.
      * rewrite S1, ends_with_jump_unreached by exact Hj. apply orb_true_r.
    + apply andb_prop in H as [H J2]. apply andb_prop in H as [H J1].
      rewrite H, S1, S2, !ends_with_jump_unreached by auto. reflexivity.
  - destruct ls1 as [|l1 r1]; [discriminate|]. destruct ls2 as [|l2 r2]; discriminate.
Qed.

Lemma simple_shapes_if o :
  (forall s : stmt, plain s = true -> simple_shapes s = true -> if_shapes o s = true) /\
  (forall b : block, plain_b b = true -> simple_shapes_b b = true -> if_shapes_b o b = true) /\
  (forall cs : cases, plain_c cs = true -> simple_shapes_c cs = true -> if_shapes_c o cs = true).
Proof.
  apply stmt_mutind; try reflexivity.
  - intros b IH P H. apply IH; assumption.
  - intros c t IHt e IHe P H. change (plain t && plain e = true) in P.
    change (simple_shapes t && simple_shapes e = true) in H.
    apply andb_prop in H as [H1 H2]. apply andb_prop in P as [P1 P2].
    change (if_shapes o t && if_shapes o e = true). rewrite IHt, IHe by auto. reflexivity.
  - intros c b IH P H. apply andb_prop in P as [P _]. apply IH; assumption.
  - intros b IH c P H. apply andb_prop in P as [P _]. apply IH; assumption.
  - intros b IH c P H. apply andb_prop in P as [P _]. apply IH; assumption.
  - intros i c inc b IH P H. apply andb_prop in P as [P _]. apply IH; assumption.
  - intros e cs IH P H.
    assert (Pc : plain_c cs = true).
    { destruct e; apply andb_prop in P as [P _]; apply andb_prop in P as [P _]; exact P. }
    change (simple_shapes_c cs && (negb (number_of_rows cs <=? 1) || simple_shape e cs) = true) in H.
    apply andb_prop in H as [H1 H2].
    change (if_shapes_c o cs && (negb (number_of_rows cs <=? 1) || if_shape o e cs) = true).
    rewrite IH by auto. apply orb_prop in H2 as [H2|H2]; [rewrite H2; reflexivity|].
    rewrite simple_shape_if by auto. apply orb_true_r.
  - intros s IHs b IHb P H. change (plain s && plain_b b = true) in P.
    change (simple_shapes s && simple_shapes_b b = true) in H.
    apply andb_prop in H as [H1 H2]. apply andb_prop in P as [P1 P2].
    change (if_shapes o s && if_shapes_b o b = true). rewrite IHs, IHb by auto. reflexivity.
  - intros ls b IHb r IHr P H. change (plain_b b && plain_c r = true) in P.
    change (simple_shapes_b b && simple_shapes_c r = true) in H.
    apply andb_prop in H as [H1 H2]. apply andb_prop in P as [P1 P2].
    change (if_shapes_b o b && if_shapes_c o r = true). rewrite IHb, IHr by auto. reflexivity.
Qed.

Theorem plain_method_optimised o (s : stmt) fin c :
  plain s = true -> (o_switch_if o = true -> simple_shapes s = true) ->
  do_without_continue s = true ->
  compile_method o s fin = Some c ->
  exists p, commit c = Some p /\ same_behaviour false s fin p.
Proof.
  intros P F D H. eapply optimised_method; eauto.
  - intros _. apply plain_safe, P.
  - intro O. apply simple_shapes_if; auto.
Qed.

End Plain.
