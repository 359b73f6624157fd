(** Properties C19 to C22: expression parsing. *)

From Coq Require Import List Lia.
From Verif Require Import ParserModel ParserSpec ParserProofs.
Import ListNotations.

(** C19: parsing the minimally bracketed source of a tree of binary operators gives
    back that tree. *)
Theorem C19_precedence_and_associativity :
  forall e, binary_tree e -> parse (minimal e 15) = Ok e.
Proof. exact parse_minimal. Qed.
Print Assumptions C19_precedence_and_associativity.

(** (a - (b - c)) * d <= e as f  and  g = h = i + j * k *)
Example C19_example :
  minimal (EBin OLe (EBin OMul (EBin OSub (EName 0) (EBin OSub (EName 1) (EName 2))) (EName 3)) (EName 4)) 15
  = [TLeft Round; TName 0; TOp OSub; TLeft Round; TName 1; TOp OSub; TName 2; TRight Round; TRight Round;
     TOp OMul; TName 3; TOp OLe; TName 4] /\
  minimal (EBin OAssign (EName 0) (EBin OAddA (EName 1) (EBin OAdd (EName 2) (EBin OMul (EName 3) (EName 4))))) 15
  = [TName 0; TOp OAssign; TName 1; TOp OAddA; TName 2; TOp OAdd; TName 3; TOp OMul; TName 4] /\
  binary_tree (EBin OAssign (EName 0) (EBin OAddA (EName 1) (EBin OAdd (EName 2) (EBin OMul (EName 3) (EName 4))))).
Proof.
  split; [reflexivity|]. split; [reflexivity|].
  repeat (constructor; [vm_compute; repeat constructor| |]); constructor.
Qed.

(** C19: every token sequence the grammar derives, with any extra brackets and with
    unary, conditional and assignment operators, is parsed as the tree it denotes. *)
Theorem C19_grammar : forall ts t, denotes ts t -> parse ts = Ok t.
Proof. exact parse_denotes. Qed.
Print Assumptions C19_grammar.

(** C19: hence the grammar is unambiguous. *)
Theorem C19_unambiguous : forall ts t1 t2, denotes ts t1 -> denotes ts t2 -> t1 = t2.
Proof. exact denotes_unique. Qed.
Print Assumptions C19_unambiguous.

(** C19: brackets around every operand force any tree whatsoever. *)
Theorem C19_brackets_force_any_tree : forall e, expressible e -> parse (written e) = Ok e.
Proof. exact parse_written. Qed.
Print Assumptions C19_brackets_force_any_tree.

Example C19_brackets_example :
  expressible (EUn OMinus (ECond (EBin OAssign (EName 0) (EName 1)) (EUn ORInc (EName 2)) (EBin OAs (EName 3) (EName 4)))) /\
  denotes [TOp OMinus; TName 0; TOp OMul; TName 1; TOp OAdd; TName 2]
          (EBin OAdd (EBin OMul (EUn OMinus (EName 0)) (EName 1)) (EName 2)).
Proof.
  split.
  - apply X_un; [|cbn; tauto]. apply X_cond.
    + apply X_bin; [constructor|constructor|left; cbn; tauto].
    + apply X_un; [constructor|cbn; tauto].
    + apply X_bin; [constructor|constructor|left; cbn; tauto].
  - apply (level_up 4 15); [repeat constructor..|discriminate|discriminate|].
    apply (D_infix 3 OAdd [TOp OMinus; TName 0; TOp OMul; TName 1]).
    + apply D_tighter; [|discriminate].
      apply (D_infix 2 OMul [TOp OMinus; TName 0]); [|repeat constructor|cbn; auto].
      apply D_tighter; [|discriminate]. apply D_unary_pre. apply D_pre; [repeat constructor|cbn; auto].
    + apply D_tighter; [|discriminate]. repeat constructor.
    + cbn; auto.
Qed.

(** C20: a run of prefix operators applies to the member access after it, nearest
    first; likewise for postfix operators; and prefix operators bind tighter than
    every left-associative binary operator but member access.
    Missing: a prefix and a postfix operator on the same operand (refuted below). *)
Theorem C20_prefix_partial : forall ps ms m,
  Forall (fun o => In o prefixes) ps -> derives NMember ms m ->
  parse (map TOp ps ++ ms) = Ok (fold_right EUn m ps).
Proof. exact parse_prefixes. Qed.
Print Assumptions C20_prefix_partial.

Theorem C20_postfix_partial : forall qs ms m,
  Forall (fun o => In o postfixes) qs -> derives NMember ms m ->
  parse (ms ++ map TOp qs) = Ok (fold_left (fun e o => EUn o e) qs m).
Proof. exact parse_postfixes. Qed.
Print Assumptions C20_postfix_partial.

Theorem C20_prefix_binds_tighter_partial : forall ps ms m o n rs r,
  Forall (fun o => In o prefixes) ps -> derives NMember ms m ->
  In o (infix_at (S n)) -> derives (NLevel n) rs r ->
  parse (map TOp ps ++ ms ++ TOp o :: rs) = Ok (EBin o (fold_right EUn m ps) r).
Proof. exact parse_prefix_infix. Qed.
Print Assumptions C20_prefix_binds_tighter_partial.

Example C20_example :
  derives NMember [TName 0; TOp OPoint; TName 1] (EBin OPoint (EName 0) (EName 1)) /\
  parse [TOp OLNot; TOp OMinus; TName 0; TOp OPoint; TName 1]
  = Ok (EUn OLNot (EUn OMinus (EBin OPoint (EName 0) (EName 1)))).
Proof.
  split; [|reflexivity].
  apply (D_member [TName 0] (EName 0) [TName 1]); repeat constructor.
Qed.

(** C20 refuted: -a++ is parsed as (-a)++, for every prefix and postfix operator. *)
Theorem C20_prefix_then_postfix_refuted :
  forall p q a, In p prefixes -> In q postfixes ->
  parse [TOp p; TName a; TOp q] = Ok (EUn q (EUn p (EName a))).
Proof. exact prefix_postfix_wrong. Qed.
Print Assumptions C20_prefix_then_postfix_refuted.

(** C20 refuted: a++.b is rejected. *)
Theorem C20_member_of_postfix_refuted :
  exists q a b, In q postfixes /\ parse [TName a; TOp q; TOp OPoint; TName b] = FormatError.
Proof. exists ORInc, 0, 1. split; [cbn; auto|reflexivity]. Qed.
Print Assumptions C20_member_of_postfix_refuted.

(** C21: a conditional expression is parsed as the conditional of its three operands
    and nests to the right.  Missing: middle operands that hold a conditional whose own
    middle operand is not at level 12 or tighter (refuted below). *)
Theorem C21_conditional_partial : forall c x m y e z,
  derives NTest c x -> derives NMid m y -> derives (NLevel 13) e z ->
  parse (c ++ TOp OQMark :: m ++ TOp OQColon :: e) = Ok (ECond x y z).
Proof. exact parse_cond. Qed.
Print Assumptions C21_conditional_partial.

(** a || b ? (c ? d : e) : f ? g : h, without brackets *)
Example C21_example :
  derives NTest [TName 0; TOp OLOr; TName 1] (EBin OLOr (EName 0) (EName 1)) /\
  derives NMid [TName 2; TOp OQMark; TName 3; TOp OQColon; TName 4] (ECond (EName 2) (EName 3) (EName 4)) /\
  derives (NLevel 13) [TName 5; TOp OQMark; TName 6; TOp OQColon; TName 7] (ECond (EName 5) (EName 6) (EName 7)).
Proof.
  assert (Ha : forall n, derives NTest [TName n] (EName n)) by (intros; apply (atom_level 13); repeat constructor).
  assert (Hb : forall k n, 2 <= k <= 12 -> derives (NLevel k) [TName n] (EName n)).
  { intros k n H. apply (level_up 2 k); try lia. repeat constructor. }
  repeat split.
  - apply D_test_base. apply (D_infix 11 OLOr [TName 0]); [apply Hb; lia|apply Hb; lia|cbn; auto].
  - apply (D_mid_cond [TName 2] _ [TName 3] _ [TName 4]); auto.
    + apply Hb; lia.
    + apply D_mid_base; auto.
  - apply (D_cond [TName 5] _ [TName 6] _ [TName 7]); auto.
    + apply D_mid_base; auto.
    + apply D_cond_base; auto.
Qed.

(** C21 refuted: a ? b ? c ? d : e : f : g hits an assertion. *)
Theorem C21_nested_middle_refuted :
  parse [TName 0; TOp OQMark; TName 1; TOp OQMark; TName 2; TOp OQMark; TName 3; TOp OQColon; TName 4;
         TOp OQColon; TName 5; TOp OQColon; TName 6] = Crash.
Proof. reflexivity. Qed.
Print Assumptions C21_nested_middle_refuted.

(** C21 refuted: c ? x + y, with no colon at all, is accepted as c ? x : y, for every
    left-associative operator in place of the plus. *)
Theorem C21_missing_colon_refuted :
  forall n o a b c, In o (infix_at n) -> n < 13 ->
  parse [TName c; TOp OQMark; TName a; TOp o; TName b] = Ok (ECond (EName c) (EName a) (EName b)).
Proof. exact missing_colon. Qed.
Print Assumptions C21_missing_colon_refuted.

(** C21 refuted: c ? x = y : z, an assignment between ? and :, hits an assertion. *)
Theorem C21_assignment_in_middle_refuted :
  parse [TName 0; TOp OQMark; TName 1; TOp OAssign; TName 2; TOp OQColon; TName 3] = Crash.
Proof. reflexivity. Qed.
Print Assumptions C21_assignment_in_middle_refuted.

(** C22: rejected sequences. Missing: two operands in a row at the start of an
    expression or bracket (refuted below). *)
Theorem C22_operator_after_operator_partial : forall pre o1 o2 post,
  ~ In o1 postfixes -> ~ In o2 prefixes ->
  forall t, parse (pre ++ TOp o1 :: TOp o2 :: post) <> Ok t.
Proof. exact reject_two_operators. Qed.
Print Assumptions C22_operator_after_operator_partial.

Theorem C22_leading_operator : forall o post,
  ~ In o prefixes -> forall t, parse (TOp o :: post) <> Ok t.
Proof. exact reject_leading_operator. Qed.
Print Assumptions C22_leading_operator.

Theorem C22_operator_after_open_bracket : forall pre b o post,
  ~ In o prefixes -> forall t, parse (pre ++ TLeft b :: TOp o :: post) <> Ok t.
Proof. exact reject_operator_after_bracket. Qed.
Print Assumptions C22_operator_after_open_bracket.

Theorem C22_empty_brackets : forall pre b b' post t, parse (pre ++ TLeft b :: TRight b' :: post) <> Ok t.
Proof. exact reject_empty_brackets. Qed.
Print Assumptions C22_empty_brackets.

Theorem C22_second_operand_partial : forall pre o a b post t,
  parse (pre ++ TOp o :: TName a :: TName b :: post) <> Ok t.
Proof. exact reject_second_operand. Qed.
Print Assumptions C22_second_operand_partial.

Theorem C22_operand_after_postfix : forall pre o a post,
  In o postfixes -> forall t, parse (pre ++ TOp o :: TName a :: post) <> Ok t.
Proof. exact reject_operand_after_postfix. Qed.
Print Assumptions C22_operand_after_postfix.

(** C22: an accepted sequence has properly nested brackets. *)
Theorem C22_brackets_balance : forall ts t, parse ts = Ok t -> balanced ts.
Proof. exact parse_balanced. Qed.
Print Assumptions C22_brackets_balance.

(** C22: whatever is accepted, the operands of the tree are operands of the source, in
    source order, none used twice. *)
Theorem C22_operands_in_order : forall ts t, parse ts = Ok t -> subseq (leaves t) (names ts).
Proof. exact parse_operands. Qed.
Print Assumptions C22_operands_in_order.

Example C22_example :
  parse [TLeft Round; TName 0; TOp OAdd; TName 1; TRight Round; TOp OMul; TName 2]
  = Ok (EBin OMul (EBin OAdd (EName 0) (EName 1)) (EName 2)) /\
  ~ In OMul prefixes /\ ~ In OAdd postfixes.
Proof.
  split; [reflexivity|]. cbn. split; intros H; repeat (destruct H as [H|H]; [discriminate|]); contradiction.
Qed.

(** C22: the analyser always finishes (the model's recursion bound is never reached). *)
Theorem C22_always_finishes : forall ts, parse ts <> OutOfFuel.
Proof. exact parse_fuel. Qed.
Print Assumptions C22_always_finishes.

(** C22 refuted: a b and a b + c are accepted, the first operand being dropped;
    a b + is accepted as a + b. *)
Theorem C22_adjacent_operands_refuted : forall a b c,
  parse [TName a; TName b] = Ok (EName b) /\
  parse [TName a; TName b; TOp OAdd; TName c] = Ok (EBin OAdd (EName b) (EName c)) /\
  parse [TName a; TName b; TOp OAdd] = Ok (EBin OAdd (EName a) (EName b)).
Proof. intros; repeat split; reflexivity. Qed.
Print Assumptions C22_adjacent_operands_refuted.
