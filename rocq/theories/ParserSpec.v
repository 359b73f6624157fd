(** What a token sequence means, written as an ordinary stratified expression
    grammar.  Nothing here mentions stacks, priorities or the analyser. *)

From Coq Require Import List.
From Verif Require Import ParserModel.
Import ListNotations.

(** Left-associative binary operators, tightest level first (levels 1 and 13 are
    treated separately in the grammar). *)
Definition infix_at (n : nat) : list op :=
  match n with
  | 3 => [OMul; ODiv; OMod]
  | 4 => [OAdd; OSub]
  | 5 => [OShl; OShr]
  | 6 => [OGt; OGe; OLt; OLe]
  | 7 => [OEq; ONe]
  | 8 => [OBAnd]
  | 9 => [OBXor]
  | 10 => [OBOr]
  | 11 => [OLAnd]
  | 12 => [OLOr]
  | 14 => [ONullCo]
  | _ => []
  end.

Definition type_tests : list op := [OAs; OIs].

Definition assignments : list op :=
  [OAssign; OAddA; OSubA; OMulA; ODivA; OModA; OShlA; OShrA; OBAndA; OBOrA; OBXorA; ONullCoA].

Definition prefixes : list op := [OMinus; OPositive; OLInc; OLDec; OLNot; OBNot].
Definition postfixes : list op := [ORInc; ORDec].

(** The nonterminals.
    [NLevel n]: an expression whose outermost operator is at level [n] or tighter,
    for 2 <= n <= 12 and n = 13, 14, 15;
    [NTest]: level 12 operands joined by [as]/[is];
    [NMid]: what may stand between [?] and [:]. *)
Inductive nonterminal :=
| NAtom | NMember | NPost | NPre | NLevel (n : nat) | NTest | NMid.

Inductive derives : nonterminal -> list token -> expr -> Prop :=
(* atoms *)
| D_name n : derives NAtom [TName n] (EName n)
| D_paren b ts t :
    derives (NLevel 15) ts t -> derives NAtom (TLeft b :: ts ++ [TRight b]) t
(* member access associates to the left and binds tightest *)
| D_atom ts t : derives NAtom ts t -> derives NMember ts t
| D_member l x r y :
    derives NMember l x -> derives NAtom r y ->
    derives NMember (l ++ TOp OPoint :: r) (EBin OPoint x y)
(* postfix operators apply to a member access, nearest first *)
| D_post_base ts t : derives NMember ts t -> derives NPost ts t
| D_post ts t o :
    derives NPost ts t -> In o postfixes -> derives NPost (ts ++ [TOp o]) (EUn o t)
(* prefix operators apply to a member access, nearest first *)
| D_pre_base ts t : derives NMember ts t -> derives NPre ts t
| D_pre ts t o :
    derives NPre ts t -> In o prefixes -> derives NPre (TOp o :: ts) (EUn o t)
(* level 2: unary expressions *)
| D_unary_post ts t : derives NPost ts t -> derives (NLevel 2) ts t
| D_unary_pre ts t : derives NPre ts t -> derives (NLevel 2) ts t
(* left-associative levels *)
| D_tighter n ts t :
    derives (NLevel n) ts t -> infix_at (S n) <> [] -> derives (NLevel (S n)) ts t
| D_infix n o l x r y :
    derives (NLevel (S n)) l x -> derives (NLevel n) r y -> In o (infix_at (S n)) ->
    derives (NLevel (S n)) (l ++ TOp o :: r) (EBin o x y)
(* type tests *)
| D_test_base ts t : derives (NLevel 12) ts t -> derives NTest ts t
| D_test o l x r y :
    derives NTest l x -> derives (NLevel 12) r y -> In o type_tests ->
    derives NTest (l ++ TOp o :: r) (EBin o x y)
(* conditional expressions nest to the right *)
| D_cond_base ts t : derives NTest ts t -> derives (NLevel 13) ts t
| D_cond c x m y e z :
    derives NTest c x -> derives NMid m y -> derives (NLevel 13) e z ->
    derives (NLevel 13) (c ++ TOp OQMark :: m ++ TOp OQColon :: e) (ECond x y z)
| D_mid_base ts t : derives NTest ts t -> derives NMid ts t
| D_mid_cond c x m y e z :
    derives NTest c x -> derives (NLevel 12) m y -> derives NMid e z ->
    derives NMid (c ++ TOp OQMark :: m ++ TOp OQColon :: e) (ECond x y z)
(* assignments are right-associative *)
| D_assign_base ts t : derives (NLevel 14) ts t -> derives (NLevel 15) ts t
| D_assign o l x r y :
    derives (NLevel 14) l x -> derives (NLevel 15) r y -> In o assignments ->
    derives (NLevel 15) (l ++ TOp o :: r) (EBin o x y).

(** The expression a token sequence denotes. *)
Definition denotes (ts : list token) (t : expr) : Prop := derives (NLevel 15) ts t.

(** Trees the grammar can express with brackets: everything built from names with
    the operators above. *)
Inductive expressible : expr -> Prop :=
| X_name n : expressible (EName n)
| X_un o e : expressible e -> In o (prefixes ++ postfixes) -> expressible (EUn o e)
| X_bin o l r :
    expressible l -> expressible r ->
    In o (OPoint :: type_tests ++ assignments) \/ (exists n, In o (infix_at n)) ->
    expressible (EBin o l r)
| X_cond c a b : expressible c -> expressible a -> expressible b -> expressible (ECond c a b).

(** Writing a tree with every operand bracketed. *)
Fixpoint written (e : expr) : list token :=
  let b e := TLeft Round :: written e ++ [TRight Round] in
  match e with
  | EName n => [TName n]
  | EUn o e =>
      if in_dec op_eq_dec o prefixes then TOp o :: b e else b e ++ [TOp o]
  | EBin o l r => b l ++ TOp o :: b r
  | ECond c x y => b c ++ TOp OQMark :: b x ++ TOp OQColon :: b y
  | ESeq _ => []
  end.

(** *** Minimally bracketed source of a tree of binary operators *)

Definition op_level (o : op) : nat :=
  if in_dec op_eq_dec o [OPoint] then 1
  else if in_dec op_eq_dec o type_tests then 13
  else if in_dec op_eq_dec o assignments then 15
  else match find (fun n => if in_dec op_eq_dec o (infix_at n) then true else false) (seq 3 12) with
       | Some n => n
       | None => 16
       end.

(** [minimal e p]: the source of [e] where an expression of level at most [p] is
    wanted; brackets appear only around a looser operator. *)
Fixpoint minimal (e : expr) (p : nat) : list token :=
  match e with
  | EName n => [TName n]
  | EBin o l r =>
      let n := op_level o in
      let body :=
        if in_dec op_eq_dec o assignments
        then minimal l (n - 1) ++ TOp o :: minimal r n
        else minimal l n ++ TOp o :: minimal r (n - 1) in
      if Nat.leb n p then body else TLeft Round :: body ++ [TRight Round]
  | _ => []
  end.

Inductive binary_tree : expr -> Prop :=
| B_name n : binary_tree (EName n)
| B_bin o l r : op_level o <= 15 -> binary_tree l -> binary_tree r -> binary_tree (EBin o l r).

(** *** Rejection *)

(** The operand names of a tree, left to right, and of a token sequence. *)
Fixpoint leaves (e : expr) : list nat :=
  match e with
  | EName n => [n]
  | EUn _ e => leaves e
  | EBin _ l r => leaves l ++ leaves r
  | ECond c a b => leaves c ++ leaves a ++ leaves b
  | ESeq es => flat_map leaves es
  end.

Definition names (ts : list token) : list nat :=
  flat_map (fun t => match t with TName n => [n] | _ => [] end) ts.

(** [subseq a b]: [a] is [b] with some elements left out. *)
Inductive subseq {A} : list A -> list A -> Prop :=
| Sub_nil : subseq [] []
| Sub_keep x a b : subseq a b -> subseq (x :: a) (x :: b)
| Sub_drop x a b : subseq a b -> subseq a (x :: b).

(** Properly nested brackets. *)
Inductive balanced : list token -> Prop :=
| Bal_nil : balanced []
| Bal_name n ts : balanced ts -> balanced (TName n :: ts)
| Bal_op o ts : balanced ts -> balanced (TOp o :: ts)
| Bal_box b ts ts' : balanced ts -> balanced ts' -> balanced (TLeft b :: ts ++ TRight b :: ts').
