(* How the text of a grammar becomes the net of NetModel.v:
   modules/compile/analyze_tree.cpp 466-632, 655-745, 864-1038, 1258-1950 and
   modules/compile/__analyze_tree.h 165-460.

   The rules are read into nodes: a node for every token, reference and group,
   and an end node for every alternative.  The groups are then dissolved
   ("exchange"): every token and reference gets links to all that can come
   next.  At last nodes that cannot be told apart are merged.

   Simplifications, for the whole file:
   - The characters of the text are left out: the model begins with the parts
     of the rules.  A named group "($name: ..)" is a rule of its own and a
     reference to it (901-911).  Names are their values (1152-1171), flags and
     weights are left out.
   - A node carries the piece of the grammar it was read from; the key and the
     first links of the node follow from that.
   - Sets of nodes are kept in the order of insertion, the code keeps them in
     the order of their addresses.
   - The code puts the rules into a map (408-413): the rules are taken in the
     order of their values, and of two rules with the same value the last is
     the one that counts.  Here a list is given which is already like that.
   - A node made by merging takes the place of the first node it replaces.
   - __EnableEmptyNode is 0 (20): the empty nodes are left out. *)
From Coq Require Import ZArith List Bool.
From Verif Require Import NetModel.
Import ListNotations.
Local Open Scope nat_scope.

(* ---- the parts of a grammar ---- *)

(* analyze_node_repeat_type_t, 34-48 *)
Inductive rep := Once | Star | Plus | Question.

(* What a rule is read into by __read_branch (864-1038): tokens, references and
   groups, each with its repetition, one after another, in alternatives. *)
Inductive elem := Tok (v : Z) | Ref (b : Z) | Group (a : alts)
with parts := Done | Then (e : elem) (r : rep) (s : parts)
with alts := NoMore | Or (s : parts) (a : alts).

(* A grammar: rules with their different values; the value of the root is 0. *)
Definition grammar := list (Z * alts).

Definition is_done (s : parts) : bool := match s with Done => true | _ => false end.

(* ---- repetitions ---- *)

(* __combine_repeat_type, 497-527 *)
Definition combine_rep (t1 t2 : rep) : rep :=
  match t2 with
  | Once => t1
  | _ =>
      match t1 with
      | Once => t2
      | Question => match t2 with Plus => Star | _ => t2 end
      | Star => Star
      | Plus => match t2 with Question | Star => Star | _ => t2 end
      end
  end.

(* __substract_repeat_type, 530-597 *)
Definition subtract_rep (t1 t2 : rep) : rep :=
  match t2 with
  | Once => t1
  | _ =>
      match t1, t2 with
      | Once, _ => Once
      | Star, Plus => Question
      | Star, Question => Plus
      | Star, _ => Once
      | Plus, Question => Plus
      | Plus, _ => Once
      | Question, Plus => Question
      | Question, _ => Once
      end
  end.

(* __pick_standalone_child, __get_standalone_child, 466-493 and 600-620, on the
   nodes as they were read: one alternative with one part.  An alternative
   without parts has no nodes (append_end, 897-907: last is null). *)
Fixpoint lone (a : alts) : option (elem * rep) :=
  match a with
  | NoMore => None
  | Or Done a' => lone a'
  | Or (Then e r s) a' =>
      if is_done s
      then (fix none (a : alts) : option (elem * rep) :=
              match a with
              | NoMore => Some (e, r)
              | Or Done a' => none a'
              | Or (Then _ _ _) _ => None
              end) a'
      else None
  end.

(* __revise_repeat_type, 1905-1930.  [o] is the repetition of the group when the
   first part of the alternative is its standalone child, Once otherwise
   (combining with Once changes nothing).  Only the groups at the beginning of
   an alternative, and the groups that follow these directly, are visited. *)
Fixpoint revise_parts (o : rep) (s : parts) : parts :=
  match s with
  | Done => Done
  | Then e r s' =>
      let r' := combine_rep o r in
      match e with
      | Group a =>
          match lone a with
          | Some _ => Then (Group (revise_alts r' a)) Once (revise_parts Once s')
          | None => Then (Group (revise_alts Once a)) r' (revise_parts Once s')
          end
      | _ => Then e r' s'
      end
  end
with revise_alts (o : rep) (a : alts) : alts :=
  match a with
  | NoMore => NoMore
  | Or s a' => Or (revise_parts o s) (revise_alts o a')
  end.

(* __revise_repeat, 1933-1950: the repetition of a rule, that of the innermost
   standalone child. *)
Fixpoint rep_in_parts (s : parts) : rep :=
  match s with
  | Done => Once
  | Then e r _ =>
      match e with
      | Group a => match lone a with Some _ => rep_in_alts a | None => r end
      | _ => r
      end
  end
with rep_in_alts (a : alts) : rep :=
  match a with
  | NoMore => Once
  | Or Done a' => rep_in_alts a'
  | Or s _ => rep_in_parts s
  end.

Definition rule_rep (a : alts) : rep :=
  match lone a with Some _ => rep_in_alts a | None => Once end.

Definition revise (R : grammar) : grammar :=
  map (fun p => (fst p, revise_alts Once (snd p))) R.

(* ---- the nodes as they are read ---- *)

(* A node, by what it was read from: a part with the parts that follow it and
   its owner (node->branch), the end of an alternative of a group or rule
   (owner_branch), the node of a rule. *)
Inductive cell :=
| CPart (e : elem) (r : rep) (s : parts) (owner : nat)
| CEnd (owner : nat)
| CRule (b : Z) (a : alts)
| CNone.

(* The number of nodes of a part, of an alternative with its end, of alternatives. *)
Fixpoint size_elem (e : elem) : nat :=
  match e with
  | Group a => S (size_alts a)
  | _ => 1
  end
with size_parts (s : parts) : nat :=
  match s with
  | Done => 1
  | Then e _ s' => size_elem e + size_parts s'
  end
with size_alts (a : alts) : nat :=
  match a with
  | NoMore => 0
  | Or s a' => if is_done s then size_alts a' else size_parts s + size_alts a'
  end.

(* __read_branch, 864-1038: nodes are numbered in the order they are made
   (__new_node).  [base] is the number of the first. *)
Fixpoint lay_elem (base : nat) (e : elem) : list cell :=
  match e with
  | Group a => lay_alts (S base) base a
  | _ => []
  end
with lay_parts (base owner : nat) (s : parts) : list cell :=
  match s with
  | Done => [CEnd owner]
  | Then e r s' =>
      CPart e r s' owner :: lay_elem base e ++ lay_parts (base + size_elem e) owner s'
  end
with lay_alts (base owner : nat) (a : alts) : list cell :=
  match a with
  | NoMore => []
  | Or s a' =>
      if is_done s then lay_alts base owner a'
      else lay_parts base owner s ++ lay_alts (base + size_parts s) owner a'
  end.

(* build, 655-701 *)
Fixpoint lay_rules (base : nat) (R : grammar) : list cell :=
  match R with
  | [] => []
  | (b, a) :: R' =>
      CRule b a :: lay_alts (S base) base a ++ lay_rules (base + S (size_alts a)) R'
  end.

Definition at_ (A : list cell) (n : nat) : cell := nth n A CNone.

(* The first part of every alternative: subnodes (append_node, 888-896). *)
Fixpoint firsts (base : nat) (a : alts) : list nat :=
  match a with
  | NoMore => []
  | Or s a' => if is_done s then firsts base a' else base :: firsts (base + size_parts s) a'
  end.

Definition inner (A : list cell) (n : nat) : list nat :=
  match at_ A n with
  | CPart (Group a) _ _ _ => firsts (S n) a
  | CRule _ a => firsts (S n) a
  | _ => []
  end.

(* The node that follows a part: the next part or the end (append_node 888-896,
   append_end 898-907). *)
Definition after (A : list cell) (n : nat) : nat :=
  match at_ A n with
  | CPart e _ _ _ => n + size_elem e
  | _ => n
  end.

(* A token or a reference (__node_type_t token, branch_ref). *)
Definition is_leaf (A : list cell) (n : nat) : bool :=
  match at_ A n with
  | CPart (Tok _) _ _ _ | CPart (Ref _) _ _ _ => true
  | _ => false
  end.

Definition is_end (A : list cell) (n : nat) : bool :=
  match at_ A n with CEnd _ => true | _ => false end.

(* get_branch, 415-423 *)
Fixpoint rule_from (n : nat) (A : list cell) (b : Z) : option nat :=
  match A with
  | [] => None
  | CRule b' _ :: A' => if Z.eqb b' b then Some n else rule_from (S n) A' b
  | _ :: A' => rule_from (S n) A' b
  end.

Definition rule_of (A : list cell) (b : Z) : option nat := rule_from 0 A b.

(* ---- the memory of the exchange ---- *)

(* The links of nodes (nodes), the first nodes of groups and rules (subnodes),
   the repetition of nodes (repeat_type), the nodes already visited and those
   waiting (__exchanged_set, __exchange_queue, 1299-1300), and the groups and
   rules known to be illusory or not (illusory_nodes, 639). *)
Record memory := Memory {
  m_links : nat -> list nat;
  m_inner : nat -> list nat;
  m_rep : nat -> rep;
  m_seen : list nat;
  m_queue : list nat;
  m_known : list (nat * bool)
}.

Definition update {T} (f : nat -> T) (n : nat) (x : T) : nat -> T :=
  fun k => if k =? n then x else f k.

Definition set_links (m : memory) (n : nat) (l : list nat) : memory :=
  Memory (update (m_links m) n l) (m_inner m) (m_rep m) (m_seen m) (m_queue m) (m_known m).
Definition set_inner (m : memory) (n : nat) (l : list nat) : memory :=
  Memory (m_links m) (update (m_inner m) n l) (m_rep m) (m_seen m) (m_queue m) (m_known m).
Definition set_known (m : memory) (n : nat) (v : bool) : memory :=
  Memory (m_links m) (m_inner m) (m_rep m) (m_seen m) (m_queue m) ((n, v) :: m_known m).
Definition set_seen (m : memory) (s q : list nat) : memory :=
  Memory (m_links m) (m_inner m) (m_rep m) s q (m_known m).

Definition rep_at (A : list cell) (n : nat) : rep :=
  match at_ A n with CPart _ r _ _ => r | _ => Once end.

(* The nodes as they were read. *)
Definition memory_read (A : list cell) : memory :=
  Memory (fun n => match at_ A n with CPart _ _ _ _ => [after A n] | _ => [] end)
         (inner A) (rep_at A) [] [] [].

Fixpoint known (l : list (nat * bool)) (n : nat) : option bool :=
  match l with
  | [] => None
  | (k, v) :: l' => if k =? n then Some v else known l' n
  end.

Fixpoint mem (n : nat) (l : list nat) : bool :=
  match l with
  | [] => false
  | x :: r => (x =? n) || mem n r
  end.

(* analyze_nodes_t::append, 262-282: a set has at most one end (_A, 278). *)
Definition append (A : list cell) (l : list nat) (n : nat) : outcome (list nat) :=
  if mem n l then Ok l
  else if is_end A n && existsb (is_end A) l then Undefined
  else Ok (l ++ [n]).

(* Does the same for the members of a list with a memory that changes. *)
Fixpoint all_of {T} (f : memory -> T -> outcome memory) (m : memory) (l : list T) : outcome memory :=
  match l with
  | [] => Ok m
  | x :: r => m' <- f m x ;; all_of f m' r
  end.

(* ---- what can be empty: __is_illusory, 1479-1571 ---- *)

Definition empty_rep (r : rep) : bool := match r with Star | Question => true | _ => false end.

(* __is_illusory and the two __do_is_illusory of 1497-1531.  [deep] examines the
   nodes of a group or rule; while it does, the group or rule counts as not
   illusory (1524). *)
Definition judge (A : list cell)
    (deep : memory -> list nat -> list nat -> outcome (bool * list nat * memory))
    (m : memory) (n : nat) : outcome (bool * memory) :=
  if empty_rep (m_rep m n) then Ok (true, m)
  else
    let branch :=
      match at_ A n with
      | CPart (Group _) _ _ _ => Some n
      | CPart (Ref b) _ _ _ => rule_of A b
      | _ => None
      end in
    match branch with
    | None => Ok (false, m)
    | Some g =>
        match known (m_known m) g with
        | Some v => Ok (v, m)
        | None =>
            p <- deep (set_known m g false) [] (m_inner m g) ;;
            let '(v, _, m') := p in Ok (v, set_known m' g v)
        end
    end.

(* __do_is_illusory over nodes and over a node, 1534-1571: whether an end can be
   reached over illusory nodes only.  [vis] are the nodes walked over
   (walk_set). *)
Fixpoint scan (A : list cell)
    (deep : memory -> list nat -> list nat -> outcome (bool * list nat * memory))
    (m : memory) (vis : list nat) (l : list nat) : outcome (bool * list nat * memory) :=
  match l with
  | [] => Ok (false, vis, m)
  | n :: l' =>
      if is_end A n then Ok (true, vis, m)
      else
        p <- judge A deep m n ;;
        let '(v, m1) := p in
        if v then
          if mem n vis then scan A deep m1 vis l'
          else
            q <- deep m1 (n :: vis) (m_links m1 n) ;;
            let '(v2, vis2, m2) := q in
            if v2 then Ok (true, vis2, m2) else scan A deep m2 vis2 l'
        else scan A deep m1 vis l'
  end.

(* [fuel] is the stack of the C++ program. *)
Fixpoint illusory (fuel : nat) (A : list cell) (m : memory) (vis : list nat) (l : list nat)
    : outcome (bool * list nat * memory) :=
  match fuel with
  | O => Overflow
  | S f => scan A (illusory f A) m vis l
  end.

(* ---- links: __join, 1369-1465 ---- *)

(* __get_repeat_type, 1424-1437; [reps] are the repetitions of the rules. *)
Definition repetition (A : list cell) (m : memory) (n : nat) : rep :=
  match at_ A n with
  | CPart (Ref b) _ _ _ =>
      match rule_of A b with
      | Some x => subtract_rep (m_rep m n) (m_rep m x)
      | None => m_rep m n
      end
  | _ => m_rep m n
  end.

Definition loops (r : rep) : bool := match r with Star | Plus => true | _ => false end.

(* __join_node, 1462-1466 *)
Definition link (A : list cell) (m : memory) (p n : nat) : outcome memory :=
  l <- append A (m_links m p) n ;; Ok (set_links m p l).

(* __push, 1356-1363 *)
Definition push (m : memory) (n : nat) : memory :=
  if mem n (m_seen m) then m else set_seen m (n :: m_seen m) (m_queue m ++ [n]).

(* __join, 1366-1421, and __join_subnodes, 1440-1459: a node among its own links
   is passed over (is_self). *)
Fixpoint join (fuel : nat) (A : list cell) (p : nat) (m : memory) (u : nat) : outcome memory :=
  match fuel with
  | O => Overflow
  | S f =>
      let others := fun x l => filter (fun n => negb (n =? x)) l in
      m1 <-
        match at_ A u with
        | CPart (Group _) _ _ _ => all_of (join f A p) m (m_inner m u)
        | CPart _ _ _ _ => m' <- link A m p u ;; Ok (push m' u)
        | CEnd o =>
            match at_ A o with
            | CRule _ _ => link A m p u
            | _ =>
                m' <- all_of (join f A p) m (others o (m_links m o)) ;;
                if loops (m_rep m' o) then all_of (join f A p) m' (m_inner m' o) else Ok m'
            end
        | _ => Undefined
        end ;;
      if (p =? u) || is_end A u then Ok m1
      else
        match repetition A m1 u with
        | Question | Star => all_of (join f A p) m1 (others u (m_links m1 u))
        | _ =>
            q <- judge A (illusory f A) m1 u ;;
            let '(v, m2) := q in
            if v then all_of (join f A p) m2 (others u (m_links m2 u)) else Ok m2
        end
  end.

(* __exchange, 1343-1356 *)
Definition exchange (fuel : nat) (A : list cell) (m : memory) (n : nat) : outcome memory :=
  m1 <- all_of (join fuel A n) (set_links m n []) (m_links m n) ;;
  if loops (repetition A m1 n) then join fuel A n m1 n else Ok m1.

(* The loop of __exchange_branch, 1313-1319.  A node is queued once, so as many
   turns as there are nodes are enough. *)
Fixpoint exchange_all (turns fuel : nat) (A : list cell) (m : memory) : outcome memory :=
  match m_queue m with
  | [] => Ok m
  | n :: q =>
      match turns with
      | O => Overflow
      | S t => m' <- exchange fuel A (set_seen m (m_seen m) q) n ;; exchange_all t fuel A m'
      end
  end.

(* __exchange_branch, 1306-1325 *)
Definition exchange_branch (fuel : nat) (A : list cell) (m : memory) (x : nat) : outcome memory :=
  m1 <- all_of (join fuel A x) (set_seen m [] []) (m_inner m x) ;;
  m2 <- exchange_all (length A) fuel A m1 ;;
  Ok (set_links (set_inner m2 x (m_links m2 x)) x []).

(* ---- merging: __merge_branch, 1611-1800 ---- *)

(* __node_equals_wrapper_t: token nodes and references are equal when their keys
   are (__analyze_tree.h 316-321, 437-442). *)
Definition leaf_key (A : list cell) (n : nat) : key :=
  match at_ A n with
  | CPart (Tok v) _ _ _ => KToken v
  | CPart (Ref b) _ _ _ => KRef b
  | _ => KToken (-1)
  end.

(* __build_relation, 1647-1666: the nodes with a link to n. *)
Definition froms (m : memory) (live : list nat) (n : nat) : list nat :=
  filter (fun k => mem n (m_links m k)) live.

(* The key of split_array, 1689-1692; only nodes with a link to them are in the
   map (relation_map). *)
Definition alike (A : list cell) (m : memory) (live : list nat) (n k : nat) : bool :=
  (n =? k) ||
  (key_eqb (leaf_key A n) (leaf_key A k)
   && match froms m live n with [] => false | _ => true end
   && if list_eq_dec Nat.eq_dec (froms m live n) (froms m live k) then true else false).

(* The node that takes the place of n. *)
Definition stand_in (A : list cell) (m : memory) (live : list nat) (n : nat) : nat :=
  if is_leaf A n then match find (alike A m live n) live with Some k => k | None => n end else n.

Definition union (l1 l2 : list nat) : list nat :=
  fold_left (fun l n => if mem n l then l else l ++ [n]) l2 l1.

(* __merge_nodes, __merge and __relation_exchange, 1669-1798: the nodes of a
   class become one with the links of all, and are replaced everywhere.  A new
   node is repeated once.  The end node of a set stays as it is. *)
Definition merge_once (A : list cell) (m : memory) (live : list nat) (x : nat) : memory :=
  let s := stand_in A m live in
  let members n := filter (fun k => s k =? n) live in
  Memory
    (fun n => if mem n live then union [] (map s (flat_map (m_links m) (members n))) else m_links m n)
    (fun n => if n =? x then union [] (map s (m_inner m x)) else m_inner m n)
    (fun n => if mem n live && (1 <? length (members n)) then Once else m_rep m n)
    (m_seen m) (m_queue m) (m_known m).

(* __merge_branch, __do_merge_branch, 1611-1628.  Every turn leaves fewer
   nodes. *)
Fixpoint merge_branch (turns : nat) (A : list cell) (m : memory) (live : list nat) (x : nat) : memory :=
  match turns with
  | O => m
  | S t =>
      let s := stand_in A m live in
      if forallb (fun n => s n =? n) live then m
      else merge_branch t A (merge_once A m live x) (filter (fun n => s n =? n) live) x
  end.

(* analyze_tree_exchange_t::exchange, 1272-1281 *)
Definition exchange_rule (fuel : nat) (A : list cell) (m : memory) (x : nat) : outcome memory :=
  m' <- exchange_branch fuel A m x ;;
  Ok (merge_branch (length A) A m' (rev (m_seen m')) x).

(* ---- the net ---- *)

Fixpoint rules_from (n : nat) (A : list cell) : list nat :=
  match A with
  | [] => []
  | CRule _ _ :: A' => n :: rules_from (S n) A'
  | _ :: A' => rules_from (S n) A'
  end.

(* __revise_repeat leaves the repetition of the rule in its node (1949). *)
Definition with_rule_reps (A : list cell) (m : memory) : memory :=
  Memory (m_links m) (m_inner m)
    (fun n => match at_ A n with CRule _ a => rule_rep a | _ => m_rep m n end)
    (m_seen m) (m_queue m) (m_known m).

(* all_branches (__analyze_tree.h 882, 897): a map, in the order of the values of
   the rules.  Of rules with the same value it keeps the last; such grammars are
   left out here (rule_of finds the first). *)
Definition rule_value (A : list cell) (x : nat) : Z := match at_ A x with CRule b _ => b | _ => 0%Z end.

Fixpoint put_in_order (A : list cell) (x : nat) (l : list nat) : list nat :=
  match l with
  | [] => [x]
  | y :: r => if Z.leb (rule_value A x) (rule_value A y) then x :: l else y :: put_in_order A x r
  end.

Definition in_order (A : list cell) (l : list nat) : list nat := fold_right (put_in_order A) [] l.

(* build, 719-737: all rules are revised, then all are exchanged. *)
Definition exchange_grammar (fuel : nat) (R : grammar) : outcome memory :=
  let A := lay_rules 0 (revise R) in
  all_of (exchange_rule fuel A) (with_rule_reps A (memory_read A)) (in_order A (rules_from 0 A)).

(* The end among the links of a node: get_end_unit, __owner_branch_value. *)
Definition end_value (A : list cell) (l : list nat) : option Z :=
  match find (is_end A) l with
  | Some n =>
      match at_ A n with
      | CEnd o => match at_ A o with CRule b _ => Some b | _ => None end
      | _ => None
      end
  | None => None
  end.

(* The net of NetModel.v that the nodes are, with the flags as build leaves them
   before the rules are looked at for left recursion (711-724): a reference to a
   symbol that no rule defines is not expanded. *)
Definition net_of (A : list cell) (m : memory) : net :=
  Net (fun n => Node (leaf_key A n) (filter (is_leaf A) (m_links m n)) (end_value A (m_links m n))
                  (match leaf_key A n with
                   | KRef b => match rule_of A b with Some _ => true | None => false end
                   | KToken _ => true
                   end) false)
      (fun b => match rule_of A b with
                | Some x => Some (filter (is_leaf A) (m_inner m x))
                | None => None
                end).

(* 715-720: values below zero are those of names that are not known otherwise.
   The root has no name, so that no reference to it can be written (992-993). *)
Definition known_ref (A : list cell) (n : nat) : bool :=
  match leaf_key A n with
  | KRef b =>
      negb (Z.eqb b root_value) &&
      match rule_of A b with Some _ => true | None => negb (Z.ltb b 0) end
  | KToken _ => true
  end.

Definition refs_known (A : list cell) : bool := forallb (known_ref A) (filter (is_leaf A) (seq 0 (length A))).

(* __is_final_node, 486-495, on a node of the net: the links without ends are
   nd_next. *)
Definition final (g : net) (n : nat) : bool := forallb (fun k => k <=? n) (nd_next (nt_node g n)).

(* __exists_left_cycle 2011-2038 and __is_dead_cycle 2041-2072, which differ only
   in what they answer when the rule [v] is found, [hit].  [n] is the reference
   at hand, [b] the rule it names, [seen] the set of rules recorded in the
   context.  [fuel] is the stack. *)
Fixpoint leads_back (fuel : nat) (g : net) (hit : nat -> bool) (v : Z) (seen : list Z) (n : nat) (b : Z)
  : outcome (bool * list Z) :=
  match nt_start g b with
  | None => Ok (false, seen)
  | Some s =>
      if Z.eqb v b then Ok (hit n, seen)
      else if existsb (Z.eqb b) seen then Ok (false, seen)
      else
        match fuel with
        | O => Overflow
        | S f =>
            (fix go (s : list nat) (seen : list Z) : outcome (bool * list Z) :=
               match s with
               | [] => Ok (false, seen)
               | k :: r =>
                   match nd_key (nt_node g k) with
                   | KToken _ => go r seen
                   | KRef c =>
                       y <- leads_back f g hit v seen k c ;;
                       if fst y then Ok (true, snd y) else go r (snd y)
                   end
               end) s (b :: seen)
        end
  end.

(* The numbers the reader gave to rules and nodes (__analyze_tree.h 826): in the
   order in which it met them, a rule before its parts. *)
Record numbers := Numbers { num_rule : Z -> nat; num_node : nat -> nat }.

(* The flags expandable and is_dead_cycle of one reference a rule v can begin
   with, 1987-2005. *)
Definition flags (fuel : nat) (N : numbers) (g : net) (v : Z) (n : nat) : outcome (bool * bool) :=
  match nd_key (nt_node g n) with
  | KToken _ => Ok (nd_expandable (nt_node g n), nd_dead (nt_node g n))
  | KRef b =>
      left <- leads_back fuel g (fun _ => true) v [] n b ;;
      match nt_start g b with
      | None => Ok (false, nd_dead (nt_node g n))
      | Some _ =>
          dead <- leads_back fuel g (final g) v [] n b ;;
          Ok (negb (fst left) || ((num_rule N b <? num_node N n) && negb (Z.eqb v b)), fst left && fst dead)
      end
  end.

Definition with_flags (g : net) (n : nat) (f : bool * bool) : net :=
  Net (fun k => if k =? n
                then Node (nd_key (nt_node g k)) (nd_next (nt_node g k)) (nd_end (nt_node g k)) (fst f) (snd f)
                else nt_node g k)
      (nt_start g).

(* __execute_left_cycle_process 1982-2009 for the rule v *)
Fixpoint mark_nodes (fuel : nat) (N : numbers) (v : Z) (l : list nat) (g : net) : outcome net :=
  match l with
  | [] => Ok g
  | n :: r => f <- flags fuel N g v n ;; mark_nodes fuel N v r (with_flags g n f)
  end.

(* build, 738-743.  The order does not matter: the flags of one rule do not depend
   on those of another. *)
Fixpoint mark_rules (fuel : nat) (N : numbers) (vs : list Z) (g : net) : outcome net :=
  match vs with
  | [] => Ok g
  | v :: r =>
      g' <- mark_nodes fuel N v (match nt_start g v with Some s => s | None => [] end) g ;;
      mark_rules fuel N r g'
  end.

(* build 655-745: what is read is taken as given, then the references are
   checked, the rules exchanged and marked.  A named group, ($name: ...), is read
   as a reference to a rule of its own (919-929), which is a rule of R like the
   others here; only the numbers tell that it was read in the middle of another
   rule.  Nothing but the flags depends on how rules are numbered. *)
Definition build_as (N : numbers) (fuel : nat) (R : grammar) : outcome net :=
  let A := lay_rules 0 (revise R) in
  if refs_known A then
    m <- exchange_grammar fuel R ;; mark_rules fuel N (map fst R) (net_of A m)
  else FormatError.

(* Without named groups the numbers are the places. *)
Definition places (R : grammar) : numbers :=
  Numbers (fun b => match rule_of (lay_rules 0 (revise R)) b with Some x => x | None => 0 end) (fun n => n).

Definition build (fuel : nat) (R : grammar) : outcome net := build_as (places R) fuel R.
