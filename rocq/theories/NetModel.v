(* The analysis of a program against a grammar: modules/compile/analyze_tree.cpp
   2083-3750 and modules/compile/__analyze_tree.h 570-1770.

   A grammar has been turned into a net: nodes with links, one start list for
   each rule.  The analysis keeps a set of stacks ("leaves"), pushes the
   elements of the program one after another, and at the end takes the stacks
   apart again.  It reports which rule matched which elements.

   Simplifications, for the whole file:
   - The stacks of the code share their lower parts in a tree (lr_tree_node_t).
     Here each leaf has its own list of frames.  The code never changes a frame
     below a leaf except child_tag (3205), which is set when the frame gets its
     children, all at the same moment.
   - Weights and the order of leaves (__leaf_less, 3405-3483) depend on weights,
     actions and addresses; they decide only which of several leaves is kept.
     They are parameters of the model (the record [world]).
   - Sets of nodes (path nodes, 1400-1560) are lists; the cache that shares
     equal sets (399-420) is left out, it returns what was computed before.
   - C++ stack exhaustion is [Overflow]; a null pointer followed, or an
     assertion _A that fails, is [Undefined]. *)
From Coq Require Import ZArith List Bool.
Import ListNotations.
Local Open Scope nat_scope.

(* ---- outcomes ---- *)

Inductive outcome (A : Type) :=
| Ok (a : A)
| FormatError
| Overflow
| Undefined.
Arguments Ok {A}. Arguments FormatError {A}. Arguments Overflow {A}. Arguments Undefined {A}.

Definition bind {A B} (o : outcome A) (f : A -> outcome B) : outcome B :=
  match o with
  | Ok a => f a
  | FormatError => FormatError
  | Overflow => Overflow
  | Undefined => Undefined
  end.

Notation "x <- e ;; f" := (bind e (fun x => f)) (at level 61, e at next level, right associativity).

(* Does the same for the members of a list, in order, and stops at the first
   failure (the for loops of the code). *)
Fixpoint each {A B} (f : A -> outcome B) (l : list A) : outcome (list B) :=
  match l with
  | [] => Ok []
  | x :: r => y <- f x ;; ys <- each f r ;; Ok (y :: ys)
  end.

(* ---- nets ---- *)

(* __node_key_t (include/modules/compile.h 515-562): a token value, or a branch
   value.  An element of the program that is already a tree (from another
   language) has the key of its branch (4415-4418). *)
Inductive key := KToken (v : Z) | KRef (v : Z).

Definition key_eqb (a b : key) : bool :=
  match a, b with
  | KToken x, KToken y => Z.eqb x y
  | KRef x, KRef y => Z.eqb x y
  | _, _ => false
  end.

(* key.value *)
Definition key_value (k : key) : Z := match k with KToken v => v | KRef v => v end.

(* analyze_token_node_t and analyze_branch_ref_node_t (__analyze_tree.h 280-560):
   the key, the links [nodes] without the end node, the branch whose end is
   among the links (get_end_unit, __owner_branch_value), and the flags
   [expandable] and [is_dead_cycle] of a branch reference. *)
Record node := Node {
  nd_key : key;
  nd_next : list nat;
  nd_end : option Z;
  nd_expandable : bool;
  nd_dead : bool
}.

(* special_node_value_t::root, __analyze_tree.h 97 *)
Definition root_value : Z := 0%Z.

(* analyze_tree_t with its build context: the nodes by address, the start of
   each branch by its value (get_branch, 415-428; its subnodes after the
   exchange).  The root is the branch with the value 0. *)
Record net := Net {
  nt_node : nat -> node;
  nt_start : Z -> option (list nat)
}.

(* What a stack node points at: the root node, or a node of the net
   (__stack_node_value_t::node). *)
Inductive place := Top | At (n : nat).

(* __append_subnodes, analyze_tree.cpp 2442-2453: the links of a place. *)
Definition links (g : net) (p : place) : list nat :=
  match p with
  | Top => match nt_start g root_value with Some s => s | None => [] end
  | At n => nd_next (nt_node g n)
  end.

(* get_end_unit; the root keeps no links of its own after the exchange
   (1323-1324), so it has no end unit. *)
Definition end_of (g : net) (p : place) : option Z :=
  match p with
  | Top => None
  | At n => nd_end (nt_node g n)
  end.

(* analyze_path_node_stack_unit_t, __analyze_tree.h 1181-1206: a node that can
   be reached, the number of branches entered on the way and their names.  The
   address [path] of the code stands for the branches together with the node
   (to_stack_path 431-454 with begin+1: the head is not part of it); for a
   normal unit it is the node alone (212-217). *)
Inductive target := ToNode (n : nat) | Stay (p : place).

Record unit_ := Unit { u_to : target; u_path : list Z }.

Definition u_step (u : unit_) : nat := length (u_path u).

(* __append_subnodes, analyze_tree.cpp 2379-2422: the nodes of a list and,
   through every expandable reference, the starts of the branches they name.
   The recursion of the code has no bound; [fuel] is the stack it runs on. *)
Fixpoint expand (fuel : nat) (g : net) (path : list Z) (l : list nat) : outcome (list unit_) :=
  match fuel with
  | O => Overflow
  | S f =>
      (fix go (l : list nat) : outcome (list unit_) :=
         match l with
         | [] => Ok []
         | n :: r =>
             deeper <-
               match nd_key (nt_node g n) with
               | KToken _ => Ok []
               | KRef b =>
                   if nd_expandable (nt_node g n) then
                     match nt_start g b with
                     | Some s => expand f g (path ++ [b]) s
                     | None => FormatError                   (* 2457-2462 *)
                     end
                   else Ok []
               end ;;
             rest <- go r ;;
             Ok (Unit (ToNode n) path :: deeper ++ rest)
         end) l
  end.

Definition target_eqb (a b : target) : bool :=
  match a, b with
  | ToNode x, ToNode y => Nat.eqb x y
  | Stay Top, Stay Top => true
  | Stay (At x), Stay (At y) => Nat.eqb x y
  | _, _ => false
  end.

(* __stack_equals, analyze_tree.cpp 227-242 (the heads are equal here) *)
Definition same_stack (a b : unit_) : bool :=
  target_eqb (u_to a) (u_to b) && Nat.eqb (u_step a) (u_step b).

(* __build_node_info_t::append_stack, 2511-2535: only the first of several
   equal stacks is kept. *)
Fixpoint distinct (seen : list unit_) (l : list unit_) : list unit_ :=
  match l with
  | [] => []
  | u :: r =>
      if existsb (same_stack u) seen then distinct seen r
      else u :: distinct (u :: seen) r
  end.

Definition unit_key (g : net) (u : unit_) : option key :=
  match u_to u with
  | ToNode n => Some (nd_key (nt_node g n))
  | Stay _ => None
  end.

Definition has_key (g : net) (k : key) (u : unit_) : bool :=
  match unit_key g u with
  | Some k' => key_eqb k' k
  | None => false
  end.

(* __initialize 2465-2500 for one place: everything that can be reached. *)
Definition reachable (fuel : nat) (g : net) (p : place) : outcome (list unit_) :=
  l <- expand fuel g [] (links g p) ;; Ok (distinct [] l).

(* stacks_of(src)->stack_of(head), 2190-2235 and 2300-2370: what can be reached
   from one place by one key.  The code sorts normal units before the others
   (2280-2282); the growing below takes them apart again. *)
Definition units_of (fuel : nat) (g : net) (p : place) (k : key) : outcome (list unit_) :=
  l <- reachable fuel g p ;; Ok (filter (has_key g k) l).

(* analyze_normal_path_node_t::enter, 2338-2351: the set of nodes that can be
   reached by a key from any place of a set.  __ensure_init expands every place
   of the set, whatever the key. *)
Definition to_place (u : unit_) : place :=
  match u_to u with
  | ToNode n => At n
  | Stay p => p
  end.

Definition enter (fuel : nat) (g : net) (set : list place) (k : key) : outcome (list place) :=
  ls <- each (fun p => units_of fuel g p k) set ;;
  Ok (map to_place (concat ls)).

(* ---- stacks ---- *)

(* __stack_node_value_t, __analyze_tree.h 575-608: node, current, child_tag.
   A null child_tag counts as the first element (3743, begin_tag()). *)
Record frame := Frame {
  f_place : place;
  f_set : list place;
  f_child : nat
}.

(* The actions of a leaf, __analyze_tree.h 634-800: write the reading chosen for
   an element that has several, and report a branch with its first element and
   the element after it. *)
Inductive action :=
| Assign (i : nat) (v : Z)
| Matched (b : Z) (from upto : nat).

(* A leaf of the stack tree with all frames below it, and its chain of actions,
   the newest first (action->next is older). *)
Record leaf := Leaf {
  l_top : frame;
  l_rest : list frame;
  l_acts : list action
}.

(* What is pushed, 4383-4418: one key, or the possible keys of a token that has
   several readings. *)
Inductive element := One (k : key) | Several (ks : list key).

Definition keys_of (e : element) : list key :=
  match e with One k => [k] | Several ks => ks end.

(* __stack_push_args_t::append_new_stack_node 3813-3823: the reading is written
   when there are several. *)
Definition assign (e : element) (i : nat) (v : Z) : list action :=
  match e with One _ => [] | Several _ => [Assign i v] end.

(* What depends on weights and addresses: the identity of a leaf
   (__set_merge_identity 156-166), the order of leaves (__leaf_less), and which
   tokens are invisible (__is_invisible 3748-3752). *)
Record world := World {
  w_ident : leaf -> Z;
  w_less : leaf -> leaf -> bool;
  w_invisible : Z -> bool
}.

(* ---- growing ---- *)

(* A stack item, 3040-3062 and 3135-3167: the key, the units found for it and
   the set they belong to. *)
Record item := Item { i_value : Z; i_units : list unit_; i_dst : list place }.

Definition path_eqb (a b : unit_) : bool :=
  target_eqb (u_to a) (u_to b) &&
  (if list_eq_dec Z.eq_dec (u_path a) (u_path b) then true else false).

(* record_stack_unit 3292-3306: the position of a unit among the recorded. *)
Fixpoint position (u : unit_) (l : list unit_) : nat :=
  match l with
  | [] => 0
  | v :: r => if path_eqb u v then 0 else S (position u r)
  end.

Definition record (u : unit_) (paths : list unit_) : list unit_ :=
  if existsb (path_eqb u) paths then paths else paths ++ [u].

(* check_stack_unit 3323-3327 for the units of one kind: a unit recorded
   before [apply] is passed over. *)
Fixpoint pass_units (apply : nat) (paths : list unit_) (l : list unit_)
  : list unit_ * list unit_ :=
  match l with
  | [] => ([], paths)
  | u :: r =>
      let (us, paths') := pass_units apply (record u paths) r in
      (if Nat.leb apply (position u paths) then u :: us else us, paths')
  end.

Fixpoint pass_items (apply : nat) (paths : list unit_) (normal : bool) (l : list item)
  : list item * list unit_ :=
  match l with
  | [] => ([], paths)
  | it :: r =>
      let mine := filter (fun u => Bool.eqb normal (Nat.eqb (u_step u) 0)) (i_units it) in
      let (us, paths1) := pass_units apply paths mine in
      let (its, paths2) := pass_items apply paths1 normal r in
      (Item (i_value it) us (i_dst it) :: its, paths2)
  end.

(* __do_stack_grow 3180-3265, first loop: a unit in another branch becomes a new
   frame on top. *)
Definition switched_leaf (e : element) (i : nat) (fr : frame) (rest : list frame)
    (acts : list action) (it : item) (u : unit_) : leaf :=
  Leaf (Frame (to_place u) (i_dst it) 0)
       (Frame (f_place fr) (f_set fr) i :: rest)
       (assign e i (i_value it) ++ acts).

(* second loop: a unit in the same branch takes the place of the frame. *)
Definition normal_leaf (e : element) (i : nat) (fr : frame) (rest : list frame)
    (acts : list action) (it : item) (u : unit_) : leaf :=
  Leaf (Frame (to_place u) (i_dst it) (f_child fr)) rest
       (assign e i (i_value it) ++ acts).

Definition leaves_of (f : item -> unit_ -> leaf) (its : list item) : list leaf :=
  concat (map (fun it => map (f it) (i_units it)) its).

(* The leaves that grow, and what has been recorded.  A sibling copies the
   value of the frame (3250), whose child_tag was set in the first loop when
   there were units in other branches; it is set again before it is read. *)
Definition grow (e : element) (i : nat) (apply : nat) (paths : list unit_)
    (fr : frame) (rest : list frame) (acts : list action) (items : list item)
  : list leaf * list leaf * list unit_ :=
  let (sw, paths1) := pass_items apply paths false items in
  let (no, paths2) := pass_items apply paths1 true items in
  (leaves_of (switched_leaf e i fr rest acts) sw,
   leaves_of (normal_leaf e i fr rest acts) no,
   paths2).

(* The stack items of a place for the keys of an element, 3046-3061 (with
   [stay] = false) and 3134-3167: an invisible token that no place of the set
   takes leaves the frame where it is.  (The code puts that unit into a local
   variable and uses it after its scope has ended, 3150-3166.  The model takes
   it that the memory still holds it.) *)
Definition item_of (fuel : nat) (g : net) (w : world) (stay : bool)
    (p : place) (set : list place) (k : key) : outcome (list item) :=
  dst <- enter fuel g set k ;;
  match dst with
  | [] =>
      if stay && w_invisible w (key_value k)
      then Ok [Item (key_value k) [Unit (Stay p) []] set]
      else Ok []
  | _ :: _ =>
      us <- units_of fuel g p k ;;
      match us with
      | [] => Ok []
      | _ :: _ => Ok [Item (key_value k) us dst]
      end
  end.

Definition items_of (fuel : nat) (g : net) (w : world) (stay : bool)
    (p : place) (set : list place) (e : element) : outcome (list item) :=
  ls <- each (item_of fuel g w stay p set) (keys_of e) ;; Ok (concat ls).

(* __check_end_node 2995-3124: branch [b] is complete on top of [parent].
   Every reference to it that the parent can reach is matched; it may grow by
   the element, and may complete its own branch in turn. *)
Fixpoint check_end (fuel : nat) (g : net) (w : world) (e : element) (i : nat)
    (paths : list unit_) (parent : frame) (below : list frame)
    (acts : list action) (b : Z) : outcome (list leaf) :=
  if Z.eqb b root_value then Ok [] else
  match fuel with
  | O => Overflow
  | S f =>
      let apply := length paths in
      ref_set <- enter fuel g (f_set parent) (KRef b) ;;
      refs <- units_of fuel g (f_place parent) (KRef b) ;;
      match refs with
      | [] => Undefined                                        (* 3011-3019 *)
      | _ :: _ =>
          (fix go (refs : list unit_) (paths : list unit_) : outcome (list leaf) :=
             match refs with
             | [] => Ok []
             | u :: more =>
                 let acts' := Matched b (f_child parent) i :: acts in
                 let base := if Nat.eqb (u_step u) 0 then below else parent :: below in
                 items <- items_of fuel g w false (to_place u) ref_set e ;;
                 let '(sw, no, paths1) :=
                   grow e i apply paths (Frame (to_place u) ref_set 0) base acts' items in
                 deeper <-
                   match u_to u with
                   | Stay _ => Ok []
                   | ToNode n =>
                       if nd_dead (nt_node g n) then Ok [] else
                       match nd_end (nt_node g n) with
                       | None => Ok []
                       | Some b' =>
                           if Nat.eqb (u_step u) 0 then
                             if Z.eqb b' root_value then Ok [] else
                             match below with
                             | [] => Undefined
                             | p :: r => check_end f g w e i paths1 p r acts' b'
                             end
                           else check_end f g w e i paths1 parent below acts' b'
                       end
                   end ;;
                 rest <- go more paths1 ;;
                 Ok (sw ++ no ++ deeper ++ rest)
             end) refs paths
      end
  end.

(* __stack_push 2937-2963.  When no unit lies in another branch the first unit
   of the same branch overwrites the leaf itself (3235-3245), with the action
   that writes its reading; the actions handed to __check_end_node are read
   after that (2955). *)
Definition push_leaf (fuel : nat) (g : net) (w : world) (e : element) (i : nat)
    (l : leaf) : outcome (list leaf) :=
  let fr := l_top l in
  items <- items_of fuel g w true (f_place fr) (f_set fr) e ;;
  let '(sw, no, paths) := grow e i 0 [] fr (l_rest l) (l_acts l) items in
  let acts := match sw, no with [], n :: _ => l_acts n | _, _ => l_acts l end in
  ended <-
    match end_of g (f_place fr) with
    | None => Ok []
    | Some b =>
        if Z.eqb b root_value then Ok [] else
        match l_rest l with
        | [] => Undefined
        | p :: r => check_end fuel g w e i paths p r acts b
        end
    end ;;
  Ok (sw ++ no ++ ended).

(* __sort_leaves 3509-3515 *)
Definition before (w : world) (a b : leaf) : bool :=
  if Z.eqb (w_ident w a) (w_ident w b) then w_less w a b
  else Z.ltb (w_ident w a) (w_ident w b).

Fixpoint insert (w : world) (x : leaf) (l : list leaf) : list leaf :=
  match l with
  | [] => [x]
  | y :: r => if before w y x then y :: insert w x r else x :: y :: r
  end.

Fixpoint sort (w : world) (l : list leaf) : list leaf :=
  match l with
  | [] => []
  | x :: r => insert w x (sort w r)
  end.

(* __merge_leaves 3518-3545: of leaves with the same identity the first is
   kept. *)
Fixpoint drop_equal (w : world) (last : Z) (l : list leaf) : list leaf :=
  match l with
  | [] => []
  | x :: r =>
      if Z.eqb (w_ident w x) last then drop_equal w last r
      else x :: drop_equal w (w_ident w x) r
  end.

Definition merge_leaves (w : world) (l : list leaf) : list leaf :=
  match l with
  | [] => []
  | [x] => [x]
  | _ =>
      match sort w l with
      | [] => []
      | x :: r => x :: drop_equal w (w_ident w x) r
      end
  end.

(* The state of an analysis: the leaves and what has been reported. *)
Record state := State { s_leaves : list leaf; s_done : list action }.

(* __execute_actions 3648-3688: the oldest action first. *)
Definition execute (s : state) : state :=
  match s_leaves s with
  | [l] => State [Leaf (l_top l) (l_rest l) []] (s_done s ++ rev (l_acts l))
  | _ => s
  end.

(* go 2811-2866, an element *)
Definition go_element (fuel : nat) (g : net) (w : world) (i : nat) (e : element)
    (s : state) : outcome state :=
  ls <- each (push_leaf fuel g w e i) (s_leaves s) ;;
  match concat ls with
  | [] => FormatError
  | x :: r => Ok (execute (State (merge_leaves w (x :: r)) (s_done s)))
  end.

(* __do_stack_pop 3606-3645: takes a leaf apart at the end of the program.
   The end of a branch matches every reference the frame below can reach. *)
Fixpoint pop (fuel : nat) (g : net) (i : nat) (fr : frame) (below : list frame)
    (acts : list action) : outcome (list leaf) :=
  match end_of g (f_place fr) with
  | None => Ok []
  | Some b =>
      match below with
      | [] => Ok [Leaf fr [] acts]
      | parent :: rest =>
          match fuel with
          | O => Overflow
          | S f =>
              _ <- enter fuel g (f_set parent) (KRef b) ;;
              refs <- units_of fuel g (f_place parent) (KRef b) ;;
              match refs with
              | [] => Undefined                                (* 3631 *)
              | _ :: _ =>
                  dst <- enter fuel g (f_set parent) (KRef b) ;;
                  ls <- each (fun u =>
                          let acts' := Matched b (f_child parent) i :: acts in
                          if Nat.eqb (u_step u) 0
                          then pop f g i (Frame (to_place u) dst (f_child parent)) rest acts'
                          else pop f g i (Frame (to_place u) dst 0) (parent :: rest) acts')
                        refs ;;
                  Ok (concat ls)
              end
          end
      end
  end.

(* __pick_final_leaves 3559-3585 *)
Definition pick_final (w : world) (l : list leaf) : list leaf :=
  match l with
  | [] => []
  | [x] => [x]
  | _ => firstn 1 (sort w l)
  end.

(* go 2867-2916, the end: whatever is left, the root is reported. *)
Definition go_end (fuel : nat) (g : net) (w : world) (i : nat) (s : state) : outcome state :=
  ls <- each (fun l => pop fuel g i (l_top l) (l_rest l) (l_acts l)) (s_leaves s) ;;
  let s' := execute (State (pick_final w (concat ls)) (s_done s)) in
  Ok (State (s_leaves s') (s_done s' ++ [Matched root_value 0 i])).

(* __reset 2790-2809 *)
Definition start : state := State [Leaf (Frame Top [Top] 0) [] []] [].

(* __analyzer_t::__analyze 4258-4269: the elements one after another, then the
   end. *)
Fixpoint go_all (fuel : nat) (g : net) (w : world) (i : nat) (els : list element)
    (s : state) : outcome state :=
  match els with
  | [] => Ok s
  | e :: r => s' <- go_element fuel g w i e s ;; go_all fuel g w (S i) r s'
  end.

Definition analyze (fuel : nat) (g : net) (w : world) (els : list element) : outcome state :=
  s <- go_all fuel g w 0 els start ;; go_end fuel g w (length els) s.
