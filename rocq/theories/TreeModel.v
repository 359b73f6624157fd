(** Model of the tree of linked nodes and its snapshot: [lr_tree_node_t]
    (algorithm/__collections.h 965-1228), [walk_tree] and [pick_leaves] (1246-1283) and
    [lr_tree_state_t] (1341-1463).

    Memory maps node addresses to nodes.  The vectors of the snapshot are lists (see [VecModel] for
    the vector itself), the queues too.  Allocation never fails. *)

From Coq Require Import ZArith List Bool.
Import ListNotations.
From Verif Require Import CppInt.
Open Scope Z_scope.

Section Tree.
Variable V : Type.

(** The fields of a node, 1220-1223; [None] is [nullptr]. *)
Record node := Node { value : V; first_child : option nat; next_sibling : option nat; parent : option nat }.

(** The nodes so far; [used] is the next free address. *)
Record heap := Heap { used : nat; at_ : nat -> option node }.

Definition no_nodes : heap := Heap 0 (fun _ => None).

Definition store_node (a : nat) (n : node) (h : heap) : heap :=
  Heap (used h) (fun b => if (b =? a)%nat then Some n else at_ h b).

(** [new_obj] followed by the assignment of the value: the pointers of a new node are null, as
    [obj_t()] zero-initialises a class without own default constructor. *)
Definition new_node (v : V) (h : heap) : heap * nat :=
  (Heap (S (used h)) (fun b => if (b =? used h)%nat then Some (Node v None None None) else at_ h b), used h).

(** [append_child], 977-1003: in front of the children.  [None]: no such node. *)
Definition append_child (a : nat) (v : V) (h : heap) : option (heap * nat) :=
  let '(h1, k) := new_node v h in
  match at_ h1 a with
  | None => None
  | Some n => Some (store_node a (Node (value n) (Some k) (next_sibling n) (parent n))
                     (store_node k (Node v None (first_child n) (Some a)) h1), k)
  end.

(** [append_sibling], 1018-1041: after the node itself. *)
Definition append_sibling (a : nat) (v : V) (h : heap) : option (heap * nat) :=
  let '(h1, k) := new_node v h in
  match at_ h1 a with
  | None => None
  | Some n => Some (store_node a (Node (value n) (first_child n) (Some k) (parent n))
                     (store_node k (Node v None (next_sibling n) (parent n)) h1), k)
  end.

(** [each_child], 1170-1190: the addresses of the children, at most [fuel] steps; [None] when
    they do not suffice or a pointer leads nowhere. *)
Fixpoint children (fuel : nat) (h : heap) (p : option nat) : option (list nat) :=
  match p with
  | None => Some []
  | Some a =>
    match fuel with
    | O => None
    | S f => match at_ h a with
             | None => None
             | Some n => match children f h (next_sibling n) with
                         | Some r => Some (a :: r)
                         | None => None
                         end
             end
    end
  end.

(** [walk_tree], 1246-1256: the nodes the callback gets, in order; the root is not among them. *)
Fixpoint walk (fuel : nat) (h : heap) (root : nat) : option (list nat) :=
  match fuel with
  | O => None
  | S f =>
    match at_ h root with
    | None => None
    | Some n =>
      match children f h (first_child n) with
      | None => None
      | Some cs =>
        (fix each (l : list nat) : option (list nat) :=
           match l with
           | [] => Some []
           | c :: r => match walk f h c, each r with
                       | Some a, Some b => Some (c :: a ++ b)
                       | _, _ => None
                       end
           end) cs
      end
    end
  end.

(** [is_leaf], 1086-1089. *)
Definition is_leaf (h : heap) (a : nat) : bool :=
  match at_ h a with Some n => match first_child n with None => true | Some _ => false end | None => false end.

(** [pick_leaves], 1259-1283. *)
Definition pick_leaves (fuel : nat) (h : heap) (root : nat) : option (list nat) :=
  match walk fuel h root with Some l => Some (filter (is_leaf h) l) | None => None end.

(** The loop of [store], 1366-1378, with the bound [fuel]: values and child counts.  Counts
    are [uint8_t]. *)
Fixpoint store_loop (fuel : nat) (h : heap) (queue : list nat) : option (list V * list Z) :=
  match queue with
  | [] => Some ([], [])
  | a :: r =>
    match fuel with
    | O => None
    | S f =>
      match at_ h a with
      | None => None
      | Some n =>
        match children fuel h (first_child n) with
        | None => None
        | Some cs =>
          match store_loop f h (r ++ cs) with
          | Some (ds, ks) => Some (value n :: ds, wrap U8 (Z.of_nat (length cs)) :: ks)
          | None => None
          end
        end
      end
    end
  end.

(** [store], 1357-1379. *)
Definition store (fuel : nat) (h : heap) (tree : option nat) : option (list V * list Z) :=
  match tree with None => Some ([], []) | Some a => store_loop fuel h [a] end.

(** Outcomes of [restore]. *)
Inductive outcome := Restored (h : heap) (root : option nat) | Threw.

(** The inner loop of [restore], 1415-1427: [k] children for [a]; the new nodes and the values left. *)
Fixpoint add_children (k : nat) (a : nat) (last : option nat) (ds : list V) (h : heap) : option (heap * list nat * list V) :=
  match k with
  | O => Some (h, [], ds)
  | S k' =>
    match ds with
    | [] => None
    | v :: ds' =>
      match (match last with None => append_child a v h | Some l => append_sibling l v h end) with
      | None => None
      | Some (h1, c) =>
        match add_children k' a (Some c) ds' h1 with
        | Some (h2, cs, rest) => Some (h2, c :: cs, rest)
        | None => None
        end
      end
    end
  end.

(** The outer loop, 1406-1428; [None] is the exception. *)
Fixpoint restore_loop (ks : list Z) (queue : list nat) (ds : list V) (h : heap) : option heap :=
  match ks with
  | [] => Some h
  | k :: ks' =>
    match queue with
    | [] => None
    | a :: r =>
      match add_children (Z.to_nat k) a None ds h with
      | None => None
      | Some (h1, cs, ds') => restore_loop ks' (r ++ cs) ds' h1
      end
    end
  end.

(** [restore], 1393-1431. *)
Definition restore (ds : list V) (ks : list Z) : outcome :=
  match ds with
  | [] => Restored no_nodes None
  | v :: ds' =>
    let '(h, root) := new_node v no_nodes in
    match restore_loop ks [root] ds' h with
    | Some h1 => Restored h1 (Some root)
    | None => Threw
    end
  end.

End Tree.
