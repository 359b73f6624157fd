(* What it means for a program to be a sentence of a grammar net, said without
   stacks.  Used by PropertiesNet.v.  From the model only the net itself
   (nodes, links, starts), elements and the actions that are reported. *)
From Coq Require Import ZArith List Bool.
From Verif Require Import NetModel.
Import ListNotations.
Local Open Scope nat_scope.

(* The elements that count, with their positions and the reading taken of each. *)
Definition word := list (nat * key).

(* The position of the first element of a word, or of what follows it. *)
Definition first (w : word) (next : nat) : nat :=
  match w with
  | [] => next
  | (i, _) :: _ => i
  end.

(* "branch b matches the elements from .. upto-1" *)
Record report := Report { r_branch : Z; r_from : nat; r_upto : nat }.

(* n is a node branch b may begin with *)
Definition begins (g : net) (b : Z) (n : nat) : Prop :=
  exists s, nt_start g b = Some s /\ In n s.

(* [matches g n w next rs]: the node n stands for the word w, which is followed
   by the element at [next]; rs are the branches found in it, inner ones before
   outer ones, left before right.  A node stands for an element with its key, or
   for a word its branch can be read from.
   [walks g b n w next rs]: reading w from the beginning of branch b one can
   arrive at node n. *)
Inductive matches (g : net) : nat -> word -> nat -> list report -> Prop :=
| match_element n i next :
    matches g n [(i, nd_key (nt_node g n))] next []
| match_branch n b m w next rs :
    nd_key (nt_node g n) = KRef b ->
    walks g b m w next rs ->
    nd_end (nt_node g m) = Some b ->
    matches g n w next (rs ++ [Report b (first w next) next])
with walks (g : net) : Z -> nat -> word -> nat -> list report -> Prop :=
| walk_start b n w next rs :
    begins g b n -> matches g n w next rs -> walks g b n w next rs
| walk_next b m n w1 w2 next rs1 rs2 :
    walks g b m w1 (first w2 next) rs1 ->
    In n (nd_next (nt_node g m)) ->
    matches g n w2 next rs2 ->
    walks g b n (w1 ++ w2) next (rs1 ++ rs2).

(* A word is a sentence: it can be read from the beginning of the root to its
   end. *)
Definition sentence (g : net) (w : word) (next : nat) (rs : list report) : Prop :=
  exists n, walks g root_value n w next rs /\ nd_end (nt_node g n) = Some root_value.

(* A word is the beginning of a sentence. *)
Definition sentence_start (g : net) (w : word) : Prop :=
  exists w' next rs, sentence g (w ++ w') next rs.

(* The readings of a program: of every element one key is taken, or it is passed
   over because a key of it is invisible.  The last list says which key was
   taken of the elements that have several. *)
Definition choice (e : element) (i : nat) (k : key) : list (nat * Z) :=
  match e with
  | One _ => []
  | Several _ => [(i, key_value k)]
  end.

Inductive reads (invisible : Z -> bool) : nat -> list element -> word -> list (nat * Z) -> Prop :=
| reads_end i : reads invisible i [] [] []
| reads_take i e k els w c :
    In k (keys_of e) -> reads invisible (S i) els w c ->
    reads invisible i (e :: els) ((i, k) :: w) (choice e i k ++ c)
| reads_skip i e k els w c :
    In k (keys_of e) -> invisible (key_value k) = true -> reads invisible (S i) els w c ->
    reads invisible i (e :: els) w (choice e i k ++ c).

(* What an analysis reported, and what it last wrote as the reading of an
   element. *)
Fixpoint reports (l : list action) : list report :=
  match l with
  | [] => []
  | Assign _ _ :: r => reports r
  | Matched b i j :: r => Report b i j :: reports r
  end.

Fixpoint written (l : list action) (i : nat) (v : option Z) : option Z :=
  match l with
  | [] => v
  | Assign j x :: r => written r i (if Nat.eqb j i then Some x else v)
  | Matched _ _ _ :: r => written r i v
  end.

(* A net is tidy when every node belongs to one branch: the links of a node stay
   in its branch and an end it has is the end of its branch.  Nets made from
   grammars are. *)
Definition tidy (g : net) : Prop :=
  exists own : nat -> Z,
    (forall b n, begins g b n -> own n = b) /\
    (forall n m, In m (nd_next (nt_node g n)) -> own m = own n) /\
    (forall n b, nd_end (nt_node g n) = Some b -> own n = b).

(* Nothing in the net is a dead end: from every node links lead to an end,
   and the root has a beginning. *)
Inductive finishes (g : net) : nat -> Prop :=
| finish_here n b : nd_end (nt_node g n) = Some b -> finishes g n
| finish_later n m : In m (nd_next (nt_node g n)) -> finishes g m -> finishes g n.

Definition no_dead_ends (g : net) : Prop :=
  (exists n, begins g root_value n) /\ forall n, finishes g n.

(* The expansion of a net comes to an end: there is an order of the branches
   (with numbers up to m) that goes down at every reference a branch can begin
   with and that is expanded; and one that goes down at every reference a branch
   can begin and end with.  Grammars without left recursion have both. *)
Definition grounded (g : net) (m : nat) : Prop :=
  (exists rank : Z -> nat,
     (forall b, rank b <= m) /\
     forall b n b', begins g b n -> nd_key (nt_node g n) = KRef b' ->
       nd_expandable (nt_node g n) = true -> rank b' < rank b) /\
  (exists rank : Z -> nat,
     (forall b, rank b <= m) /\
     forall b n b', begins g b n -> nd_key (nt_node g n) = KRef b' ->
       nd_end (nt_node g n) <> None -> rank b' < rank b).

(* The second of these alone: no branch is its own only part, not even through
   others. *)
Definition no_unit_cycle (g : net) (m : nat) : Prop :=
  exists rank : Z -> nat,
    (forall b, rank b <= m) /\
    forall b n b', begins g b n -> nd_key (nt_node g n) = KRef b' ->
      nd_end (nt_node g n) <> None -> rank b' < rank b.

(* Branch b can begin with branch b'. *)
Definition starts_with (g : net) (b b' : Z) : Prop :=
  exists n, begins g b n /\ nd_key (nt_node g n) = KRef b' /\ nt_start g b' <> None.

(* A grammar that can be read with one element of lookahead (LL(1)).
   [reach g p path n]: directly after place p the node n may come, when the
   branches of [path] are entered one inside the other.
   [follows g b k]: k may come after the end of branch b. *)
Inductive reach (g : net) (p : place) : list Z -> nat -> Prop :=
| reach_link n : In n (links g p) -> reach g p [] n
| reach_into path r b n :
    reach g p path r -> nd_key (nt_node g r) = KRef b -> begins g b n ->
    reach g p (path ++ [b]) n.

Inductive follows (g : net) (k : key) : Z -> Prop :=
| follow_direct b r path n :
    nd_key (nt_node g r) = KRef b -> reach g (At r) path n -> nd_key (nt_node g n) = k ->
    follows g k b
| follow_end b r b' :
    nd_key (nt_node g r) = KRef b -> nd_end (nt_node g r) = Some b' -> follows g k b' ->
    follows g k b.

Record ll1 (g : net) : Prop := LL1 {
  (* references name branches that exist, are expanded, and not the root *)
  ll1_refs : forall n b, nd_key (nt_node g n) = KRef b ->
    nd_expandable (nt_node g n) = true /\ nd_dead (nt_node g n) = false /\
    nt_start g b <> None /\ b <> root_value;
  (* what comes next says where one is *)
  ll1_next : forall p path1 n1 path2 n2,
    reach g p path1 n1 -> reach g p path2 n2 ->
    nd_key (nt_node g n1) = nd_key (nt_node g n2) -> path1 = path2 /\ n1 = n2;
  (* and whether a branch that may end here does *)
  ll1_end : forall n b path r, nd_end (nt_node g n) = Some b ->
    reach g (At n) path r -> ~ follows g (nd_key (nt_node g r)) b
}.

(* A program of plain elements, and the word it is: its elements numbered. *)
Definition plain (ks : list key) : list element := map One ks.
Definition numbered (ks : list key) : word := combine (seq 0 (length ks)) ks.
