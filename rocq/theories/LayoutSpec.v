(** What a layout has to achieve, without reference to how it is computed. *)

From Coq Require Import ZArith List Bool Permutation Sorting.Sorted.
Import ListNotations.
From Verif Require Import LayoutModel.
Open Scope Z_scope.

(** Two byte (or unit) intervals given by start and size have no element in common. *)
Definition apart (o1 s1 o2 s2 : Z) : Prop :=
  forall a, ~ (o1 <= a < o1 + s1 /\ o2 <= a < o2 + s2).

(** ** Local variables *)

(** How many locals a body declares, and their sizes and kinds in order of declaration. *)
Fixpoint declared (b : block) : list (Z * kind) :=
  match b with
  | BNil => []
  | BVar s k rest => (s, k) :: declared rest
  | BBlock inner rest => declared inner ++ declared rest
  end.

(** For each local, in order of declaration, the locals (by number) that are in scope
    where it is declared: [scope] is what is in scope before the body, [next] the number of the next
    local.  A nested block's locals go out of scope at its end. *)
Fixpoint in_scope (scope : list nat) (next : nat) (b : block) : list (list nat) :=
  match b with
  | BNil => []
  | BVar _ _ rest => scope :: in_scope (next :: scope) (S next) rest
  | BBlock inner rest =>
    in_scope scope next inner ++ in_scope scope (next + length (declared inner)) rest
  end.

(** Locals [i] and [j] can be live at the same time: one is in scope where the other is
    declared. *)
Definition live_together (b : block) (i j : nat) : Prop :=
  (exists l, nth_error (in_scope [] 0 b) j = Some l /\ In i l) \/
  (exists l, nth_error (in_scope [] 0 b) i = Some l /\ In j l).

(** A sort by decreasing size; the order of equal sizes is open. *)
Definition sorts_down (sort : list (nat * Z) -> list (nat * Z)) : Prop :=
  forall l, Permutation l (sort l) /\ StronglySorted (fun a b => snd b <= snd a) (sort l).

(** The layout gives every local an interval of its size inside the frame, and locals that
    can be live together disjoint ones. *)
Definition frame_ok (b : block) (la : layout) : Prop :=
  (forall i s k, nth_error (declared b) i = Some (s, k) ->
     exists o, nth_error (offset_of la) i = Some (Some o) /\ 0 <= o /\ o + s <= 8 * units la) /\
  (forall i j si ki sj kj oi oj, i <> j -> live_together b i j ->
     nth_error (declared b) i = Some (si, ki) -> nth_error (declared b) j = Some (sj, kj) ->
     nth_error (offset_of la) i = Some (Some oi) -> nth_error (offset_of la) j = Some (Some oj) ->
     apart oi si oj sj).

(** An upper bound of the room the locals can take: their sizes and 7 bytes of padding each. *)
Definition room (l : list (Z * kind)) : Z := fold_right (fun x t => fst x + 7 + t) 0 l.

(** ** Fields *)

Definition sorts_fields (sort : list (nat * field) -> list (nat * field)) : Prop :=
  forall l, Permutation l (sort l) /\ StronglySorted field_le (sort l).

(** Sizes that occur: references take whole units; a type that mixes references with other
    data takes more than one unit. *)
Definition field_valid (f : field) : Prop :=
  0 <= f_size f /\
  match f_kind f with
  | KRef => f_size f mod 8 = 0
  | KValue => True
  | KMix => 8 < f_size f
  end.

Definition fields_room (fs : list field) : Z := fold_right (fun f t => f_size f + 7 + t) 0 fs.

(** Alignment a variable of the given size needs: numbers need their own size, bigger
    aggregates a whole unit. *)
Definition alignment (size : Z) : Z :=
  if size <=? 1 then 1 else if size <=? 2 then 2 else if size <=? 4 then 4 else 8.

(** ** Parameters *)

Definition units_of_bytes (n : Z) : Z := (n + 7) / 8.

(** Units the caller pushes for a parameter. *)
Definition pushed (p : param) : Z :=
  match p with PAddr => 1 | PValue s | PExtends s => units_of_bytes s end.

Definition pushed_all (ps : list param) : Z := fold_right (fun p t => pushed p + t) 0 ps.

(** Sizes that fit the 16-bit counters of the compiler. *)
Definition param_valid (p : param) : Prop := match p with PAddr => True | PValue s | PExtends s => 0 <= s < 65528 end.

(** Units pushed for values of the given sizes. *)
Definition unit_sum (l : list Z) : Z := fold_right (fun s t => units_of_bytes s + t) 0 l.

(** The fields of a tuple with their offsets, in declaration order. *)
Definition tuple_fields (w : writes) (fs : list field) : list (Z * Z) :=
  map (fun x => (match lookup w (fst x) with Some o => o | None => 0 end, f_size (snd x))) (combine (seq 0 (length fs)) fs).
