(** Where variables live: local variables of a method (modules/rt/layout.cpp 435-702,
    numbered by modules/core/core.cpp 6120-6251), parameters (layout.cpp 741-816), fields
    of a type (modules/rt/__layout.h 488-553) and the stores that fill a tuple
    (__layout.h 42-82, modules/rtlib/array.cpp 148-178). *)

From Coq Require Import ZArith List Bool Arith.
Import ListNotations.
From Verif Require Import CppInt CommonModel ArrayModel.
Open Scope Z_scope.

(** [msize_t] is [uint16_t]: every stored offset is reduced modulo 65536. *)
Definition u16 (z : Z) : Z := wrap U16 z.

(** [unit_align], __layout.h 11-28, with its result converted to [msize_t]. *)
Definition ualign (offset size : Z) : Z := u16 (unit_align offset size).

(** [unit_size_of], __layout.h 37-40. *)
Definition unit_size_of (size : Z) : Z := u16 (alignf size 8 / 8).

(** [storage_type_t]: ref, value, mixture, in this order. *)
Inductive kind := KRef | KValue | KMix.

Definition kind_eqb (a b : kind) : bool :=
  match a, b with KRef, KRef | KValue, KValue | KMix, KMix => true | _, _ => false end.

Definition kind_rank (k : kind) : Z := match k with KRef => 0 | KValue => 1 | KMix => 2 end.

(** ** Numbering of local variables *)

(** A method body as far as its local variables are concerned: a sequence of
    declarations (size and storage kind of the type) and nested blocks. *)
Inductive block :=
| BNil
| BVar (size : Z) (k : kind) (rest : block)
| BBlock (inner rest : block).

(** [local_variable_defination_t] with the type already replaced by its size and kind. *)
Record def := Def { d_index : nat; d_size : Z; d_kind : kind }.

(** [variable_region_t::define_local], core.cpp 6121-6146, 6214-6251: the index of a
    local is the number of locals its region and the enclosing regions hold so far (a
    region's counter starts from the enclosing one's); the identity, the position in the
    table of locals, is a running counter of the method.  The counters are [msize_t]; a
    method with 65535 locals is outside this model. *)
Fixpoint number (n : nat) (b : block) : list def :=
  match b with
  | BNil => []
  | BVar s k rest => Def n s k :: number (S n) rest
  | BBlock inner rest => number n inner ++ number n rest
  end.

(** ** locals_layout_t: appending *)

(** [__item_t], __layout.h 301-323, without the type; [pos] is its position in its group. *)
Record item := Item { it_index : nat; it_size : Z; it_kind : kind; new_index : nat; pos : nat }.

(** [__partial_t], __layout.h 331-347: index and begin. *)
Definition partial := (nat * nat)%type.

(** [__group_t], __layout.h 351-363; sizes of the items and the partials, in order. *)
Record group := Group { g_index : nat; is_reset : bool; g_sizes : list Z; partials : list partial }.

(** The items, latest first, and the groups. *)
Record lstate := LState { items : list item; groups : kind -> group }.

Definition linit : lstate := LState [] (fun _ => Group 0 true [] []).

(** [__find_reset_index], layout.cpp 447-463; the list is scanned latest first. *)
Fixpoint find_reset_index (its : list item) (index : nat) (k : kind) : nat :=
  match its with
  | [] => 0%nat
  | it :: r =>
    if ((index <? it_index it)%nat || negb (kind_eqb (it_kind it) k))%bool
    then find_reset_index r index k
    else if (it_index it =? index)%nat then new_index it
    else S (new_index it)
  end.

(** [__group_t::reset], layout.cpp 516-520. *)
Definition reset (g : group) (index : nat) : group := Group index true (g_sizes g) (partials g).

(** [__group_t::append], layout.cpp 499-513. *)
Definition group_append (g : group) (size : Z) : group :=
  Group (S (g_index g)) false (g_sizes g ++ [size])
    (if is_reset g then partials g ++ [(g_index g, length (g_sizes g))] else partials g).

(** [locals_layout_t::append], layout.cpp 466-488. *)
Definition append (st : lstate) (d : def) : lstate :=
  let groups1 :=
    match items st with
    | last :: _ =>
      if (d_index d <=? it_index last)%nat
      then fun k => reset (groups st k) (find_reset_index (items st) (d_index d) k)
      else groups st
    | [] => groups st
    end in
  let g := groups1 (d_kind d) in
  LState (Item (d_index d) (d_size d) (d_kind d) (g_index g) (length (g_sizes g)) :: items st)
    (fun k => if kind_eqb k (d_kind d) then group_append g (d_size d) else groups1 k).

Definition append_all (ds : list def) : lstate := fold_left append ds linit.

(** ** locals_layout_t: committing *)

(** Offsets assigned so far, the latest assignment of a position first. *)
Definition writes := list (nat * Z).

Fixpoint lookup (w : writes) (p : nat) : option Z :=
  match w with
  | [] => None
  | (q, o) :: r => if (q =? p)%nat then Some o else lookup r p
  end.

(** Result of an arrangement; [Undef] is undefined behaviour (an iterator range that is
    reversed or leaves the vector, or a dereferenced end iterator), [OutOfFuel] is excluded by a lemma. *)
Inductive outcome (A : Type) := Done (a : A) | Undef | OutOfFuel.
Arguments Done {A}. Arguments Undef {A}. Arguments OutOfFuel {A}.

(** First loop of [__set_offsets], layout.cpp 665-681: [rl] is the range from its last
    item to its first, [s0] the size of the first.  Returns the offset, the
    assignments and what is left of the range (still reversed). *)
Fixpoint fill (s0 target offset : Z) (rl : list (nat * Z)) : Z * writes * list (nat * Z) :=
  match rl with
  | [] => (offset, [], [])
  | (p, s) :: r =>
    match r with
    | [] => (offset, [], rl)
    | _ =>
      if ualign offset s0 =? offset then (offset, [], rl)
      else
        let offset0 := u16 (ualign offset s + s) in
        if offset0 <=? target then
          if target <=? offset0 then (offset0, [(p, offset)], r)
          else let '(o, w, l) := fill s0 target offset0 r in (o, w ++ [(p, offset)], l)
        else (offset, [], rl)
    end
  end.

(** Second loop of [__set_offsets], layout.cpp 683-692. *)
Fixpoint place (offset : Z) (l : list (nat * Z)) : Z * writes :=
  match l with
  | [] => (offset, [])
  | (p, s) :: r =>
    let '(o, w) := place (u16 (ualign offset s + s)) r in (o, w ++ [(p, offset)])
  end.

Section Commit.

(** The sort of a range by decreasing size, layout.cpp 661-663; [std::sort] leaves the
    order of equal sizes open, so the sort is a parameter. *)
Variable sort : list (nat * Z) -> list (nat * Z).

(** [__set_offsets] on the (position, size) pairs of a range, layout.cpp 656-693.
    Simplification: the code sorts the range of the vector itself; here a copy is
    sorted.  The arrangement always cuts the vector into the same ranges, so no later
    range sees the items of two sorted ranges mixed. *)
Definition set_offsets (offset : Z) (l : list (nat * Z)) : Z * writes :=
  match sort l with
  | [] => (offset, [])
  | (p0, s0) :: t =>
    let target := ualign offset s0 in
    let '(o1, w1, rest) := fill s0 target offset (rev ((p0, s0) :: t)) in
    let '(o2, w2) := place o1 (rev rest) in
    (o2, w2 ++ w1)
  end.

(** The items of a group at positions [b], ..., [e - 1]. *)
Definition range (sizes : list Z) (b e : nat) : list (nat * Z) :=
  firstn (e - b) (skipn b (combine (seq 0 (length sizes)) sizes)).

(** [__set_offsets] on a range of the vector of a group; the first item is read
    (line 665) even when the range is empty. *)
Definition set_range (sizes : list Z) (offset : Z) (b e : nat) : outcome (Z * writes) :=
  if ((e <? b) || (length sizes <? e) || (length sizes <=? b))%nat%bool then Undef
  else Done (set_offsets offset (range sizes b e)).

(** [__min_index], layout.cpp 632-653; [None] for [__empty_msize]. *)
Fixpoint min_index (i : nat) (acc : option nat) (tail : list partial) : option nat * option nat :=
  match tail with
  | [] => (acc, None)
  | (j, b) :: r =>
    if (j <=? i)%nat then (acc, Some b)
    else min_index i (Some (match acc with None => j | Some m => Nat.min j m end)) r
  end.

(** End of the range handled first, layout.cpp 563-569. *)
Definition first_end (n i b : nat) (m : option nat * option nat) : nat :=
  match m with
  | (Some c, _) => (b + (c - i))%nat
  | (None, Some e) => e
  | (None, None) => n
  end.

(** Loop over the following partials, layout.cpp 582-590. *)
Fixpoint each_child (call : nat -> nat -> list partial -> outcome (Z * writes)) (i c : nat)
    (tail : list partial) (acc : Z) : outcome (Z * writes) :=
  match tail with
  | [] => Done (acc, [])
  | (j, b) :: r =>
    if (j <=? i)%nat then Done (acc, [])
    else if (j =? c)%nat then
      match call j b r with
      | Done (o, w) =>
        match each_child call i c r (Z.max acc o) with
        | Done (o', w') => Done (o', w' ++ w)
        | Undef => Undef | OutOfFuel => OutOfFuel
        end
      | Undef => Undef | OutOfFuel => OutOfFuel
      end
    else each_child call i c r acc
  end.

(** [__arrange_variables_f] with [__set_offsets] and [__arrange_variables],
    layout.cpp 557-614.  [(i, b)] is the first partial, [tail] the others. *)
Fixpoint arrange (sizes : list Z) (fuel : nat) (offset : Z) (i b : nat) (tail : list partial)
  : outcome (Z * writes) :=
  match fuel with
  | O => OutOfFuel
  | S f =>
    let m := min_index i None tail in
    let e := first_end (length sizes) i b m in
    match set_range sizes offset b e with
    | Done (new_offset, w0) =>
      match fst m with
      | Some c =>
        match arrange sizes f new_offset c e tail with
        | Done (o1, w1) =>
          match each_child (arrange sizes f new_offset) i c tail (Z.max 0 o1) with
          | Done (o2, w2) => Done (Z.max new_offset o2, w2 ++ w1 ++ w0)
          | Undef => Undef | OutOfFuel => OutOfFuel
          end
        | Undef => Undef | OutOfFuel => OutOfFuel
        end
      | None =>
        match tail with
        | (i1, b1) :: tail1 =>
          match arrange sizes f offset i1 b1 tail1 with
          | Done (o, w) => Done (Z.max new_offset o, w ++ w0)
          | Undef => Undef | OutOfFuel => OutOfFuel
          end
        | [] => Done (new_offset, w0)
        end
      end
    | Undef => Undef | OutOfFuel => OutOfFuel
    end
  end.

(** [__arrange_mixture_variables], layout.cpp 617-629: the ranges are only collected,
    except that those of the child calls are placed from offset 0 at once; the
    collected items are placed from [offset]. *)
Definition copy_range (sizes : list Z) (b e : nat) : outcome (list (nat * Z)) :=
  if ((e <? b) || (length sizes <? e))%nat%bool then Undef else Done (range sizes b e).

(** [__set_offsets] on the collected items; an empty vector is dereferenced. *)
Definition place_collected (offset : Z) (r : outcome (list (nat * Z) * writes)) : outcome (Z * writes) :=
  match r with
  | Done ([], _) => Undef
  | Done (its, w) => let '(o, w') := set_offsets offset its in Done (o, w' ++ w)
  | Undef => Undef | OutOfFuel => OutOfFuel
  end.

Fixpoint collect (sizes : list Z) (fuel : nat) (i b : nat) (tail : list partial)
  : outcome (list (nat * Z) * writes) :=
  match fuel with
  | O => OutOfFuel
  | S f =>
    let m := min_index i None tail in
    let e := first_end (length sizes) i b m in
    match copy_range sizes b e with
    | Done its =>
      match fst m with
      | Some c =>
        match place_collected 0 (collect sizes f c e tail) with
        | Done (_, w1) =>
          match each_child (fun i b t => place_collected 0 (collect sizes f i b t)) i c tail 0 with
          | Done (_, w2) => Done (its, w2 ++ w1)
          | Undef => Undef | OutOfFuel => OutOfFuel
          end
        | Undef => Undef | OutOfFuel => OutOfFuel
        end
      | None =>
        match tail with
        | (i1, b1) :: tail1 =>
          match collect sizes f i1 b1 tail1 with
          | Done (its', w) => Done (its ++ its', w)
          | Undef => Undef | OutOfFuel => OutOfFuel
          end
        | [] => Done (its, [])
        end
      end
    | Undef => Undef | OutOfFuel => OutOfFuel
    end
  end.

(** Enough recursion for a group with these partials. *)
Definition depth (ps : list partial) : nat := S (S (length ps) * S (length ps)).

(** One turn of the loop of [commit], layout.cpp 526-550. *)
Definition commit_group (k : kind) (g : group) (offset : Z) : outcome (Z * writes) :=
  match partials g with
  | [] => Done (offset, [])
  | (i, b) :: tail =>
    match k with
    | KMix => place_collected offset (collect (g_sizes g) (depth (partials g)) i b tail)
    | _ => arrange (g_sizes g) (depth (partials g)) offset i b tail
    end
  end.

(** The finished layout: units reserved, [offset_of] by identity (an item whose offset
    was never assigned has none). *)
Record layout := Layout { units : Z; offset_of : list (option Z) }.

(** [commit], layout.cpp 523-553, and [offset_of], 696-702. *)
Definition commit (st : lstate) : outcome layout :=
  match commit_group KRef (groups st KRef) 0 with
  | Done (o1, w1) =>
    match commit_group KValue (groups st KValue) o1 with
    | Done (o2, w2) =>
      match commit_group KMix (groups st KMix) o2 with
      | Done (o3, w3) =>
        Done (Layout (u16 (ualign o3 8 / 8))
          (map (fun it => lookup (match it_kind it with KRef => w1 | KValue => w2 | KMix => w3 end)
                            (pos it)) (rev (items st))))
      | Undef => Undef | OutOfFuel => OutOfFuel
      end
    | Undef => Undef | OutOfFuel => OutOfFuel
    end
  | Undef => Undef | OutOfFuel => OutOfFuel
  end.

(** Reading the table of locals of a method, modules/exec/parser.cpp 166-170. *)
Definition layout_of (ds : list def) : outcome layout := commit (append_all ds).

End Commit.

(** ** params_layout_t *)

(** A parameter: passed by reference, out or [this] (one unit), or a value of [size] bytes. *)
Inductive param := PAddr | PValue (size : Z) | PExtends (size : Z).

(** Units it takes, layout.cpp 781-783. *)
Definition param_units (p : param) : Z :=
  match p with PAddr => 1 | PValue s | PExtends s => unit_size_of s end.

(** [__items] (offsets), [__current_offset] and [__extends_params_offset]; the last is an
    [msize_t] initialised with -1, that is 65535 (__layout.h 469). *)
Record pstate := PState { p_items : list Z; p_current : Z; p_extends : Z }.

Definition pinit : pstate := PState [] 0 65535.

(** [append], layout.cpp 742-787; expansion of generic parameter packs is left out. *)
Definition pappend (st : pstate) (p : param) : pstate :=
  let ext := match p with
             | PExtends _ => if p_extends st <? 0 then p_current st else p_extends st
             | _ => p_extends st
             end in
  PState (p_items st ++ [p_current st]) (u16 (p_current st + param_units p)) ext.

Definition params_layout (ps : list param) : pstate := fold_left pappend ps pinit.

(** [offset_of], layout.cpp 796-807; [None] is the range error. *)
Definition param_offset (st : pstate) (identity : nat) : option Z :=
  match nth_error (p_items st) identity with
  | Some o => Some (u16 (p_current st - o))
  | None => if (identity =? length (p_items st))%nat then Some 0 else None
  end.

(** [extends_offset], layout.cpp 810-816. *)
Definition extends_offset (st : pstate) : Z :=
  if p_extends st <? 0 then 0 else u16 (p_current st - p_extends st).

(** Address, in units, of a parameter, from the frame pointer: modules/exec/commands.cpp
    812-813 and 825, [lp - (offset + __stack_stub_size)]; the stub is three units (130). *)
Definition param_address (st : pstate) (lp : Z) (identity : nat) : option Z :=
  match param_offset st identity with Some o => Some (lp - (o + 3)) | None => None end.

(** Address pushed for the variable parameters, commands.cpp 1508-1511 and 2705. *)
Definition extends_address (st : pstate) (lp : Z) : Z := lp - extends_offset st - 1.

(** ** type_layout_t *)

(** A field: storage kind and size of a variable of its type. *)
Record field := Field { f_kind : kind; f_size : Z }.

(** The order of [commit], __layout.h 515-518. *)
Definition field_le (a b : nat * field) : Prop :=
  kind_rank (f_kind (snd a)) < kind_rank (f_kind (snd b)) \/
  (f_kind (snd a) = f_kind (snd b) /\ f_size (snd a) <= f_size (snd b)).

(** The loop of [commit], __layout.h 522-531: offsets by field number and the end. *)
Fixpoint place_fields (offset : Z) (l : list (nat * field)) : Z * writes :=
  match l with
  | [] => (offset, [])
  | (p, f) :: r =>
    let o := ualign offset (f_size f) in
    let '(e, w) := place_fields (u16 (o + f_size f)) r in (e, (p, o) :: w)
  end.

(** [type_layout_t] for fields appended in declaration order, __layout.h 496-540; [sort]
    is the unspecified-on-ties sort.  Returns the size of the type and the offsets. *)
Definition type_layout (sort : list (nat * field) -> list (nat * field)) (base : Z)
    (fs : list field) : Z * writes :=
  place_fields base (sort (combine (seq 0 (length fs)) fs)).

(** Storage kind of the finished type, __layout.h 520-535. *)
Fixpoint join_kind (acc : option kind) (l : list (nat * field)) : kind :=
  match l with
  | [] => match acc with Some k => k | None => KValue end
  | (_, f) :: r =>
    join_kind (Some (match acc with
                     | None => f_kind f
                     | Some k => if kind_eqb k (f_kind f) then k else KMix
                     end)) r
  end.

Definition type_kind (sort : list (nat * field) -> list (nat * field)) (fs : list field) : kind :=
  join_kind None (sort (combine (seq 0 (length fs)) fs)).

(** ** Filling a tuple *)

(** Byte-addressed memory. *)
Definition mem := Z -> Z.

(** An assignment of [n] bytes, [set_variable_value_t], __layout.h 42-47. *)
Definition copy (n : Z) (m : mem) (dst : Z) (from : mem) (src : Z) : mem :=
  fun a => if (dst <=? a) && (a <? dst + n) then from (src + (a - dst)) else m a.

(** [set_variable_value], __layout.h 49-82, with the number of recursive calls bounded by
    [k]; [None] when the bound is reached (excluded by a lemma). *)
Fixpoint set_value (k : nat) (m : mem) (dst : Z) (from : mem) (src size : Z) : option mem :=
  if size =? 0 then Some m
  else if size =? 1 then Some (copy 1 m dst from src)
  else if size =? 2 then Some (copy 2 m dst from src)
  else if (size =? 3) || (size =? 4) then Some (copy 4 m dst from src)
  else if size <=? 8 then Some (copy 8 m dst from src)
  else match k with
       | O => None
       | S k' => set_value k' (copy 8 m dst from src) (dst + 8) from (src + 8) (size - 8)
       end.

Definition set_variable_value (m : mem) (dst : Z) (from : mem) (src size : Z) : option mem :=
  set_value (Z.to_nat (size / 8)) m dst from src size.

(** [tuple_set_range], modules/rtlib/array.cpp 153-178: the fields of the tuple at address [obj] are
    given as (offset, size) in declaration order, the arguments start at [arg]. *)
Fixpoint tuple_set (m : mem) (obj : Z) (fs : list (Z * Z)) (from : mem) (arg : Z) : option mem :=
  match fs with
  | [] => Some m
  | (off, size) :: r =>
    match set_variable_value m (obj + off) from arg size with
    | Some m' => tuple_set m' obj r from (arg + 8 * unit_size_of size)
    | None => None
    end
  end.
