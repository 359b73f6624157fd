(** Model of the object heaps: [heap_t] and [heap_t<obj_t[]>]
    (algorithm/__collections.h 64-424) and [xheap_t] (428-478, algorithm/collections.cpp 6-136).

    Counters are unbounded integers (the code uses [int] and [size_t]). *)

From Coq Require Import ZArith List Bool.
Import ListNotations.
From Verif Require Import CommonModel.
Open Scope Z_scope.

(** ** heap_t<obj_t> *)

Section Heap.
Variable V : Type.
(** Objects per row, [__row_size]. *)
Variable rs : Z.

(** Contents of the rows: row, column; [None] where no object has been made yet. *)
Definition cells := Z -> Z -> option V.

(** The fields of [heap_t], 226-230.  [rows] is [__pool.size()], [ptr] the row
    [__current_row_ptr] points to. *)
Record heap := Heap {
  rows : Z; cell : cells; ptr : option Z; col : Z; row : Z; size : Z
}.

Definition empty : heap := Heap 0 (fun _ _ => None) None 0 (-1) 0.

(** [__Copy], 255-260: [n] objects within the rows.  The copy behaves as a move of
    overlapping regions (see [quick_copy]; objects of at least four bytes).  [None] is undefined
    behaviour: a row that does not exist, or objects outside a row.  Nothing is accessed when [n]
    is zero. *)
Definition copy (h_rows dr dc sr sc n : Z) (c : cells) : option cells :=
  if negb ((0 <=? dr) && (dr <? h_rows) && (0 <=? sr) && (sr <? h_rows)) then None
  else if n =? 0 then Some c
  else if negb ((0 <=? n) && (0 <=? dc) && (dc + n <=? rs) && (0 <=? sc) && (sc + n <=? rs)) then None
  else Some (fun r k => if (r =? dr) && (dc <=? k) && (k <? dc + n) then c sr (sc + (k - dc)) else c r k).

(** [__current_hole], 233-253: the new state and the row and column of the hole. *)
Definition current_hole (h : heap) : heap * (Z * Z) :=
  let h1 :=
    if match ptr h with None => true | Some _ => rs <=? col h end then
      let r := row h + 1 in
      if r <? rows h then Heap (rows h) (cell h) (Some r) 0 r (size h)
      else Heap (rows h + 1) (cell h) (Some (rows h)) 0 r (size h)
    else h in
  let p := match ptr h1 with Some p => p | None => 0 end in
  (Heap (rows h1) (cell h1) (ptr h1) (col h1 + 1) (row h1) (size h1 + 1), (p, col h1)).

Definition write (r k : Z) (v : V) (c : cells) : cells :=
  fun r' k' => if (r' =? r) && (k' =? k) then Some v else c r' k'.

Definition set_cell (h : heap) (c : cells) : heap := Heap (rows h) c (ptr h) (col h) (row h) (size h).

(** [new_obj], 86-93. *)
Definition new_obj (v : V) (h : heap) : heap :=
  let '(h1, (r, k)) := current_hole h in set_cell h1 (write r k v (cell h1)).

(** The loop of [__move_next], 275-279: [n] turns downwards from row [r]. *)
Fixpoint shift_rows (h_rows : Z) (n : nat) (r : Z) (c : cells) : option cells :=
  match n with
  | O => Some c
  | S n' =>
    match copy h_rows (r + 1) 0 r (rs - 1) 1 c with
    | Some c1 =>
      match copy h_rows r 1 r 0 (rs - 1) c1 with
      | Some c2 => shift_rows h_rows n' (r - 1) c2
      | None => None
      end
    | None => None
    end
  end.

(** [__move_next], 263-290: the new state and the row and column of the hole. *)
Definition move_next (index : Z) (h : heap) : option (heap * (Z * Z)) :=
  let '(h1, _) := current_hole h in
  let fr := index / rs in
  let fc := index mod rs in
  let r := row h1 in
  let k := col h1 - 1 in
  let moved :=
    if fr <? r then
      match copy (rows h1) r 1 r 0 k (cell h1) with
      | Some c1 =>
        match shift_rows (rows h1) (Z.to_nat (r - 1 - fr)) (r - 1) c1 with
        | Some c2 =>
          match copy (rows h1) (fr + 1) 0 fr (rs - 1) 1 c2 with
          | Some c3 => copy (rows h1) fr (fc + 1) fr fc (rs - fc - 1) c3
          | None => None
          end
        | None => None
        end
      | None => None
      end
    else copy (rows h1) fr (fc + 1) fr fc (k - fc) (cell h1) in
  match moved with
  | Some c => Some (set_cell h1 c, (fr, fc))
  | None => None
  end.

(** The loop of [__move_previous], 302-306: [n] turns upwards from row [r]. *)
Fixpoint pull_rows (h_rows : Z) (n : nat) (r : Z) (c : cells) : option cells :=
  match n with
  | O => Some c
  | S n' =>
    match copy h_rows (r - 1) (rs - 1) r 0 1 c with
    | Some c1 =>
      match copy h_rows r 0 r 1 (rs - 1) c1 with
      | Some c2 => pull_rows h_rows n' (r + 1) c2
      | None => None
      end
    | None => None
    end
  end.

(** [__move_previous], 293-326. *)
Definition move_previous (index : Z) (h : heap) : option heap :=
  let fr := index / rs in
  let fc := index mod rs in
  let r := row h in
  let k := col h - 1 in
  let moved :=
    if fr <? r then
      match copy (rows h) fr (fc - 1) fr fc (rs - fc) (cell h) with
      | Some c1 =>
        match pull_rows (rows h) (Z.to_nat (r - 1 - fr)) (fr + 1) c1 with
        | Some c2 => copy (rows h) r 0 r 1 k c2
        | None => None
        end
      | None => None
      end
    else copy (rows h) fr (fc - 1) fr fc (k - fc + 1) (cell h) in
  match moved with
  | Some c =>
    if col h =? 0
    then Some (Heap (rows h) c (Some (r - 1)) (rs - 1) (r - 1) (size h - 1))
    else Some (Heap (rows h) c (ptr h) (col h - 1) r (size h - 1))
  | None => None
  end.

(** Operations. *)
Inductive op := New (v : V) | Insert (index : Z) (v : V) | Delete (index : Z) | Clear.

(** [Threw] leaves the state as it was; [Undefined] is undefined behaviour. *)
Inductive result := Went (h : heap) | Threw | Undefined.

(** [new_obj], [insert] (109-124), [delete_] (127-135) and [clear] (159-167). *)
Definition step (h : heap) (o : op) : result :=
  match o with
  | New v => Went (new_obj v h)
  | Insert index v =>
    if index =? size h then Went (new_obj v h)
    else if size h <? index then Threw
    else match move_next index h with
         | Some (h1, (r, k)) => Went (set_cell h1 (write r k v (cell h1)))
         | None => Undefined
         end
  | Delete index =>
    if size h <=? index then Threw
    else match move_previous (index + 1) h with
         | Some h1 => Went h1
         | None => Undefined
         end
  | Clear => Went (Heap (rows h) (cell h) None 0 (-1) 0)
  end.

(** A history; an exception is caught by the caller, who goes on. *)
Fixpoint run (h : heap) (os : list op) : option heap :=
  match os with
  | [] => Some h
  | o :: r => match step h o with
              | Went h1 => run h1 r
              | Threw => run h r
              | Undefined => None
              end
  end.

(** [operator []], 144-147. *)
Definition get (h : heap) (index : Z) : option V := cell h (index / rs) (index mod rs).

(** [last], 150-156: [None] for [nullptr], else the row and column. *)
Definition last (h : heap) : option (Z * Z) :=
  match ptr h with None => None | Some p => Some (p, col h - 1) end.

End Heap.

(** ** heap_t<obj_t[]> *)

(** A block in a buffer: the buffer's number, offset and size in objects. *)
Record blk := Blk { b_buf : Z; b_off : Z; b_size : Z }.

(** The fields of [heap_t<obj_t[]>], 407-413: the lengths of the buffers so far, latest
    first (buffer [k] is the [k]-th one made), the current row (buffer, column, size). *)
Record aheap := AHeap { a_bufs : list Z; a_cur : option (Z * Z * Z) }.

Definition aempty : aheap := AHeap [] None.

(** [acquire], 359-383. *)
Definition acquire (rs n : Z) (h : aheap) : aheap * blk :=
  let need := match a_cur h with None => true | Some (_, c, s) => s - c <? n end in
  let id := Z.of_nat (length (a_bufs h)) in
  if need && (rs <=? n) then (AHeap (n :: a_bufs h) (a_cur h), Blk id 0 n)
  else
    let '(bufs, (b, c, s)) :=
      if need then (rs :: a_bufs h, (id, 0, rs))
      else (a_bufs h, match a_cur h with Some x => x | None => (0, 0, 0) end) in
    (AHeap bufs (Some (b, c + n, s)), Blk b c n).

(** The blocks handed out, latest first. *)
Fixpoint acquire_all (rs : Z) (ns : list Z) (h : aheap) (got : list blk) : aheap * list blk :=
  match ns with
  | [] => (h, got)
  | n :: r => let '(h1, b) := acquire rs n h in acquire_all rs r h1 (b :: got)
  end.

(** ** xheap_t *)

(** A row: buffer number and [object_count]. *)
Definition xrow := (Z * Z)%type.

(** [__row_collection_t], __collections.h 463-469; the rows latest first, so the current row is the first. *)
Record coll := Coll { c_rows : list xrow; c_bytes : Z }.

(** [xheap_t]: the lengths of the buffers so far, latest first; the collections, by class; the large blocks
    (buffer numbers). *)
Record xheap := XHeap {
  x_bufs : list Z; x_colls : nat -> coll; large_objs : list Z; large_bytes : list Z
}.

Definition xempty : xheap := XHeap [] (fun _ => Coll [] 0) [] [].

(** [rc.capacity], collections.cpp 18. *)
Definition capacity (k : nat) : Z := 1024 / (4 * Z.of_nat (S k)).

(** [alloc], collections.cpp 25-66; [None] is undefined behaviour (a request of size 0
    indexes the collections below 0). *)
Definition xalloc (n : Z) (is_object : bool) (h : xheap) : option (xheap * blk) :=
  let new_size := alignf n 4 in
  let id := Z.of_nat (length (x_bufs h)) in
  if 128 <? new_size then
    Some (XHeap (new_size :: x_bufs h) (x_colls h)
            (if is_object then id :: large_objs h else large_objs h)
            (if is_object then large_bytes h else id :: large_bytes h), Blk id 0 n)
  else if new_size =? 0 then None
  else
    let k := Z.to_nat (new_size / 4 - 1) in
    let rc := x_colls h k in
    let '(bufs, rc1) :=
      match c_rows rc with
      | [] => (1024 :: x_bufs h, Coll [(id, 0)] 0)
      | (_, oc) :: _ =>
        if capacity k <=? c_bytes rc + oc then (1024 :: x_bufs h, Coll ((id, 0) :: c_rows rc) 0)
        else (x_bufs h, rc)
      end in
    match c_rows rc1 with
    | [] => None
    | (b, oc) :: older =>
      let '(rc2, off) :=
        if is_object then (Coll ((b, oc + 1) :: older) (c_bytes rc1), oc * new_size)
        else (Coll (c_rows rc1) (c_bytes rc1 + 1), (capacity k - c_bytes rc1 - 1) * new_size) in
      Some (XHeap bufs (fun j => if (j =? k)%nat then rc2 else x_colls h j) (large_objs h) (large_bytes h),
            Blk b off n)
    end.

(** Requests: size and whether for an object.  The blocks handed out, latest first, with the flag. *)
Fixpoint xalloc_all (rq : list (Z * bool)) (h : xheap) (got : list (blk * bool)) : option (xheap * list (blk * bool)) :=
  match rq with
  | [] => Some (h, got)
  | (n, o) :: r =>
    match xalloc n o h with
    | Some (h1, b) => xalloc_all r h1 ((b, o) :: got)
    | None => None
    end
  end.

(** The places where the destructor runs object destructors, collections.cpp 83-107: buffer
    and offset. *)
Definition destroyed (h : xheap) : list (Z * Z) :=
  map (fun b => (b, 0)) (large_objs h) ++
  flat_map (fun k =>
    flat_map (fun r : xrow => map (fun j => (fst r, Z.of_nat j * (4 * Z.of_nat (S k)))) (seq 0 (Z.to_nat (snd r))))
      (c_rows (x_colls h k))) (seq 0 32).

(** The buffers the destructor frees, collections.cpp 109-130. *)
Definition freed (h : xheap) : list Z :=
  large_objs h ++ flat_map (fun k => map fst (c_rows (x_colls h k))) (seq 0 32) ++ large_bytes h.
