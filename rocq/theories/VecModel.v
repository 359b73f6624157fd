(** Model of the small vector: [svector_t] (algorithm/__collections.h 637-958).

    The array inside the object and the pair of buffer pointer and size share their memory (a
    union, 940-949), so the two cases are alternatives here.  Which case holds is decided in the
    code by comparing [__p] with the addresses of the array (954-957); the model assumes that no buffer
    borders on the object.  Lengths are unbounded integers, except in the computation of a buffer's
    size; allocation never fails. *)

From Coq Require Import ZArith List Bool.
Import ListNotations.
From Verif Require Import CommonModel.
Open Scope Z_scope.

Section Vec.
Variable V : Type.
(** [_init_size]. *)
Variable init : Z.

Definition cells := Z -> option V.

(** Where the elements are: in the array, or in a buffer of the given size. *)
Inductive place := Array | Buffer (size : Z).

(** [count] is [__p] minus the start. *)
Record vec := Vec { at_ : place; cell : cells; count : Z }.

(** The constructor, 649-651. *)
Definition empty : vec := Vec Array (fun _ => None) 0.

Definition put (i : Z) (v : option V) (c : cells) : cells := fun j => if j =? i then v else c j.

(** [std::copy] of [n] elements from [c] at [from] to [d] at [to]. *)
Definition copy (c : cells) (from n : Z) (d : cells) (to : Z) : cells :=
  fun j => if (to <=? j) && (j <? to + n) then c (from + (j - to)) else d j.

(** The same between two pieces of memory of [lc] and [ld] elements; [None]: it reads or writes beyond one of them. *)
Definition copy_in_bounds (lc : Z) (c : cells) (from n : Z) (ld : Z) (d : cells) (to : Z) : option cells :=
  if (0 <=? n) && (0 <=? from) && (from + n <=? lc) && (0 <=? to) && (to + n <=? ld)
  then Some (copy c from n d to) else None.

(** The elements at [index], as a container. *)
Definition of_list (vs : list V) : cells := fun i => if i <? 0 then None else nth_error vs (Z.to_nat i).

(** The number of elements the memory at hand holds. *)
Definition room (v : vec) : Z := match at_ v with Array => init + 1 | Buffer s => s end.

(** Outcomes of an operation; [Undefined] is undefined behaviour, [Endless] a loop without end. *)
Inductive result := Went (v : vec) | Threw | Undefined | Endless.

(** [push_back], 727-762.  Written to is always the element at [__p]. *)
Definition push (x : V) (v : vec) : result :=
  match at_ v with
  | Array =>
    if (0 <=? count v) && (count v <? init) then Went (Vec Array (put (count v) (Some x) (cell v)) (count v + 1))
    else if count v =? init then
      match copy_in_bounds (room v) (cell v) 0 init (init * 2) (fun _ => None) 0 with
      | Some c =>
        if init <? init * 2 then Went (Vec (Buffer (init * 2)) (put init (Some x) c) (init + 1)) else Undefined
      | None => Undefined
      end
    else Undefined
  | Buffer s =>
    if s <=? count v then
      match copy_in_bounds (room v) (cell v) 0 (count v) (s * 2) (fun _ => None) 0 with
      | Some c => if s <? s * 2 then Went (Vec (Buffer (s * 2)) (put s (Some x) c) (s + 1)) else Undefined
      | None => Undefined
      end
    else Went (Vec (Buffer s) (put (count v) (Some x) (cell v)) (count v + 1))
  end.

(** [push_back] with a reference to the vector's own element [i]: when the elements move, the reference
    is read after the array has been overwritten by the buffer's pointer and size (742-746), or
    after the old buffer has been freed (756-761). *)
Definition push_own (i : Z) (v : vec) : result :=
  let moves := match at_ v with Array => count v =? init | Buffer s => s <=? count v end in
  if moves then Undefined
  else match cell v i with
       | Some x => push x v
       | None => Undefined
       end.

(** [insert], 773-832. *)
Definition insert (vs : list V) (index : Z) (v : vec) : result :=
  if count v <? index then Threw
  else
    let n := Z.of_nat (length vs) in
    let size := count v in
    let new_size := size + n in
    let fits := match at_ v with Array => new_size <=? init | Buffer s => new_size <=? s end in
    if fits then
      match copy_in_bounds (room v) (cell v) index (size - index) (room v) (cell v) (index + n) with
      | Some c1 =>
        match copy_in_bounds n (of_list vs) 0 n (room v) c1 index with
        | Some c2 => Went (Vec (at_ v) c2 new_size)
        | None => Undefined
        end
      | None => Undefined
      end
    else
      match alignd size new_size with
      | None => Endless
      | Some s =>
        if new_size <=? s then
          match copy_in_bounds (room v) (cell v) 0 index s (fun _ => None) 0 with
          | Some c1 =>
            match copy_in_bounds n (of_list vs) 0 n s c1 index with
            | Some c2 =>
              match copy_in_bounds (room v) (cell v) index (size - index) s c2 (index + n) with
              | Some c3 => Went (Vec (Buffer s) c3 new_size)
              | None => Undefined
              end
            | None => Undefined
            end
          | None => Undefined
          end
        else Undefined
      end.

(** [truncate], 835-844. *)
Definition truncate (n : Z) (v : vec) : vec :=
  if n <? count v then Vec (at_ v) (cell v) n else v.

(** [pop_back], 717-723. *)
Definition pop (v : vec) : result :=
  if count v =? 0 then Threw else Went (truncate (count v - 1) v).

(** [clear], 919-925. *)
Definition clear (v : vec) : vec := Vec (at_ v) (cell v) 0.

(** The copy constructor, 700-714, and the move constructor, 680-698: the new vector. *)
Definition copied (v : vec) : result :=
  match at_ v with
  | Array =>
    match copy_in_bounds (room v) (cell v) 0 (init + 1) (init + 1) (fun _ => None) 0 with
    | Some c => Went (Vec Array c (count v))
    | None => Undefined
    end
  | Buffer s =>
    match copy_in_bounds (room v) (cell v) 0 s s (fun _ => None) 0 with
    | Some c => Went (Vec (Buffer s) c (count v))
    | None => Undefined
    end
  end.
Definition moved (v : vec) : result :=
  match at_ v with
  | Array =>
    match copy_in_bounds (room v) (cell v) 0 (init + 1) (init + 1) (fun _ => None) 0 with
    | Some c => Went (Vec Array c (count v))
    | None => Undefined
    end
  | Buffer s => Went v
  end.

(** [at] and [operator []], 847-859, to read; [None] outside the memory or uninitialised. *)
Definition get (v : vec) (i : Z) : option V :=
  if (0 <=? i) && (i <? room v) then cell v i else None.

(** Writing through [operator []]. *)
Definition set (i : Z) (x : V) (v : vec) : result :=
  if (0 <=? i) && (i <? room v) then Went (Vec (at_ v) (put i (Some x) (cell v)) (count v)) else Undefined.

Inductive op :=
| Push (x : V) | PushOwn (i : Z) | Insert (vs : list V) (index : Z) | Truncate (n : Z) | Pop | Clear | Set_ (i : Z) (x : V)
| Copied | Moved.

Definition step (v : vec) (o : op) : result :=
  match o with
  | Push x => push x v
  | PushOwn i => push_own i v
  | Insert vs i => insert vs i v
  | Truncate n => Went (truncate n v)
  | Pop => pop v
  | Clear => Went (clear v)
  | Set_ i x => set i x v
  | Copied => copied v
  | Moved => moved v
  end.

(** A history; exceptions are caught by the caller, who goes on. *)
Fixpoint run (v : vec) (os : list op) : option vec :=
  match os with
  | [] => Some v
  | o :: r => match step v o with
              | Went v1 => run v1 r
              | Threw => run v r
              | Undefined | Endless => None
              end
  end.

End Vec.
