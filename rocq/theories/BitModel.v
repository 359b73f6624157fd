(** Model of the bit array: [bit_array_t] (algorithm/__collections.h 484-534,
    algorithm/collections.cpp 141-279).

    Words have 64 bits (pointers have 8 bytes).  The sizes are [size_t]; the model computes with
    unbounded integers where the code adds and multiplies lengths, so it is meant for indices
    below 2^63.  Allocation never fails. *)

From Coq Require Import ZArith List Bool.
Import ListNotations.
From Verif Require Import CppInt CommonModel.
Open Scope Z_scope.

(** The fields, __collections.h 515-517: [words] is [__data].  [overread] records that memory
    beyond the end of a buffer has been read. *)
Record bits := Bits { bit_length : Z; data_length : Z; words : option (Z -> Z); overread : bool }.

(** The constructor, collections.cpp 141. *)
Definition fresh (init_length : Z) : bits := Bits init_length 0 None false.

(** [__data_length_of], collections.cpp 235-238. *)
Definition data_length_of (n : Z) : Z := alignf n 8 / 8.

(** [__check_length], collections.cpp 198-224.  [junk] is what the memory beyond the old buffer
    (or a new, uninitialised one) holds. *)
Definition check_length (junk : Z -> Z) (n : Z) (b : bits) : bits :=
  if (n <=? bit_length b) && (match words b with Some _ => true | None => false end) then b
  else
    let need := data_length_of n in
    match words b with
    | Some w =>
      if data_length b <? need then
        let len := if need <? 16 then need * 2 else need + 10 in
        let copied := fun i => if i <? data_length b then w i else junk i in
        Bits n len (Some (fun i => if (data_length b <=? i) && (i <? data_length b + (len - data_length b)) then 0 else copied i))
          (overread b || (data_length b <? len))
      else Bits n (data_length b) (Some w) (overread b)
    | None =>
      let len := if need <? 16 then need * 2 else need + 10 in
      Bits n len (Some (fun i => if (data_length b <=? i) && (i <? data_length b + (len - data_length b)) then 0 else junk i)) (overread b)
    end.

(** [__pos_of], collections.cpp 227-232: the word and the flag. *)
Definition flag_of (index : Z) : Z := wrap U64 (Z.shiftl 1 (index mod 64)).
Definition word_of (index : Z) : Z := index / 64.

(** [set], collections.cpp 144-156; [None] is undefined behaviour (outside the buffer). *)
Definition set (junk : Z -> Z) (index : Z) (value : bool) (b : bits) : option bits :=
  let b1 := check_length junk (index + 1) b in
  match words b1 with
  | None => None
  | Some w =>
    if word_of index <? data_length b1 then
      let item := w (word_of index) in
      let item' := if value then Z.lor item (flag_of index) else Z.land item (wrap U64 (Z.lnot (flag_of index))) in
      Some (Bits (bit_length b1) (data_length b1) (Some (fun i => if i =? word_of index then item' else w i)) (overread b1))
    else None
  end.

(** [get], collections.cpp 159-168; [None] is undefined behaviour. *)
Definition get (index : Z) (b : bits) : option bool :=
  match words b with
  | None => Some false
  | Some w =>
    if data_length b <? data_length_of (index + 1) then Some false
    else if word_of index <? data_length b then Some (negb (Z.land (w (word_of index)) (flag_of index) =? 0))
    else None
  end.

(** [not_found], __collections.h 512. *)
Definition not_found : Z := 2 ^ 64 - 1.

(** [__cut], collections.cpp 268-273. *)
Definition cut (value from to : Z) : Z :=
  let rshift := 64 - to - 1 in
  Z.shiftr (wrap U64 (Z.shiftl value rshift)) (from + rshift).

(** The loop of [__index_of_true], collections.cpp 249-264; [None] when the bound is too small. *)
Fixpoint halve (fuel : nat) (value from end_ : Z) : option Z :=
  match fuel with
  | O => None
  | S f =>
    let index := (from + end_) / 2 in
    if negb (cut value from index =? 0) then
      if index =? from then Some index else halve f value from index
    else if end_ <=? index then Some not_found else halve f value (index + 1) end_
  end.

(** [__index_of_true], collections.cpp 241-265, with the default [end]. *)
Definition index_of_true (value from : Z) : option Z :=
  if 64 <=? from then Some not_found
  else if negb (Z.land value (wrap U64 (Z.shiftl 1 from)) =? 0) then Some from
  else halve 64 value from 63.

(** The loop of [index_of], collections.cpp 183-192: [n] words from word [p]. *)
Fixpoint scan (n : nat) (b : bits) (w : Z -> Z) (value : bool) (p from0 : Z) : option Z :=
  match n with
  | O => Some not_found
  | S n' =>
    if p <? data_length b then
      match index_of_true (if value then w p else wrap U64 (Z.lnot (w p))) from0 with
      | None => None
      | Some index =>
        if index =? not_found then scan n' b w value (p + 1) 0
        else let ret := index + p * 64 in
             Some (if bit_length b <=? ret then not_found else ret)
      end
    else None
  end.

(** [index_of], collections.cpp 172-195; [None] is undefined behaviour (a null pointer or memory
    outside the buffer).  [return false] is 0. *)
Definition index_of (value : bool) (from : Z) (b : bits) : option Z :=
  if bit_length b <=? from then Some not_found
  else
    let pos := from / 64 in
    let len := data_length_of (bit_length b) in
    if len <=? pos then Some 0
    else match words b with
         | None => None
         | Some w => scan (Z.to_nat (len - pos)) b w value pos (from mod 64)
         end.

(** A history of [set] calls on a new array; [junk n] is the unknown memory at the [n]-th call. *)
Fixpoint sets (junk : nat -> Z -> Z) (ops : list (Z * bool)) (b : bits) : option bits :=
  match ops with
  | [] => Some b
  | (i, v) :: r => match set (junk O) i v b with
                   | Some b1 => sets (fun n => junk (S n)) r b1
                   | None => None
                   end
  end.
