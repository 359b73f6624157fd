(** Arrays: creation (modules/mm/mm.cpp 122-194), length queries (include/modules/mm.h
    67-123, modules/rtlib/array.cpp 19-60) and element access (modules/exec/commands.cpp
    1165-1232, 1238-1304, 1350-1430, 2953-3023, 3527-3598, 6430-6456). *)

From Coq Require Import ZArith List Bool.
Import ListNotations.
From Verif Require Import CppInt CommonModel.
Open Scope Z_scope.

(** [unit_align], modules/rt/__layout.h 11-28. *)
Definition unit_align (offset size : Z) : Z :=
  if size =? 1 then offset
  else if size =? 2 then alignf offset 2
  else if (size =? 3) || (size =? 4) then alignf offset 4
  else alignf offset 8.

(** An element type, reduced to what arrays use of it: a number of [w] bytes, a
    struct of [n] bytes, or a class (or interface) whose objects have [n] bytes and
    whose variables are references. *)
Inductive elem := Scalar (w : Z) | Struct (n : Z) | Class (n : Z).

(** [element_type->get_size()]: rt.h 1041, the size computed by rt.cpp 337-344; for a
    class that is the size of its objects. *)
Definition get_size (e : elem) : Z := match e with Scalar w => w | Struct n => n | Class n => n end.

(** Distance between consecutive elements as the access commands use it: the size of
    the loaded type for numbers and references (mm.h 126-147) and [get_variable_size]
    (rt.cpp 508-529, commands.cpp 2759) for addresses of structs. *)
Definition stride (e : elem) : Z := match e with Scalar w => w | Struct n => n | Class _ => 8 end.

(** A created array: bytes reserved before and from the object's address, the total
    length stored 12 bytes before it, and the cumulative lengths stored from 16 bytes
    before it downwards ([heads], the one nearest to the object first). *)
Record arr := Arr { extern : Z; size : Z; total : Z; heads : list Z }.

Inductive created := Made (a : arr) | DimensionError | CreateUndef.

(** Product of [array_length_t] (int32) values, mm.cpp 166-169; overflow is undefined. *)
Fixpoint mul_lengths (acc : Z) (ls : list Z) : res Z :=
  match ls with
  | [] => Val acc
  | l :: r => match fit I32 (acc * l) with Val p => mul_lengths p r | UB => UB end
  end.

(** The cumulative lengths, mm.cpp 182-190: from the last dimension to the first.
    [ls] is the reversed list of lengths. *)
Fixpoint cumulate (base : Z) (ls : list Z) : option (list Z) :=
  match ls with
  | [] => Some []
  | l :: r =>
    match fit I32 (l * base) with
    | UB => None
    | Val b => match cumulate b r with Some hs => Some (b :: hs) | None => None end
    end
  end.

(** [default_rt_heap_t::new_array], mm.cpp 136-194.  [length * element_size] converts
    the signed length to [size_t].  The allocation itself is assumed to succeed. *)
Definition new_array (e : elem) (lengths : list Z) : created :=
  match lengths with
  | [] => DimensionError
  | l0 :: rest =>
    let element_size := unit_align 1 (get_size e) in
    let sz := alignf (wrap U64 (wrap U64 l0 * element_size)) 8 in
    match rest with
    | [] => Made (Arr (alignf (8 + 4) 8) sz l0 [])
    | _ =>
      match mul_lengths l0 rest with
      | UB => CreateUndef
      | Val len =>
        match cumulate 1 (rev lengths) with
        | None => CreateUndef
        | Some hs =>
          Made (Arr (alignf (8 + 4 * Z.of_nat (length lengths) + 4) 8) sz len hs)
        end
      end
    end
  end.

(** The run-time command, commands.cpp 6446-6453: the lengths were pushed in source
    order, are popped from the last, and end up in source order. *)
Fixpoint pop_lengths (n : nat) (stack : list Z) (got : list Z) : option (list Z * list Z) :=
  match n with
  | O => Some (got, stack)
  | S n => match stack with
           | [] => None
           | v :: st => pop_lengths n st (wrap I32 v :: got)
           end
  end.
Definition exec_new_array (e : elem) (rank : nat) (stack : list Z) : option (created * list Z) :=
  match pop_lengths rank stack [] with
  | None => None
  | Some (ls, st) => Some (new_array e ls, st)
  end.

(** [get_array_length], mm.h 94-104. *)
Definition array_length (a : arr) : Z := total a.

(** [get_array_length_of_dimension], mm.h 107-123; [None]: reads outside the lengths or
    divides by zero (the only other undefined quotient, of the least integer by -1,
    included). *)
Definition length_of_dimension (rank : Z) (a : arr) (dimension : Z) : option Z :=
  if (dimension =? 0) && (rank =? 1) then Some (total a)
  else
    let index := rank - dimension - 1 in
    if index =? 0 then nth_error (heads a) 0
    else if index <? 0 then None
    else match nth_error (heads a) (Z.to_nat index), nth_error (heads a) (Z.to_nat (index - 1)) with
         | Some x, Some y =>
           if y =? 0 then None
           else match fit I32 (Z.quot x y) with Val q => Some q | UB => None end
         | _, _ => None
         end.

(** [__mul_t<_d>], commands.cpp 1172-1187: pops [d] indices and multiplies each with
    the next length.  The two operands of [+] are evaluated from left to right (the
    language leaves the order open).  Returns the value, the rest of the stack and the
    rest of the lengths; [None] is undefined behaviour. *)
Fixpoint mul_index (d : nat) (stack ls : list Z) : option (Z * list Z * list Z) :=
  match d with
  | O => Some (0, stack, ls)
  | S d =>
    match stack, ls with
    | i :: st, l :: ls' =>
      match fit I32 (i * l) with
      | UB => None
      | Val p =>
        match mul_index d st ls' with
        | None => None
        | Some (r, st', ls'') =>
          match fit I32 (p + r) with UB => None | Val v => Some (v, st', ls'') end
        end
      end
    | _, _ => None
    end
  end.

(** [__array_index], commands.cpp 1198-1232.  Each round of the loop pops eight
    indices, so it ends by the lengths running out. *)
Fixpoint array_index (fuel : nat) (d : Z) (stack ls : list Z) (index : Z) : option (Z * list Z) :=
  if d =? 0 then Some (index, stack)
  else if (2 <=? d) && (d <=? 8) then
    match mul_index (Z.to_nat d) stack ls with
    | None => None
    | Some (v, st, _) =>
      match fit I32 (index + v) with UB => None | Val i => Some (i, st) end
    end
  else match fuel with
       | O => None
       | S f =>
         match mul_index 8 stack ls with
         | None => None
         | Some (v, st, ls') =>
           match fit I32 (index + v) with
           | UB => None
           | Val i => array_index f (d - 8) st ls' i
           end
         end
       end.

(** The flat index of an access; the stack is without the array reference.
    commands.cpp 1256-1263 (ranks 1 to 8) and 1294-1298 (rank above 8); the same code
    in push, push address, pop and pick. *)
Definition flat_index (rank : nat) (a : arr) (stack : list Z) : option (Z * list Z) :=
  match stack with
  | [] => None
  | i :: st =>
    match rank with
    | O => None
    | S O => Some (i, st)
    | S d =>
      if (rank <=? 8)%nat then
        match mul_index d st (heads a) with
        | None => None
        | Some (v, st', _) =>
          match fit I32 (i + v) with UB => None | Val k => Some (k, st') end
        end
      else
        match array_index (length (heads a)) (Z.of_nat d) st (heads a) 0 with
        | None => None
        | Some (v, st') =>
          match fit I32 (i + v) with UB => None | Val k => Some (k, st') end
        end
    end
  end.

Inductive access := Element (k : Z) (rest : list Z) | OutOfRange | AccessUndef.

(** The four commands: push (1253-1272, 1291-1307), push address (1369-1384,
    1407-1421), pop (2965-2984, 3007-3020; no check above rank 8) and pick (3542-3560,
    3580-3594; never a check).  [check] is whether the comparison is made. *)
Inductive acmd := Push | Address | Pop | Pick.
Definition checks (c : acmd) (rank : nat) : bool :=
  match c with
  | Push | Address => true
  | Pop => (rank <=? 8)%nat
  | Pick => false
  end.
Definition element (c : acmd) (rank : nat) (a : arr) (stack : list Z) : access :=
  match flat_index rank a stack with
  | None => AccessUndef
  | Some (k, st) =>
    if checks c rank && (total a <=? k) then OutOfRange else Element k st
  end.

(** *** Clearing memory *)

(** [__zero<n>], mm.cpp 62-88: [n] words from [p]. *)
Fixpoint zero_n (n : nat) (p : Z) (m : Z -> Z) : Z -> Z :=
  match n with
  | O => m
  | S n => zero_n n (p + 1) (fun q => if q =? p then 0 else m q)
  end.

(** [__zero_memory], mm.cpp 90-119: sixteen words at a time until at most sixteen are
    left. *)
Fixpoint zero_memory (fuel : nat) (p sz : Z) (m : Z -> Z) : option (Z -> Z) :=
  if (0 <=? sz) && (sz <=? 16) then Some (zero_n (Z.to_nat sz) p m)
  else match fuel with
       | O => None
       | S f => zero_memory f (p + 16) (sz - 16) (zero_n 16 p m)
       end.

(** [new_obj], mm.cpp 123-133, in a memory of 8-byte words: [base] is the first word
    of the allocated block; the type is stored in the word before the object.  The
    clearing loop has fewer rounds than words. *)
Definition new_obj (base : Z) (type_size type : Z) (m : Z -> Z) : option (Z * (Z -> Z)) :=
  let obj := base + 1 in
  let sz := alignf type_size 8 in
  match zero_memory (Z.to_nat (sz / 8)) obj (sz / 8) m with
  | None => None
  | Some m1 => Some (obj, fun q => if q =? obj - 1 then type else m1 q)
  end.
