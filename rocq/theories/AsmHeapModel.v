(** The resource heap of an assembly file and the constants stored beside it.

    Models, in /repo: include/algorithm.h 747-797 ([to_varint], [from_varint]),
    modules/core/assembly_layout.cpp 196-332 ([mt_heap_buffer_t], [mt_heap_t]),
    modules/core/__assembly_layout.h 588-699 and 1746-1899 ([mt_heap_t], [res_reader_t]),
    modules/core/assembly_writer.cpp 1155-1380 (constants) and common/common.cpp 64-132
    (comparison of numbers of any type).

    Simplifications.  Bytes are integers 0..255, a string is a list of code points.  Buffer growth
    ([__check_grow_size]) is not modelled: the heap is an unbounded byte list.  Floating point
    constants are carried as their IEEE bits.  [long double] constants, which the compiler
    cannot write, are left out. *)

From Coq Require Import ZArith Lia List Bool.
Import ListNotations.
Open Scope Z_scope.

(** Outcome of reading: a value, a thrown exception, or undefined behaviour. *)
Inductive out (A : Type) := OK (a : A) | Throw | UB.
Arguments OK {A} a.
Arguments Throw {A}.
Arguments UB {A}.

(** * Variable length integers *)

(** [to_varint<uint32_t>], include/algorithm.h 749-768.  [fuel] bounds the do-while loop: a
    32-bit value is exhausted after five rounds. *)
Fixpoint to_varint_n (fuel : nat) (value : Z) : list Z :=
  match fuel with
  | O => []
  | S f =>
      let rest := value / 128 in
      if rest =? 0 then [value mod 128]
      else value mod 128 + 128 :: to_varint_n f rest
  end.

Definition to_varint (value : Z) : list Z := to_varint_n 5 (value mod 4294967296).

(** [from_varint<uint32_t>], include/algorithm.h 772-797: the value and the number of bytes read.
    A continuation past [offset + 7 > 32] throws; running out of bytes reads past the buffer.
    [value |= part << offset] is modelled by addition, the parts having disjoint bits. *)
Fixpoint from_varint_n (fuel : nat) (bytes : list Z) (offset value : Z) (len : nat)
  : out (Z * nat) :=
  match fuel with
  | O => Throw
  | S f =>
      if 32 <? offset + 7 then Throw
      else
        match bytes with
        | [] => UB
        | b :: r =>
            if 128 <=? b
            then from_varint_n f r (offset + 7) (value + (b - 128) * 2 ^ offset) (S len)
            else OK (value + b * 2 ^ offset, S len)
        end
  end.

Definition from_varint (bytes : list Z) : out (Z * nat) := from_varint_n 6 bytes 0 0 0.

(** * UTF-8

    [string_convert<char_t, char>] and back, common/__string.h 54-167: the standard library's
    [codecvt_utf8<wchar_t, 0x10ffff, little_endian>]; its byte forms are the standard ones.
    Surrogates are taken as unencodable (library versions differ). *)

Definition utf8_char (c : Z) : option (list Z) :=
  if (c <? 0) || (1114111 <? c) || ((55296 <=? c) && (c <=? 57343)) then None
  else if c <? 128 then Some [c]
  else if c <? 2048 then Some [192 + c / 64; 128 + c mod 64]
  else if c <? 65536 then Some [224 + c / 4096; 128 + c / 64 mod 64; 128 + c mod 64]
  else Some [240 + c / 262144; 128 + c / 4096 mod 64; 128 + c / 64 mod 64; 128 + c mod 64].

Fixpoint utf8_encode (s : list Z) : option (list Z) :=
  match s with
  | [] => Some []
  | c :: r =>
      match utf8_char c, utf8_encode r with
      | Some b, Some br => Some (b ++ br)
      | _, _ => None
      end
  end.

Definition is_cont (b : Z) : bool := (128 <=? b) && (b <=? 191).

(** One code point and the number of bytes it took. *)
Definition utf8_next (l : list Z) : option (Z * nat) :=
  match l with
  | [] => None
  | c1 :: r =>
      if c1 <? 128 then Some (c1, 1%nat)
      else if c1 <? 194 then None
      else if c1 <? 224 then
        match r with
        | c2 :: _ =>
            if is_cont c2 then Some ((c1 - 192) * 64 + (c2 - 128), 2%nat) else None
        | _ => None
        end
      else if c1 <? 240 then
        match r with
        | c2 :: c3 :: _ =>
            if is_cont c2 && is_cont c3 && negb ((c1 =? 224) && (c2 <? 160))
               && negb ((c1 =? 237) && (160 <=? c2))
            then Some ((c1 - 224) * 4096 + (c2 - 128) * 64 + (c3 - 128), 3%nat) else None
        | _ => None
        end
      else if c1 <? 245 then
        match r with
        | c2 :: c3 :: c4 :: _ =>
            if is_cont c2 && is_cont c3 && is_cont c4 && negb ((c1 =? 240) && (c2 <? 144))
               && negb ((c1 =? 244) && (144 <=? c2))
            then Some ((c1 - 240) * 262144 + (c2 - 128) * 4096 + (c3 - 128) * 64 + (c4 - 128),
                       4%nat)
            else None
        | _ => None
        end
      else None
  end.

Fixpoint utf8_decode_n (fuel : nat) (l : list Z) : option (list Z) :=
  match fuel with
  | O => None
  | S f =>
      match l with
      | [] => Some []
      | _ =>
          match utf8_next l with
          | None => None
          | Some (c, n) =>
              match utf8_decode_n f (skipn n l) with
              | Some r => Some (c :: r)
              | None => None
              end
          end
      end
  end.

Definition utf8_decode (l : list Z) : option (list Z) := utf8_decode_n (S (length l)) l.

(** A C string: everything before the first NUL; [None] when there is none. *)
Fixpoint cstr (l : list Z) : option (list Z) :=
  match l with
  | [] => None
  | c :: r => if c =? 0 then Some [] else option_map (cons c) (cstr r)
  end.

(** [sid.c_str()] passed as a pointer: cut at the first NUL character. *)
Fixpoint upto_nul (l : list Z) : list Z :=
  match l with
  | [] => []
  | c :: r => if c =? 0 then [] else c :: upto_nul r
  end.

(** * The heap *)

(** [mt_heap_t]: the buffer and the strings already stored (the pool makes equal strings the
    same [sid_t]). *)
Record heap := Heap { h_bytes : list Z; h_map : list (list Z * Z) }.

Definition hsize (h : heap) : Z := Z.of_nat (length (h_bytes h)).

(** [mt_heap_buffer_t::mt_heap_buffer_t], assembly_layout.cpp 200-204. *)
Definition heap_new : heap := Heap [0] [].

(** [res_t]: a 32-bit position, __xil.h 520-560; null is 0. *)
Definition to_res (pos : Z) : Z := pos mod 4294967296.

Fixpoint str_eqb (a b : list Z) : bool :=
  match a, b with
  | [], [] => true
  | x :: r, y :: s => (x =? y) && str_eqb r s
  | _, _ => false
  end.

Fixpoint str_find (m : list (list Z * Z)) (s : list Z) : option Z :=
  match m with
  | [] => None
  | (k, v) :: r => if str_eqb k s then Some v else str_find r s
  end.

(** [mt_heap_t::append_string], assembly_layout.cpp 255-274.  [None]: the conversion throws. *)
Definition append_string (h : heap) (s : list Z) : option (heap * Z) :=
  match s with
  | [] => Some (h, 0)
  | _ =>
      match str_find (h_map h) s with
      | Some r => Some (h, r)
      | None =>
          match utf8_encode (upto_nul s) with
          | None => None
          | Some b =>
              let r := to_res (hsize h) in
              Some (Heap (h_bytes h ++ b ++ [0]) ((s, r) :: h_map h), r)
          end
      end
  end.

(** [mt_heap_t::append_bytes], assembly_layout.cpp 310-321. *)
Definition append_bytes (h : heap) (b : list Z) : heap * Z :=
  match b with
  | [] => (h, 0)
  | _ => (Heap (h_bytes h ++ b) (h_map h), to_res (hsize h))
  end.

(** [mt_heap_t::append_block], assembly_layout.cpp 292-307. *)
Definition append_block (h : heap) (b : list Z) : heap * Z :=
  match b with
  | [] => (h, 0)
  | _ => (Heap (h_bytes h ++ to_varint (Z.of_nat (length b)) ++ b) (h_map h),
          to_res (hsize h))
  end.

(** [mt_heap_t::read_block], assembly_layout.cpp 324-332, followed by the caller's copy of
    [length] bytes; reading outside the buffer is undefined. *)
Definition read_block (l : list Z) (res : Z) : out (list Z) :=
  let at_ := skipn (Z.to_nat res) l in
  match from_varint at_ with
  | OK (n, k) =>
      let body := skipn k at_ in
      if Z.of_nat (length body) <? n then UB else OK (firstn (Z.to_nat n) body)
  | Throw => Throw
  | UB => UB
  end.

(** [mt_heap_t::read<t>] for a [t] of [n] bytes, __assembly_layout.h 683-692. *)
Definition read_bytes (l : list Z) (res : Z) (n : nat) : out (list Z) :=
  if Z.of_nat (length l) <=? res + Z.of_nat n then Throw
  else OK (firstn n (skipn (Z.to_nat res) l)).

(** [res_reader_t::read_sid], __assembly_layout.h 1778-1793; its cache of converted strings does
    not change the result and is left out. *)
Definition read_string (l : list Z) (res : Z) : out (list Z) :=
  if Z.of_nat (length l) <=? res then Throw
  else
    match cstr (skipn (Z.to_nat res) l) with
    | None => UB
    | Some b => match utf8_decode b with Some s => OK s | None => Throw end
    end.

(** A history of appends; [None] when one of them throws. *)
Inductive hop := AString (s : list Z) | ABlock (b : list Z) | ABytes (b : list Z).

Definition hstep (h : heap) (o : hop) : option (heap * Z) :=
  match o with
  | AString s => append_string h s
  | ABlock b => Some (append_block h b)
  | ABytes b => Some (append_bytes h b)
  end.

Fixpoint hrun (h : heap) (ops : list hop) : option (heap * list Z) :=
  match ops with
  | [] => Some (h, [])
  | o :: r =>
      match hstep h o with
      | None => None
      | Some (h1, x) =>
          match hrun h1 r with
          | None => None
          | Some (h2, xs) => Some (h2, x :: xs)
          end
      end
  end.

(** * Constants *)

(** Numeric types of a constant. *)
Inductive nty := NI8 | NU8 | NI16 | NU16 | NI32 | NU32 | NI64 | NU64 | NF32 | NF64 | NBool | NChar.

(** [value_type_t], include/common.h 415-443 ([ldouble_] is 11). *)
Definition nty_code (t : nty) : Z :=
  match t with
  | NI8 => 1 | NU8 => 2 | NI16 => 3 | NU16 => 4 | NI32 => 5 | NU32 => 6 | NI64 => 7 | NU64 => 8
  | NF32 => 9 | NF64 => 10 | NBool => 12 | NChar => 13
  end.

Definition nty_of_code (c : Z) : option nty :=
  match c with
  | 1 => Some NI8 | 2 => Some NU8 | 3 => Some NI16 | 4 => Some NU16 | 5 => Some NI32
  | 6 => Some NU32 | 7 => Some NI64 | 8 => Some NU64 | 9 => Some NF32 | 10 => Some NF64
  | 12 => Some NBool | 13 => Some NChar
  | _ => None
  end.

(** Width in bytes ([char_t] is the 4-byte [wchar_t]). *)
Definition nty_size (t : nty) : nat :=
  match t with
  | NI8 | NU8 | NBool => 1
  | NI16 | NU16 => 2
  | NI32 | NU32 | NF32 | NChar => 4
  | NI64 | NU64 | NF64 => 8
  end.

(** [cvalue_t], core.h 1653-1709: a number with its bits, a string, null or a type (by the
    [ref_t] the writer gives it). *)
Inductive cval := CNum (t : nty) (raw : Z) | CStr (s : list Z) | CNull | CType (ref : Z).

(** The bits of a 32- or 64-bit IEEE number as an exact number: a finite one is [m * 2^e]. *)
Inductive num := Fin (m e : Z) | PInf | NInf | NaN.

Definition ieee (mbits ebits : Z) (raw : Z) : num :=
  let m := raw mod 2 ^ mbits in
  let e := raw / 2 ^ mbits mod 2 ^ ebits in
  let neg := raw / 2 ^ (mbits + ebits) =? 1 in
  let bias := 2 ^ (ebits - 1) - 1 in
  if e =? 2 ^ ebits - 1 then (if m =? 0 then (if neg then NInf else PInf) else NaN)
  else
    let m' := if e =? 0 then m else m + 2 ^ mbits in
    let e' := (if e =? 0 then 1 else e) - bias - mbits in
    Fin (if neg then - m' else m') e'.

Definition signed (bits raw : Z) : Z := if raw <? 2 ^ (bits - 1) then raw else raw - 2 ^ bits.

Definition num_of (t : nty) (raw : Z) : num :=
  match t with
  | NI8 => Fin (signed 8 raw) 0
  | NI16 => Fin (signed 16 raw) 0
  | NI32 | NChar => Fin (signed 32 raw) 0
  | NI64 => Fin (signed 64 raw) 0
  | NU8 | NU16 | NU32 | NU64 | NBool => Fin raw 0
  | NF32 => ieee 23 8 raw
  | NF64 => ieee 52 11 raw
  end.

Definition fin_ltb (m1 e1 m2 e2 : Z) : bool :=
  let e := Z.min e1 e2 in m1 * 2 ^ (e1 - e) <? m2 * 2 ^ (e2 - e).

Definition num_ltb (a b : num) : bool :=
  match a, b with
  | NaN, _ | _, NaN => false
  | NInf, NInf => false
  | NInf, _ => true
  | _, NInf => false
  | PInf, _ => false
  | _, PInf => true
  | Fin m1 e1, Fin m2 e2 => fin_ltb m1 e1 m2 e2
  end.

Definition is_float (t : nty) : bool := match t with NF32 | NF64 => true | _ => false end.

Definition nty_eqb (a b : nty) : bool := nty_code a =? nty_code b.

(** [tvalue_t::operator <], common/common.cpp 64-112: equal types compare as that type, floats
    against anything as [long double] (exact for these types), a [uint64_t] against another
    integer in [uint64_t], everything else in [int64_t]. *)
Definition tvalue_ltb (t1 : nty) (r1 : Z) (t2 : nty) (r2 : Z) : bool :=
  if nty_eqb t1 t2 || is_float t1 || is_float t2 then num_ltb (num_of t1 r1) (num_of t2 r2)
  else
    match num_of t1 r1, num_of t2 r2 with
    | Fin a _, Fin b _ =>
        if nty_eqb t1 NU64 || nty_eqb t2 NU64
        then a mod 18446744073709551616 <? b mod 18446744073709551616
        else a <? b
    | _, _ => false
    end.

(** [strcmp] on code points. *)
Fixpoint str_ltb (a b : list Z) : bool :=
  match a, b with
  | [], [] => false
  | [], _ => true
  | _, [] => false
  | x :: r, y :: s => (x <? y) || ((x =? y) && str_ltb r s)
  end.

(** [cvalue_type_t], core.h 715-732. *)
Definition kind_code (v : cval) : Z :=
  match v with CNum _ _ => 1 | CStr _ => 2 | CNull => 3 | CType _ => 4 end.

(** [cvalue_t::operator <], core.cpp 1217-1239. *)
Definition cval_ltb (a b : cval) : bool :=
  if negb (kind_code a =? kind_code b) then kind_code a <? kind_code b
  else
    match a, b with
    | CStr s, CStr u => str_ltb (upto_nul s) (upto_nul u)
    | CNum t1 r1, CNum t2 r2 => tvalue_ltb t1 r1 t2 r2
    | CType x, CType y => x <? y
    | _, _ => false
    end.

(** Same key for [std::map]. *)
Definition cval_same (a b : cval) : bool := negb (cval_ltb a b) && negb (cval_ltb b a).

(** Little-endian bytes. *)
Fixpoint le_bytes (n : nat) (v : Z) : list Z :=
  match n with
  | O => []
  | S k => v mod 256 :: le_bytes k (v / 256)
  end.

Fixpoint le_val (l : list Z) : Z :=
  match l with
  | [] => 0
  | b :: r => b + 256 * le_val r
  end.

(** Overwrite the first bytes of a zeroed field. *)
Definition put (field : list Z) (b : list Z) : list Z := b ++ skipn (length b) field.

(** [mt_constant_t], __assembly_layout.h 854-862: type, flags, [data1[2]], [data2[4]]. *)
Record crow := CRow { c_type : Z; c_extern : bool; c_cpl : bool; c_d1 : list Z; c_d2 : list Z }.

(** A row cleared by [al::zero_object]. *)
Definition crow_zero : crow := CRow 0 false false [0; 0] [0; 0; 0; 0].

(** [constant_type_t], __assembly_layout.h 788-840. *)
Definition ctype_of (kind vt : Z) : Z := kind * 32 + vt.
Definition kind_of_ctype (c : Z) : Z := c / 32.
Definition vt_of_ctype (c : Z) : Z := c mod 32.

(** [__assign_uint64], assembly_writer.cpp 1258-1279. *)
Definition assign_uint64 (h : heap) (c : crow) (v : Z) : heap * crow :=
  let d2 := le_bytes 4 (v mod 4294967296) in
  let v1 := v / 4294967296 in
  if v1 <=? 65535 then (h, CRow (c_type c) (c_extern c) (c_cpl c) (le_bytes 2 v1) d2)
  else
    let nv1 := 4294967295 - v1 in
    if nv1 <=? 65535 then (h, CRow (c_type c) (c_extern c) true (le_bytes 2 nv1) d2)
    else
      let '(h1, r) := append_bytes h (le_bytes 8 v) in
      (h1, CRow (c_type c) true (c_cpl c) (c_d1 c) (le_bytes 4 r)).

(** [__read_uint64], __assembly_layout.h 1814-1830.  The 32-bit read of [data1] covers
    [data1] and the first two bytes of [data2], which follows it in the struct. *)
Definition read_uint64 (l : list Z) (c : crow) : out Z :=
  if negb (c_extern c) then
    let v2 := le_val (c_d2 c) in
    let v1 := le_val (firstn 4 (c_d1 c ++ c_d2 c)) in
    let v1' := if c_cpl c then 4294967295 - v1 else v1 in
    OK (v1' * 4294967296 + v2)
  else
    match read_bytes l (le_val (c_d2 c)) 8 with
    | OK b => OK (le_val b)
    | Throw => Throw
    | UB => UB
    end.

(** Is the number stored through [__assign_uint64]? *)
Definition wide (t : nty) : bool := match t with NI64 | NU64 | NF64 => true | _ => false end.

(** [__commit_constant_number], assembly_writer.cpp 1282-1344: the row's contents. *)
Definition number_row (h : heap) (t : nty) (raw : Z) : heap * crow :=
  let c := CRow (ctype_of 1 (nty_code t)) false false [0; 0] [0; 0; 0; 0] in
  if wide t then assign_uint64 h c raw
  else (h, CRow (c_type c) false false (c_d1 c) (put (c_d2 c) (le_bytes (nty_size t) raw))).

(** [__read_const_number], __assembly_layout.h 1833-1880. *)
Definition read_number (l : list Z) (c : crow) (t : nty) : out cval :=
  if wide t then
    match read_uint64 l c with OK v => OK (CNum t v) | Throw => Throw | UB => UB end
  else OK (CNum t (le_val (firstn (nty_size t) (c_d2 c)))).

(** [__new_cvalue], assembly_reader.cpp 465-472, with [read_const], __assembly_layout.h
    1753-1776, and [__read_const_type], assembly_reader.cpp 456-462. *)
Definition read_const (l : list Z) (c : crow) : out cval :=
  match kind_of_ctype (c_type c) with
  | 1 => match nty_of_code (vt_of_ctype (c_type c)) with
         | Some t => read_number l c t
         | None => Throw
         end
  | 2 => match read_string l (le_val (c_d2 c)) with
         | OK s => OK (CStr s) | Throw => Throw | UB => UB
         end
  | 3 => OK CNull
  | 4 => OK (CType (le_val (c_d2 c)))
  | _ => Throw
  end.

(** The constants table while writing: the heap, the rows and the map from values to rows.  The
    [std::map] is an association list searched for the first key equivalent under the map's own
    order; for keys that order ranks consistently this is what the tree finds. *)
Record cstate := CState { s_heap : heap; s_rows : list crow; s_keys : list (cval * nat) }.

Definition cstate_new : cstate := CState heap_new [] [].

Fixpoint key_find (m : list (cval * nat)) (v : cval) : option nat :=
  match m with
  | [] => None
  | (k, i) :: r => if cval_same k v then Some i else key_find r v
  end.

(** [__mt_map[entity] = ref]: replace the value of an equivalent key or add one. *)
Fixpoint key_set (m : list (cval * nat)) (v : cval) (i : nat) : list (cval * nat) :=
  match m with
  | [] => [(v, i)]
  | (k, j) :: r => if cval_same k v then (k, i) :: r else (k, j) :: key_set r v i
  end.

(** [mgr.append], __assembly_layout.h 388-401. *)
Definition append_row (s : cstate) (key : cval) (h : heap) (c : crow) : cstate * option nat :=
  let i := length (s_rows s) in
  (CState h (s_rows s ++ [c]) (key_set (s_keys s) key i), Some i).

(** [__commit_constant], assembly_writer.cpp 1174-1218, with the functions for each kind, lines
    1282-1380.  The result is a row, or the null reference; the outer [None] is an exception.
    A type is entered in the map under [cvalue_t(type)] (line 1363): the constructor chosen for
    a pointer is the one from [bool], so the key is the number [true]. *)
Definition commit (s : cstate) (v : cval) : option (cstate * option nat) :=
  match v with
  | CNull => Some (s, None)
  | _ =>
      match key_find (s_keys s) v with
      | Some i => Some (s, Some i)
      | None =>
          match v with
          | CNum t raw =>
              let '(h, c) := number_row (s_heap s) t raw in
              Some (append_row s v h c)
          | CStr str =>
              match append_string (s_heap s) (upto_nul str) with
              | None => None
              | Some (h, r) =>
                  Some (append_row s v h
                          (CRow (ctype_of 2 0) true false [0; 0] (le_bytes 4 r)))
              end
          | CType ref =>
              Some (append_row s (CNum NBool 1) (s_heap s)
                      (CRow (ctype_of 4 0) true false [0; 0] (le_bytes 4 ref)))
          | CNull => Some (s, None)
          end
      end
  end.

(** Everything else written to the heap in between. *)
Inductive cop := CommitConst (v : cval) | Other (o : hop).

Fixpoint crun (s : cstate) (ops : list cop) : option (cstate * list (option nat)) :=
  match ops with
  | [] => Some (s, [])
  | CommitConst v :: r =>
      match commit s v with
      | None => None
      | Some (s1, x) =>
          match crun s1 r with
          | None => None
          | Some (s2, xs) => Some (s2, x :: xs)
          end
      end
  | Other o :: r =>
      match hstep (s_heap s) o with
      | None => None
      | Some (h, _) =>
          match crun (CState h (s_rows s) (s_keys s)) r with
          | None => None
          | Some (s2, xs) => Some (s2, None :: xs)
          end
      end
  end.
