(** Model of the XIL bytecode: the in-memory instruction structs built by the
    compiler, the writer, and the reader with its accessors.

    Modelled: modules/core/__xil.h 422-495 (ref_t), 626-1790 (instruction
    structs and their sizes), modules/core/xil.cpp 9-47, 816-863, 993-1125,
    modules/compile/__xil_struct.h (the constructors the compiler uses).
    Bit-fields are laid out low-order first (gcc/clang, little endian), multi-byte
    operands are little endian; every struct is packed because all its members
    are bytes.
    Not modelled: the textual dumps ([operator string_t]) and the method stub
    header written in front of the instructions. *)

From Coq Require Import NArith ZArith List Bool Lia.
Import ListNotations.
Open Scope N_scope.

(** *** Little-endian operands *)

Fixpoint le_bytes (n : nat) (v : N) : list N :=
  match n with
  | O => []
  | S n' => (v mod 256) :: le_bytes n' (v / 256)
  end.

Fixpoint le_val (l : list N) : N :=
  match l with
  | [] => 0
  | b :: r => b + 256 * le_val r
  end.

(** Reading [n] bytes at offset [k] of the bytes that follow; [None] when that
    touches memory behind the last byte of the buffer. *)
Definition read_le (l : list N) (k n : nat) : option N :=
  if Nat.leb (k + n) (length l) then Some (le_val (firstn n (skipn k l))) else None.

(** *** ref_t *)

(** [ref_t], __xil.h 422-438: three bit-fields of 20, 3 and 9 bits; storing an
    argument keeps its low bits. *)
Record ref := mkref { r_index : N; r_extra : N; r_count : N }.

(** The constructor, __xil.h 432-434 ([index], [count], [extra]). *)
Definition new_ref (index count extra : N) : ref :=
  mkref (index mod 2 ^ 20) (extra mod 2 ^ 3) (count mod 2 ^ 9).

(** The 32-bit image, __xil.h 436-444. *)
Definition ref_u32 (r : ref) : N := r_index r + 2 ^ 20 * (r_extra r + 2 ^ 3 * r_count r).
Definition ref_of_u32 (v : N) : ref :=
  mkref (v mod 2 ^ 20) ((v / 2 ^ 20) mod 2 ^ 3) ((v / 2 ^ 23) mod 2 ^ 9).

(** [operator ==], __xil.h 471-474: equal images, or both empty. *)
Definition ref_eqb (a b : ref) : bool :=
  (ref_u32 a =? ref_u32 b) || ((r_count a =? 0) && (r_count b =? 0)).

(** [begin]/[end], xil.cpp 44-47, and [++] on the iterator, __xil.h 507-510. *)
Definition ref_begin (r : ref) : ref := new_ref (r_index r) 1 (r_extra r).
Definition ref_end (r : ref) : ref := new_ref (r_index r + r_count r) 1 (r_extra r).
Definition ref_next (it : ref) : ref := mkref ((r_index it + 1) mod 2 ^ 20) (r_extra it) (r_count it).

(** [for (ref_t x : r)]: collects the visited refs; [fuel] bounds the number of
    steps, [None] means the loop was still running. *)
Fixpoint ref_loop (fuel : nat) (it e : ref) : option (list ref) :=
  match fuel with
  | O => None
  | S f =>
      if ref_eqb it e then Some []
      else option_map (cons it) (ref_loop f (ref_next it) e)
  end.

(** *** Instruction headers *)

(** [xil_header_t(cmd1, cmd2)] and [xil_header_t(cmd1)], __xil.h 629-642; the
    command is in the low nibble.  Commands from [external] = 15 on are stored
    as 15 and the difference in the payload nibble. *)
Definition header2 (cmd payload : N) : N := cmd mod 16 + 16 * (payload mod 16).
Definition header1 (cmd : N) : N :=
  if 15 <=? cmd then 15 + 16 * ((cmd - 15) mod 16) else cmd mod 16.

(** [command()] and [hdata()], __xil.h 645-654. *)
Definition h_command (h : N) : N :=
  if h mod 16 =? 15 then h / 16 + 15 else h mod 16.
Definition h_data (h : N) : N := h / 16.

(** *** Operand sizes *)

(** [size_of(xil_type_t)], __xil.h 711-745; types numbered as in 167-199. *)
Definition size_of_type (t : N) : nat :=
  match t with
  | 1 | 2 | 11 => 1
  | 3 | 4 => 2
  | 5 | 6 | 9 | 12 => 4
  | 7 | 8 | 10 => 8
  | 13 | 14 => 4
  | 15 => 4
  | _ => 0
  end.

(** *** Jump distances *)

(** [jmp_xil_t::set_step], xil.cpp 816-832: the operand bytes and the distance
    bit, or the "jmp step overflow" exception ([None]). *)
Definition set_step (step : Z) : option (N * list N) :=
  if (Z.leb step 127 && Z.leb (-128) step)%bool then
    Some (0, le_bytes 1 (Z.to_N (step mod 256)))
  else if (Z.leb step 8388607 && Z.leb (-8388608) step)%bool then
    Some (1, le_bytes 3 (Z.to_N (step mod 16777216)))
  else None.

Definition sign_extend (bits : Z) (v : N) : Z :=
  let z := Z.of_N v in
  if Z.ltb z (2 ^ (bits - 1)) then z else (z - 2 ^ bits)%Z.

(** [jmp_xil_t::step], xil.cpp 835-848: [l] is the instruction from its header
    byte on. *)
Definition get_step (l : list N) : option Z :=
  match l with
  | [] => None
  | h :: _ =>
      if h_data h / 8 =? 0 then option_map (sign_extend 8) (read_le l 1 1)
      else option_map (sign_extend 24) (read_le l 1 3)
  end.

(** *** Instructions *)

(** Abstract instructions, one constructor per group of x_..._xil_t
    constructors of modules/compile/__xil_struct.h. [ref] operands are their
    32-bit images. *)
Inductive xinstr :=
| XEmpty (h : N)                          (* command 0 *)
| XPushId (s dt id : N)                   (* local, argument, *_addr, *_content by identity; 225-300, 330-348, 378-395 *)
| XPushRef (s dt r : N)                   (* field, array element, *_addr, *_content; 303-324, 351-372, 398-419 *)
| XPushConst (dt v : N)                   (* 502-512, 527-560 *)
| XPushGeneric (r : N)                    (* 515-524 *)
| XPushObject (ot r : N)                  (* 424-434 *)
| XPushPlain (s : N)                      (* params 17, duplicate 18; 447-452, 494-499 *)
| XConvert (dt dt2 : N)                   (* 455-465 *)
| XBox (s bt r : N)                       (* box 20, unbox 21; 468-491 *)
| XPopEmpty (dt : N)                      (* 102-104 *)
| XPopStruct (r : N)                      (* 100 *)
| XPopId (s dt id : N)                    (* 566-595, 613-630 *)
| XPopRef (s dt r : N)                    (* 110-119, 598-607, 633-654 *)
| XPickId (s dt id : N)                   (* 660-689, 707-724 *)
| XPickRef (s dt r : N)                   (* 692-701, 727-748 *)
| XCall (ct r : N)                        (* 69-78 *)
| XCallCommand (c : N)                    (* 83-91 *)
| XJmp (model : N) (step : Z)             (* 753-758 *)
| XSwitch (tbl : N)                       (* 761-769 *)
| XSmp (k : N)
| XAl (c d1 d2 : N)
| XCmp (c d1 d2 : N)
| XBit (c d1 d2 : N)
| XLogic (c : N)
| XCast (c r : N)
| XNew (ty r : N)                         (* 123-164 *)
| XNewAllocs (r count : N)                (* stack_allocs = 4; 169-178 *)
| XCopy (ty kind r : N)                   (* 772-798 *)
| XInit (ty dt : N)                       (* 183-201, 213-220 *)
| XInitRef (ty r : N).                    (* 203-207 *)

Definition lo (b : N) : N := b mod 16.
Definition hi (b : N) : N := b / 16.
Definition nib (l h : N) : N := l mod 16 + 16 * (h mod 16).

(** [push_xil_t(stype, dtype)], __xil.h 784-789: header and second byte. *)
Definition push_head (s : N) : N := header2 1 (if 15 <=? s then 15 else s).
Definition push_second (s dt : N) : N := nib dt (if 15 <? s then s - 15 else 0).

(** [set_identity], __xil.h 830-841 (same in pop 987-998 and pick 1096-1107):
    inline when below 15, otherwise 15 and two extra bytes; the parameter is a
    [uint16_t]. *)
Definition id_nibble (id : N) : N := let i := id mod 65536 in if i <? 15 then i else 15.
Definition id_extra (id : N) : list N :=
  let i := id mod 65536 in if i <? 15 then [] else le_bytes 2 i.

(** The bytes a constructor initialises, from the header on.  [None]: the
    constructor throws. *)
Definition image (i : xinstr) : option (list N) :=
  match i with
  | XEmpty h => Some [header2 0 h]
  | XPushId s dt id =>
      Some (push_head s :: nib dt (id_nibble id) :: id_extra id)
  | XPushRef s dt r =>
      Some (push_head s :: push_second s dt :: le_bytes 4 r)
  | XPushConst dt v =>
      Some (push_head 9 :: push_second 9 dt :: le_bytes (size_of_type dt) v)
  | XPushGeneric r => Some (push_head 9 :: push_second 9 0 :: le_bytes 4 r)
  | XPushObject ot r =>
      Some (push_head 16 :: nib ot (hi (push_second 16 0)) :: le_bytes 4 r)
  | XPushPlain s => Some [push_head s; push_second s 0]
  | XConvert dt dt2 =>
      Some [push_head 19; nib dt (hi (push_second 19 0)); dt2 mod 256]
  | XBox s bt r =>
      Some (push_head s :: nib bt (hi (push_second s 0)) :: le_bytes 4 r)
  | XPopEmpty dt => Some [header2 2 0; nib dt 0]
  | XPopStruct r => Some (header2 2 0 :: nib 0 0 :: le_bytes 4 r)
  | XPopId s dt id => Some (header2 2 s :: nib dt (id_nibble id) :: id_extra id)
  | XPopRef s dt r => Some (header2 2 s :: nib dt 0 :: le_bytes 4 r)
  | XPickId s dt id => Some (header2 3 s :: nib dt (id_nibble id) :: id_extra id)
  | XPickRef s dt r => Some (header2 3 s :: nib dt 0 :: le_bytes 4 r)
  | XCall ct r => Some (header2 4 ct :: le_bytes 4 r)
  | XCallCommand c => Some [header2 4 5; c mod 256]
  | XJmp model step =>
      match set_step step with
      | Some (d, bs) => Some (header2 5 (model mod 8 + 8 * d) :: bs)
      | None => None
      end
  | XSwitch tbl => if tbl <=? 255 then Some [header2 5 3; tbl] else None
  | XSmp k => Some [header2 6 k]
  | XAl c d1 d2 => Some [header2 7 c; nib d1 d2]
  | XCmp c d1 d2 => Some [header2 8 c; nib d1 d2]
  | XLogic c => Some [header2 9 c]
  | XBit c d1 d2 => Some [header2 10 c; nib d1 d2]
  | XCast c r => Some (header2 11 c :: le_bytes 4 r)
  | XNew ty r => Some (header2 12 ty :: le_bytes 4 r)
  | XNewAllocs r count => Some (header2 12 4 :: le_bytes 4 r ++ le_bytes 4 count)
  | XCopy ty kind r => Some (header1 15 :: nib ty kind :: le_bytes 4 r)
  | XInit ty dt => Some [header1 16; nib ty dt]
  | XInitRef ty r => Some (header1 16 :: nib ty 0 :: le_bytes 4 r)
  end.

(** [push_xil_t::stype], __xil.h 809-815. *)
Definition push_stype (h b : N) : N := if h_data h =? 15 then 15 + hi b else h_data h.

(** [push_xil_t::size_of], 881-927: bytes behind the two fixed ones, from the
    storage type and the second byte. *)
Definition push_operand (s b : N) : nat :=
  match s with
  | 1 | 5 | 2 | 6 => if hi b =? 15 then 2%nat else 0%nat
  | 3 | 7 | 4 | 8 | 16 => 4%nat
  | 9 => if lo b =? 0 then 4%nat else size_of_type (lo b)
  | 19 => 1%nat
  | 20 | 21 => 4%nat
  | _ => 0%nat
  end.

(** [pop_xil_t::size_of], 1018-1044. *)
Definition pop_operand (s b : N) : nat :=
  match s with
  | 0 => if lo b =? 0 then 4%nat else 0%nat
  | 1 | 2 => if hi b =? 15 then 2%nat else 0%nat
  | 3 | 4 => 4%nat
  | _ => 0%nat
  end.

(** [pick_xil_t::size_of], 1127-1148. *)
Definition pick_operand (s b : N) : nat :=
  match s with
  | 1 | 2 => if hi b =? 15 then 2%nat else 0%nat
  | 3 | 4 => 4%nat
  | _ => 0%nat
  end.

(** [jmp_xil_t::size_of], 1558-1582. *)
Definition jmp_operand (d : N) : nat :=
  if d mod 8 =? 3 then 1%nat else if d / 8 =? 1 then 3%nat else 1%nat.

(** A size that depends on the second byte. *)
Definition second (rest : list N) (f : N -> nat) : option nat :=
  match rest with [] => None | b :: _ => Some (f b) end.

(** The dispatch [__size_of], xil.cpp 993-1047, with new 1635-1652, copy
    1708-1724, init 1771-1779 and the one- and two-byte instructions.  Commands
    13, 14 and 17.. have size 0.  [None]: the size computation itself reads
    behind the end of the buffer. *)
Definition size_of (l : list N) : option nat :=
  match l with
  | [] => None
  | h :: rest =>
      match h_command h with
      | 0 => Some 1%nat
      | 1 => second rest (fun b => (2 + push_operand (push_stype h b) b)%nat)
      | 2 => second rest (fun b => (2 + pop_operand (h_data h) b)%nat)
      | 3 => second rest (fun b => (2 + pick_operand (h_data h) b)%nat)
      | 4 => Some 5%nat
      | 5 => Some (1 + jmp_operand (h_data h))%nat
      | 6 => Some 1%nat
      | 7 => Some 2%nat
      | 8 => Some 2%nat
      | 9 => Some 1%nat
      | 10 => Some 2%nat
      | 11 => Some 5%nat
      | 12 => Some (if h_data h =? 4 then 9%nat else 5%nat)
      | 15 => second rest (fun b => if (lo b =? 1) || (lo b =? 2) then 6%nat else 2%nat)
      | 16 => second rest (fun b => if hi b =? 0 then 6%nat else 2%nat)
      | _ => Some 0%nat
      end
  end.

(** [xil_buffer_writer_t::write], xil.cpp 1105-1119: the first [__size_of] bytes
    of the struct are copied.  [junk] are the uninitialised bytes of the pool
    object that follow the initialised ones. *)
Definition write1 (i : xinstr) (junk : list N) : option (list N) :=
  match image i with
  | None => None
  | Some im =>
      match size_of (im ++ junk) with
      | None => None
      | Some n => Some (firstn n (im ++ junk))
      end
  end.

Fixpoint write_all (is : list (xinstr * list N)) : option (list N) :=
  match is with
  | [] => Some []
  | (i, junk) :: rest =>
      match write1 i junk, write_all rest with
      | Some a, Some b => Some (a ++ b)
      | _, _ => None
      end
  end.

(** What the accessors return for the instruction at the front of [l]:
    get_identity (824-827 and the same in pop, pick), get_ref, get_extra,
    dtype2, step, tbl, type_ref, count.  [None]: unknown instruction, or an
    accessor reads behind the end of the buffer. *)
Definition get_identity (l : list N) (b : N) : option N :=
  if hi b <? 15 then Some (hi b) else read_le l 2 2.

Definition view (l : list N) : option xinstr :=
  match l with
  | [] => None
  | h :: rest =>
      let with_b (f : N -> option xinstr) :=
        match rest with [] => None | b :: _ => f b end in
      let d := h_data h in
      match h_command h with
      | 0 => Some (XEmpty d)
      | 1 => with_b (fun b =>
          let s := push_stype h b in
          match s with
          | 1 | 2 | 5 | 6 | 10 | 11 => option_map (XPushId s (lo b)) (get_identity l b)
          | 3 | 4 | 7 | 8 | 12 | 13 => option_map (XPushRef s (lo b)) (read_le l 2 4)
          | 9 => if lo b =? 0 then option_map XPushGeneric (read_le l 2 4)
                 else option_map (XPushConst (lo b)) (read_le l 2 (size_of_type (lo b)))
          | 16 => option_map (XPushObject (lo b)) (read_le l 2 4)
          | 17 | 18 => Some (XPushPlain s)
          | 19 => option_map (XConvert (lo b)) (read_le l 2 1)
          | 20 | 21 => option_map (XBox s (lo b)) (read_le l 2 4)
          | _ => None
          end)
      | 2 => with_b (fun b =>
          match d with
          | 0 => if lo b =? 0 then option_map XPopStruct (read_le l 2 4)
                 else Some (XPopEmpty (lo b))
          | 1 | 2 | 5 | 6 => option_map (XPopId d (lo b)) (get_identity l b)
          | 3 | 4 | 7 | 8 => option_map (XPopRef d (lo b)) (read_le l 2 4)
          | _ => None
          end)
      | 3 => with_b (fun b =>
          match d with
          | 1 | 2 | 5 | 6 => option_map (XPickId d (lo b)) (get_identity l b)
          | 3 | 4 | 7 | 8 => option_map (XPickRef d (lo b)) (read_le l 2 4)
          | _ => None
          end)
      | 4 => if d =? 5 then option_map XCallCommand (read_le l 1 1)
             else option_map (XCall d) (read_le l 1 4)
      | 5 => if d mod 8 =? 3 then option_map XSwitch (read_le l 1 1)
             else option_map (XJmp (d mod 8)) (get_step l)
      | 6 => Some (XSmp d)
      | 7 => with_b (fun b => Some (XAl d (lo b) (hi b)))
      | 8 => with_b (fun b => Some (XCmp d (lo b) (hi b)))
      | 9 => Some (XLogic d)
      | 10 => with_b (fun b => Some (XBit d (lo b) (hi b)))
      | 11 => option_map (XCast d) (read_le l 1 4)
      | 12 => if d =? 4 then
                match read_le l 1 4, read_le l 5 4 with
                | Some r, Some c => Some (XNewAllocs r c)
                | _, _ => None
                end
              else option_map (XNew d) (read_le l 1 4)
      | 15 => with_b (fun b => option_map (XCopy (lo b) (hi b)) (read_le l 2 4))
      | 16 => with_b (fun b =>
                if hi b =? 0 then option_map (XInitRef (lo b)) (read_le l 2 4)
                else Some (XInit (lo b) (hi b)))
      | _ => None
      end
  end.

(** One [xil_reader_t::read], xil.cpp 1062-1077, on the bytes not yet read. *)
Inductive readres :=
| ReadEnd                                 (* returned false *)
| ReadOk (rest : list N) (over : nat)     (* advanced; [over] bytes past the end *)
| ReadOob.                                (* the size computation left the buffer *)

Definition read (l : list N) : readres :=
  match l with
  | [] => ReadEnd
  | _ =>
      match size_of l with
      | None => ReadOob
      | Some n => ReadOk (skipn n l) (n - length l)
      end
  end.

(** Reading a whole buffer with [while (reader.read(&xil))] and viewing each
    instruction; [fuel] bounds the number of reads ([None]: not finished, or a
    bad instruction). *)
Fixpoint read_all (fuel : nat) (l : list N) : option (list xinstr) :=
  match fuel with
  | O => None
  | S f =>
      match read l with
      | ReadEnd => Some []
      | ReadOob => None
      | ReadOk rest over =>
          if Nat.ltb 0 over then None
          else match view l, read_all f rest with
               | Some i, Some is => Some (i :: is)
               | _, _ => None
               end
      end
  end.
