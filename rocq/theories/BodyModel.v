(** The bytes of a method body: how the compiler writes local variables, switch
    tables, protected blocks and instructions, and how the executor reads them.
    modules/core/core.cpp 1503-1573, 1573-1588, 1626-1638, 1661-1668, 1767-1815,
    8208-8262 and 8363-8391; modules/core/xil.cpp 1089-1124;
    include/modules/core.h 3059-3300; modules/exec/parser.h 13-130;
    modules/exec/utils.h 12-31. *)
From Coq Require Import ZArith List Bool Lia.
From Verif Require Import CommonModel.
Import ListNotations.
Open Scope Z_scope.

(* The bytes of an integer of [n] bytes in memory, least significant first. *)
Fixpoint bytes_of (n : nat) (v : Z) : list Z :=
  match n with
  | O => []
  | S k => v mod 256 :: bytes_of k (v / 256)
  end.

Fixpoint value_of (l : list Z) : Z :=
  match l with
  | [] => 0
  | b :: l' => b + 256 * value_of l'
  end.

(* The value of the same bytes as a signed integer of [n] bytes. *)
Definition signed_of (n : nat) (v : Z) : Z :=
  if v <? 2 ^ (8 * Z.of_nat n - 1) then v else v - 2 ^ (8 * Z.of_nat n).

(* local_variable_t as far as it is written: its identity, the reference of its
   type (ref_t, 32 bits) and its index (msize_t, 16 bits). *)
Record variable : Type := mk_variable {
  v_identity : Z; v_type : Z; v_index : Z }.

(* switch_row_t: value and step (core.h 3172-3184; the label is not written). *)
Definition row : Type := (Z * Z)%type.

(* switch_table_t after commit: its rows and the step of the default. *)
Record table : Type := mk_table { t_default : Z; t_rows : list row }.

(* method_xil_block_t, core.h 3261-3275. *)
Record block : Type := mk_block {
  b_type : Z; b_start : Z; b_end : Z; b_entry : Z; b_relation : Z }.

(* What is compiled of a method; the instructions are given by their bytes. *)
Record method_body : Type := mk_body {
  m_variables : list variable;
  m_tables    : list table;
  m_blocks    : list block;
  m_code      : list (list Z)
}.

(* ------------------------------------------------------------------ *)
(** * Writing *)

(* method_stub_t, core.h 3096-3115: the type in the low four bits of the first
   byte, the count as uint16_t in the last two.  method_stub_type_t, 3073-3091. *)
Definition stub (type count : Z) : list Z :=
  [type; 0] ++ bytes_of 2 count.

Definition stub_variable := 1.
Definition stub_switch := 2.
Definition stub_block := 3.
Definition stub_xil := 15.

(* std::sort by identity, core.cpp 1528-1530; the identities differ. *)
Fixpoint insert_variable (v : variable) (l : list variable) : list variable :=
  match l with
  | [] => [v]
  | w :: l' => if v_identity v <=? v_identity w then v :: l
               else w :: insert_variable v l'
  end.

Fixpoint sort_variables (l : list variable) : list variable :=
  match l with
  | [] => []
  | v :: l' => insert_variable v (sort_variables l')
  end.

(* local_variables_t::write and local_variable_defination_t::write, core.cpp
   1513-1545 and 1661-1668: each element of the list is one buffer.write. *)
Definition write_variables (vs : list variable) : list (list Z) :=
  match vs with
  | [] => []
  | _ => stub stub_variable (Z.of_nat (length vs)) ::
         flat_map (fun v => [bytes_of 4 (v_type v); bytes_of 2 (v_index v)])
                  (sort_variables vs)
  end.

(* switch_table_t::write, core.cpp 1573-1585: the count is kept as uint16_t
   (core.h 3192-3196), and the loop over the rows ends there. *)
Definition row_count (t : table) : Z := Z.of_nat (length (t_rows t)) mod 2 ^ 16.

Definition write_table (t : table) : list (list Z) :=
  (bytes_of 2 (row_count t) ++ bytes_of 2 0) :: bytes_of 4 (t_default t) ::
  flat_map (fun r => [bytes_of 4 (fst r); bytes_of 4 (snd r)])
           (firstn (Z.to_nat (row_count t)) (t_rows t)).

(* switch_manager_t::write, core.cpp 1628-1636: the stub is always written. *)
Definition write_tables (ts : list table) : list (list Z) :=
  stub stub_switch (Z.of_nat (length ts)) :: flat_map write_table ts.

(* xilx_block_manager_t::write, core.cpp 8224-8262; the labels are already
   indices. *)
Definition block_bytes (b : block) : list Z :=
  bytes_of 1 (b_type b) ++ bytes_of 1 0 ++ bytes_of 2 0 ++ bytes_of 4 (b_start b) ++
  bytes_of 4 (b_end b) ++ bytes_of 4 (b_entry b) ++ bytes_of 4 (b_relation b).

Definition write_blocks (bs : list block) : list (list Z) :=
  match bs with
  | [] => []
  | _ => stub stub_block (Z.of_nat (length bs)) :: map block_bytes bs
  end.

(* method_t::compile, core.cpp 1800-1809, then xil_buffer_writer_t::write,
   xil.cpp 1089-1124. *)
Definition pieces (m : method_body) : list (list Z) :=
  write_variables (m_variables m) ++ write_tables (m_tables m) ++
  write_blocks (m_blocks m) ++ stub stub_xil 0 :: m_code m.

(* xil_buffer_t, core.cpp 8363-8391: the capacity, if there is a buffer, and
   what has been written.  [None] is a write behind the end of the buffer, or a
   size that is never reached. *)
Record buffer : Type := mk_buffer { cap : option Z; data : list Z }.

Definition ensure (b : buffer) (need : Z) : option buffer :=
  match cap b with
  | None =>
      match alignd need 128 with
      | Some c => Some (mk_buffer (Some c) (data b))
      | None => None
      end
  | Some c =>
      if c <? need then
        match alignd c need with
        | Some c' => Some (mk_buffer (Some c') (data b))
        | None => None
        end
      else Some b
  end.

Definition buffer_write (b : buffer) (l : list Z) : option buffer :=
  let need := Z.of_nat (length (data b)) + Z.of_nat (length l) in
  match ensure b need with
  | Some b' =>
      match cap b' with
      | Some c => if c <? need then None else Some (mk_buffer (cap b') (data b' ++ l))
      | None => None
      end
  | None => None
  end.

Fixpoint buffer_writes (b : buffer) (ls : list (list Z)) : option buffer :=
  match ls with
  | [] => Some b
  | l :: ls' =>
      match buffer_write b l with
      | Some b' => buffer_writes b' ls'
      | None => None
      end
  end.

(* __compile_method, assembly_writer.cpp 1483-1501: a method without
   instructions has no body. *)
Definition code_size (m : method_body) : nat := length (concat (m_code m)).

Definition compile_method (m : method_body) : option (option (list Z)) :=
  match buffer_writes (mk_buffer None []) (pieces m) with
  | Some b => Some (if Nat.eqb (code_size m) 0 then None else Some (data b))
  | None => None
  end.

(* ------------------------------------------------------------------ *)
(** * Reading *)

(* What a read can do: a value and the bytes left, the exception "read method
   body overflow", or bytes read behind the end. *)
Inductive read_result (A : Type) : Type :=
| Got (a : A) (rest : list Z)
| Overflow
| Beyond.
Arguments Got {A} a rest.
Arguments Overflow {A}.
Arguments Beyond {A}.

Definition bind {A B : Type} (r : read_result A) (f : A -> list Z -> read_result B)
  : read_result B :=
  match r with
  | Got a rest => f a rest
  | Overflow => Overflow
  | Beyond => Beyond
  end.

(* __read, parser.h 103-111. *)
Definition read_bytes (n : nat) (l : list Z) : read_result (list Z) :=
  if (Nat.ltb (length l) n) then Overflow else Got (firstn n l) (skipn n l).

Definition read_uint (n : nat) (l : list Z) : read_result Z :=
  bind (read_bytes n l) (fun bs rest => Got (value_of bs) rest).

Definition read_int (n : nat) (l : list Z) : read_result Z :=
  bind (read_bytes n l) (fun bs rest => Got (signed_of n (value_of bs)) rest).

(* __read_stub, parser.h 114-128: without a stub of the type nothing is read;
   the four bytes of one are not checked to be there.  The result is the
   count. *)
Definition read_stub (type : Z) (l : list Z) : read_result (option Z) :=
  match l with
  | [] => Got None []
  | b :: _ =>
      if b mod 16 =? type then
        if Nat.ltb (length l) 4 then Beyond
        else Got (Some (value_of (firstn 2 (skipn 2 l)))) (skipn 4 l)
      else Got None l
  end.

Fixpoint read_times {A : Type} (n : nat) (f : list Z -> read_result A) (l : list Z)
  : read_result (list A) :=
  match n with
  | O => Got [] l
  | S k =>
      bind (f l) (fun a rest =>
      bind (read_times k f rest) (fun as_ rest' => Got (a :: as_) rest'))
  end.

(* A stub and then as many entries as it counts. *)
Definition read_part {A : Type} (type : Z) (f : list Z -> read_result A) (l : list Z)
  : read_result (list A) :=
  bind (read_stub type l) (fun o rest =>
    match o with
    | None => Got [] rest
    | Some n => read_times (Z.to_nat n) f rest
    end).

(* each_variable, parser.h 23-38. *)
Definition read_variable (l : list Z) : read_result (Z * Z) :=
  bind (read_uint 4 l) (fun t rest =>
  bind (read_uint 2 rest) (fun i rest' => Got (t, i) rest')).

(* exec_switch_table_t, exec/utils.h 20-31: row_count is int16_t. *)
Record exec_table : Type := mk_exec_table {
  x_count : Z; x_default : Z; x_rows : list row }.

Definition read_row (l : list Z) : read_result row :=
  bind (read_int 4 l) (fun v rest =>
  bind (read_int 4 rest) (fun s rest' => Got (v, s) rest')).

(* each_switch_table, parser.h 41-65. *)
Definition read_table (l : list Z) : read_result exec_table :=
  bind (read_uint 2 l) (fun n rest =>
  bind (read_uint 2 rest) (fun _ rest =>
  bind (read_int 4 rest) (fun d rest =>
  bind (read_times (Z.to_nat n) read_row rest) (fun rows rest =>
  Got (mk_exec_table (signed_of 2 n) d rows) rest)))).

(* each_xil_block, parser.h 68-82: __read of the 20 bytes at once. *)
Definition read_block (l : list Z) : read_result block :=
  bind (read_bytes 20 l) (fun bs rest =>
  Got (mk_block (value_of (firstn 1 bs))
                (value_of (firstn 4 (skipn 4 bs))) (value_of (firstn 4 (skipn 8 bs)))
                (value_of (firstn 4 (skipn 12 bs))) (value_of (firstn 4 (skipn 16 bs))))
      rest).

Record exec_body : Type := mk_exec_body {
  e_variables : list (Z * Z);
  e_tables    : list exec_table;
  e_blocks    : list block;
  e_code      : list Z
}.

(* method_parser_t: __parse_normal_info, then __parse_normal_commands_,
   parser.cpp 159-234.  Without a stub of instructions there are none. *)
Definition read_body (l : list Z) : read_result exec_body :=
  bind (read_part stub_variable read_variable l) (fun vs rest =>
  bind (read_part stub_switch read_table rest) (fun ts rest =>
  bind (read_part stub_block read_block rest) (fun bs rest =>
  bind (read_stub stub_xil rest) (fun o rest =>
  Got (mk_exec_body vs ts bs (match o with None => [] | Some _ => rest end)) [])))).
