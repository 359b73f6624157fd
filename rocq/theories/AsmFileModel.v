(** The assembly file: guide, header, table directory, table rows, heap.

    Models, in /repo: modules/core/__assembly_layout.h 246-345 (fields of a row), 534-545
    ([write_to]), 1545-1703 ([metadata_reader_t]); modules/core/assembly_layout.cpp 370-760 (the
    field lists); modules/core/assembly_writer.cpp 1499-1562 ([__fill_metadatas], [__write]);
    modules/core/assembly_reader.cpp 1349-1378 ([assembly_read_guide], [assembly_read]).

    Simplifications.  A row is the list of its members as unsigned numbers: first the members in
    the order of the field list, then those the field list leaves out.  A stream is the list of
    bytes still to be read; [read] returns as many bytes as are left.  The array of row pointers
    the reader keeps on the stack is not modelled. *)

From Coq Require Import ZArith Lia List Bool.
From Verif Require Import AsmHeapModel.
Import ListNotations.
Open Scope Z_scope.

(** A member: its width in bytes and whether the field list names it. *)
Definition member := (nat * bool)%type.

Definition listed (ws : list nat) : list member := map (fun w => (w, true)) ws.

(** The rows of tables 3 ([assembly]) to 33 ([attribute_argument]), __assembly_layout.h
    737-1180 and assembly_layout.cpp 410-748.  [mt_type_t::type_defs] is not in the field list
    of the type table (assembly_layout.cpp 465-470). *)
Definition schemas : list (list member) :=
  [ listed [4; 8; 4; 4]%nat;                                  (* 3 assembly *)
    listed [1; 1; 2; 4]%nat;                                  (* 4 constant *)
    listed [4; 4]%nat;                                        (* 5 assembly_ref *)
    listed [4; 4; 4; 4; 2]%nat;                               (* 6 type_ref *)
    listed [4; 4; 4; 4; 1; 1; 4; 4; 4; 4; 4; 4; 4]%nat ++ [(4%nat, false)];   (* 7 type *)
    listed [4; 4; 4]%nat;                                     (* 8 generic_type *)
    listed [4; 2]%nat;                                        (* 9 array_type *)
    listed [4; 4; 4]%nat;                                     (* 10 field_ref *)
    listed [4; 4; 4; 4; 2]%nat;                               (* 11 method_ref *)
    listed [1; 4]%nat;                                        (* 12 method_ref_param *)
    listed [4; 4; 4]%nat;                                     (* 13 property_ref *)
    listed [4; 4; 4]%nat;                                     (* 14 event_ref *)
    listed [4]%nat;                                           (* 15 super_type *)
    listed [4]%nat;                                           (* 16 nest_type *)
    listed [4; 4; 4; 4; 4]%nat;                               (* 17 field *)
    listed [4; 4; 4; 4; 4; 4; 4; 4; 1]%nat;                   (* 18 method *)
    listed [4; 4; 4; 4; 4; 4; 4; 4]%nat;                      (* 19 property *)
    listed [4; 4; 4; 4; 4; 4; 4]%nat;                         (* 20 event *)
    listed [4; 4; 4; 4; 4]%nat;                               (* 21 type_def *)
    listed [4; 4]%nat;                                        (* 22 generic_field *)
    listed [4; 2]%nat;                                        (* 23 position_field *)
    listed [4; 4; 4]%nat;                                     (* 24 generic_method *)
    listed [4; 4]%nat;                                        (* 25 generic_property *)
    listed [4; 4]%nat;                                        (* 26 generic_event *)
    listed [4; 4]%nat;                                        (* 27 generic_type_def *)
    listed [4; 4]%nat;                                        (* 28 type_def_param *)
    listed [4; 4; 1]%nat;                                     (* 29 generic_param *)
    listed [4; 4; 4; 1; 4]%nat;                               (* 30 param *)
    listed [4; 1]%nat;                                        (* 31 generic_argument *)
    listed [4; 1; 4; 4]%nat;                                  (* 32 attribute *)
    listed [4; 4; 1]%nat ].                                   (* 33 attribute_argument *)

Definition row := list Z.

(** * Writing *)

(** [__entity_operation_t::write], __assembly_layout.h 318-326. *)
Fixpoint write_row (sc : list member) (r : row) : list Z :=
  match sc, r with
  | (w, true) :: sc', v :: r' => le_bytes w v ++ write_row sc' r'
  | (_, false) :: sc', _ :: r' => write_row sc' r'
  | _, _ => []
  end.

(** [mt_manager_base_t::write_to], __assembly_layout.h 534-545. *)
Definition write_table (sc : list member) (rows : list row) : list Z :=
  concat (map (write_row sc) rows).

Fixpoint write_tables (scs : list (list member)) (tables : list (list row)) : list Z :=
  match scs, tables with
  | sc :: scs', t :: ts => write_table sc t ++ write_tables scs' ts
  | _, _ => []
  end.

(** [get_size], __assembly_layout.h 305-315. *)
Definition row_size (sc : list member) : Z :=
  fold_right (fun (m : member) n => (if snd m then Z.of_nat (fst m) else 0) + n) 0 sc.

(** [JC_ASSEMBLY_FLAG], include/modules/jc.h 10, as [guid_t::parse] stores it, common.h
    2787-2820. *)
Definition flag : list Z :=
  [149; 88; 37; 191; 209; 58; 77; 28; 144; 213; 71; 142; 98; 206; 170; 182].

(** [mt_guide_t] with [lv] = 1, assembly_writer.cpp 1502-1508. *)
Definition guide_bytes : list Z := flag ++ le_bytes 2 1 ++ le_bytes 2 0.

(** The offset recorded for each table, assembly_writer.cpp 1516-1532: counting starts after the
    header row (8 bytes); the table rows do not exist yet and the guide is not counted. *)
Fixpoint dir_entries (offset : Z) (scs : list (list member)) (tables : list (list row))
  : list (Z * Z) * Z :=
  match scs, tables with
  | sc :: scs', t :: ts =>
      let '(r, e) := dir_entries (offset + row_size sc * Z.of_nat (length t)) scs' ts in
      ((offset, Z.of_nat (length t)) :: r, e)
  | _, _ => ([], offset)
  end.

Definition dir_bytes (entries : list (Z * Z)) : list Z :=
  concat (map (fun e => le_bytes 4 (fst e) ++ le_bytes 4 (snd e)) entries).

(** [JC_MAX_HEAP_SIZE]. *)
Definition max_heap : Z := 67108864.

(** [__fill_metadatas] and [__write], assembly_writer.cpp 1499-1562; [None] when the heap size
    check throws.  [heap] is the whole buffer; its first byte is not written
    (assembly_layout.cpp 234-237). *)
Definition write_file (tables : list (list row)) (heap : list Z) : option (list Z) :=
  let '(entries, end_) := dir_entries 8 schemas tables in
  let heap_size := (Z.of_nat (length heap) - 1) mod 4294967296 in
  if max_heap <? heap_size then None
  else Some (guide_bytes ++ (le_bytes 4 end_ ++ le_bytes 4 heap_size) ++ dir_bytes entries
             ++ write_tables schemas tables ++ skipn 1 heap).

(** * Reading *)

(** A reader takes the bytes left in the stream. *)
Definition reader (A : Type) := list Z -> out (A * list Z).

Definition ret {A} (a : A) : reader A := fun l => OK (a, l).

Definition bind {A B} (r : reader A) (f : A -> reader B) : reader B := fun l =>
  match r l with
  | OK (a, l') => f a l'
  | Throw => Throw
  | UB => UB
  end.

Definition fail {A} : reader A := fun _ => Throw.

(** One member, __assembly_layout.h 332-335: a short read throws. *)
Definition read_n (n : nat) : reader (list Z) := fun l =>
  if (length l <? n)%nat then Throw else OK (firstn n l, skipn n l).

Definition read_num (w : nat) : reader Z := bind (read_n w) (fun b => ret (le_val b)).

(** [__entity_operation_t::read], __assembly_layout.h 328-337.  A member that is not listed
    keeps whatever the memory held: [None]. *)
Fixpoint read_row (sc : list member) : reader (list (option Z)) :=
  match sc with
  | [] => ret []
  | (w, true) :: sc' =>
      bind (read_num w) (fun v => bind (read_row sc') (fun r => ret (Some v :: r)))
  | (_, false) :: sc' => bind (read_row sc') (fun r => ret (None :: r))
  end.

Fixpoint read_rows (n : nat) (sc : list member) : reader (list (list (option Z))) :=
  match n with
  | O => ret []
  | S k => bind (read_row sc) (fun r => bind (read_rows k sc) (fun rs => ret (r :: rs)))
  end.

(** [__assembly_table_reader_t::read], __assembly_layout.h 1553-1577: the tables in order, each
    with the number of rows its directory entry gives. *)
Fixpoint read_tables (scs : list (list member)) (counts : list Z)
  : reader (list (list (list (option Z)))) :=
  match scs, counts with
  | sc :: scs', n :: ns =>
      bind (read_rows (Z.to_nat n) sc) (fun t =>
      bind (read_tables scs' ns) (fun ts => ret (t :: ts)))
  | _, _ => ret []
  end.

(** [__read_tables], __assembly_layout.h 1669-1679: offset and row count of each table; only the
    count is used. *)
Fixpoint read_dir (n : nat) : reader (list Z) :=
  match n with
  | O => ret []
  | S k =>
      bind (read_num 4) (fun _ =>
      bind (read_num 4) (fun rows =>
      bind (read_dir k) (fun r => ret (rows :: r))))
  end.

(** [__read_heap], __assembly_layout.h 1687-1701: chunks of at most 1024 bytes until nothing is
    read, then the count must have reached zero.  [fuel] bounds the number of chunks. *)
Fixpoint read_chunks (fuel : nat) (total : nat) (acc l : list Z) : out (list Z * list Z) :=
  match fuel with
  | O => UB
  | S f =>
      let chunk := firstn (Nat.min 1024 total) l in
      match chunk with
      | [] => if Nat.eqb total 0 then OK (acc, l) else Throw
      | _ => read_chunks f (total - length chunk) (acc ++ chunk) (skipn (length chunk) l)
      end
  end.

(** The heap is created with its first zero byte already in it, and every chunk is appended. *)
Definition read_heap (heap_size : Z) : reader (list Z) := fun l =>
  read_chunks (S (length l)) (Z.to_nat heap_size) [0] l.

Fixpoint bytes_eqb (a b : list Z) : bool :=
  match a, b with
  | [], [] => true
  | x :: r, y :: s => (x =? y) && bytes_eqb r s
  | _, _ => false
  end.

(** [assembly_read_guide] and the choice of layout, assembly_reader.cpp 1350-1374. *)
Definition read_guide : reader unit :=
  bind (read_n 16) (fun f =>
  bind (read_num 2) (fun layout =>
  bind (read_num 2) (fun _ =>
  if negb (bytes_eqb f flag) then fail
  else if negb (layout =? 1) then fail
  else ret tt))).

(** [metadata_reader_t::read], __assembly_layout.h 1611-1632, for a full read. *)
Definition read_body : reader (list (list (list (option Z))) * list Z) :=
  bind (read_num 4) (fun _ =>
  bind (read_num 4) (fun heap_size =>
  bind (read_dir (length schemas)) (fun counts =>
  bind (read_tables schemas counts) (fun ts =>
  bind (read_heap heap_size) (fun h => ret (ts, h)))))).

Definition read_file (l : list Z) : out (list (list (list (option Z))) * list Z) :=
  match bind read_guide (fun _ => read_body) l with
  | OK (x, _) => OK x
  | Throw => Throw
  | UB => UB
  end.

(** A brief read ([assembly_read] with [brief]): only the assembly table, no heap. *)
Definition read_brief (l : list Z) : out (list (list (option Z))) :=
  match bind read_guide (fun _ =>
        bind (read_num 4) (fun _ =>
        bind (read_num 4) (fun _ =>
        bind (read_dir (length schemas)) (fun counts =>
        bind (read_rows (Z.to_nat (hd 0 counts)) (hd [] schemas)) ret)))) l with
  | OK (t, _) => OK t
  | Throw => Throw
  | UB => UB
  end.
