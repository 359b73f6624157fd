(** Small specification vocabulary for the bytecode properties: which operand
    values are representable, independent of the byte layout. *)

From Coq Require Import NArith ZArith List Bool Lia.
From Verif Require Import XilModel.
Import ListNotations.
Open Scope N_scope.

Definition nibble (x : N) : Prop := x < 16.
Definition word32 (x : N) : Prop := x < 2 ^ 32.

(** Width in bytes of a constant of a primitive type (int8, uint8, int16, uint16,
    int32, uint32, int64, uint64, float, double, bool, char are the codes 1..12;
    pointer, object and string constants are 32-bit handles). *)
Definition constant_bytes (dt : N) : N :=
  nth (N.to_nat dt) [0; 1; 1; 2; 2; 4; 4; 8; 8; 4; 8; 1; 4; 4; 4; 4] 0.

(** The operands an instruction is allowed to carry: type codes fit in a
    nibble, refs and counts are 32-bit words, identities 16-bit, constants fit in
    their declared type, storage types are those of the operand's group. *)
Definition operands_ok (i : xinstr) : Prop :=
  match i with
  | XEmpty h => nibble h
  | XPushId s dt id => In s [1; 2; 5; 6; 10; 11] /\ nibble dt /\ id < 65536
  | XPushRef s dt r => In s [3; 4; 7; 8; 12; 13] /\ nibble dt /\ word32 r
  | XPushConst dt v => nibble dt /\ dt <> 0 /\ v < 256 ^ constant_bytes dt
  | XPushGeneric r => word32 r
  | XPushObject ot r => nibble ot /\ word32 r
  | XPushPlain s => In s [17; 18]
  | XConvert dt dt2 => nibble dt /\ nibble dt2
  | XBox s bt r => In s [20; 21] /\ nibble bt /\ word32 r
  | XPopEmpty dt => nibble dt /\ dt <> 0
  | XPopStruct r => word32 r
  | XPopId s dt id | XPickId s dt id => In s [1; 2; 5; 6] /\ nibble dt /\ id < 65536
  | XPopRef s dt r | XPickRef s dt r => In s [3; 4; 7; 8] /\ nibble dt /\ word32 r
  | XCall ct r => nibble ct /\ ct <> 5 /\ word32 r
  | XCallCommand c => c < 256
  | XJmp model step => model < 8 /\ model <> 3 /\ (-8388608 <= step <= 8388607)%Z
  | XSwitch tbl => tbl <= 255
  | XSmp k => nibble k
  | XAl c d1 d2 | XCmp c d1 d2 | XBit c d1 d2 => nibble c /\ nibble d1 /\ nibble d2
  | XLogic c => nibble c
  | XCast c r => nibble c /\ word32 r
  | XNew ty r => nibble ty /\ ty <> 4 /\ word32 r
  | XNewAllocs r count => word32 r /\ word32 count
  | XCopy ty kind r => In ty [1; 2] /\ nibble kind /\ word32 r
  | XInit ty dt => nibble ty /\ nibble dt /\ dt <> 0
  | XInitRef ty r => nibble ty /\ word32 r
  end.

(** The operands that the writer does not cut off: everything except an identity
    of 15 or more, or a ref, of the [_content] storage kinds (push) and of the
    [_addr] kinds (pop and pick). *)
Definition written_whole (i : xinstr) : Prop :=
  match i with
  | XPushId s _ id => In s [10; 11] -> id < 15
  | XPushRef s _ _ => ~ In s [12; 13]
  | XPopId s _ id | XPickId s _ id => In s [5; 6] -> id < 15
  | XPopRef s _ _ | XPickRef s _ _ => ~ In s [7; 8]
  | _ => True
  end.

(** The uninitialised bytes that follow an instruction in the memory pool: a
    command call occupies as much as a method call, so three of them. *)
Definition pool_slack (i : xinstr) (junk : list N) : Prop :=
  match i with XCallCommand _ => (3 <= length junk)%nat | _ => True end.

(** Commands the reader knows the size of. *)
Definition known_command (h : N) : Prop :=
  h_command h <= 12 \/ h_command h = 15 \/ h_command h = 16.

(** The range of metadata rows a ref stands for: (table tag, row) pairs. *)
Definition denotes (r : ref) : list (N * N) :=
  map (fun k => (r_extra r, r_index r + N.of_nat k)) (seq 0 (N.to_nat (r_count r))).

Definition ref_fits (r : ref) : Prop :=
  r_index r < 2 ^ 20 /\ r_extra r < 2 ^ 3 /\ r_count r < 2 ^ 9.

(** [reads_to k l l']: after [k] successful reads from [l] the unread bytes are [l']. *)
Inductive reads_to : nat -> list N -> list N -> Prop :=
| RT0 l : reads_to 0 l l
| RTS k l m l' over : read l = ReadOk m over -> reads_to k m l' -> reads_to (S k) l l'.
