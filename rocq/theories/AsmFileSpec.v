(** What it means for tables to be representable, and what a read is expected to give back. *)

From Coq Require Import ZArith List.
From Verif Require Import AsmFileModel.
Import ListNotations.
Open Scope Z_scope.

(** The widths in bytes of the members of each row structure, from their declarations
    (__assembly_layout.h 737-1180), for the tables assembly to attribute_argument. *)
Definition struct_bytes : list (list Z) :=
  [ [4; 8; 4; 4]; [1; 1; 2; 4]; [4; 4]; [4; 4; 4; 4; 2];
    [4; 4; 4; 4; 1; 1; 4; 4; 4; 4; 4; 4; 4; 4];
    [4; 4; 4]; [4; 2]; [4; 4; 4]; [4; 4; 4; 4; 2]; [1; 4]; [4; 4; 4]; [4; 4; 4]; [4]; [4];
    [4; 4; 4; 4; 4]; [4; 4; 4; 4; 4; 4; 4; 4; 1]; [4; 4; 4; 4; 4; 4; 4; 4]; [4; 4; 4; 4; 4; 4; 4];
    [4; 4; 4; 4; 4]; [4; 4]; [4; 2]; [4; 4; 4]; [4; 4]; [4; 4]; [4; 4]; [4; 4]; [4; 4; 1];
    [4; 4; 4; 1; 4]; [4; 1]; [4; 1; 4; 4]; [4; 4; 1] ].

(** Every member of the row is an unsigned number of its width. *)
Definition row_fits (ws : list Z) (r : row) : Prop :=
  Forall2 (fun w v => 0 <= v < 256 ^ w) ws r.

Definition tables_fit (tables : list (list row)) : Prop :=
  Forall2 (fun ws t => Forall (row_fits ws) t /\ Z.of_nat (length t) < 4294967296)
    struct_bytes tables.

(** Everything comes back, except the last member of each type row ([type_defs]; the type table
    is the fifth). *)
Definition all_back (t : list row) : list (list (option Z)) := map (map Some) t.

Definition type_row_back (r : row) : list (option Z) := map Some (firstn 13 r) ++ [None].

Definition tables_back (tables : list (list row)) : list (list (list (option Z))) :=
  map all_back (firstn 4 tables)
  ++ map (map type_row_back) (firstn 1 (skipn 4 tables))
  ++ map all_back (skipn 5 tables).

(** A heap buffer as the writer leaves it: a zero byte, then bytes. *)
Definition heap_image (heap : list Z) : Prop :=
  exists t, heap = 0 :: t /\ Forall (fun b => 0 <= b < 256) t
    /\ Z.of_nat (length t) < 4294967296.
