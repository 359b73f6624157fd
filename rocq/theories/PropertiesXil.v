(** Properties C01-C05: the bytecode encoding. *)
From Coq Require Import NArith ZArith List Bool Lia.
From Verif Require Import XilModel XilSpec XilProofs.
Import ListNotations.
Open Scope N_scope.

(** *** C01 opcode header round trip *)

Theorem C01_header_with_payload cmd payload :
  cmd < 15 -> payload < 16 ->
  h_command (header2 cmd payload) = cmd /\ h_data (header2 cmd payload) = payload
  /\ header2 cmd payload < 256.
Proof. exact (header2_round_trip cmd payload). Qed.
Print Assumptions C01_header_with_payload.
Example C01_header_with_payload_ex : h_command (header2 12 15) = 12.
Proof. reflexivity. Qed.

Theorem C01_header_extended cmd :
  cmd < 31 -> h_command (header1 cmd) = cmd /\ header1 cmd < 256.
Proof. exact (header1_round_trip cmd). Qed.
Print Assumptions C01_header_extended.
Example C01_header_extended_ex : h_command (header1 16) = 16.
Proof. reflexivity. Qed.

(** The storage type of a push survives both its short and its extended form,
    and does not disturb the data type. *)
Theorem C01_storage_type s dt :
  s <= 30 -> dt < 16 ->
  h_command (push_head s) = 1 /\
  push_stype (push_head s) (push_second s dt) = s /\ lo (push_second s dt) = dt.
Proof. exact (push_storage_round_trip s dt). Qed.
Print Assumptions C01_storage_type.
Example C01_storage_type_ex : push_stype (push_head 21) (push_second 21 7) = 21.
Proof. reflexivity. Qed.

(** *** C02 bytecode stream round trip *)

(** The full statement is refuted below; this is the part that holds: streams of
    instructions whose operands the writer does not cut off.  Whatever the
    uninitialised memory contains, writing succeeds and reading returns the same
    instructions, consuming exactly the buffer. *)
Theorem C02_stream_round_trip_partial (is : list (xinstr * list N)) :
  (forall i junk, In (i, junk) is ->
     operands_ok i /\ written_whole i /\ pool_slack i junk) ->
  exists bs, write_all is = Some bs /\
    read_all (S (length is)) bs = Some (map fst is).
Proof. exact (stream_round_trip_in is). Qed.
Print Assumptions C02_stream_round_trip_partial.

Definition C02_sample : list (xinstr * list N) :=
  [(XPushId 1 5 300, []); (XPushConst 7 (2 ^ 63), []); (XJmp 2 (-70000), []);
   (XCallCommand 3, [255; 254; 253]); (XPushRef 3 13 4000000000, []); (XAl 1 5 7, []);
   (XNewAllocs 77 8, []); (XCopy 1 2 9, []); (XInitRef 3 11, []); (XPopId 1 5 14, []); (XSmp 2, [])].
Example C02_stream_ex :
  (forall i junk, In (i, junk) C02_sample ->
     operands_ok i /\ written_whole i /\ pool_slack i junk) /\
  option_map (@length N) (write_all C02_sample) = Some 55%nat.
Proof.
  split; [|reflexivity].
  intros i junk H. unfold C02_sample in H. cbn [In] in H.
  repeat (destruct H as [[= <- <-]|H];
    [cbn [operands_ok written_whole pool_slack length In]; unfold nibble, word32;
     repeat split; auto; try lia; try (vm_compute; reflexivity); tauto |]).
  destruct H.
Qed.

(** Finding: a push of the content of local variable number 15 or above, and a
    pop to the address held in such an argument, are written without their
    variable number, so that different instructions have the same bytes. *)
Theorem C02_stream_round_trip_refuted :
  exists i j, operands_ok i /\ operands_ok j /\ i <> j /\
    write_all [(i, [])] = write_all [(j, [])] /\
    (forall f bs, write_all [(i, [])] = Some bs -> read_all f bs <> Some [i]).
Proof. exact lost_identity. Qed.
Print Assumptions C02_stream_round_trip_refuted.

Theorem C02_pop_argument_addr_refuted :
  exists i j, operands_ok i /\ operands_ok j /\ i <> j /\
    (exists s dt id, i = XPopId s dt id) /\
    write_all [(i, [])] = write_all [(j, [])].
Proof. exact lost_pop_identity. Qed.
Print Assumptions C02_pop_argument_addr_refuted.

Theorem C02_push_field_content_refuted :
  exists i j, operands_ok i /\ operands_ok j /\ i <> j /\
    (exists s dt r, i = XPushRef s dt r) /\
    write_all [(i, [])] = write_all [(j, [])].
Proof. exact lost_ref. Qed.
Print Assumptions C02_push_field_content_refuted.

(** *** C03 jump distance *)

Theorem C03_jump_distance model step :
  model < 8 -> (-8388608 <= step <= 8388607)%Z ->
  exists bs, image (XJmp model step) = Some bs /\ forall rest, get_step (bs ++ rest) = Some step.
Proof. exact (jump_round_trip model step). Qed.
Print Assumptions C03_jump_distance.

Theorem C03_jump_overflow_rejected model step :
  ~ (-8388608 <= step <= 8388607)%Z -> image (XJmp model step) = None.
Proof. exact (jump_rejected model step). Qed.
Print Assumptions C03_jump_overflow_rejected.
Example C03_ex : image (XJmp 4 (-129)) = Some [header2 5 12; 127; 255; 255] /\
  image (XJmp 0 8388608) = None.
Proof. split; reflexivity. Qed.

(** *** C04 metadata references *)

Theorem C04_packing_round_trip index count extra :
  index < 2 ^ 20 -> count < 2 ^ 9 -> extra < 2 ^ 3 ->
  let r := ref_of_u32 (ref_u32 (new_ref index count extra)) in
  r_index r = index /\ r_count r = count /\ r_extra r = extra.
Proof. exact (ref_packing index count extra). Qed.
Print Assumptions C04_packing_round_trip.

(** Every 32-bit word is the image of the ref it decodes to. *)
Theorem C04_unpacking_round_trip w : w < 2 ^ 32 -> ref_u32 (ref_of_u32 w) = w.
Proof. exact (ref_unpacking w). Qed.
Print Assumptions C04_unpacking_round_trip.

Theorem C04_iteration r :
  ref_fits r -> r_index r + r_count r <= 2 ^ 20 ->
  option_map (map (fun x => (r_extra x, r_index x)))
    (ref_loop (S (N.to_nat (r_count r))) (ref_begin r) (ref_end r)) = Some (denotes r).
Proof. exact (ref_iteration_denotes r). Qed.
Print Assumptions C04_iteration.

Theorem C04_equality a b :
  ref_fits a -> ref_fits b -> (ref_eqb a b = true <-> denotes a = denotes b).
Proof. exact (ref_eq_denotes a b). Qed.
Print Assumptions C04_equality.
Example C04_ex :
  let r := new_ref 1048570 6 5 in
  ref_fits r /\ r_index r + r_count r <= 2 ^ 20 /\ length (denotes r) = 6%nat /\
  ref_eqb r (new_ref 1048570 5 5) = false.
Proof. vm_compute. repeat split; congruence. Qed.

(** Finding: arguments that do not fit are truncated silently. *)
Theorem C04_overflow_truncated_refuted :
  exists index count extra, r_index (new_ref index count extra) <> index /\
    r_count (new_ref index count extra) <> count.
Proof. exact ref_truncated. Qed.
Print Assumptions C04_overflow_truncated_refuted.

(** *** C05 reader progress *)

(** Refuted for arbitrary buffers: a byte that is not an instruction is read
    forever, and an instruction cut off by the end is read past the end. *)
Theorem C05_unknown_command_refuted :
  exists l, forall k, reads_to k l l.
Proof. exact reader_loops. Qed.
Print Assumptions C05_unknown_command_refuted.

Theorem C05_past_end_refuted :
  exists l rest over, read l = ReadOk rest over /\ (0 < over)%nat.
Proof. exact reader_overruns. Qed.
Print Assumptions C05_past_end_refuted.

(** What holds: a known command always advances, ... *)
Theorem C05_known_command_advances_partial h t rest over :
  known_command h -> read (h :: t) = ReadOk rest over ->
  (length rest < length (h :: t))%nat.
Proof. exact (read_advances h t rest over). Qed.
Print Assumptions C05_known_command_advances_partial.

(** ... and on every buffer, after at most as many reads as there are bytes, the
    reader is at the end, or leaves the buffer, or stands on an unknown command. *)
Theorem C05_reader_outcome_partial l :
  (forall b, In b l -> b < 256) ->
  exists k l', (k <= length l)%nat /\ reads_to k l l' /\
    (l' = [] \/ read l' = ReadOob \/
     (exists h t, l' = h :: t /\ ~ known_command h /\ read l' = ReadOk l' 0)).
Proof. exact (reader_outcome_in l). Qed.
Print Assumptions C05_reader_outcome_partial.
Example C05_ex : known_command 23 /\ read [23; 0x55; 6] = ReadOk [6] 0 /\ ~ known_command 13.
Proof.
  split; [left; vm_compute; congruence|]. split; [reflexivity|].
  intros [H|[H|H]]; vm_compute in H; congruence.
Qed.
