(** C39: the bit array. *)

From Coq Require Import ZArith List Bool Lia.
Import ListNotations.
From Verif Require Import BitModel BitSpec BitProofs.
Open Scope Z_scope.

(** After any history of writes every index reads the value last written to it, false if none. *)
Theorem C39_read : forall init junk ops i, Forall (fun o => 0 <= fst o < 2 ^ 63) ops -> 0 <= i < 2 ^ 63 ->
  exists b, sets junk ops (fresh init) = Some b /\ get i b = Some (written ops i).
Proof. exact read_written. Qed.
Print Assumptions C39_read.

Example C39_read_case :
  match sets (fun _ _ => -1) [(3, true); (200, true); (3, false); (64, true); (5000, true)] (fresh 0) with
  | Some b => map (fun i => get i b) [3; 64; 65; 200; 5000; 5001; 100000] =
              [Some false; Some true; Some false; Some true; Some true; Some false; Some false]
  | None => False
  end.
Proof. vm_compute. reflexivity. Qed.

(** Once something has been written, a search finds the first index from the given one on, among those up to the
    highest index written, that has the value; or says there is none.  Missing: the search in an
    array never written to, see below, and what the growing reads. *)
Theorem C39_search_partial : forall init junk ops value from, ops <> [] -> Forall (fun o => 0 <= fst o < 2 ^ 63) ops -> 0 <= from ->
  exists b r, sets junk ops (fresh init) = Some b /\ index_of value from b = Some r /\
    first_index (written ops) value from (span ops) (2 ^ 64 - 1) r.
Proof. exact search_written. Qed.
Print Assumptions C39_search_partial.

Example C39_search_case :
  match sets (fun _ _ => -1) [(3, true); (4, true); (200, true); (70, false)] (fresh 0) with
  | Some b => map (fun i => index_of true i b) [0; 4; 5; 200; 201] = [Some 3; Some 4; Some 200; Some 200; Some not_found] /\
              map (fun i => index_of false i b) [0; 3; 200] = [Some 0; Some 5; Some not_found]
  | None => False
  end.
Proof. vm_compute. repeat split. Qed.

(** In an array created with a length and never written to, the search dereferences a null pointer. *)
Theorem C39_fresh_search_refuted : forall init value from, 0 <= from < init -> init < 2 ^ 63 -> index_of value from (fresh init) = None.
Proof. exact fresh_search. Qed.
Print Assumptions C39_fresh_search_refuted.

Example C39_fresh_search_case : index_of true 10 (fresh 100) = None.
Proof. reflexivity. Qed.

(** Growing copies more than the old buffer holds. *)
Theorem C39_overread_refuted : forall init junk i j vi vj, 0 <= i -> j < 2 ^ 63 -> i * 2 + 32 <= j ->
  exists b, sets junk [(i, vi); (j, vj)] (fresh init) = Some b /\ overread b = true.
Proof. exact grow_overreads. Qed.
Print Assumptions C39_overread_refuted.

Example C39_overread_case : 0 <= 0 /\ 40 < 2 ^ 63 /\ 0 * 2 + 32 <= 40.
Proof. lia. Qed.
