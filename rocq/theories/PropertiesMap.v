(** C42: the maps; C58: the cache. *)

From Coq Require Import List Bool Arith Lia ZArith Sorted Permutation.
Import ListNotations.
From Verif Require Import MapModel MapSpec MapProofs.

(** The small map: for every history a key has the value last stored, and each key occurs once. *)
Theorem C42_small : forall K V eqb def, decides eqb -> forall cs,
  NoDup (map fst (calls K V eqb def cs)) /\ forall k, get K V eqb k (calls K V eqb def cs) = on_map_all K V eqb def cs k.
Proof. exact small_ok. Qed.
Print Assumptions C42_small.

(** [find] gives the item with the key, or the end. *)
Theorem C42_small_find : forall K V eqb, decides eqb -> forall k m,
  match get K V eqb k m with
  | Some v => exists k', nth_error m (find_index K V eqb k m) = Some (k', v) /\ k' = k
  | None => find_index K V eqb k m = length m
  end.
Proof. exact find_ok. Qed.
Print Assumptions C42_small_find.

Example C42_small_case : decides Nat.eqb /\
  let m := calls nat nat Nat.eqb 0 [Add nat nat 3 30; Assign nat nat 4 40; Touch nat nat 5; Add nat nat 3 31; Assign nat nat 5 50; Touch nat nat 4] in
  m = [(3, 31); (4, 40); (5, 50)] /\ get nat nat Nat.eqb 6 m = None.
Proof. split; [intros a b; apply Nat.eqb_eq|]. vm_compute. split; reflexivity. Qed.

(** The fixed map takes as many pairs as it was made for and refuses more. *)
Theorem C42_fixed_room : forall K V n l f, init K V n (no_pairs K V) = Some f ->
  appends K V l f = if length l <=? n then Some (Fixed K V (Some n) l) else None.
Proof. exact fill_ok. Qed.
Print Assumptions C42_fixed_room.

(** When no key was appended twice, after sorting every key has its value and other keys are not found.  Missing: keys
    appended twice, see below. *)
Theorem C42_fixed_partial : forall K V ltb, total_order ltb -> forall l l' k, NoDup (map fst l) -> sort_of K V ltb l l' ->
  (forall v, In (k, v) l -> value_at K V (find_fixed K V ltb k l') l' = Some v) /\
  (~ In k (map fst l) -> find_fixed K V ltb k l' = length l').
Proof. exact fixed_ok. Qed.
Print Assumptions C42_fixed_partial.

Example C42_fixed_case : total_order Nat.ltb /\ sort_of nat nat Nat.ltb [(7, 1); (2, 2); (5, 3)] [(2, 2); (5, 3); (7, 1)] /\
  NoDup (map fst [(7, 1); (2, 2); (5, 3)]) /\ value_at nat nat (find_fixed nat nat Nat.ltb 5 [(2, 2); (5, 3); (7, 1)]) [(2, 2); (5, 3); (7, 1)] = Some 3.
Proof.
  split; [repeat split|split; [split|split]].
  - intro a. apply Nat.ltb_irrefl.
  - intros a b c H1 H2. apply Nat.ltb_lt in H1, H2. apply Nat.ltb_lt. lia.
  - intros a b H1 H2. apply Nat.ltb_ge in H1, H2. lia.
  - apply (Permutation_cons_append [(2, 2); (5, 3)] (7, 1)).
  - repeat constructor.
  - repeat constructor; cbn; intuition discriminate.
  - reflexivity.
Qed.

(** Of a key appended more than once the first value is found when the sort keeps the order of equal keys, so never the
    last. *)
Theorem C42_fixed_refuted : forall K V eqb ltb, total_order ltb -> decides eqb -> forall l l' k, stable_sort_of K V eqb ltb l l' ->
  value_at K V (find_fixed K V ltb k l') l' = option_map snd (hd_error (filter (fun e => eqb (fst e) k) l)).
Proof. intros K V eqb ltb O D l l' k. exact (fixed_first K V ltb O eqb l l' k D). Qed.
Print Assumptions C42_fixed_refuted.

Example C42_fixed_refuted_case : stable_sort_of nat nat Nat.eqb Nat.ltb [(3, 1); (3, 2)] [(3, 1); (3, 2)] /\
  value_at nat nat (find_fixed nat nat Nat.ltb 3 [(3, 1); (3, 2)]) [(3, 1); (3, 2)] = Some 1.
Proof. split; [split; [split; [apply Permutation_refl|repeat constructor]|reflexivity]|reflexivity]. Qed.

(** The cache calls the creator once for each key, at the first request, and every request for the key gives that value. *)
Theorem C58_cache : forall K V eqb create, decides eqb -> forall ks c vs, cacheds K V eqb create ks (no_cache K V) = (c, vs) ->
  length vs = length ks /\
  (forall i j k v w, nth_error ks i = Some k -> nth_error ks j = Some k -> nth_error vs i = Some v -> nth_error vs j = Some w -> v = w) /\
  (forall i k v, nth_error ks i = Some k -> nth_error vs i = Some v -> exists n, n < created K V c /\ v = create n k) /\
  (forall l, NoDup l -> (forall x, In x l <-> In x ks) -> created K V c = length l).
Proof. exact cache_ok. Qed.
Print Assumptions C58_cache.

Example C58_case : let '(c, vs) := cacheds nat nat Nat.eqb (fun n k => 100 * n + k) [7; 8; 7; 9; 8] (no_cache nat nat) in
  vs = [7; 108; 7; 209; 108] /\ created nat nat c = 3.
Proof. vm_compute. split; reflexivity. Qed.
