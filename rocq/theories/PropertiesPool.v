(** C43: the resource pool; C44: the string pool. *)

From Coq Require Import ZArith List Bool Arith Lia.
Import ListNotations.
From Verif Require Import CppInt PoolModel PoolSpec PoolProofs.
Local Open Scope nat_scope.

(** For every history of calls: an object handed out exists and is not with another user, only objects that are out are
    taken back, all others are refused, and an object is destroyed only while nobody has it. *)
Theorem C43_exclusive : forall capacity cs p tr, run capacity cs no_objects = (p, tr) -> honest tr -> always allowed tr.
Proof. exact pool_allowed. Qed.
Print Assumptions C43_exclusive.

(** The pool keeps at most one and a half times its capacity. *)
Theorem C43_bounded : forall capacity cs p tr, (0 <= capacity)%Z -> (capacity * 3 < 2 ^ 64)%Z -> run capacity cs no_objects = (p, tr) ->
  (Z.of_nat (length (released p)) <= capacity * 3 / 2)%Z.
Proof. exact pool_bound. Qed.
Print Assumptions C43_bounded.

(** When the pool is destroyed every object created has been destroyed, none twice. *)
Theorem C43_no_leak : forall capacity cs p tr, run capacity cs no_objects = (p, tr) -> honest tr ->
  once (tr ++ destruct_pool p) /\ forall a, alive (tr ++ destruct_pool p) a = false.
Proof. exact pool_destroyed. Qed.
Print Assumptions C43_no_leak.

Example C43_case : exists p tr, run 1 [Acquire 5; Acquire 6; Release 5; Acquire 9; Release 7; Release 6; Release 5; Acquire 8; Acquire 3] no_objects = (p, tr) /\
  tr = [Created 5; Handed 5; Created 6; Handed 6; Returned 5; Handed 5; Refused 7; Returned 6; Returned 5; Destroyed 6; Handed 5; Created 3; Handed 3] /\
  honest tr /\ destruct_pool p = [Destroyed 3; Destroyed 5].
Proof.
  do 2 eexists. split; [reflexivity|]. split; [reflexivity|]. split; [|reflexivity].
  intros b e a E. repeat (destruct b as [|? b]; [injection E as <- _; reflexivity || exact I|]; injection E as <- E). destruct b; discriminate.
Qed.

(** Two strings get the same id exactly when they are equal; an id gives back its string, also after more strings have
    been added; no id is the null id. *)
Theorem C44_interning : forall ss p l i j s t a b, to_sids ss no_strings = (p, l) ->
  nth_error ss i = Some s -> nth_error l i = Some a -> nth_error ss j = Some t -> nth_error l j = Some b ->
  (a = b <-> s = t) /\ a <> 0 /\ of_sid a p = Some s.
Proof. exact interned. Qed.
Print Assumptions C44_interning.

(** Every string gets an id. *)
Theorem C44_total : forall ss, length (snd (to_sids ss no_strings)) = length ss.
Proof. intro ss. apply sids_length. Qed.
Print Assumptions C44_total.

Example C44_case : let '(p, l) := to_sids [[97; 98]; []; [97]; [97; 98]; []]%Z no_strings in
  l = [1; 2; 3; 1; 2] /\ map (fun a => of_sid a p) l = [Some [97; 98]; Some []; Some [97]; Some [97; 98]; Some []]%Z.
Proof. vm_compute. split; reflexivity. Qed.
