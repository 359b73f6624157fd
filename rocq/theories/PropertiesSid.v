(** C134, C135: names and strings at run time. *)
From Coq Require Import List Bool ZArith Lia.
From Verif Require Import SidModel SidSpec SidProofs SidExamples.
Import ListNotations.
Open Scope Z_scope.

(** C134.  However names are looked up, by any number of calls, two of them get the
    same identity exactly if they are the same text, and an identity keeps its text. *)
Theorem C134_identity m t cs ss : Forall2 (asks m t) cs ss ->
  exists ids p, run (start m t) cs = Some (ids, p) /\ Forall2 (named p) ids ss /\
    forall a b i j s u, nth_error ids a = Some i -> nth_error ids b = Some j ->
      nth_error ss a = Some s -> nth_error ss b = Some u -> (i = j <-> s = u).
Proof. exact (same_identity m t cs ss). Qed.
Print Assumptions C134_identity.

Example C134_case : Forall2 (asks memory1 20) calls1 texts1 /\
  option_map fst (run (start memory1 20) calls1) = Some [0; 1; 2; 1; 2; 0]%nat.
Proof. split; [exact asks1 | vm_compute; reflexivity]. Qed.

(** C135.  Strings are equal if their texts are. *)
Theorem C135_equals m x y s t : has_text m x s -> has_text m y t ->
  exists b, equals m x y = Some b /\ (b = true <-> s = t).
Proof. exact (equals_spec m x y s t). Qed.
Print Assumptions C135_equals.

(** One string is less than another one if its text is before the other. *)
Theorem C135_less m x y s t : has_text m x s -> has_text m y t ->
  exists b, less m x y = Some b /\ (b = true <-> before s t).
Proof. exact (less_spec m x y s t). Qed.
Print Assumptions C135_less.

(** The comparison of strings at different places is that of their texts.  Missing: a
    string with itself, refuted below. *)
Theorem C135_compare_partial m x y s t : has_text m x s -> has_text m y t -> at_ x <> at_ y ->
  exists c, compare m x y = Some c /\ (c < 0 <-> before s t) /\ (c = 0 <-> s = t) /\ (0 < c <-> before t s).
Proof. exact (compare_spec m x y s t). Qed.
Print Assumptions C135_compare_partial.

(** And so are the other operators. *)
Theorem C135_operators_partial m x y s t : has_text m x s -> has_text m y t -> at_ x <> at_ y ->
  (exists b, greater m x y = Some b /\ (b = true <-> before t s)) /\
  (exists b, less_equal m x y = Some b /\ (b = true <-> before s t \/ s = t)) /\
  (exists b, greater_equal m x y = Some b /\ (b = true <-> before t s \/ s = t)).
Proof. exact (operators_spec m x y s t). Qed.
Print Assumptions C135_operators_partial.

Example C135_case : has_text memory1 ab1 [97; 98] /\ has_text memory1 ab2 [97; 98] /\ has_text memory1 b1 [98] /\
  at_ ab1 <> at_ ab2 /\ at_ ab1 <> at_ b1 /\
  equals memory1 ab1 ab2 = Some true /\ compare memory1 ab1 ab2 = Some 0 /\
  equals memory1 ab1 b1 = Some false /\ less memory1 ab1 b1 = Some true /\ compare memory1 b1 ab1 = Some 1.
Proof.
  split; [exact ab1_text|]. split; [exact ab2_text|]. split; [exact b1_text|].
  split; [discriminate|]. split; [discriminate|]. repeat split.
Qed.

(** A string is greater than itself, and not less or equal. *)
Theorem C135_itself_refuted m x : compare m x x = Some 1 /\ equals m x x = Some true /\
  greater m x x = Some true /\ less_equal m x x = Some false.
Proof. exact (itself m x). Qed.
Print Assumptions C135_itself_refuted.
