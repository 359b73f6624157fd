(* C99: what is written about types and members comes back. *)
From Coq Require Import ZArith NArith List Bool Lia.
From Verif Require Import MetaModel MetaSpec MetaReadProofs MetaExamples.
Import ListNotations.
Local Open Scope nat_scope.

(* C99: the tables of every assembly as the compiler makes it can be written,
   and when no table has more than 2^20 rows an assembly is read from them that
   is the same.  Partial: the modes of the arguments of generic types and the
   owners of explicit implementations are not kept (see below); attributes, type
   definitions and bodies are not in the model. *)
Theorem C99_reads_back_partial : forall A X L, good_assembly A X -> good_library L X ->
  exists fuel T, (forall f, fuel <= f -> write A X f = Done T) /\
    (fits T -> exists A' d, (forall g, d <= g -> read L T g = Done A') /\ same_assembly A A').
Proof. exact write_read. Qed.
Print Assumptions C99_reads_back_partial.

(* A generic class with a nested class, generic methods, arrays and instances. *)
Example C99_case :
  good_assembly chain others /\ good_library loader others /\
  exists T A', write chain others 100 = Done T /\ fits T /\ read loader T 20 = Done A'.
Proof.
  split; [exact chain_good|]. split; [exact loader_good|].
  destruct chain_written as (T & A' & W & F & R & _). exists T, A'. auto.
Qed.

(* A class with 511 methods is good, with 512 methods it is written without an
   error and cannot be read. *)
Theorem C99_512_members_refuted :
  good_assembly (crowd 511) [] /\
  exists T, write (crowd 512) [] 2 = Done T /\ fits T /\ forall L g, read L T g = Unset.
Proof. split; [apply crowd_good; reflexivity|exact crowd_written]. Qed.
Print Assumptions C99_512_members_refuted.

(* The modes of arguments: the type of a field comes back changed. *)
Theorem C99_modes_refuted :
  ~ (forall A X L T A' f g, good_assembly A X -> good_library L X ->
       write A X f = Done T -> fits T -> read L T g = Done A' ->
       exists n, each_same (n_field n) (fun x y => old_ty n (f_type y) = f_type x)
                           (w_fields A) (w_fields A')).
Proof.
  intro H. destruct chain_written as (T & A' & W & F & R & EF & _).
  destruct (H _ _ _ _ _ _ _ chain_good loader_good W F R) as [n E].
  destruct (E _ _ EF) as (x & EX & Q). cbn in Q.
  apply nth_error_In in EX. repeat (destruct EX as [<-|EX]; [cbn in Q; congruence|]). destruct EX.
Qed.
Print Assumptions C99_modes_refuted.

(* The owners of explicit implementations: a method comes back without. *)
Theorem C99_owners_refuted :
  ~ (forall A X L T A' f g, good_assembly A X -> good_library L X ->
       write A X f = Done T -> fits T -> read L T g = Done A' ->
       exists n, each_same (n_method n)
                   (fun x y => m_name y = m_name x /\ old_ty n (m_owner y) = plain (m_owner x))
                   (w_methods A) (w_methods A')).
Proof.
  intro H. destruct chain_written as (T & A' & W & F & R & _ & EM & _).
  destruct (H _ _ _ _ _ _ _ chain_good loader_good W F R) as [n E].
  destruct (E _ _ EM) as (x & EX & QN & Q). cbn in Q, QN.
  apply nth_error_In in EX.
  repeat (destruct EX as [<-|EX]; [cbn in Q, QN; congruence|]). destruct EX.
Qed.
Print Assumptions C99_owners_refuted.
