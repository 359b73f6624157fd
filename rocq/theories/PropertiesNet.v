(* C91-C94: what the analysis of a program against a grammar accepts and
   reports. *)
From Coq Require Import ZArith List Bool.
From Verif Require Import NetModel NetSpec NetProofs NetTotalProofs NetCompleteProofs NetExamples.
Import ListNotations.
Local Open Scope nat_scope.

(* C91: when the analysis ends with a stack left, the program can be read as a
   sentence of the grammar: the branches reported are those of a derivation,
   each with the elements it stands for, followed by the root; and what was
   written for an element with several readings is the reading of that
   derivation.  Partial: without a stack left (see the next theorem) nothing is
   known but C92. *)
Theorem C91_reported_partial : forall g w fuel els s,
  tidy g ->
  analyze fuel g w els = Ok s -> s_leaves s <> [] ->
  exists wd rs ch,
    reads (w_invisible w) 0 els wd ch /\
    sentence g wd (length els) rs /\
    reports (s_done s) = rs ++ [Report root_value 0 (length els)] /\
    forall i v, In (i, v) ch -> written (s_done s) i None = Some v.
Proof. exact (fun g w fuel els s T => analyze_ok g w T fuel els s). Qed.
Print Assumptions C91_reported_partial.

Example C91_reported_case :
  tidy lists /\
  exists s, analyze 20 lists blank_world lists_elements = Ok s /\ s_leaves s <> [] /\
    reports (s_done s) = [Report 2 2 3; Report 1 0 3; Report 0 0 4] /\
    written (s_done s) 2 None = Some 98%Z.
Proof.
  split; [exact lists_tidy |]. eexists. split; [vm_compute; reflexivity |].
  split; [discriminate | split; reflexivity].
Qed.

(* It is not so that a program analysed without an error is a sentence: one that
   stops in the middle is taken, and the root is reported for it. *)
Theorem C91_no_error_refuted :
  ~ (forall g w fuel els s, tidy g -> no_dead_ends g -> analyze fuel g w els = Ok s ->
       exists wd rs ch, reads (w_invisible w) 0 els wd ch /\ sentence g wd (length els) rs).
Proof.
  intros H.
  destruct (H lists plain_world 20 [One (KToken 97)] (State [] [Matched 0 0 1]) lists_tidy
              lists_no_dead_ends eq_refl) as [wd [rs [ch [HR HS]]]].
  exact (lists_half wd ch _ rs HR HS).
Qed.
Print Assumptions C91_no_error_refuted.

(* C92: whatever has been read without an error is the beginning of a sentence,
   so an element with which no sentence can go on is reported when it comes. *)
Theorem C92_no_later_than_possible : forall g w fuel els s,
  tidy g -> no_dead_ends g ->
  go_all fuel g w 0 els start = Ok s ->
  exists wd ch, reads (w_invisible w) 0 els wd ch /\ sentence_start g wd.
Proof. exact (fun g w fuel els s T D => go_all_viable g w T D fuel els s). Qed.
Print Assumptions C92_no_later_than_possible.

Theorem C92_error_at_element : forall g w m fuel els,
  tidy g -> no_dead_ends g -> grounded g m -> (length els + 2) * (m + 2) <= fuel ->
  (forall wd ch, reads (w_invisible w) 0 els wd ch -> ~ sentence_start g wd) ->
  forall more, go_all fuel g w 0 (els ++ more) start = FormatError.
Proof. exact error_at_element. Qed.
Print Assumptions C92_error_at_element.

Example C92_case :
  tidy lists /\ no_dead_ends lists /\ grounded lists 2 /\
  go_all 20 lists plain_world 0 [One (KToken 97); One (KToken 97)] start = FormatError /\
  exists s, go_all 20 lists plain_world 0 [One (KToken 97); One (KToken 98)] start = Ok s.
Proof.
  split; [exact lists_tidy |]. split; [exact lists_no_dead_ends |]. split; [exact lists_grounded |].
  split; [reflexivity |]. eexists. vm_compute. reflexivity.
Qed.

(* C93: every sentence of a grammar that can be read with one element of
   lookahead is accepted, and the branches reported are exactly those of its
   derivation.  Partial: not so for every grammar, see below. *)
Theorem C93_accepted_partial : forall g m w fuel ks rs,
  tidy g -> grounded g m -> ll1 g ->
  sentence g (numbered ks) (length ks) rs ->
  (forall k, In k ks -> w_invisible w (key_value k) = false) ->
  (length ks + 2) * (m + 2) <= fuel ->
  exists s, analyze fuel g w (plain ks) = Ok s /\ s_leaves s <> [] /\
    reports (s_done s) = rs ++ [Report root_value 0 (length ks)].
Proof. exact ll1_accepts. Qed.
Print Assumptions C93_accepted_partial.

(* Such a grammar gives a program no two meanings. *)
Theorem C93_one_reading_partial : forall g m ks rs1 rs2,
  tidy g -> grounded g m -> ll1 g ->
  sentence g (numbered ks) (length ks) rs1 ->
  sentence g (numbered ks) (length ks) rs2 -> rs1 = rs2.
Proof. exact ll1_one_reading. Qed.
Print Assumptions C93_one_reading_partial.

Example C93_accepted_case :
  tidy lists /\ grounded lists 2 /\ ll1 lists /\
  sentence lists (numbered lists_program) (length lists_program) lists_reports /\
  length lists_program = 6.
Proof.
  split; [exact lists_tidy |]. split; [exact lists_grounded |]. split; [exact lists_ll1 |].
  split; [exact lists_sentence | reflexivity].
Qed.

(* A sentence of another grammar is lost: an element that could continue the
   inner branch hides that it could follow it. *)
Theorem C93_every_sentence_refuted :
  ~ (forall g m w fuel ks rs, tidy g -> grounded g m ->
       sentence g (numbered ks) (length ks) rs ->
       (forall k, In k ks -> w_invisible w (key_value k) = false) ->
       (length ks + 2) * (m + 2) <= fuel ->
       exists s, analyze fuel g w (plain ks) = Ok s /\ s_leaves s <> []).
Proof.
  intros H.
  destruct (H optional 2 plain_world 16 optional_program _ optional_tidy optional_grounded
              optional_sentence (fun _ _ => eq_refl) (le_n 16)) as [s [E NE]].
  vm_compute in E. injection E as <-. apply NE. reflexivity.
Qed.
Print Assumptions C93_every_sentence_refuted.

(* C94: when no branch begins with itself through references that are expanded,
   and none is its own only part, the analysis of every program comes to an end,
   with a result or a reported error, in a number of nested calls proportional
   to the length of the program; no null pointer is followed.  Partial: other
   grammars exist, see below. *)
Theorem C94_ends_partial : forall g m w els fuel,
  tidy g -> grounded g m -> (length els + 2) * (m + 2) <= fuel ->
  (exists s, analyze fuel g w els = Ok s) \/ analyze fuel g w els = FormatError.
Proof. exact analyze_ends. Qed.
Print Assumptions C94_ends_partial.

Example C94_ends_case :
  tidy lists /\ grounded lists 2 /\ (length lists_elements + 2) * (2 + 2) <= 24 /\
  analyze 24 lists plain_world lists_elements = FormatError.
Proof.
  split; [exact lists_tidy |]. split; [exact lists_grounded |].
  split; [apply le_n | vm_compute; reflexivity].
Qed.

(* A branch that may be nothing but itself: the end of a program never comes,
   although it is a sentence. *)
Theorem C94_unit_cycle_refuted :
  ~ (forall g w els rs, tidy g -> sentence g (numbered els) (length els) rs ->
       exists fuel, analyze fuel g w (plain els) <> Overflow).
Proof.
  intros H.
  destruct (H unit_cycle plain_world [KToken 120] _ unit_cycle_tidy unit_cycle_sentence) as [fuel NE].
  apply NE. exact (unit_cycle_overflow fuel).
Qed.
Print Assumptions C94_unit_cycle_refuted.

(* Left recursion through two references that are both expanded: not even the
   first element can be read. *)
Theorem C94_left_cycle_refuted :
  ~ (forall g w e els, tidy g -> keys_of e <> [] ->
       exists fuel, analyze fuel g w (e :: els) <> Overflow).
Proof.
  intros H. assert (NE : keys_of (One (KToken 122)) <> []) by discriminate.
  destruct (H left_cycle plain_world (One (KToken 122)) [] left_cycle_tidy NE) as [fuel NO].
  apply NO. exact (left_cycle_overflow fuel plain_world _ [] NE).
Qed.
Print Assumptions C94_left_cycle_refuted.
