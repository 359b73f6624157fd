(** C114-C116: compiling a solution. *)
From Coq Require Import List Bool Permutation Lia Relations.Relation_Operators.
From Verif Require Import BuildModel BuildSpec BuildProofs BuildExamples.
Import ListNotations.

(** *** C114 *)

(** Compiling a solution ends, whatever its projects import, and compiles each project once. *)
Theorem C114_once S0 : distinct S0 ->
  exists st, compile S0 = Some st /\ Permutation (compiled st) (map pname (projects S0)).
Proof. exact (compiled_once S0). Qed.
Print Assumptions C114_once.

(** A project is compiled behind each project it imports, if that does not import it in turn. *)
Theorem C114_before S0 st a b : distinct S0 -> compile S0 = Some st ->
  imports S0 a b -> ~ clos_refl_trans _ (imports S0) b a -> before b a (compiled st).
Proof. exact (fun D => imports_before S0 D st a b). Qed.
Print Assumptions C114_before.

Example C114_case : distinct layered /\
  (exists st, compile layered = Some st /\ compiled st = [3; 2; 1] /\ written st = [3; 2; 1]) /\
  imports layered 1 2 /\ ~ clos_refl_trans _ (imports layered) 2 1 /\
  distinct ring /\ exists st, compile ring = Some st /\ compiled st = [3; 2; 1].
Proof.
  split; [apply distinct3; reflexivity|]. split; [eexists; split; [reflexivity | auto]|].
  split; [|split].
  - exact layered_imports.
  - intros R. assert (L : forall x y, clos_refl_trans _ (imports layered) x y -> x <= y).
    { intros x y U. induction U as [x y I| |]; [apply layered_less in I|reflexivity|]; lia. }
    specialize (L _ _ R). lia.
  - split; [apply distinct3; reflexivity|]. eexists. split; reflexivity.
Qed.

(** *** C115 *)

(** On each circle of imports one of the imports is reported. *)
Theorem C115_reported S0 st x : distinct S0 -> compile S0 = Some st ->
  ~ clos_trans _ (fun a b => imports S0 a b /\ ~ In (ECircular a b) (log st) /\
                             ~ (a = b /\ In (EItself a) (log st))) x x.
Proof. exact (fun D => circles_reported S0 D st x). Qed.
Print Assumptions C115_reported.

(** Every error that is reported is one: an import that is reported as circular is on a circle, one
    that is reported as not found is neither a project nor a reference. *)
Theorem C115_only S0 st e : distinct S0 -> compile S0 = Some st -> In e (log st) -> justified S0 e.
Proof. exact (fun D => errors_justified S0 D st e). Qed.
Print Assumptions C115_only.

Example C115_case : distinct ring /\ clos_trans _ (imports ring) 2 2 /\
  exists st, compile ring = Some st /\ log st = [ECircular 3 2] /\ written st = [].
Proof.
  split; [apply distinct3; reflexivity|]. destruct ring_imports as [A B].
  split; [apply t_trans with 3; apply t_step; auto|]. eexists. split; [reflexivity | auto].
Qed.

(** *** C116 *)

(** A solution compiles without errors exactly if it has none: its files are parsed, its imports
    found, there is no circle, and nothing else is wrong. *)
Theorem C116_clean S0 st : distinct S0 -> compile S0 = Some st -> log st = [] <-> clean S0.
Proof. exact (fun D => no_errors_iff S0 D st). Qed.
Print Assumptions C116_clean.

(** Then all its assemblies are written, in the order in which they were compiled. *)
Theorem C116_written S0 st : distinct S0 -> compile S0 = Some st -> clean S0 -> written st = compiled st.
Proof. exact (fun D => clean_written S0 D st). Qed.
Print Assumptions C116_written.

Example C116_clean_case : distinct layered /\ clean layered /\
  exists st, compile layered = Some st /\ log st = [] /\ written st = [3; 2; 1].
Proof.
  split; [apply distinct3; reflexivity|]. split; [exact layered_clean|]. eexists. split; [reflexivity | auto].
Qed.

(** An assembly that is written is complete, also if the solution has errors: all that it needs is
    written before, is parsed, has its imports and no circle, and no error. *)
Theorem C116_complete S0 st a b : distinct S0 -> compile S0 = Some st -> In a (written st) ->
  clos_refl_trans _ (imports S0) a b ->
  In b (written st) /\ parse_errors S0 = 0 /\ ~ has_event S0 b Fault /\
  (forall package k, has_event S0 b (Import package k) -> found S0 package k) /\
  ~ clos_trans _ (imports S0) b b /\
  (forall c, imports S0 b c -> before c b (written st)).
Proof. exact (fun D => written_complete S0 D st a b). Qed.
Print Assumptions C116_complete.

(** Behind the first assembly that is not written none is written. *)
Theorem C116_first S0 st : distinct S0 -> compile S0 = Some st ->
  exists rest, compiled st = written st ++ rest.
Proof. exact (fun D => written_first S0 D st). Qed.
Print Assumptions C116_first.

Example C116_complete_case : distinct layered /\ exists st, compile layered = Some st /\ In 1 (written st) /\
  imports layered 1 2.
Proof.
  split; [apply distinct3; reflexivity|]. eexists. split; [reflexivity|]. split; [cbn; auto|].
  exact layered_imports.
Qed.

(** A build that fails has written some assemblies. *)
Theorem C116_nothing_refuted : exists S0 st, distinct S0 /\ compile S0 = Some st /\
  log st <> [] /\ written st <> [].
Proof.
  exists failing. eexists. split; [repeat constructor; cbn; intuition discriminate|].
  split; [reflexivity|]. split; discriminate.
Qed.
Print Assumptions C116_nothing_refuted.
