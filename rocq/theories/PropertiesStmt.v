(** C23-C27: structured statements, unreachable code, switch.
    Reference meaning: StmtSpec.v.  Conditions: StmtCond.v.  Model: StmtModel.v. *)
From Coq Require Import List Bool Arith ZArith.
From Verif Require Import StmtModel StmtSpec StmtCond StmtTop StmtPlain.
Import ListNotations.

(** C23, without the two control-flow optimisations.  Missing: continue that
    belongs to a do-while or loop-until (refuted, C24), try/catch, expressions
    inside statements (opaque here). *)
Theorem C23_statements_keep_meaning_partial :
  forall (St : Type) (s : @stmt St) (fin : St -> St) (c : code),
    do_without_continue s = true ->
    compile_method (Opts false false) s fin = Some c ->
    exists p, commit c = Some p /\ same_behaviour false s fin p.
Proof. intros St s fin c D H. apply (optimised_method (Opts false false)); auto; discriminate. Qed.
Print Assumptions C23_statements_keep_meaning_partial.

(** Every well-formed statement does compile, whatever the optimisations. *)
Theorem C23_well_formed_compiles :
  forall (St : Type) (o : opts) (s : @stmt St) (fin : St -> St),
    well_formed false false s -> exists c, compile_method o s fin = Some c.
Proof. intros St o s fin. apply well_formed_method. Qed.
Print Assumptions C23_well_formed_compiles.

Example C23_case : do_without_continue w_good = true /\ well_formed false false w_good /\
  src_returns false w_good id_nat 0 20.
Proof.
  split; [reflexivity|split].
  - cbn. repeat split; repeat constructor; cbn; intuition discriminate.
  - exists 9. left. reflexivity.
Qed.

(** C24 is false of the code: continue in do-while skips the condition. *)
Theorem C24_continue_evaluates_condition_refuted :
  exists (s : @stmt nat) c p,
    compile_method (Opts false false) s id_nat = Some c /\ commit c = Some p /\
    src_returns false s id_nat 0 3 /\ vm_diverges p 0.
Proof. exact continue_refuted. Qed.
Print Assumptions C24_continue_evaluates_condition_refuted.

(** What the code does instead, exactly: continue in do-while and loop-until
    starts the body again without evaluating the condition; everything else is
    as in the reference meaning. *)
Theorem C24_continue_restarts_body :
  forall (St : Type) (s : @stmt St) (fin : St -> St) (c : code),
    compile_method (Opts false false) s fin = Some c ->
    exists p, commit c = Some p /\ same_behaviour true s fin p.
Proof. intros St s fin c. apply plain_method. Qed.
Print Assumptions C24_continue_restarts_body.

Example C24_case : exists c, compile_method (Opts false false) w_continue id_nat = Some c.
Proof. eexists. reflexivity. Qed.

(** C25, for statements in which every loop and switch that is reported as not
    passing through is so for a right reason ([safe], decidable). *)
Theorem C25_unreachable_removal_safe_partial :
  forall (St : Type) (s : @stmt St) (fin : St -> St) (c : code),
    safe s = true -> do_without_continue s = true ->
    compile_method (Opts true false) s fin = Some c ->
    exists p, commit c = Some p /\ same_behaviour false s fin p.
Proof. intros St s fin c S D H. apply (optimised_method (Opts true false)); auto; discriminate. Qed.
Print Assumptions C25_unreachable_removal_safe_partial.

(** C25 again, under conditions on the source text alone ([plain], StmtSpec.v). *)
Theorem C25_plain_statements_partial :
  forall (St : Type) (s : @stmt St) (fin : St -> St) (c : code),
    plain s = true -> do_without_continue s = true ->
    compile_method (Opts true false) s fin = Some c ->
    exists p, commit c = Some p /\ same_behaviour false s fin p.
Proof. intros St s fin c P D H. apply (plain_method_optimised (Opts true false)); auto; discriminate. Qed.
Print Assumptions C25_plain_statements_partial.

(** The analysis itself, under the same condition: a statement reported as not
    passing through never completes normally. *)
Theorem C25_unreached_never_completes_partial :
  forall (St : Type) (s : @stmt St), safe s = true -> unreached (exit_type s) = true ->
    forall n st st', exec false n s st <> Some (Completes st').
Proof.
  intros St s S U n st st' E. assert (X := proj1 (exit_sound false n) s S st).
  rewrite E in X. cbn [sound] in X. rewrite U in X. discriminate.
Qed.
Print Assumptions C25_unreached_never_completes_partial.

Example C25_case : safe w_good = true /\ unreached (exit_type w_good) = true /\
  exists c, compile_method (Opts true false) w_good id_nat = Some c.
Proof. split; [reflexivity|split; [reflexivity|eexists; reflexivity]]. Qed.
Example C25_plain_case : plain w_good = true /\ plain w_while = false /\ plain w_switch = false.
Proof. repeat split. Qed.

(** Without the condition the removal changes what methods return: the
    statement after the loop or the switch is dropped although it is reached. *)
Theorem C25_unreachable_removal_refuted :
  differs (Opts true false) w_while 0 1 0 /\
  differs (Opts true false) w_break 0 1 0 /\
  differs (Opts true false) w_do 0 1 0 /\
  differs (Opts true false) w_dead 0 1 0 /\
  differs (Opts true false) w_switch 0 1 0 /\
  differs (Opts true false) w_const 0 1 0.
Proof.
  exact (conj while_refuted (conj break_refuted (conj do_refuted
    (conj dead_refuted (conj switch_refuted const_switch_refuted))))).
Qed.
Print Assumptions C25_unreachable_removal_refuted.

(** C26, for the shapes of [if_shape]; with or without unreachable code removal. *)
Theorem C26_switch_as_if_partial :
  forall (St : Type) (r : bool) (s : @stmt St) (fin : St -> St) (c : code),
    if_shapes (Opts r true) s = true -> (r = true -> safe s = true) ->
    do_without_continue s = true ->
    compile_method (Opts r true) s fin = Some c ->
    exists p, commit c = Some p /\ same_behaviour false s fin p.
Proof. intros St r s fin c F S D H. apply (optimised_method (Opts r true)); auto. Qed.
Print Assumptions C26_switch_as_if_partial.

(** C26 again, under conditions on the source text alone. *)
Theorem C26_simple_shapes_partial :
  forall (St : Type) (r : bool) (s : @stmt St) (fin : St -> St) (c : code),
    plain s = true -> simple_shapes s = true -> do_without_continue s = true ->
    compile_method (Opts r true) s fin = Some c ->
    exists p, commit c = Some p /\ same_behaviour false s fin p.
Proof. intros St r s fin c P F D H. apply (plain_method_optimised (Opts r true)); auto. Qed.
Print Assumptions C26_simple_shapes_partial.

Example C26_simple_case : plain w_good2 = true /\ simple_shapes w_good2 = true.
Proof. split; reflexivity. Qed.

Example C26_case : if_shapes (Opts true true) w_good2 = true /\ safe w_good2 = true /\
  do_without_continue w_good2 = true /\
  (exists c, compile_method (Opts true true) w_good2 id_nat = Some c) /\
  src_returns false w_good2 id_nat 0 140.
Proof.
  split; [reflexivity|split; [reflexivity|split; [reflexivity|split; [eexists; reflexivity|]]]].
  exists 6. right. eexists. split; reflexivity.
Qed.

(** For other shapes it is false: default before the constant case, and a
    constant selector with a body that runs into the default. *)
Theorem C26_switch_as_if_refuted :
  (differs (Opts false true) w_default_first 1 2 20 /\
   differs (Opts false true) w_default_first 2 21 20) /\
  differs (Opts true true) w_fall 1 20 2.
Proof. exact (conj default_first_refuted fall_refuted). Qed.
Print Assumptions C26_switch_as_if_refuted.

(** C27: one step of a switch command in committed code, for a table built from
    any list of rows with different constants. *)
Theorem C27_switch_dispatch :
  forall (St : Type) (c pre post : @code St) p rows d z stk (st : St),
    c = pre ++ ISwitch (sort_rows rows) d :: post -> commit c = Some p ->
    NoDup (map fst rows) ->
    exists t, vstep p (Run (size_of pre) (VInt z :: stk) st) = Run t stk st /\
      ((exists l, In (z, l) rows /\ label_index c l = Some t) \/
       (~ In z (map fst rows) /\ label_index c d = Some t)).
Proof. intros St c pre post p rows d z stk st. apply dispatch. Qed.
Print Assumptions C27_switch_dispatch.

Example C27_case :
  let rows := [(7%Z, 0); ((-2)%Z, 1); (5%Z, 0); (100%Z, 2)] in
  NoDup (map fst rows) /\
  exists p, commit ([ISwitch (sort_rows rows) 3; ILabel 0; IRet id_nat; ILabel 1; IRet id_nat;
                     ILabel 2; IRet id_nat; ILabel 3; IRet id_nat]) = Some p /\
    vstep p (Run 0 [VInt (-2)%Z] 0) = Run 2 [] 0 /\ vstep p (Run 0 [VInt 6%Z] 0) = Run 4 [] 0.
Proof.
  split.
  - cbn. repeat constructor; cbn; intuition discriminate.
  - eexists. split; [reflexivity|split; reflexivity].
Qed.
