(** C117-C118: the arguments of generic types and methods. *)
From Coq Require Import List Bool Arith Lia Relations.
From Verif Require Import OverModel CargModel CargSpec CargProofs CargExamples.
Import ListNotations.

(** *** C117 *)

(** The full claim: when the arguments of a generic type or method are accepted, they meet the
    constraints of its template in every instance of the code around.  It is proved if no parameter
    is hidden by another of its name, the constraint types are classes, interfaces or arrays, and a
    parameter given to a [struct] parameter is constrained by [struct]; without one of these it is
    false, see the refutations below. *)
Theorem C117_sound_partial P f pl F args q r : setting P pl F args q r ->
  no_shadowing pl -> object_constraints P F -> struct_arguments pl F q ->
  check_arguments P f pl F args = Val [] -> met P F q r.
Proof.
  intros [A B C D E G H I J K] NS OC SA. exact (arguments_sound P A B f pl F args q r C NS D E G H I J OC SA).
Qed.
Print Assumptions C117_sound_partial.

Example C117_sound_case : setting demo demo_place demo_template demo_args demo_q demo_r /\
  no_shadowing demo_place /\ object_constraints demo demo_template /\
  struct_arguments demo_place demo_template demo_q /\
  check_arguments demo 20 demo_place demo_template demo_args = Val [].
Proof.
  split; [exact demo_setting|]. destruct demo_side as (A & B & C). repeat (split; [assumption|]). reflexivity.
Qed.

(** A parameter without a constraint is accepted for a [struct] parameter. *)
Theorem C117_struct_refuted : ~ forall P f pl F args q r, setting P pl F args q r ->
  no_shadowing pl -> object_constraints P F ->
  check_arguments P f pl F args = Val [] -> met P F q r.
Proof.
  intros H.
  assert (M : met demo struct_template struct_q struct_r).
  { apply (H demo 20 struct_place struct_template [TParam 10]); [exact struct_setting | | | reflexivity].
    - repeat constructor; cbn; tauto.
    - intros c u [<-|[]] []. }
  destruct (M _ (or_introl eq_refl)) as [_ _ S1 _]. exact (derived_not_value (S1 eq_refl)).
Qed.
Print Assumptions C117_struct_refuted.

(** When a constraint type is a parameter, one parameter passes for another. *)
Theorem C117_param_refuted : ~ forall P f pl F args q r, setting P pl F args q r ->
  no_shadowing pl -> struct_arguments pl F q ->
  check_arguments P f pl F args = Val [] -> met P F q r.
Proof.
  intros H.
  assert (M : met demo param_template param_q param_r).
  { apply (H demo 20 param_place param_template param_args); [exact param_setting | | | reflexivity].
    - repeat constructor; cbn; intuition discriminate.
    - intros c x [<-|[]] G; discriminate G. }
  destruct (M _ (or_introl eq_refl)) as [S1 _ _ _].
  exact (derived_not_int (S1 _ (or_introl eq_refl))).
Qed.
Print Assumptions C117_param_refuted.

(** When a constraint type is an enum, another enum passes for it. *)
Theorem C117_enum_refuted : ~ forall P f pl F args q r, setting P pl F args q r ->
  no_shadowing pl -> struct_arguments pl F q ->
  (forall t x, In t args -> t <> TParam x) ->
  check_arguments P f pl F args = Val [] -> met P F q r.
Proof.
  intros H.
  assert (M : met demo enum_template enum_q enum_r).
  { apply (H demo 20 struct_place enum_template [Level]); [exact enum_setting | | | | reflexivity].
    - repeat constructor; cbn; intuition discriminate.
    - intros c x [<-|[]] G; discriminate G.
    - intros t x [<-|[]]; discriminate. }
  destruct (M _ (or_introl eq_refl)) as [S1 _ _ _].
  exact (level_not_color (S1 _ (or_introl eq_refl))).
Qed.
Print Assumptions C117_enum_refuted.

(** A parameter of a method passes for the parameter of the same name of the type around. *)
Theorem C117_shadow_refuted : ~ forall P f pl F args q r, setting P pl F args q r ->
  object_constraints P F -> struct_arguments pl F q ->
  check_arguments P f pl F args = Val [] -> met P F q r.
Proof.
  intros H.
  assert (M : met demo shadow_template shadow_q shadow_r).
  { apply (H demo 20 shadow_place shadow_template [TParam 10]); [exact shadow_setting | | | reflexivity].
    - intros c u [<-|[]] [<-|[]]. left. exists 3. split; [now left|]. split; [now left | reflexivity].
    - intros c x [<-|[]] G; discriminate G. }
  destruct (M _ (or_introl eq_refl)) as [S1 _ _ _].
  exact (int_not_base (S1 _ (or_introl eq_refl))).
Qed.
Print Assumptions C117_shadow_refuted.

(** *** C118 *)

(** The full claim: exactly the constraints that are not met are reported, one error each, and what
    the errors say is so.  It is proved for arguments that are not parameters themselves and constraint types that are
    classes, interfaces or arrays, anywhere in the program; for the rest see the refutations. *)
Theorem C118_exact_partial P f pl F args q U : supers_ok P -> scope_ok P F -> own_parameters F ->
  length args = length (s_params F) -> assigns (s_params F) args q ->
  (forall t x, In t args -> t <> TParam x) -> object_constraints P F ->
  closed_above P U -> (forall t, In t U -> proper P t) -> (forall t, In t args -> In t U) ->
  length U < f ->
  exists es, check_arguments P f pl F args = Val es /\ reports P q (s_cons F) es.
Proof. exact (fun A => arguments_exact P A f pl F args q U). Qed.
Print Assumptions C118_exact_partial.

Example C118_exact_case :
  (supers_ok demo /\ scope_ok demo demo_template /\ own_parameters demo_template /\
   object_constraints demo demo_template /\ closed_above demo plain_types /\
   (forall t, In t plain_types -> proper demo t)) /\
  (forall t, In t (plain_args ++ wrong_args) -> In t plain_types /\ forall x, t <> TParam x) /\
  check_arguments demo 20 field_place demo_template plain_args = Val [] /\
  check_arguments demo 20 field_place demo_template wrong_args =
    Val [NoConstructor Base; NoConversion (List_ Int32) (IList Base)].
Proof.
  destruct demo_setting as [A B C D E _ _ _ _ _]. destruct demo_side as (_ & OC & _).
  split; [repeat (split; [assumption || exact plain_closed|]); exact plain_proper|].
  split; [|split; reflexivity].
  intros t H. split_in; (split; [cbn; tauto | discriminate]).
Qed.

(** Inside methods no null is followed. *)
Theorem C118_no_crash P f pl F args : pl_method pl <> None ->
  check_arguments P f pl F args <> Crash.
Proof. exact (fun M => arguments_no_crash P f pl M F args). Qed.
Print Assumptions C118_no_crash.

Example C118_no_crash_case : pl_method demo_place <> None /\
  check_arguments demo 20 demo_place demo_template demo_args = Val [].
Proof. split; [discriminate | reflexivity]. Qed.

(** Outside of methods, in the type of a field, a parameter as an argument ends the compiler. *)
Theorem C118_field_refuted : ~ forall P f pl F args q r, setting P pl F args q r ->
  check_arguments P f pl F args <> Crash.
Proof.
  intros H. apply (H demo 20 field_place shadow_template [TParam 10] shadow_q (env [(10, Derived)]));
    [|reflexivity].
  setting_tac. intros c [[_ Hc]|[_ []]]. split_in. apply plain_satisfies.
  intros u Hu. split_in. exact derived_base.
Qed.
Print Assumptions C118_field_refuted.

(** A parameter that is constrained by another is refused although every instance meets the
    constraint. *)
Theorem C118_chain_refuted :
  (exists e, check_arguments demo 20 chain_place shadow_template [TParam 10] = Val [e]) /\
  forall r, instance demo chain_place r -> met demo shadow_template shadow_q r.
Proof.
  split; [eexists; reflexivity|]. intros r I c [<-|[]]. apply plain_satisfies.
  intros u [<-|[]]. cbn [subst]. change (subst r (shadow_q 20)) with (r 10).
  assert (V1 : visible (scopes chain_place) (mk_gcon 10 false false false [TParam 11])).
  { left. cbn. tauto. }
  assert (V2 : visible (scopes chain_place) (mk_gcon 11 false false false [Base])).
  { left. cbn. tauto. }
  apply rt_trans with (r 11).
  - destruct (I _ V1) as [S1 _ _ _]. exact (S1 _ (or_introl eq_refl)).
  - destruct (I _ V2) as [S1 _ _ _]. exact (S1 _ (or_introl eq_refl)).
Qed.
Print Assumptions C118_chain_refuted.
