(** C125-C127: operators of user types and the types of values. *)
From Coq Require Import List Bool Arith Lia.
From Verif Require Import OverModel OverSpec OverExamples OperModel OperSpec OperProofs OperExamples.
Import ListNotations.

(** *** C125 *)

(** The full claim: an operator applied to an object calls the operator that the type of an operand
    declares for it, one applied to other values is the built-in one, and if there is none this is
    reported.  The parts that hold: *)
Theorem C125_values_partial W fuel K steps F o ts : Forall (fun t => ~ object W t) ts ->
  walk_op W fuel K steps F o ts = Ok Builtin.
Proof. exact (values_builtin W fuel K steps F o ts). Qed.
Print Assumptions C125_values_partial.

Example C125_values_case : Forall (fun t => ~ object zoo t) [Int32; Int64; TNull].
Proof. repeat constructor; intros [N [E|E]]; discriminate E || now destruct N. Qed.

(** Comparing with [null] never calls an operator. *)
Theorem C125_null_partial W fuel K steps F o ts : In TNull ts -> o = Equal \/ o = NotEqual ->
  walk_op W fuel K steps F o ts = Ok Builtin.
Proof. exact (null_builtin W fuel K steps F o ts). Qed.
Print Assumptions C125_null_partial.

Example C125_null_case : In TNull [Animal; TNull] /\ object zoo Animal.
Proof. split; [right; now left | exact animal_object]. Qed.

(** [&&] and [||] of objects are reported. *)
Theorem C125_logic_partial W fuel K steps F o ts : o = LogicAnd \/ o = LogicOr ->
  (exists t, In t ts /\ object W t) -> walk_op W fuel K steps F o ts = Ok CannotOverload.
Proof. exact (logic_refused W fuel K steps F o ts). Qed.
Print Assumptions C125_logic_partial.

Example C125_logic_case : exists t, In t [Boolean; Animal] /\ object zoo t.
Proof. exists Animal. split; [right; now left | exact animal_object]. Qed.

(** No program ever calls an operator it declares. *)
Theorem C125_never_called_refuted W fuel K steps F o ts m :
  compile_op W fuel K steps F o ts <> Ok (Calls m).
Proof. exact (never_called W fuel K steps F o ts m). Qed.
Print Assumptions C125_never_called_refuted.

(** Not even an operator that is declared as it has to be, for operands of just its types. *)
Theorem C125_declared_refuted : ~ (forall W U fuel K steps F o t m,
  hierarchy W U -> In t U -> length U < fuel -> object W t -> overloadable o ->
  k_methods K t = [m] -> m_name m = op_code o -> ordinary m -> well_declared W F t o m ->
  exact [mk_arg PDefault (Some t); mk_arg PDefault (Some t)] m ->
  compile_op W fuel K steps F o [t; t] = Ok (Calls m)).
Proof.
  intros H. apply (never_called zoo 20 with_plus 5 zoo_facts Add [Animal; Animal] plus).
  apply (H zoo zoo_types).
  - exact zoo_hierarchy.
  - apply in_or_not. reflexivity.
  - cbn. lia.
  - exact animal_object.
  - unfold overloadable. intros X. cbn [In] in X. repeat destruct X as [X|X]; try discriminate X; contradiction.
  - reflexivity.
  - reflexivity.
  - repeat split; repeat constructor.
  - exact plus_declared.
  - repeat constructor.
Qed.
Print Assumptions C125_declared_refuted.

(** Instead a declared operator is reported as missing. *)
Theorem C125_reported_missing_refuted W fuel K steps F o l1 t l2 m xs : overloadable o ->
  Forall (fun u => ~ object W u) l1 -> object W t -> ~ In TNull (l1 ++ t :: l2) ->
  find_operator W fuel K steps o (l1 ++ t :: l2) t = Ok (Found m xs) -> f_static F m = true ->
  walk_op W fuel K steps F o (l1 ++ t :: l2) = Ok NotDefined.
Proof. exact (defined_refused W fuel K steps F o l1 t l2 m xs). Qed.
Print Assumptions C125_reported_missing_refuted.

Example C125_reported_missing_case : overloadable Add /\ object zoo Animal /\
  find_operator zoo 20 with_plus 5 Add [Animal; Animal] Animal = Ok (Found plus []) /\
  f_static zoo_facts plus = true.
Proof.
  split; [|split; [exact animal_object | split; reflexivity]].
  unfold overloadable. intros X. cbn [In] in X. repeat destruct X as [X|X]; try discriminate X; contradiction.
Qed.

(** And a missing one is not reported. *)
Theorem C125_missing_refuted : ~ (forall W fuel K steps F o ts v,
  overloadable o -> (exists t, In t ts /\ object W t) -> ~ In TNull ts ->
  (forall t, k_methods K t = []) -> walk_op W fuel K steps F o ts = Ok v -> v = NotDefined).
Proof.
  intros H. assert (X : Builtin = NotDefined); [|discriminate X].
  apply (H zoo 20 no_operators 5 zoo_facts Add [Animal; Animal]).
  - unfold overloadable. intros X. cbn [In] in X. repeat destruct X as [X|X]; try discriminate X; contradiction.
  - exists Animal. split; [now left | exact animal_object].
  - intros [E|[E|[]]]; discriminate E.
  - reflexivity.
  - reflexivity.
Qed.
Print Assumptions C125_missing_refuted.

(** *** C126 *)

(** The declaration of an operator is accepted exactly if it is one. *)
Theorem C126_declarations W F T o m : check_operator W F T o m = [] <-> well_declared W F T o m.
Proof. exact (check_operator_spec W F T o m). Qed.
Print Assumptions C126_declarations.

Example C126_declarations_case : well_declared zoo zoo_facts Animal Add plus /\
  check_operator zoo zoo_facts Animal Sub (mk_method 3 2 [] [by_value Dog] None None) =
    [WrongParamCount; WrongContainingType].
Proof. split; [exact plus_declared | reflexivity]. Qed.

(** An accepted operator without type parameters can be given exactly the operands that convert to its
    parameters. *)
Theorem C126_callable_partial W U fuel F T o m ts : hierarchy W U -> length U < fuel ->
  (forall t, In t ts -> In t U) -> check_operator W F T o m = [] -> m_gparams m = [] ->
  length ts = arity o ->
  exists b, check_prototype W fuel F m ts = Some b /\ (b = true <-> takes W m ts).
Proof.
  intros HU L HT D. apply check_operator_spec in D. exact (prototype_spec W U fuel F T o m ts HU L HT D).
Qed.
Print Assumptions C126_callable_partial.

Example C126_callable_case : check_operator zoo zoo_facts Animal Add plus = [] /\ m_gparams plus = [] /\
  takes zoo plus [Animal; Animal] /\ check_prototype zoo 20 zoo_facts plus [Dog; Animal] = Some true /\
  check_prototype zoo 20 zoo_facts plus [Object; Animal] = Some false.
Proof. split; [reflexivity|]. split; [reflexivity|]. split; [now apply plus_takes|]. split; reflexivity. Qed.

(** One with type parameters is accepted and can be given none. *)
Theorem C126_generic_refuted : ~ (forall W fuel F T o m ts, check_operator W F T o m = [] ->
  takes W m ts -> check_prototype W fuel F m ts = Some true).
Proof.
  intros H. specialize (H zoo 20 zoo_facts Animal Add plus_generic [Animal; Animal]).
  discriminate H; [reflexivity | now apply plus_takes].
Qed.
Print Assumptions C126_generic_refuted.

(** [+] and [-] with one and with two parameters are the operators of as many operands. *)
Theorem C126_signs o n : In o [Add; Positive; Sub; Minus] -> n = 1 \/ n = 2 ->
  arity (declared_op o n) = n /\ sign (declared_op o n) = sign o.
Proof. exact (declared_sign o n). Qed.
Print Assumptions C126_signs.

Example C126_signs_case : declared_op Sub 1 = Minus /\ declared_op Minus 2 = Sub.
Proof. split; reflexivity. Qed.

(** The methods of different operators have different names. *)
Theorem C126_names a b : op_code a = op_code b -> a = b.
Proof. exact (op_code_inj a b). Qed.
Print Assumptions C126_names.

(** *** C127 *)

(** The full claim: a value is put into a variable or returned exactly if its type converts to that of
    the variable or the method.  It holds for initial values and returned ones. *)
Theorem C127_initial_partial W U fuel t v : hierarchy W U -> length U < fuel -> In v U ->
  exists b, init_ok W fuel t v = Some b /\ (b = true <-> converts W v t).
Proof. intros HU L Hv. exact (OverProofs.type_compatible_spec W U fuel v t HU Hv L). Qed.
Print Assumptions C127_initial_partial.

Theorem C127_returned_partial W U fuel result v : hierarchy W U -> length U < fuel -> In v U ->
  exists b, return_ok W fuel result (Some (Some v)) = Some b /\
    (b = true <-> exists t, returns W result t /\ converts W v t).
Proof. exact (return_spec W U fuel result v). Qed.
Print Assumptions C127_returned_partial.

(** [return;] is for methods that return nothing. *)
Theorem C127_return_nothing W fuel result :
  return_ok W fuel result None = Some true <-> ~ exists t, returns W result t.
Proof. exact (return_nothing W fuel result). Qed.
Print Assumptions C127_return_nothing.

Example C127_case : hierarchy zoo zoo_types /\ In Dog zoo_types /\
  init_ok zoo 20 Animal Dog = Some true /\ init_ok zoo 20 Dog Animal = Some false /\
  return_ok zoo 20 (Some Animal) (Some (Some Dog)) = Some true /\
  return_ok zoo 20 None (Some (Some Dog)) = Some false /\ return_ok zoo 20 (Some Animal) None = Some false.
Proof.
  split; [exact zoo_hierarchy|]. split; [apply in_or_not; reflexivity|]. repeat split.
Qed.

(** The types of assignments are not compared. *)
Theorem C127_assigned_refuted : ~ (forall W U fuel K steps F t v, hierarchy W U -> length U < fuel ->
  In v U -> In t U -> assign_ok W fuel K steps F t v = Ok true -> converts W v t).
Proof.
  intros H. assert (X : converts zoo Str Int32).
  { apply (H zoo zoo_types 20 no_operators 5 zoo_facts); try (apply in_or_not; reflexivity).
    - exact zoo_hierarchy.
    - cbn. lia.
    - reflexivity. }
  assert (HS : In Str zoo_types) by (apply in_or_not; reflexivity).
  assert (L : length zoo_types < 20) by (cbn; lia).
  destruct (OverProofs.type_compatible_spec zoo zoo_types 20 Str Int32 zoo_hierarchy HS L) as (b & E & B).
  apply B in X. subst b. discriminate E.
Qed.
Print Assumptions C127_assigned_refuted.

(** [null] may be put into a variable of a value type. *)
Theorem C127_null_refuted : ~ (forall W fuel t, init_ok W fuel t TNull = Some true -> t = TNull \/ reference W t).
Proof. intros H. destruct (H zoo 20 Int32 eq_refl) as [E|[_ E]]; discriminate E. Qed.
Print Assumptions C127_null_refuted.
