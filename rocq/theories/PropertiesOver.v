(** The properties of implicit conversions, overload choice and duplicate
    methods: C83, C84 and C85. *)
From Coq Require Import List Arith ZArith Bool Lia Relations.
From Verif Require Import OverModel OverSpec OverProofs OverChoiceProofs OverInferProofs
  OverMoreProofs OverExamples.
Import ListNotations.

(* ------------------------------------------------------------------ *)
(** * C83: implicit conversions *)

(** Between value types exactly the widening conversions are implicit. *)
Theorem C83_widening v w :
  is_vtype_compatible v w = true <-> v = w \/ widens v w.
Proof. exact (vtype_compatible_spec v w). Qed.
Print Assumptions C83_widening.

Example C83_widening_case : widens VInt16 VInt64 /\ ~ widens VInt64 VInt16.
Proof.
  split; [eapply widens_signed; [reflexivity | reflexivity | lia]|].
  intros H. assert (E : is_vtype_compatible VInt64 VInt16 = true)
    by (apply vtype_compatible_spec; right; exact H). discriminate E.
Qed.

(** Every integer keeps its value under an implicit conversion to an integer
    type. *)
Theorem C83_integers_keep_value v w z :
  is_vtype_compatible v w = true -> int_range w <> None ->
  holds_int v z -> holds_int w z.
Proof. exact (integers_keep_value v w z). Qed.
Print Assumptions C83_integers_keep_value.

Example C83_integers_case :
  is_vtype_compatible VInt16 VInt32 = true /\ holds_int VInt16 (-32768) /\ holds_int VInt32 (-32768).
Proof. split; [reflexivity|]. split; unfold holds_int; cbn; lia. Qed.

(** So do, towards a floating type, the integers of at most 16 bits, and those
    of 32 bits towards double. *)
Theorem C83_narrow_integers_keep_value v w z :
  is_vtype_compatible v w = true ->
  (v <> VInt64 /\ (v = VInt32 -> w = VDouble) \/ int_range w <> None) ->
  holds_int v z -> holds_exactly w z.
Proof. exact (narrow_exact v w z). Qed.
Print Assumptions C83_narrow_integers_keep_value.

Example C83_narrow_case : is_vtype_compatible VInt32 VDouble = true /\ VInt32 <> VInt64.
Proof. split; [reflexivity | discriminate]. Qed.

(** Not every implicit conversion keeps the value: a 32 bit integer goes to a
    float without a cast and loses its last bit. *)
Theorem C83_conversions_keep_value_refuted :
  ~ (forall v w z, is_vtype_compatible v w = true -> holds_int v z -> holds_exactly w z).
Proof.
  intros H. apply (odd_not_float (2 ^ 24 + 1)); [cbn; lia | reflexivity|].
  apply (H VInt32); [reflexivity | unfold holds_int; cbn; lia].
Qed.
Print Assumptions C83_conversions_keep_value_refuted.

(** Nor is every value preserving conversion between integers implicit. *)
Theorem C83_every_safe_conversion_refuted :
  ~ (forall v w, (exists z, holds_int v z) -> (forall z, holds_int v z -> holds_int w z) ->
     is_vtype_compatible v w = true).
Proof.
  intros H. assert (E : is_vtype_compatible VUint32 VInt64 = true); [|discriminate E].
  apply H; [exists 0%Z; unfold holds_int; cbn; lia | intros z Hz; unfold holds_int in *; cbn in *; lia].
Qed.
Print Assumptions C83_every_safe_conversion_refuted.

(** Implicit conversions between value types compose. *)
Theorem C83_widening_composes a b c :
  is_vtype_compatible a b = true -> is_vtype_compatible b c = true ->
  is_vtype_compatible a c = true.
Proof. exact (vtype_compatible_trans a b c). Qed.
Print Assumptions C83_widening_composes.

Example C83_widening_composes_case :
  is_vtype_compatible VInt8 VInt64 = true /\ is_vtype_compatible VInt64 VDouble = true.
Proof. split; reflexivity. Qed.

(** The super type test answers whether the super type is reached through the
    declared super types, for every hierarchy, with cycles or without. *)
Theorem C83_super_types W U fuel t s :
  hierarchy W U -> In t U -> length U < fuel ->
  exists b c, has_super_type W fuel [] t s = Some (b, c) /\ (b = true <-> inherits W t s).
Proof. exact (has_super_type_spec W U fuel t s). Qed.
Print Assumptions C83_super_types.

Example C83_super_types_case :
  hierarchy zoo zoo_types /\ In Dog zoo_types /\ inherits zoo Dog Object /\ ~ inherits zoo Animal Runner.
Proof.
  split; [exact zoo_hierarchy|]. split; [apply in_or_not; reflexivity|]. split.
  - apply t_trans with Animal; apply t_step; cbv; tauto.
  - intros H. destruct (has_super_type_spec zoo zoo_types 20 Animal Runner zoo_hierarchy)
      as (b & c & E & Hb); [apply in_or_not; reflexivity | cbn; lia|].
    cbv in E. injection E as <- _. apply Hb in H. discriminate H.
Qed.

(** Asked again and again about one type, it goes on answering right. *)
Theorem C83_super_queries W U fuel t qs :
  hierarchy W U -> In t U -> length U < fuel ->
  exists bs, super_queries fuel [] t (map (fun s => (W, s)) qs) = Some bs /\
             Forall2 (fun s b => b = true <-> inherits W t s) qs bs.
Proof. intros H1 H2 H3. exact (super_queries_spec W U fuel t H1 H2 H3 qs [] (or_introl eq_refl)). Qed.
Print Assumptions C83_super_queries.

Example C83_super_queries_case :
  super_queries 20 [] Dog (map (fun s => (zoo, s)) [Animal; Str; Object]) = Some [true; false; true].
Proof. reflexivity. Qed.

(** A super type declared after the first question is never seen. *)
Theorem C83_late_super_type_refuted :
  ~ (forall fuel t W W' s b1 b2,
       hierarchy W zoo_types -> hierarchy W' zoo_types -> In t zoo_types ->
       super_queries fuel [] t [(W, s); (W', s)] = Some [b1; b2] ->
       (b2 = true <-> inherits W' t s)).
Proof.
  intros H.
  set (before := mk_world (fun t => match t with TGeneral 3 => [Animal] | _ => [] end) (w_vtype zoo)).
  assert (Hb : hierarchy before zoo_types).
  { intros t s Ht Hs. unfold direct_super in Hs.
    destruct t as [|[|[|[|[|]]]]| | |]; cbn in Hs; try contradiction.
    destruct Hs as [<- | []]. cbv. tauto. }
  assert (X : false = true <-> inherits zoo Dog Runner).
  { apply (H 20 Dog before zoo Runner false false Hb zoo_hierarchy); [|reflexivity].
    apply in_or_not. reflexivity. }
  assert (false = true); [|discriminate].
  apply X. apply t_step. cbv. tauto.
Qed.
Print Assumptions C83_late_super_type_refuted.

(** The compiler accepts an expression of one type where another is wanted
    exactly for the implicit conversions. *)
Theorem C83_implicit_conversions W U fuel from to :
  hierarchy W U -> In from U -> length U < fuel ->
  exists b, is_type_compatible W fuel from to = Some b /\ (b = true <-> converts W from to).
Proof. exact (type_compatible_spec W U fuel from to). Qed.
Print Assumptions C83_implicit_conversions.

Example C83_implicit_conversions_case :
  converts zoo Dog Object /\ converts zoo Int16 Int64 /\ ~ converts zoo Int64 Int16 /\
  ~ converts zoo Animal Dog.
Proof.
  assert (I1 : In Dog zoo_types) by (apply in_or_not; reflexivity).
  assert (I2 : In Int16 zoo_types) by (apply in_or_not; reflexivity).
  assert (I3 : In Int64 zoo_types) by (apply in_or_not; reflexivity).
  assert (I4 : In Animal zoo_types) by (apply in_or_not; reflexivity).
  repeat split; try (apply zoo_converts; [assumption | reflexivity]);
    (apply value_not_converts; [assumption | cbv; discriminate]).
Qed.

(** Between reference types they compose. *)
Theorem C83_reference_conversions_compose W U fuel a b c :
  hierarchy W U -> In a U -> length U < fuel ->
  In b U -> reference W a -> reference W b -> reference W c ->
  is_type_compatible W fuel a b = Some true ->
  is_type_compatible W fuel b c = Some true ->
  is_type_compatible W fuel a c = Some true.
Proof. exact (reference_conversions_compose W U fuel a b c). Qed.
Print Assumptions C83_reference_conversions_compose.

Example C83_reference_conversions_case :
  reference zoo Dog /\ reference zoo Animal /\ reference zoo Object /\
  is_type_compatible zoo 20 Dog Animal = Some true /\
  is_type_compatible zoo 20 Animal Object = Some true.
Proof. repeat split; discriminate. Qed.

(** [null] is accepted where a value type is wanted. *)
Theorem C83_null_only_for_references_refuted :
  ~ (forall W fuel t, is_type_compatible W fuel TNull t = Some true -> reference W t \/ t = TNull).
Proof.
  intros H. destruct (H zoo 20 Int32 eq_refl) as [[_ E] | E]; discriminate E.
Qed.
Print Assumptions C83_null_only_for_references_refuted.

(* ------------------------------------------------------------------ *)
(** * C84: the method a call runs *)

(** A call that fits one declaration word for word runs that method. *)
Theorem C84_exact_call W U fuel name ms as_ throw m :
  well_set W U fuel name ms as_ -> plain_methods name ms ->
  candidate name ms m -> exact as_ m ->
  (forall x, candidate name ms x -> exact as_ x -> x = m) ->
  lookup W fuel (plain_call name as_ throw) ms = Ok (Found m []).
Proof. intros H1 H2. exact (ordinary_exact W U fuel name ms as_ throw H1 H2 m). Qed.
Print Assumptions C84_exact_call.

Example C84_exact_call_case :
  well_set zoo zoo_types 20 7 [f_object; f_animal; f_int64] [value Animal] /\
  plain_methods 7 [f_object; f_animal; f_int64] /\
  exact [value Animal] f_animal /\
  lookup zoo 20 (plain_call 7 [value Animal] true) [f_object; f_animal; f_int64] = Ok (Found f_animal []).
Proof.
  split; [apply zoo_set; reflexivity|]. split; [apply zoo_plain; reflexivity|].
  split; [|reflexivity]. constructor; [split; reflexivity | constructor].
Qed.

(** With no exact fit and one declaration the arguments can be passed to, that
    method is run. *)
Theorem C84_one_applicable W U fuel name ms as_ throw l1 m l2 :
  well_set W U fuel name ms as_ -> plain_methods name ms ->
  (forall x, candidate name ms x -> ~ exact as_ x) ->
  ms = l1 ++ m :: l2 -> candidate name ms m -> applicable W as_ m ->
  (forall x, In x (l1 ++ l2) -> candidate name ms x -> ~ applicable W as_ x) ->
  lookup W fuel (plain_call name as_ throw) ms = Ok (Found m []).
Proof. intros H1 H2. exact (ordinary_one W U fuel name ms as_ throw H1 H2 l1 m l2). Qed.
Print Assumptions C84_one_applicable.

Example C84_one_applicable_case :
  well_set zoo zoo_types 20 7 [f_animal; f_int64] [value Dog] /\
  plain_methods 7 [f_animal; f_int64] /\
  applicable zoo [value Dog] f_animal /\ ~ exact [value Dog] f_animal /\
  lookup zoo 20 (plain_call 7 [value Dog] true) [f_animal; f_int64] = Ok (Found f_animal []).
Proof.
  split; [apply zoo_set; reflexivity|]. split; [apply zoo_plain; reflexivity|].
  split; [apply dog_applies|]. split; [apply not_exact_by_type; reflexivity | reflexivity].
Qed.

(** With no exact fit and two or more declarations the arguments can be passed
    to, the call is reported as ambiguous, naming all of them. *)
Theorem C84_ambiguous W U fuel name ms as_ throw l1 m1 l2 m2 l3 :
  well_set W U fuel name ms as_ -> plain_methods name ms ->
  (forall x, candidate name ms x -> ~ exact as_ x) ->
  ms = l1 ++ m1 :: l2 ++ m2 :: l3 ->
  candidate name ms m1 -> applicable W as_ m1 ->
  candidate name ms m2 -> applicable W as_ m2 ->
  exists es, lookup W fuel (plain_call name as_ throw) ms = Ok (ConflictError es) /\
    forall x, In x es <-> candidate name ms x /\ applicable W as_ x.
Proof. intros H1 H2. exact (ordinary_conflict W U fuel name ms as_ throw H1 H2 l1 m1 l2 m2 l3). Qed.
Print Assumptions C84_ambiguous.

Example C84_ambiguous_case :
  well_set zoo zoo_types 20 7 [f_animal; f_int64; f_runner] [value Dog] /\
  plain_methods 7 [f_animal; f_int64; f_runner] /\
  applicable zoo [value Dog] f_animal /\ applicable zoo [value Dog] f_runner /\
  lookup zoo 20 (plain_call 7 [value Dog] true) [f_animal; f_int64; f_runner] =
    Ok (ConflictError [f_animal; f_runner]).
Proof.
  split; [apply zoo_set; reflexivity|]. split; [apply zoo_plain; reflexivity|].
  split; [apply dog_applies|]. split; [apply dog_applies | reflexivity].
Qed.

(** When the arguments can be passed to no declaration, none is run: the error
    names all declarations of that name, or nothing is returned if the caller
    asked for that. *)
Theorem C84_none_applicable W U fuel name ms as_ throw :
  well_set W U fuel name ms as_ -> plain_methods name ms ->
  (forall x, candidate name ms x -> ~ applicable W as_ x) ->
  (forall x, In x ms -> m_name x = name -> m_gparams x = []) ->
  exists es, lookup W fuel (plain_call name as_ throw) ms =
             Ok (if throw then NotMatchError es else Absent) /\
    forall x, In x es <-> In x ms /\ m_name x = name.
Proof. intros H1 H2. exact (ordinary_none W U fuel name ms as_ throw H1 H2). Qed.
Print Assumptions C84_none_applicable.

Example C84_none_applicable_case :
  well_set zoo zoo_types 20 7 [f_animal; f_int64] [value Str] /\
  ~ applicable zoo [value Str] f_animal /\
  lookup zoo 20 (plain_call 7 [value Str] true) [f_animal; f_int64] =
    Ok (NotMatchError [f_animal; f_int64]).
Proof.
  split; [apply zoo_set; reflexivity|]. split; [|reflexivity].
  intros F. inversion F as [|? ? ? ? X _]; subst. revert X.
  apply value_not_passes; [apply in_or_not; reflexivity | reflexivity | cbv; discriminate | discriminate].
Qed.

(** Calls that write their type arguments: the same, for the signatures with
    the type arguments in place. *)
Theorem C84_written_type_arguments_exact W U fuel name gs ms as_ throw m :
  generic_ready W U fuel name gs ms as_ ->
  generic_candidate name gs ms m -> Forall2 fits (signature gs m) as_ ->
  (forall x, generic_candidate name gs ms x -> Forall2 fits (signature gs x) as_ -> x = m) ->
  lookup W fuel (generic_call name gs as_ throw) ms = Ok (Found m []).
Proof. intros H. exact (generic_exact W U fuel name gs ms as_ throw H m). Qed.
Print Assumptions C84_written_type_arguments_exact.

Theorem C84_written_type_arguments_one W U fuel name gs ms as_ throw l1 m l2 :
  generic_ready W U fuel name gs ms as_ ->
  (forall x, generic_candidate name gs ms x -> ~ Forall2 fits (signature gs x) as_) ->
  ms = l1 ++ m :: l2 -> generic_candidate name gs ms m ->
  Forall2 (passes W) (signature gs m) as_ ->
  (forall x, In x (l1 ++ l2) -> generic_candidate name gs ms x ->
     ~ Forall2 (passes W) (signature gs x) as_) ->
  lookup W fuel (generic_call name gs as_ throw) ms = Ok (Found m []).
Proof. intros H. exact (generic_one W U fuel name gs ms as_ throw H l1 m l2). Qed.
Print Assumptions C84_written_type_arguments_one.

Theorem C84_written_type_arguments_none W U fuel name gs ms as_ throw :
  generic_ready W U fuel name gs ms as_ -> gs <> [] ->
  (forall x, generic_candidate name gs ms x -> ~ Forall2 (passes W) (signature gs x) as_) ->
  exists es, lookup W fuel (generic_call name gs as_ throw) ms =
             Ok (if throw then NotMatchError es else Absent) /\
    forall x, In x es <-> generic_candidate name gs ms x.
Proof. intros H. exact (generic_none W U fuel name gs ms as_ throw H). Qed.
Print Assumptions C84_written_type_arguments_none.

(** f<int>(List<T>) with a List<int>, and with a List<string>. *)
Example C84_written_case :
  generic_ready zoo zoo_types 20 7 [Int32] [g_list] [value (List_of Int32)] /\
  Forall2 fits (signature [Int32] g_list) [value (List_of Int32)] /\
  lookup zoo 20 (generic_call 7 [Int32] [value (List_of Int32)] true) [g_list] = Ok (Found g_list []) /\
  lookup zoo 20 (generic_call 7 [Int32] [value (List_of Str)] true) [g_list] =
    Ok (NotMatchError [g_list]).
Proof.
  split.
  - split; [exact zoo_hierarchy|]. split; [cbn; lia|]. split.
    + intros a t [<- | []] E. injection E as <-. apply in_or_not. reflexivity.
    + intros m ([<- | []] & _ & _). split; [repeat constructor; intros []|].
      split; [reflexivity|]. split; [reflexivity|]. split.
      * constructor; [|constructor]. cbn. apply fillable_generic. constructor; [|constructor].
        apply fillable_param. left. reflexivity.
      * split; [intros q [<- | []]; apply in_or_not; reflexivity|].
        intros p a g args i _ [<- | []] _ _ E. discriminate E.
  - split; [|split; reflexivity]. constructor; [split; reflexivity | constructor].
Qed.

(** Type arguments that the compiler infers make the call one whose arguments
    can be passed, when no parameter type mixes written types into a generic
    instance.  For the full claim see the two refutations below. *)
Theorem C84_inferred_types_fit_partial W fuel name ms as_ throw m ts :
  lookup W fuel (plain_call name as_ throw) ms = Ok (Found m ts) ->
  as_ <> [] -> m_gparams m <> [] ->
  Forall (fun p => inferable (m_gparams m) (p_type p)) (m_params m) ->
  no_bare_template W as_ m ->
  length ts = length (m_gparams m) /\
  Forall2 (passes_as W (m_gparams m) ts) (m_params m) as_.
Proof. exact (inferred_sound W fuel name ms as_ throw m ts). Qed.
Print Assumptions C84_inferred_types_fit_partial.

Example C84_inferred_case :
  lookup zoo 20 (plain_call 7 [value (Dict_of Str Boolean); value Str] true) [f_animal; g_both] =
    Ok (Found g_both [Str; Boolean]) /\
  Forall (fun p => inferable (m_gparams g_both) (p_type p)) (m_params g_both) /\
  no_bare_template zoo [value (Dict_of Str Boolean); value Str] g_both.
Proof.
  split; [reflexivity|]. split.
  - constructor; [right; apply open_generic; [discriminate|];
      constructor; [apply open_param; cbv; tauto|]; constructor; [apply open_param; cbv; tauto | constructor]|].
    constructor; [right; apply open_param; cbv; tauto | constructor].
  - intros p a g args i Hp Ha Ep _ Et.
    destruct Hp as [<- | [<- | []]]; [|discriminate Ep]. injection Ep as <- <-.
    destruct Ha as [<- | [<- | []]]; [discriminate Et|]. injection Et as <-.
    apply value_not_converts; [apply in_or_not; reflexivity | cbv; discriminate].
Qed.

(** Arguments that are exactly an instance of a generic declaration have that
    instance inferred. *)
Theorem C84_exact_instance_inferred W fuel name l1 m l2 as_ throw ts :
  m_name m = name -> m_gparams m <> [] -> NoDup (m_gparams m) ->
  m_key_owner m = None -> m_owner m = None ->
  (forall x, In x (l1 ++ l2) -> m_name x <> name) ->
  length ts = length (m_gparams m) ->
  Forall (fun p => inferable (m_gparams m) (p_type p)) (m_params m) ->
  (forall n, In n (m_gparams m) -> exists p, In p (m_params m) /\ occurs n (p_type p)) ->
  Forall (fun p => no_twin W (instantiate (m_gparams m) ts (p_type p))) (m_params m) ->
  Forall2 (fits_as (m_gparams m) ts) (m_params m) as_ ->
  lookup W fuel (plain_call name as_ throw) (l1 ++ m :: l2) = Ok (Found m ts).
Proof. exact (inferred_exact W fuel name l1 m l2 as_ throw ts). Qed.
Print Assumptions C84_exact_instance_inferred.

Example C84_exact_instance_case :
  Forall (fun p => no_twin zoo (instantiate [0; 1] [Str; Boolean] (p_type p))) (m_params g_both) /\
  Forall2 (fits_as [0; 1] [Str; Boolean]) (m_params g_both) [value (Dict_of Str Boolean); value Str].
Proof.
  split.
  - constructor; [|constructor; [|constructor]]; intros g args s l E H; cbn in E, H.
    + destruct H as [<- | []]. discriminate.
    + discriminate E.
  - constructor; [split; reflexivity|]. constructor; [split; reflexivity | constructor].
Qed.

(** A type written inside a generic parameter type is not compared: a
    dictionary with integer keys is taken for one with string keys. *)
Theorem C84_inferred_types_fit_refuted :
  ~ (forall W fuel name ms as_ throw m ts,
       lookup W fuel (plain_call name as_ throw) ms = Ok (Found m ts) ->
       as_ <> [] -> m_gparams m <> [] ->
       Forall2 (passes_as W (m_gparams m) ts) (m_params m) as_).
Proof.
  intros H.
  specialize (H zoo 20 7 [g_dict] [value (Dict_of Int32 Boolean)] true g_dict [Boolean] eq_refl
                ltac:(discriminate) ltac:(discriminate)).
  inversion H as [|? ? ? ? X _]; subst. revert X.
  apply value_not_passes; [apply in_or_not; reflexivity | reflexivity | cbv; discriminate | discriminate].
Qed.
Print Assumptions C84_inferred_types_fit_refuted.

(** A generic method without parameters is found although nothing was inferred
    for its generic parameter. *)
Theorem C84_all_type_arguments_inferred_refuted :
  ~ (forall W fuel name ms as_ throw m ts,
       lookup W fuel (plain_call name as_ throw) ms = Ok (Found m ts) ->
       length ts = length (m_gparams m)).
Proof. intros H. specialize (H zoo 20 7 [g_empty] [] true g_empty [] eq_refl). discriminate H. Qed.
Print Assumptions C84_all_type_arguments_inferred_refuted.

(** Inside a generic class a parameter whose type is the class's generic
    parameter accepts any argument. *)
Theorem C84_found_is_applicable_refuted :
  ~ (forall W fuel name ms as_ throw m ts,
       lookup W fuel (plain_call name as_ throw) ms = Ok (Found m ts) ->
       m_gparams m = [] -> applicable W as_ m).
Proof.
  intros H.
  specialize (H zoo 20 7 [meth 30 [] [by_value T0]] [value Str] true _ _ eq_refl eq_refl).
  inversion H as [|? ? ? ? X _]; subst. revert X.
  apply value_not_passes; [apply in_or_not; reflexivity | reflexivity | cbv; discriminate | discriminate].
Qed.
Print Assumptions C84_found_is_applicable_refuted.

(** Two generic declarations that both accept the call are not reported as
    ambiguous: the one declared last is run. *)
Theorem C84_generic_ambiguity_reported_refuted :
  ~ (forall W fuel name m1 m2 as_ throw ts1 ts2,
       lookup W fuel (plain_call name as_ throw) [m1] = Ok (Found m1 ts1) ->
       lookup W fuel (plain_call name as_ throw) [m2] = Ok (Found m2 ts2) ->
       m1 <> m2 -> m_gparams m1 <> [] -> m_gparams m2 <> [] ->
       lookup W fuel (plain_call name as_ throw) [m1; m2] =
       lookup W fuel (plain_call name as_ throw) [m2; m1]).
Proof.
  intros H.
  specialize (H zoo 20 7 g_id g_list [value (List_of Int32)] true [List_of Int32] [Int32] eq_refl eq_refl
                ltac:(discriminate) ltac:(discriminate) ltac:(discriminate)).
  vm_compute in H. discriminate H.
Qed.
Print Assumptions C84_generic_ambiguity_reported_refuted.

(** Inference depends on the order of the arguments: f<T>(T, T) accepts a long
    and a short, not a short and a long. *)
Theorem C84_inference_ignores_order_refuted :
  ~ (forall W fuel name m as_ ts,
       m_gparams m <> [] -> Forall2 (passes_as W (m_gparams m) ts) (m_params m) as_ ->
       length ts = length (m_gparams m) ->
       exists ts', lookup W fuel (plain_call name as_ true) [m] = Ok (Found m ts')).
Proof.
  intros H.
  destruct (H zoo 20 7 g_pair [value Int16; value Int64] [Int64]) as (ts' & E).
  - discriminate.
  - constructor.
    + split; [reflexivity|]. exists Int16. split; [reflexivity|]. right. cbn.
      apply zoo_converts; [apply in_or_not; reflexivity | reflexivity].
    + constructor; [|constructor]. split; [reflexivity|]. exists Int64.
      split; [reflexivity|]. left. reflexivity.
  - reflexivity.
  - vm_compute in E. discriminate E.
Qed.
Print Assumptions C84_inference_ignores_order_refuted.

(** A method that implements an interface member explicitly ends the search:
    declarations after it are not seen. *)
Theorem C84_explicit_implementation_hides_refuted :
  ~ (forall W fuel name ms as_ m x,
       In m ms -> m_name m = name -> ordinary m -> exact as_ m ->
       ms = [x; m] -> m_owner x <> None ->
       lookup W fuel (plain_call name as_ false) ms = Ok (Found m [])).
Proof.
  intros H.
  assert (E : lookup zoo 20 (plain_call 7 [value Animal] false)
     [mk_method 40 7 [] [by_value Animal] None (Some Runner); f_animal] = Ok (Found f_animal [])).
  { apply (H zoo 20 7 _ [value Animal] f_animal (mk_method 40 7 [] [by_value Animal] None (Some Runner))).
    - right. left. reflexivity.
    - reflexivity.
    - split; [reflexivity|]. split; [|split; reflexivity].
      constructor; [constructor | constructor].
    - constructor; [split; reflexivity | constructor].
    - reflexivity.
    - discriminate. }
  vm_compute in E. discriminate E.
Qed.
Print Assumptions C84_explicit_implementation_hides_refuted.

(** A call on an object looks at its class, then its base class and so on: the
    nearest class whose own methods give an answer decides. *)
Theorem C84_nearest_class W fuel K c t path u o steps :
  bases K (Some t) path (Some u) -> path <> [] ->
  Forall (silent W fuel K c) path -> answers W fuel K c u o ->
  NoDup (path ++ [u]) -> length path < steps ->
  get_member W fuel K c steps t = Ok o.
Proof. exact (member_nearest W fuel K c t path u o steps). Qed.
Print Assumptions C84_nearest_class.

Theorem C84_own_class_first W fuel K c t o steps :
  answers W fuel K c t o -> get_member W fuel K c steps t = Ok o.
Proof. exact (member_own W fuel K c t o steps). Qed.
Print Assumptions C84_own_class_first.

(** When no class on the way answers, the search ends, also if the base types
    run in a circle. *)
Theorem C84_no_class_answers W fuel K c t path e steps :
  bases K (Some t) path e -> path <> [] -> Forall (silent W fuel K c) path ->
  (e = None \/ exists u, e = Some u /\ In u path) -> NoDup path ->
  length path < steps ->
  get_member W fuel K c steps t = Ok (if c_throw c then NotMatchError [] else Absent).
Proof. exact (member_none W fuel K c t path e steps). Qed.
Print Assumptions C84_no_class_answers.

Example C84_nearest_class_case :
  let c := plain_call 7 [value Str; value Int32] true in
  bases two_classes (Some Object) [Object] None /\
  silent zoo 20 two_classes c Object /\
  answers zoo 20 two_classes c Animal (Found f_str_int []) /\
  get_member zoo 20 two_classes c 5 Animal = Ok (Found f_str_int []).
Proof.
  split; [apply bases_cons; apply bases_nil|]. split; [right; exists []; reflexivity|].
  split; [|reflexivity]. split; [reflexivity|]. split; discriminate.
Qed.

(** A generic method of the derived class that does not fit the call stops the
    search before the base class, whose method fits word for word. *)
Theorem C84_unfit_generic_hides_base_refuted :
  ~ (forall W fuel K name as_ t b m steps,
       k_base K t = Some b -> t <> b -> 2 < steps ->
       k_methods K b = [m] -> m_name m = name -> ordinary m -> exact as_ m ->
       (forall x ts, In x (k_methods K t) ->
          ~ Forall2 (passes_as W (m_gparams x) ts) (m_params x) as_) ->
       get_member W fuel K (plain_call name as_ true) steps t = Ok (Found m [])).
Proof.
  intros H.
  assert (E : get_member zoo 20 two_classes (plain_call 7 [value Str; value Int32] true) 5 Dog
              = Ok (Found f_str_int [])).
  { apply (H zoo 20 two_classes 7 [value Str; value Int32] Dog Animal f_str_int 5); try reflexivity.
    - discriminate.
    - lia.
    - split; [reflexivity|]. split; [|split; reflexivity].
      constructor; [constructor|]. constructor; [constructor | constructor].
    - constructor; [split; reflexivity|]. constructor; [split; reflexivity | constructor].
    - intros x ts [<- | []] F.
      inversion F as [|? ? ? ? X _]; subst. revert X.
  apply value_not_passes; [apply in_or_not; reflexivity | reflexivity | cbv; discriminate | discriminate]. }
  vm_compute in E. discriminate E.
Qed.
Print Assumptions C84_unfit_generic_hides_base_refuted.

(* ------------------------------------------------------------------ *)
(** * C85: two methods of one signature *)

(** A method is reported exactly when an earlier method of the class has its
    name and its parameter types. *)
Theorem C85_duplicate_reported gidx l1 m l2 :
  ordinary_class (l1 ++ m :: l2) ->
  exists o, check_duplicate gidx m (l1 ++ m :: l2) = Ok o /\
    match o with
    | Some x => In x l1 /\ m_name x = m_name m /\ same_types m x
    | None => forall x, In x l1 -> m_name x = m_name m -> ~ same_types m x
    end.
Proof. exact (check_duplicate_spec gidx l1 m l2). Qed.
Print Assumptions C85_duplicate_reported.

Example C85_duplicate_reported_case :
  check_duplicate (fun n => n) (meth 9 [] [by_value Animal])
    [f_object; f_animal; meth 9 [] [by_value Animal]] = Ok (Some f_animal) /\
  check_duplicate (fun n => n) f_animal
    [f_object; f_animal; meth 9 [] [by_value Animal]] = Ok None.
Proof. split; reflexivity. Qed.

(** So in a class without a report, a call that fits a declaration word for
    word runs that method. *)
Theorem C85_accepted_class_exact_call gidx W U fuel name ms as_ throw m :
  ordinary_class ms ->
  (forall x, In x ms -> check_duplicate gidx x ms = Ok None) ->
  well_set W U fuel name ms as_ ->
  In m ms -> m_name m = name -> exact as_ m ->
  lookup W fuel (plain_call name as_ throw) ms = Ok (Found m []).
Proof. exact (accepted_exact_call gidx W U fuel name ms as_ throw m). Qed.
Print Assumptions C85_accepted_class_exact_call.

Example C85_accepted_class_case :
  ordinary_class [f_object; f_animal; f_int64] /\
  (forall x, In x [f_object; f_animal; f_int64] ->
     check_duplicate (fun n => n) x [f_object; f_animal; f_int64] = Ok None) /\
  well_set zoo zoo_types 20 7 [f_object; f_animal; f_int64] [value Int64].
Proof.
  split; [|split; [|apply zoo_set; reflexivity]].
  - split; [repeat constructor; cbn; intuition discriminate|].
    repeat constructor.
  - intros x [<- | [<- | [<- | []]]]; reflexivity.
Qed.

(** The same for generic methods, whose generic parameters are compared by
    their place in the list, as long as methods of one shape take them in the
    same places; C85_check_defined_refuted below shows what is missing. *)
Theorem C85_generic_duplicate_reported_partial gidx l1 m l2 :
  generic_class (l1 ++ m :: l2) ->
  exists o, check_duplicate gidx m (l1 ++ m :: l2) = Ok o /\
    match o with
    | Some x => In x l1 /\ m_name x = m_name m /\ same_generic_types gidx m x
    | None => forall x, In x l1 -> m_name x = m_name m -> ~ same_generic_types gidx m x
    end.
Proof. exact (check_duplicate_generic gidx l1 m l2). Qed.
Print Assumptions C85_generic_duplicate_reported_partial.

(** f<A, B>(B, int), f<C, D>(C, int) and f<E, F>(E, int): the third is a
    duplicate of the second and not of the first. *)
Example C85_generic_duplicate_case :
  let f k i g := meth k [i; i + 1] [by_value (TParam g); by_value Int32] in
  let ms := [f 70 10 11; f 71 20 20; f 72 30 30] in
  generic_class ms /\
  check_duplicate (fun n => n mod 10) (f 72 30 30) ms = Ok (Some (f 71 20 20)) /\
  check_duplicate (fun n => n mod 10) (f 71 20 20) ms = Ok None.
Proof.
  cbv zeta. split; [|split; reflexivity]. split; [|split].
  - repeat constructor; cbn; intuition discriminate.
  - repeat constructor.
  - intros m x Hm Hx _ _ _.
    destruct Hm as [<- | [<- | [<- | []]]]; destruct Hx as [<- | [<- | [<- | []]]];
      (constructor; [intros _; eexists; reflexivity|]);
      (constructor; [intros (n & X); discriminate X | constructor]).
Qed.

(** The passing mode is not looked at: f(int) and f(ref int), which calls tell
    apart, are reported as duplicates. *)
Theorem C85_only_duplicates_reported_refuted :
  ~ (forall gidx ms m x, ordinary_class ms -> In m ms ->
       check_duplicate gidx m ms = Ok (Some x) -> same_signature m x).
Proof.
  intros H.
  set (a := meth 50 [] [by_value Int32]). set (b := meth 51 [] [mk_param PRef Int32]).
  assert (E : same_signature b a).
  { apply (H (fun n => n) [a; b] b a).
    - split; [repeat constructor; cbn; intuition discriminate | repeat constructor].
    - right. left. reflexivity.
    - reflexivity. }
  inversion E as [|? ? ? ? (X & _) _]; subst. discriminate X.
Qed.
Print Assumptions C85_only_duplicates_reported_refuted.

(** Comparing f<T>(T) with an earlier f<T>(int) reads the int type as if it
    were a generic parameter. *)
Theorem C85_check_defined_refuted :
  ~ (forall gidx ms m, NoDup (map m_id ms) -> In m ms -> check_duplicate gidx m ms <> Bad).
Proof.
  intros H.
  apply (H (fun n => n) [meth 60 [0] [by_value Int32]; meth 61 [0] [by_value T0]]
           (meth 61 [0] [by_value T0])).
  - repeat constructor; cbn; intuition discriminate.
  - right. left. reflexivity.
  - reflexivity.
Qed.
Print Assumptions C85_check_defined_refuted.
