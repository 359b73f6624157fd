(* C106, C107: finding the type of a member and a type by its name. *)
From Coq Require Import ZArith NArith List.
From Verif Require Import MetaModel MetaSpec HostModel HostSpec HostProofs HostExamples.
Import ListNotations.
Local Open Scope nat_scope.

(** ** C106: the type of a member is found *)

(** Every method has a row, and the search for the type of the row ends at the type that
    declares the method, however many types without methods there are before and behind. *)
Theorem C106_method A X T fuel n t m :
  good_assembly A X -> hosts_first X -> write A X fuel = Done T -> roomy T ->
  nth_error (w_types A) n = Some t -> In m (t_methods t) ->
  (exists j, made_for T TMethod j (KId m)) /\
  forall j, made_for T TMethod j (KId m) -> host_by_method T j = Done (Some n).
Proof. intros GA HX W R. exact (method_found A X T fuel GA HX W R n t m). Qed.
Print Assumptions C106_method.

Theorem C106_field A X T fuel n t f :
  good_assembly A X -> hosts_first X -> write A X fuel = Done T -> roomy T ->
  nth_error (w_types A) n = Some t -> In f (t_fields t) ->
  (exists j, made_for T TField j (KId f)) /\
  forall j, made_for T TField j (KId f) -> host_by_field T j = Done (Some n).
Proof. intros GA HX W R. exact (field_found A X T fuel GA HX W R n t f). Qed.
Print Assumptions C106_field.

(** The type a type is nested in is found; for a type that is not nested, none. *)
Theorem C106_nested A X T fuel n t :
  good_assembly A X -> hosts_first X -> write A X fuel = Done T -> roomy T ->
  nth_error (w_types A) n = Some t ->
  forall a, In a (host_by_nest T n) <-> a = Done (t_host t).
Proof. intros GA HX W R E a. exact (nest_found A X T fuel GA HX W R n t a E). Qed.
Print Assumptions C106_nested.

Example C106_case : good_assembly twins [] /\ hosts_first [] /\
  exists T, write twins [] 100 = Done T /\ roomy T /\
    made_for T TMethod 1 (KId 0) /\ host_by_method T 1 = Done (Some 5) /\
    made_for T TField 0 (KId 0) /\ host_by_field T 0 = Done (Some 3) /\
    host_by_nest T 5 = [Done (Some 3)] /\ host_by_nest T 2 = [Done None].
Proof.
  split; [exact twins_good|]. split; [exact none_first|].
  destruct twins_written as (T & ? & ? & ? & ? & ? & ? & ? & ? & ? & ? & ? & ? & ?).
  exists T. tauto.
Qed.

(** ** C107: a type is found by namespace, name and number of generic params *)

(** When no other type has the same three, the type is the only answer. *)
Theorem C107_found_partial A X T fuel n t :
  good_assembly A X -> hosts_first X -> write A X fuel = Done T -> roomy T ->
  nth_error (w_types A) n = Some t ->
  (forall m u, nth_error (w_types A) m = Some u ->
     called (t_space t) (t_name t) (length (t_params t)) u -> m = n) ->
  forall a, In a (get_type T (t_space t) (t_name t) (N.of_nat (length (t_params t)))) <->
    a = Some n.
Proof. intros GA HX W R. exact (name_found A X T fuel GA HX W n t). Qed.
Print Assumptions C107_found_partial.

(** Whatever is found is called so, and nothing is found only if nothing is called so. *)
Theorem C107_answers A X T fuel space name count a :
  good_assembly A X -> hosts_first X -> write A X fuel = Done T -> roomy T ->
  In a (get_type T space name (N.of_nat count)) ->
  match a with
  | Some n => exists t, nth_error (w_types A) n = Some t /\ called space name count t
  | None => forall t, In t (w_types A) -> ~ called space name count t
  end.
Proof. intros GA HX W R. exact (name_answers A X T fuel GA HX W space name count a). Qed.
Print Assumptions C107_answers.

Example C107_case : exists T, write twins [] 100 = Done T /\ roomy T /\
  get_type T 70 4 0 = [Some 3] /\ get_type T 70 9 0 = [None].
Proof.
  destruct twins_written as (T & ? & ? & ? & ? & ? & ? & ? & ? & ? & ? & ? & ? & ? & ? & ?).
  exists T. tauto.
Qed.

(** The type around is not compared: for two classes Item nested in two classes of one
    namespace either may be the answer, whichever was meant. *)
Theorem C107_nested_refuted : exists A T n t m u,
  good_assembly A [] /\ write A [] 100 = Done T /\ roomy T /\
  nth_error (w_types A) n = Some t /\ nth_error (w_types A) m = Some u /\
  t_host t <> t_host u /\
  In (Some n) (get_type T (t_space t) (t_name t) (N.of_nat (length (t_params t)))) /\
  In (Some m) (get_type T (t_space t) (t_name t) (N.of_nat (length (t_params t)))).
Proof.
  destruct twins_written as (T & W & R & ? & ? & ? & ? & ? & ? & ? & ? & ? & ? & ? & ? & G).
  exists twins, T, 1. eexists. exists 5. eexists.
  split; [exact twins_good|]. split; [exact W|]. split; [exact R|].
  split; [reflexivity|]. split; [reflexivity|]. cbn [t_host t_space t_name t_params length].
  split; [discriminate|]. change (N.of_nat 0) with 0%N. rewrite G. cbn. auto.
Qed.
Print Assumptions C107_nested_refuted.
