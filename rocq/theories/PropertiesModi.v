(** C121-C124: the checks of members. *)
From Coq Require Import List Bool Arith Lia.
From Verif Require Import ModiModel ModiSpec ModiProofs ModiExamples.
Import ListNotations.

(** *** C121 *)

(** The full claim: a member is accepted exactly if its modifiers can be used together and where it is
    declared.  Accepted members keep the rules of ModiSpec; rules that are missing there are refuted
    below. *)
Theorem C121_rules_partial T chain m : checked m -> accepted T chain m = true -> rules T m.
Proof. exact (rules_sound T chain m). Qed.
Print Assumptions C121_rules_partial.

Example C121_rules_case : checked demo_run /\ accepted Derived demo_chain demo_run = true /\
  checked demo_f /\ accepted Derived demo_chain demo_f = true.
Proof. repeat split; discriminate. Qed.

(** Members that keep the rules are accepted, except for indexers, see [filed], and for [new] members
    with another access than what they hide. *)
Theorem C121_complete_partial T chain m : Forall filed chain -> foreign m chain -> above T chain ->
  filed T -> no_indexers T -> In m (t_members T) -> NoDup (map m_id (t_members T)) -> single T m ->
  rules T m -> (forall x, nearest chain m x -> keeps_access m x) ->
  (t_interface T = false -> d_override (m_dec m) = true ->
    (exists x, nearest chain m x) /\ forall x, nearest chain m x -> overrides m x) ->
  accepted T chain m = true.
Proof. exact (complete T chain m). Qed.
Print Assumptions C121_complete_partial.

Example C121_complete_case : Forall filed demo_chain /\ foreign demo_run demo_chain /\
  above Derived demo_chain /\ filed Derived /\ no_indexers Derived /\ In demo_run (t_members Derived) /\
  NoDup (map m_id (t_members Derived)) /\
  single Derived demo_run /\ rules Derived demo_run /\
  (forall x, nearest demo_chain demo_run x -> keeps_access demo_run x) /\
  (exists x, nearest demo_chain demo_run x) /\
  (forall x, nearest demo_chain demo_run x -> overrides demo_run x).
Proof.
  split; [exact demo_filed|]. split; [apply demo_foreign; now left|]. split; [exact demo_above|].
  split; [intros x Hx; members Hx; reflexivity|].
  split; [intros x Hx; members Hx; discriminate|]. split; [now left|].
  split; [repeat constructor; cbn; lia|]. split; [apply demo_single; now left|].
  split; [exact demo_rules_run|]. split; [|split].
  - intros x Hx. apply demo_nearest_run in Hx. subst x. intros _ _ _ _ _. reflexivity.
  - eexists. now apply demo_nearest_run.
  - intros x Hx. apply demo_nearest_run in Hx. subst x. constructor; try reflexivity. now left.
Qed.

(** Members of interfaces may say [override]. *)
Theorem C121_interface_refuted : ~ (forall T chain m, checked m -> accepted T chain m = true ->
  t_interface T = true -> d_override (m_dec m) = false).
Proof.
  intros H. specialize (H Interface [] odd_interface_member). discriminate H; try reflexivity.
  split; [reflexivity | discriminate].
Qed.
Print Assumptions C121_interface_refuted.

(** Abstract methods may have bodies. *)
Theorem C121_body_refuted : ~ (forall T chain m, checked m -> accepted T chain m = true ->
  m_kind m = Method -> d_abstract (m_dec m) = true -> m_body m = false).
Proof.
  intros H. specialize (H Abstract [] abstract_body). discriminate H; try reflexivity.
  split; [reflexivity | discriminate].
Qed.
Print Assumptions C121_body_refuted.

(** Members may be both virtual and abstract. *)
Theorem C121_exclusive_refuted : ~ (forall T chain m, checked m -> accepted T chain m = true ->
  d_abstract (m_dec m) = true -> d_virtual (m_dec m) = false).
Proof.
  intros H. specialize (H Abstract [] virtual_abstract). discriminate H; try reflexivity.
  split; [reflexivity | discriminate].
Qed.
Print Assumptions C121_exclusive_refuted.

(** A [new] member is refused if its access is not that of the virtual member it hides. *)
Theorem C121_new_refuted : ~ (forall T chain m, Forall filed chain -> foreign m chain ->
  above T chain -> filed T -> no_indexers T -> In m (t_members T) -> NoDup (map m_id (t_members T)) ->
  single T m -> rules T m -> d_override (m_dec m) = false -> accepted T chain m = true).
Proof.
  intros H. assert (X : accepted (type_of new_member) demo_chain new_member = true).
  { apply H.
    - exact demo_filed.
    - intros t x Ht Hx. unfold demo_chain in Ht. members Ht; discriminate.
    - intros t x Ht Hx. unfold demo_chain in Ht. members Ht; discriminate.
    - intros x [<-|[]]. reflexivity.
    - intros x [<-|[]]. discriminate.
    - now left.
    - repeat constructor. intros [].
    - split; [left; discriminate|]. intros x [<-|[]] NE. now destruct NE.
    - constructor; cbn; try (intros; discriminate); auto.
      + intros NW. destruct NW. now left.
    - reflexivity. }
  discriminate X.
Qed.
Print Assumptions C121_new_refuted.

(** A second indexer of a type is refused whatever its parameters are. *)
Theorem C121_indexer_refuted : ~ (forall T m, In m (t_members T) -> NoDup (map m_id (t_members T)) ->
  single T m -> rules T m -> d_override (m_dec m) = false -> accepted T [] m = true).
Proof.
  intros H. assert (X : accepted Overloads [] indexer_by_other = true).
  { apply H.
    - right. now left.
    - repeat constructor; cbn; lia.
    - split; [left; discriminate|]. intros x [<-|[<-|[]]] NE; [|now destruct NE].
      intros (_ & _ & P). now specialize (P eq_refl eq_refl).
    - constructor; cbn; try (intros; discriminate); auto.
      + intros NW. destruct NW. right; now left.
    - reflexivity. }
  discriminate X.
Qed.
Print Assumptions C121_indexer_refuted.

(** *** C122 *)

(** The full claim: an accepted [override] member replaces the member it meets first in the base
    types, and that is a virtual, abstract or overriding member of the same kind with the same
    parameters, type and access, not sealed.  Without the kind and how parameters are passed it is
    proved. *)
Theorem C122_override_partial T chain m : Forall filed chain -> foreign m chain -> checked m ->
  accepted T chain m = true -> t_interface T = false -> d_override (m_dec m) = true ->
  exists x, nearest chain m x /\ overrides m x /\ keeps_access m x.
Proof. exact (override_sound T chain m). Qed.
Print Assumptions C122_override_partial.

Example C122_override_case : Forall filed demo_chain /\ foreign demo_run demo_chain /\
  checked demo_run /\ accepted Derived demo_chain demo_run = true /\
  t_interface Derived = false /\ d_override (m_dec demo_run) = true.
Proof.
  split; [exact demo_filed|]. split; [apply demo_foreign; now left|].
  split; [split; [reflexivity | discriminate]|]. repeat split.
Qed.

(** A method may override a property. *)
Theorem C122_kind_refuted : ~ (forall T chain m, Forall filed chain -> foreign m chain -> checked m ->
  accepted T chain m = true -> t_interface T = false -> d_override (m_dec m) = true ->
  exists x, nearest chain m x /\ m_kind x = m_kind m).
Proof.
  intros H. destruct (H (type_of method_for_property) demo_chain method_for_property)
    as (x & (b & t & a & E & _ & Hx & (N & _)) & K); try reflexivity.
  - exact demo_filed.
  - intros t x Ht Hx. unfold demo_chain in Ht. members Ht; discriminate.
  - split; [reflexivity | discriminate].
  - assert (Ht : In t demo_chain) by (rewrite E; apply in_or_app; right; now left).
    unfold demo_chain in Ht. members Ht; discriminate N || discriminate K.
Qed.
Print Assumptions C122_kind_refuted.

(** A parameter may be passed in another way. *)
Theorem C122_passing_refuted : ~ (forall T chain m, Forall filed chain -> foreign m chain ->
  checked m -> accepted T chain m = true -> t_interface T = false -> d_override (m_dec m) = true ->
  exists x, nearest chain m x /\ m_params x = m_params m).
Proof.
  intros H. destruct (H (type_of passed_by_reference) demo_chain passed_by_reference)
    as (x & (b & t & a & E & _ & Hx & (N & _)) & K); try reflexivity.
  - exact demo_filed.
  - intros t x Ht Hx. unfold demo_chain in Ht. members Ht; discriminate.
  - split; [reflexivity | discriminate].
  - assert (Ht : In t demo_chain) by (rewrite E; apply in_or_app; right; now left).
    unfold demo_chain in Ht. members Ht; discriminate N || discriminate K.
Qed.
Print Assumptions C122_passing_refuted.

(** A virtual indexer compiled from source cannot be overridden. *)
Theorem C122_indexer_refuted : ~ (forall T chain m, foreign m chain -> above T chain ->
  single T m -> rules T m -> d_override (m_dec m) = true -> (exists x, nearest chain m x) ->
  (forall x, nearest chain m x -> overrides m x /\ keeps_access m x) -> accepted T chain m = true).
Proof.
  intros H. assert (X : accepted IndexerDerived [IndexerBase] (indexer 91 10 (override Public)) = true).
  { apply H.
    - intros t x [<-|[]] [<-|[]]. discriminate.
    - intros t x [<-|[]] [<-|[]]. discriminate.
    - split; [left; discriminate|]. intros x [<-|[]] NE. now destruct NE.
    - constructor; cbn; try (intros; discriminate); auto.
      + intros NW. destruct NW. right. now left.
    - reflexivity.
    - exists (indexer 90 9 (virtual Public)), [], IndexerBase, []. split; [reflexivity|].
      split; [intros u y []|]. split; [now left|]. split; [reflexivity|]. split; [discriminate | reflexivity].
    - intros x (b & t & a & E & _ & Hx & _).
      assert (Ht : In t [IndexerBase]) by (rewrite E; apply in_or_app; right; now left).
      destruct Ht as [<-|[]]. destruct Hx as [<-|[]]. split.
      + constructor; try reflexivity. now left.
      + intros _ _ _ _ _. reflexivity. }
  discriminate X.
Qed.
Print Assumptions C122_indexer_refuted.

(** *** C123 *)

(** The full claim: of two members of a type that cannot be told apart one is refused.  It is proved of
    members that are checked; accessors are not, see below. *)
Theorem C123_refused_partial T chain m x : kept T -> NoDup (map m_id (t_members T)) ->
  In m (t_members T) -> In x (t_members T) -> m_id x <> m_id m -> clash m x -> checked m -> checked x ->
  accepted T chain m = false \/ accepted T chain x = false.
Proof. exact (duplicates_refused T chain m x). Qed.
Print Assumptions C123_refused_partial.

Example C123_refused_case :
  let a := method 1 1 7 [(3, 0)] (plain Public) in
  let b := method 2 1 7 [(3, 1)] (plain Public) in
  let T := mk_type 1 100 false false [a; field 3 1 8 (plain Public); b] in
  kept T /\ NoDup (map m_id (t_members T)) /\ clash a b /\ checked a /\ checked b /\
  accepted T [] a = true /\ accepted T [] b = false.
Proof.
  cbv zeta. split; [intros x Hx _; members Hx; reflexivity|]. split; [repeat constructor; cbn; lia|].
  split; [split; [reflexivity|]; split; [now split | discriminate]|].
  split; [split; [reflexivity | discriminate]|]. split; [split; [reflexivity | discriminate]|].
  split; reflexivity.
Qed.

Example C123_refused_indexers :
  let a := indexer 80 8 (plain Public) in
  let b := indexer 81 8 (plain Public) in
  kept Indexers /\ NoDup (map m_id (t_members Indexers)) /\ clash a b /\ checked a /\ checked b /\
  accepted Indexers [] a = true /\ check_member Indexers [] b = None /\ accepted Indexers [] b = false.
Proof.
  cbv zeta. split; [intros x [<-|[<-|[]]] K; now destruct K|]. split; [repeat constructor; cbn; lia|].
  split; [split; [reflexivity|]; split; [discriminate | reflexivity]|].
  split; [split; [reflexivity | discriminate]|]. split; [split; [reflexivity | discriminate]|].
  repeat split.
Qed.

(** Nothing else is reported as a duplicate. *)
Theorem C123_true T m : filed T -> check_duplicate T m = Some Duplicated ->
  exists x, In x (t_members T) /\ m_id x <> m_id m /\ clash m x.
Proof. exact (duplicate_true T m). Qed.
Print Assumptions C123_true.

Example C123_true_case :
  let b := method 2 1 7 [(3, 1)] (plain Public) in
  let T := mk_type 1 100 false false [field 3 1 7 (plain Public); b] in
  filed T /\ check_duplicate T b = Some Duplicated.
Proof. cbv zeta. split; [intros x Hx; members Hx; reflexivity | reflexivity]. Qed.

(** A method with the name and parameters of the accessor of a property is accepted. *)
Theorem C123_accessor_refuted : ~ (forall T chain m x, filed T -> NoDup (map m_id (t_members T)) ->
  In m (t_members T) -> In x (t_members T) -> m_id x <> m_id m -> clash m x ->
  accepted T chain m = false \/ accepted T chain x = false).
Proof.
  intros H. destruct (H Accessors [] user_get accessor) as [X|X].
  - intros x [<-|[<-|[<-|[]]]]; reflexivity.
  - repeat constructor; cbn; lia.
  - now left.
  - right. now left.
  - discriminate.
  - split; [reflexivity|]. split; [now split | discriminate].
  - discriminate X.
  - discriminate X.
Qed.
Print Assumptions C123_accessor_refuted.

(** *** C124 *)

(** An accepted member that hides an inherited one without saying so is warned about. *)
Theorem C124_warned T chain m : Forall filed chain -> foreign m chain -> above T chain -> checked m ->
  accepted T chain m = true -> (exists x, nearest chain m x) ->
  (forall x, nearest chain m x -> silently_hides m x) ->
  check_member T chain m = Some HidesVirtual \/ check_member T chain m = Some Hides.
Proof. exact (warned_all T chain m). Qed.
Print Assumptions C124_warned.

(** And only such a member. *)
Theorem C124_true T chain m : Forall filed chain -> foreign m chain -> above T chain -> checked m ->
  accepted T chain m = true ->
  (check_member T chain m = Some HidesVirtual \/ check_member T chain m = Some Hides) ->
  exists x, nearest chain m x /\ silently_hides m x.
Proof. exact (warned_true T chain m). Qed.
Print Assumptions C124_true.

Example C124_case : Forall filed demo_chain /\ foreign demo_f demo_chain /\ above Derived demo_chain /\
  checked demo_f /\ accepted Derived demo_chain demo_f = true /\
  (exists x, nearest demo_chain demo_f x) /\
  (forall x, nearest demo_chain demo_f x -> silently_hides demo_f x) /\
  check_member Derived demo_chain demo_f = Some Hides.
Proof.
  split; [exact demo_filed|]. split; [apply demo_foreign; right; right; now left|].
  split; [exact demo_above|]. split; [split; [reflexivity | discriminate]|]. split; [reflexivity|].
  split; [eexists; now apply demo_nearest_f|]. split; [|reflexivity].
  intros x Hx. apply demo_nearest_f in Hx. subst x. repeat split. intros (_ & [D|[D|D]] & _); discriminate D.
Qed.

(** A [new] member that hides nothing is not warned about. *)
Theorem C124_new_refuted : ~ (forall T chain m, Forall filed chain -> foreign m chain ->
  above T chain -> checked m -> accepted T chain m = true -> d_new (m_dec m) = true ->
  (forall x, ~ nearest chain m x) -> check_member T chain m = Some HidesNothing).
Proof.
  intros H. specialize (H (type_of new_nothing) demo_chain new_nothing). discriminate H.
  - exact demo_filed.
  - intros t x Ht Hx. unfold demo_chain in Ht. members Ht; discriminate.
  - intros t x Ht Hx. unfold demo_chain in Ht. members Ht; discriminate.
  - split; [reflexivity | discriminate].
  - reflexivity.
  - reflexivity.
  - intros x (b & t & a & E & _ & Hx & (N & _)).
    assert (Ht : In t demo_chain) by (rewrite E; apply in_or_app; right; now left).
    unfold demo_chain in Ht. members Ht; discriminate N.
Qed.
Print Assumptions C124_new_refuted.

(** For an [extern] property the message is made with a null pointer. *)
Theorem C124_text_refuted : ~ (forall T chain m, check_member T chain m <> Some (ModifierNotValid false)).
Proof. intros H. apply (H (type_of extern_property) [] extern_property). reflexivity. Qed.
Print Assumptions C124_text_refuted.
