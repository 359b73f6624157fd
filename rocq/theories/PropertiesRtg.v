(* C102-C105: generic types at run time. *)
From Coq Require Import ZArith List Bool Lia.
From Verif Require Import RtgModel RtgSpec RtgProofs RtgExamples.
Import ListNotations.
Local Open Scope nat_scope.

(* C102.  In an instance of a generic type, nested as deep as one likes, each type
   the code names stands for the type in which the params are replaced by the
   arguments of the instance and of the instances around it, and for no other.
   What is missing: params of the same name in one another (refuted below) and
   instances whose number of arguments depends on a spread (refuted below). *)
Theorem C102_in_type_partial : forall P t m,
  ready P t -> distinct P (scope P t) -> written P (scope P t) m ->
  exists M, build P t None = Done M /\
    (exists o, get_type P M m = Done o) /\
    forall o, get_type P M m = Done o <-> stands (gives P t) P m o.
Proof. exact means_in_type. Qed.
Print Assumptions C102_in_type_partial.

Example C102_in_type_case :
  ready demo inner /\ distinct demo (scope demo inner) /\
  written demo (scope demo inner) pair_ /\
  (exists M, build demo inner None = Done M /\
    get_type demo M pair_ =
      Done (Some (RInstance 8 [int_; RArray (list_ str_) 1] None))) /\
  ready demo bag_ /\ distinct demo (scope demo bag_) /\
  written demo (scope demo bag_) tuple_ /\
  exists M, build demo bag_ None = Done M /\
    get_type demo M tuple_ = Done (Some (RInstance 7 [list_ int_; int_; str_] None)).
Proof.
  split; [ exact inner_ready | split; [ exact inner_distinct | split; [ exact pair_written | ] ] ].
  split; [ eexists; split; reflexivity | ].
  split; [ exact bag_ready | split; [ no_dup | split; [ exact tuple_written | ] ] ].
  eexists; split; reflexivity.
Qed.

(* The same in an instance of a generic method *)
Theorem C102_in_method_partial : forall P t ps args m,
  ready P t -> pack_last P ps -> enough P ps (length args) ->
  distinct P (scope P t ++ ps) -> written P (scope P t ++ ps) m ->
  exists M, build_method P t ps args = Done M /\
    (exists o, get_type P M m = Done o) /\
    forall o, get_type P M m = Done o <-> stands (gives_method P t ps args) P m o.
Proof. exact means_in_method. Qed.
Print Assumptions C102_in_method_partial.

Example C102_in_method_case :
  distinct demo (scope demo inner ++ [12; 13]) /\
  exists M, build_method demo inner [12; 13] [str_; int_] = Done M /\
    get_type demo M (MInstance 8 [MParam 13; MParam 1] MNull) =
      Done (Some (RInstance 8 [int_; int_] None)).
Proof. split; [ no_dup | eexists; split; reflexivity ]. Qed.

(* A<int>.C<string>, where both call their param T, cannot be run in. *)
Theorem C102_same_names_refuted :
  let t := RInstance 5 [str_] (Some (RInstance 3 [int_] None)) in
  ready demo t /\ written demo (scope demo t) (MParam 3) /\
  stands (gives demo t) demo (MParam 3) (Some str_) /\
  build demo t None = Failed.
Proof.
  split; [ | split; [ | split ] ].
  - eapply ready_in; [ reflexivity | apply last_all; cbn; singles | exact_args | ].
    eapply one_ready; [ reflexivity | reflexivity | one ].
  - apply wr_param; [ cbn; auto | one ].
  - apply st_param; [ one | ]. eapply gives_here; [ reflexivity | ]. exists 0.
    split; [ reflexivity | left ]. split; [ one | ]. eexists. now split.
  - reflexivity.
Qed.
Print Assumptions C102_same_names_refuted.

(* The nested type D of A<T>, named by itself, is the same for all A: in it T is
   a place holder, not a type of the program. *)
Theorem C102_nested_refuted : forall t,
  (exists M, build demo (RInstance 3 [t] None) None = Done M /\
     get_type demo M (MGeneral 6) = Done (Some (RGeneral 6))) /\
  exists M, build demo (RGeneral 6) None = Done M /\
    get_type demo M (MParam 1) = Done (Some (RHolder 0)).
Proof. intro t. split; eexists; split; reflexivity. Qed.
Print Assumptions C102_nested_refuted.

(* In Bag<int, string>, Pair<Y...> should be Pair<int, string>: it fails.
   In Bag<>, Some<Y...> is made without its first argument. *)
Theorem C102_spread_refuted :
  (exists M, build demo bag_ None = Done M /\
     stands (gives demo bag_) demo (MInstance 8 [MParam 7] MNull)
       (Some (RInstance 8 [int_; str_] None)) /\
     get_type demo M (MInstance 8 [MParam 7] MNull) = Failed) /\
  exists M, build demo (RInstance 9 [] None) None = Done M /\
    get_type demo M (MInstance 16 [MParam 7] MNull) = Done (Some (RInstance 16 [] None)) /\
    ~ enough demo [16; 17] 0 /\ build demo (RInstance 16 [] None) None = Failed.
Proof.
  split; eexists; (split; [ reflexivity | ]).
  - split; [ | reflexivity ]. constructor; [ | constructor ].
    apply (sa_pack _ _ 7 [] [int_; str_] []); [ many | | constructor ].
    eapply gives_here; [ reflexivity | ]. exists 0. split; [ reflexivity | right ].
    split; [ many | reflexivity ].
  - split; [ reflexivity | split; [ | reflexivity ] ].
    intros [ (_ & L) | (qs & q & E & _ & L) ]; [ discriminate L | ].
    destruct qs as [ | x qs ]; [ discriminate E | cbn in L; lia ].
Qed.
Print Assumptions C102_spread_refuted.

(* C103.  The first time a field of an instance is read through a reference, its
   type is the type of the field in that instance.  What is missing: the later
   times (refuted below unless the reference has no params). *)
Theorem C103_first_partial : forall P t f k c,
  ready P t -> distinct P (scope P t) -> good_field P t f -> f_host f <> MNull ->
  lookup k c = None ->
  exists M o c', build P t None = Done M /\ field_type P M c k f = Done (o, c') /\
    forall o', field_stands P t f o' <-> o' = o.
Proof. exact first_field. Qed.
Print Assumptions C103_first_partial.

Example C103_first_case : forall t,
  ready demo (w_ t) /\ distinct demo (scope demo (w_ t)) /\ good_field demo (w_ t) ax /\
  f_host ax <> MNull /\ field_stands demo (w_ t) ax (Some t).
Proof.
  intro t. split; [ apply w_ready | ]. split; [ no_dup | ]. split; [ apply ax_good | ].
  split; [ discriminate | apply ax_stands ].
Qed.

(* If the types the fields are in have no params, every read of every run has the
   right type. *)
Theorem C103_closed_partial : forall P fs l,
  (forall k, written P [] (f_host (fs k)) /\ f_host (fs k) <> MNull) ->
  (forall t k, In (t, k) l ->
     ready P t /\ distinct P (scope P t) /\ good_field P t (fs k)) ->
  exists os, read_fields P fs l [] = Done os /\
    Forall2 (fun x o => field_stands P (fst x) (fs (snd x)) o) l os.
Proof.
  intros P fs l A B. apply read_fields_closed; [ exact A | exact B | ]. discriminate.
Qed.
Print Assumptions C103_closed_partial.

Example C103_closed_case :
  (forall k : Z, written demo [] (f_host sx) /\ f_host sx <> MNull) /\
  (forall t, ready demo (w_ t) /\ distinct demo (scope demo (w_ t)) /\ good_field demo (w_ t) sx) /\
  read_fields demo (fun _ => sx) [(w_ int_, 5%Z); (w_ str_, 5%Z); (w_ int_, 6%Z)] [] =
    Done [Some str_; Some str_; Some str_].
Proof.
  split; [ intro; split; [ apply sx_closed | discriminate ] | ].
  split; [ | reflexivity ].
  intro t. split; [ apply w_ready | split; [ no_dup | apply sx_good ] ].
Qed.

(* class W<Z> { A<Z> a; ... a.x ... } run with Z = int and then with Z = string:
   a.x is int both times. *)
Theorem C103_kept_refuted :
  (forall t, ready demo (w_ t) /\ distinct demo (scope demo (w_ t)) /\ good_field demo (w_ t) ax) /\
  (forall t o, field_stands demo (w_ t) ax o <-> o = Some t) /\
  read_fields demo (fun _ => ax) [(w_ int_, 5%Z); (w_ str_, 5%Z)] [] =
    Done [Some int_; Some int_] /\
  read_fields demo (fun _ => ax) [(w_ str_, 5%Z); (w_ int_, 5%Z)] [] =
    Done [Some str_; Some str_].
Proof.
  assert (forall t, distinct demo (scope demo (w_ t))) as D by (intro; no_dup).
  split; [ | split; [ | split; reflexivity ] ].
  - intro t. split; [ apply w_ready | split; [ apply D | apply ax_good ] ].
  - intros t o. split.
    + intro H. eapply field_unique; [ apply D | apply ax_good | exact H | apply ax_stands ].
    + intros ->. apply ax_stands.
Qed.
Print Assumptions C103_kept_refuted.

(* C104.  A method of a generic interface is bound in a generic class to the last
   method of the class that has the same name and the same types, each with the
   arguments of its own instance, and to none if there is none.  What is missing:
   params of the class and the interface with the same name, types that are params
   of the methods (both refuted below), params that take many types, explicit
   owners, base classes. *)
Theorem C104_bound_partial : forall P class iface m ms,
  ready P class -> ready P iface ->
  distinct P (scope P iface) -> distinct P (scope P class) ->
  (forall p q, In p (scope P iface) -> In q (scope P class) -> name_of P p <> name_of P q) ->
  no_packs P (scope P class) ->
  written_method P (scope P iface) m -> Forall (written_method P (scope P class)) ms ->
  exists o, bind_interface P class iface m ms = Done o /\
    last_same (same_method P (gives P iface) (gives P class) m) ms o.
Proof. exact bind_interface_spec. Qed.
Print Assumptions C104_bound_partial.

Example C104_bound_case : forall t,
  ready demo (e_ t) /\ ready demo (i_ (list_ t)) /\
  (forall p q, In p (scope demo (i_ (list_ t))) -> In q (scope demo (e_ t)) ->
     name_of demo p <> name_of demo q) /\
  no_packs demo (scope demo (e_ t)) /\
  written_method demo (scope demo (i_ (list_ t))) f_s /\
  Forall (written_method demo (scope demo (e_ t))) e_methods /\
  same_method demo (gives demo (i_ (list_ t))) (gives demo (e_ t)) f_s (nth 1 e_methods f_s) /\
  bind_interface demo (e_ int_) (i_ (list_ int_)) f_s e_methods = Done (Some 1).
Proof.
  intro t.
  split; [ eapply one_ready; [ reflexivity | reflexivity | one ] | ].
  split; [ eapply one_ready; [ reflexivity | reflexivity | one ] | ].
  split; [ intros p q [ <- | [] ] [ <- | [] ]; discriminate | ].
  split; [ intros p [ <- | [] ]; one | ].
  split; [ apply f_s_written | ]. split; [ apply e_written | ]. split; [ | reflexivity ].
  split; [ reflexivity | split; [ reflexivity | split ] ].
  - exists None. split; constructor.
  - constructor; [ | constructor ]. split; [ reflexivity | ]. exists (Some (list_ t)).
    split; cbn [snd];
      [ eapply one_stands; [ reflexivity | reflexivity | one ]
      | eapply list_stands; [ reflexivity | reflexivity | one ] ].
Qed.

(* class F<S> : I<List<S>> with I<S> { void f(S); }: F<int> is bound with f(int)
   where it has f(List<int>). *)
Theorem C104_names_refuted :
  ready demo (c_ int_) /\ ready demo (i_ (list_ int_)) /\
  written_method demo (scope demo (i_ (list_ int_))) f_s /\
  Forall (written_method demo (scope demo (c_ int_))) c_methods /\
  same_method demo (gives demo (i_ (list_ int_))) (gives demo (c_ int_)) f_s
    (nth 0 c_methods f_s) /\
  stands (gives demo (c_ int_)) demo (MParam 10) (Some int_) /\
  m_params (nth 1 c_methods f_s) = [(0%Z, MParam 10)] /\
  bind_interface demo (c_ int_) (i_ (list_ int_)) f_s c_methods = Done (Some 1).
Proof.
  split; [ eapply one_ready; [ reflexivity | reflexivity | one ] | ].
  split; [ eapply one_ready; [ reflexivity | reflexivity | one ] | ].
  split; [ apply f_s_written | ].
  split; [ repeat (apply Forall_cons; [ meth_written | ]); apply Forall_nil | ].
  split; [ | split; [ eapply one_stands; [ reflexivity | reflexivity | one ] | split; reflexivity ] ].
  split; [ reflexivity | split; [ reflexivity | split ] ].
  - exists None. split; constructor.
  - constructor; [ | constructor ]. split; [ reflexivity | ]. exists (Some (list_ int_)).
    split; cbn [snd];
      [ eapply one_stands; [ reflexivity | reflexivity | one ]
      | eapply list_stands; [ reflexivity | reflexivity | one ] ].
Qed.
Print Assumptions C104_names_refuted.

(* interface J { void f<X, Y>(X); }, class G : J { void f<X, Y>(X); void f<X, Y>(Y); }:
   the second is bound, though its param has another type in every call. *)
Theorem C104_generic_method_refuted :
  bind_interface demo (RGeneral 15) (RGeneral 14) g_f g_methods = Done (Some 1) /\
  forall x y,
    stands (gives_method demo (RGeneral 14) [12; 13] [x; y]) demo (MParam 12) (Some x) /\
    stands (gives_method demo (RGeneral 15) [14; 15] [x; y]) demo (MParam 14) (Some x) /\
    stands (gives_method demo (RGeneral 15) [14; 15] [x; y]) demo (MParam 15) (Some y).
Proof.
  split; [ reflexivity | ]. intros x y.
  assert (forall t ps k p z, nth_error ps k = Some p -> nth_error [x; y] k = Some z ->
    is_single demo p -> stands (gives_method demo t ps [x; y]) demo (MParam p) (Some z)) as H.
  { intros t ps k p z A B Sg. apply st_param; [ exact Sg | ]. apply gives_own. exists k.
    split; [ exact A | left ]. split; [ exact Sg | ]. exists z. now split. }
  split; [ | split ].
  - apply (H _ _ 0); [ reflexivity | reflexivity | one ].
  - apply (H _ _ 0); [ reflexivity | reflexivity | one ].
  - apply (H _ _ 1); [ reflexivity | reflexivity | one ].
Qed.
Print Assumptions C104_generic_method_refuted.

(* C105.  An override takes the place of the first virtual method with the same
   name and types, if no type of the virtual methods has a generic param in it; it
   is reported if there is none.  What is missing: virtual methods with generic
   params in their types (refuted below). *)
Theorem C105_override_partial : forall P class m vs,
  ready P class -> distinct P (scope P class) ->
  written_method P (scope P class) m -> Forall (written_method P []) vs ->
  exists o, override_slot P class m vs = Done o /\
    first_same (same_method P (gives P class) nothing m) vs o.
Proof. exact override_slot_spec. Qed.
Print Assumptions C105_override_partial.

Example C105_override_case : forall t,
  ready demo (e_ t) /\ distinct demo (scope demo (e_ t)) /\
  written_method demo (scope demo (e_ t)) o_g /\ Forall (written_method demo []) [v_g] /\
  override_slot demo (e_ t) o_g [v_g] = Done (Some 0) /\
  override_slot demo (e_ int_) (Meth 42 0 MNull [(0%Z, MParam 9)]) [v_g] = Done (Some 0) /\
  override_slot demo (e_ str_) (Meth 42 0 MNull [(0%Z, MParam 9)]) [v_g] = Done None.
Proof.
  intro t.
  split; [ eapply one_ready; [ reflexivity | reflexivity | one ] | ].
  split; [ no_dup | ]. split; [ meth_written | ].
  split; [ repeat (apply Forall_cons; [ meth_written | ]); apply Forall_nil | ].
  split; [ | split ]; reflexivity.
Qed.

(* class A<T> { virtual void f(T); }, class E<Q> : A<Q> { override void f(Q); }:
   the override is reported as not found in every E, and so is that of f(List<T>)
   by f(List<Q>), which fails. *)
Theorem C105_generic_refuted : forall t,
  ready demo (e_ t) /\ ready demo (RInstance 3 [t] None) /\
  written_method demo (scope demo (e_ t)) o_f /\
  written_method demo (scope demo (RInstance 3 [t] None)) v_f /\
  same_method demo (gives demo (e_ t)) (gives demo (RInstance 3 [t] None)) o_f v_f /\
  override_slot demo (e_ t) o_f [v_f] = Done None /\
  override_slot demo (e_ t) (Meth 40 0 MNull [(0%Z, MInstance 2 [MParam 9] MNull)])
    [Meth 40 0 MNull [(0%Z, MInstance 2 [MParam 1] MNull)]] = Failed.
Proof.
  intro t.
  split; [ eapply one_ready; [ reflexivity | reflexivity | one ] | ].
  split; [ eapply one_ready; [ reflexivity | reflexivity | one ] | ].
  split; [ meth_written | ]. split; [ meth_written | ]. split; [ | split; reflexivity ].
  split; [ reflexivity | split; [ reflexivity | split ] ].
  - exists None. split; constructor.
  - constructor; [ | constructor ]. split; [ reflexivity | ]. exists (Some t).
    split; cbn [snd]; (eapply one_stands; [ reflexivity | reflexivity | one ]).
Qed.
Print Assumptions C105_generic_refuted.
