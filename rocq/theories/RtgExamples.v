(* A program with generic types, for the examples. *)
From Coq Require Import ZArith List Bool Lia.
From Verif Require Import RtgModel RtgSpec.
Import ListNotations.
Local Open Scope nat_scope.

(* 0 int, 1 string, 2 List<T>, 3 A<T>, 4 A<T>.B<U>, 5 A<T>.C<T>, 6 A<T>.D,
   7 Tuple<X...>, 8 Pair<K, V>, 9 Bag<Y...>, 10 interface I<S>, 11 E<Q>, 12 F<S>,
   13 W<Z>, 14 interface J, 15 G, 16 Some<H, R...> *)
Definition demo : prog := Prog
  [ Decl [] None; Decl [] None; Decl [0] None; Decl [1] None; Decl [2] (Some 3);
    Decl [3] (Some 3); Decl [] (Some 3); Decl [4] None; Decl [5; 6] None; Decl [7] None;
    Decl [8] None; Decl [9] None; Decl [10] None; Decl [11] None; Decl [] None; Decl [] None;
    Decl [16; 17] None ]
  [ Gparam 20 false; Gparam 20 false; Gparam 21 false; Gparam 20 false; Gparam 22 true;
    Gparam 23 false; Gparam 24 false; Gparam 25 true; Gparam 26 false; Gparam 27 false;
    Gparam 26 false; Gparam 28 false; Gparam 29 false; Gparam 30 false; Gparam 29 false;
    Gparam 30 false; Gparam 31 false; Gparam 32 true ]%Z.

Definition int_ : rty := RGeneral 0.
Definition str_ : rty := RGeneral 1.
Definition list_ (t : rty) : rty := RInstance 2 [t] None.

(* A<int>.B<List<string>> *)
Definition inner : rty := RInstance 4 [list_ str_] (Some (RInstance 3 [int_] None)).
(* Pair<T, U[]> in it *)
Definition pair_ : mty := MInstance 8 [MParam 1; MArray (MParam 2) 1] MNull.

(* Bag<int, string> and Tuple<List<int>, Y...> in it *)
Definition bag_ : rty := RInstance 9 [int_; str_] None.
Definition tuple_ : mty :=
  MInstance 7 [MInstance 2 [MGeneral 0] MNull; MParam 7] MNull.

Ltac look := vm_compute; reflexivity.

Lemma demo_single : forall p, nth_error (p_gparams demo) p <> None ->
  p <> 4 -> p <> 7 -> p <> 17 -> is_single demo p.
Proof.
  intros p B N4 N7 N17.
  do 18 (destruct p as [ | p ]; [ first [ contradiction | eexists; split; [ reflexivity | reflexivity ] ] | ]).
  exfalso. apply B. cbn. now destruct p.
Qed.

Ltac one := apply demo_single; [ discriminate | lia | lia | lia ].
Ltac many := eexists; split; reflexivity.

Lemma last_all : forall ps, Forall (is_single demo) ps -> pack_last demo ps.
Proof.
  intros ps F k p E. left. rewrite Forall_forall in F. apply F. eapply nth_error_In; exact E.
Qed.

Ltac singles := repeat (apply Forall_cons; [ one | ]); apply Forall_nil.
Ltac exact_args := left; split; [ cbn; singles | reflexivity ].

Lemma inner_ready : ready demo inner.
Proof.
  eapply ready_in; [ reflexivity | apply last_all; cbn; singles | exact_args | ].
  eapply ready_top; [ reflexivity | apply last_all; cbn; singles | exact_args ].
Qed.

Ltac no_dup := unfold distinct; vm_compute;
  repeat (constructor; [ let H := fresh in intro H; cbn in H; intuition discriminate | ]);
  constructor.

Lemma inner_distinct : distinct demo (scope demo inner).
Proof. no_dup. Qed.

Lemma pair_written : written demo (scope demo inner) pair_.
Proof.
  eapply wr_instance; [ reflexivity | apply last_all; cbn; singles | exact_args | | constructor ].
  apply wa_one; [ apply wr_param; [ cbn; auto | one ] | discriminate | ].
  apply wa_one; [ | discriminate | constructor ].
  apply wr_array; [ apply wr_param; [ cbn; auto | one ] | discriminate ].
Qed.

Lemma last_one_pack : forall p, is_pack demo p -> pack_last demo [p].
Proof. intros p D [ | [ | k ] ] q E; [ | discriminate | discriminate ]. injection E as <-. right. auto. Qed.

Lemma bag_ready : ready demo bag_.
Proof.
  eapply ready_top; [ reflexivity | apply last_one_pack; many | right ].
  exists [], 7. split; [ reflexivity | split; [ many | cbn; lia ] ].
Qed.

Lemma tuple_written : written demo (scope demo bag_) tuple_.
Proof.
  eapply wr_instance; [ reflexivity | apply last_one_pack; many | | | constructor ].
  - right. exists [], 4. split; [ reflexivity | split; [ many | cbn; lia ] ].
  - apply wa_one; [ | discriminate | ].
    + eapply wr_instance; [ reflexivity | apply last_all; cbn; singles | exact_args | | constructor ].
      apply wa_one; [ constructor | discriminate | constructor ].
    + apply wa_pack; [ cbn; auto | many | constructor ].
Qed.

(* W<t>, and the field a.x of it: a is A<Z>, x is T *)
Definition w_ (t : rty) : rty := RInstance 13 [t] None.
Definition ax : field_ref := Field_ref (MInstance 3 [MParam 11] MNull) (MParam 1).

Lemma one_ready : forall i d p t, nth_error (p_decls demo) i = Some d -> d_params d = [p] ->
  is_single demo p -> ready demo (RInstance i [t] None).
Proof.
  intros i d p t E D Sg. eapply ready_top; [ exact E | rewrite D; apply last_all; auto | ].
  rewrite D. left. split; [ auto | reflexivity ].
Qed.

Lemma one_gives : forall i d p t, nth_error (p_decls demo) i = Some d -> d_params d = [p] ->
  is_single demo p -> gives demo (RInstance i [t] None) p [t].
Proof.
  intros i d p t E D Sg. eapply gives_here; [ exact E | ]. rewrite D. exists 0.
  split; [ reflexivity | left ]. split; [ exact Sg | ]. exists t. now split.
Qed.

Lemma w_ready : forall t, ready demo (w_ t).
Proof. intro t. eapply one_ready; [ reflexivity | reflexivity | one ]. Qed.

Lemma ax_host : forall t h, stands (gives demo (w_ t)) demo (f_host ax) (Some h) ->
  h = RInstance 3 [t] None.
Proof.
  intros t h H. inversion H as [ | | | | ? ? ? ts o Ha Hh ]; subst. inversion Hh; subst.
  inversion Ha as [ | ? ? us vs Pk | ? ? u us Hs Hn ]; subst.
  - destruct Pk as (g & E & F). injection E as <-. discriminate.
  - inversion Hn; subst. inversion Hs as [ | | | ? ? Sg G | ]; subst.
    inversion G as [ ? d ? ? ? ? E A | ]; subst. injection E as <-.
    destruct A as ([ | [ | k ] ] & E & A); try discriminate.
    destruct A as [ (_ & t' & T & Q) | ((g & E' & F) & _) ].
    + cbn in T. congruence.
    + injection E' as <-. discriminate.
Qed.

Lemma ax_stands : forall t, field_stands demo (w_ t) ax (Some t).
Proof.
  intro t. exists (RInstance 3 [t] None). split.
  - constructor; [ | constructor ]. apply sa_one; [ | constructor ].
    apply st_param; [ one | ]. eapply one_gives; [ reflexivity | reflexivity | one ].
  - apply st_param; [ one | ]. eapply one_gives; [ reflexivity | reflexivity | one ].
Qed.

Lemma ax_good : forall t, good_field demo (w_ t) ax.
Proof.
  intro t. split.
  - eapply wr_instance; [ reflexivity | apply last_all; cbn; singles | exact_args | | constructor ].
    apply wa_one; [ apply wr_param; [ cbn; auto | one ] | discriminate | constructor ].
  - intros h H. apply ax_host in H. subst h.
    split; [ eapply one_ready; [ reflexivity | reflexivity | one ] | ].
    split; [ no_dup | apply wr_param; [ cbn; auto | one ] ].
Qed.

(* The field x of A<string>, read in any W *)
Definition sx : field_ref := Field_ref (MInstance 3 [MGeneral 1] MNull) (MParam 1).

Lemma sx_host : forall e h, stands e demo (f_host sx) (Some h) -> h = RInstance 3 [str_] None.
Proof.
  intros e h H. inversion H as [ | | | | ? ? ? ts o Ha Hh ]; subst. inversion Hh; subst.
  inversion Ha as [ | ? ? us vs Pk | ? ? u us Hs Hn ]; subst.
  inversion Hn; subst. inversion Hs; subst. reflexivity.
Qed.

Lemma sx_closed : forall s, written demo s (f_host sx).
Proof.
  intro s. eapply wr_instance; [ reflexivity | apply last_all; cbn; singles | exact_args | | constructor ].
  apply wa_one; [ constructor | discriminate | constructor ].
Qed.

Lemma sx_good : forall t, good_field demo (w_ t) sx.
Proof.
  intro t. split; [ apply sx_closed | ].
  intros h H. apply sx_host in H. subst h.
  split; [ eapply one_ready; [ reflexivity | reflexivity | one ] | ].
  split; [ no_dup | apply wr_param; [ cbn; auto | one ] ].
Qed.

(* interface I<S> { void f(S); }, class E<Q> : I<List<Q>> { void f(Q); void f(List<Q>); } *)
Definition f_s : meth := Meth 40 0 MNull [(0%Z, MParam 8)].
Definition i_ (t : rty) : rty := RInstance 10 [t] None.
Definition e_ (t : rty) : rty := RInstance 11 [t] None.
Definition e_methods : list meth :=
  [ Meth 40 0 MNull [(0%Z, MParam 9)];
    Meth 40 0 MNull [(0%Z, MInstance 2 [MParam 9] MNull)];
    Meth 41 0 MNull [(0%Z, MInstance 2 [MParam 9] MNull)] ].

(* class F<S> : I<List<S>> { void f(List<S>); void f(S); } *)
Definition c_ (t : rty) : rty := RInstance 12 [t] None.
Definition c_methods : list meth :=
  [ Meth 40 0 MNull [(0%Z, MInstance 2 [MParam 10] MNull)];
    Meth 40 0 MNull [(0%Z, MParam 10)] ].

(* interface J { void f<X, Y>(X); }, class G : J { void f<X, Y>(X); void f<X, Y>(Y); } *)
Definition g_f : meth := Meth 40 2 MNull [(0%Z, MParam 12)].
Definition g_methods : list meth :=
  [ Meth 40 2 MNull [(0%Z, MParam 14)]; Meth 40 2 MNull [(0%Z, MParam 15)] ].

(* class A<T> { virtual void f(T); virtual void g(int); },
   class E<Q> : A<Q> { override void f(Q); override void g(int); } *)
Definition v_f : meth := Meth 40 0 MNull [(0%Z, MParam 1)].
Definition v_g : meth := Meth 42 0 MNull [(0%Z, MGeneral 0)].
Definition o_f : meth := Meth 40 0 MNull [(0%Z, MParam 9)].
Definition o_g : meth := Meth 42 0 MNull [(0%Z, MGeneral 0)].

Ltac list_written := eapply wr_instance;
  [ reflexivity | apply last_all; cbn; singles | exact_args
  | apply wa_one; [ apply wr_param; [ cbn; auto | one ] | discriminate | constructor ]
  | constructor ].

Ltac meth_written := split; cbn [m_ret m_params];
  [ apply wr_null
  | apply Forall_cons; [ cbn [snd]; first [ apply wr_general | list_written | apply wr_param; [ cbn; auto | one ] ]
                       | apply Forall_nil ] ].

Lemma e_written : forall t, Forall (written_method demo (scope demo (e_ t))) e_methods.
Proof.
  intro t. repeat (apply Forall_cons; [ meth_written | ]). apply Forall_nil.
Qed.

Lemma f_s_written : forall t, written_method demo (scope demo (i_ t)) f_s.
Proof. intro t. meth_written. Qed.

Lemma one_stands : forall i d p t, nth_error (p_decls demo) i = Some d -> d_params d = [p] ->
  is_single demo p -> stands (gives demo (RInstance i [t] None)) demo (MParam p) (Some t).
Proof.
  intros i d p t E D Sg. apply st_param; [ exact Sg | ]. eapply one_gives; eassumption.
Qed.

Lemma list_stands : forall i d p t, nth_error (p_decls demo) i = Some d -> d_params d = [p] ->
  is_single demo p ->
  stands (gives demo (RInstance i [t] None)) demo (MInstance 2 [MParam p] MNull) (Some (list_ t)).
Proof.
  intros i d p t E D Sg. constructor; [ | constructor ].
  apply sa_one; [ | constructor ]. eapply one_stands; eassumption.
Qed.
