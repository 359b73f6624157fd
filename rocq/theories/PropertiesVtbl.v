(** Properties of run-time dispatch and casts. *)
From Coq Require Import ZArith List Bool Lia Permutation.
From Verif Require Import VtblModel VtblSpec VtblProofs VtblIface VtblExamples.
Import ListNotations.
Local Open Scope nat_scope.

(** C77: a virtual call runs the most derived method of the chain of overrides
    to which the method named in the call belongs.  Missing from the full
    claim, and refuted below: classes that declare an override before a
    virtual method, `new virtual' methods, explicit implementations that share
    a prototype with a virtual method, and indices beyond the bits of a slot. *)
Theorem C77_virtual_call_partial : forall methods_at above c b m,
  accepted (above ++ c :: b) -> laid_out (above ++ c :: b) ->
  introducing_first (above ++ c :: b) -> no_reintroduction (above ++ c :: b) ->
  explicit_apart (above ++ c :: b) -> loaded methods_at (above ++ c :: b) ->
  In m (c_methods c) -> dispatched m ->
  exists r m', introduced (c :: b) m r /\ most_derived (above ++ c :: b) r m' /\
    virtual_call methods_at (c :: b) m (Some (above ++ c :: b)) = Calls (m_asm m', m_idx m').
Proof. exact virtual_call_spec. Qed.
Print Assumptions C77_virtual_call_partial.

Example C77_holds_somewhere :
  virtual_call (table_of typeC) [clsA] (virt 0 1) (Some typeC) = Calls (1, 5)%Z /\
  virtual_call (table_of typeC) [clsA] (virt 1 2) (Some typeC) = Calls (1, 4)%Z /\
  virtual_call (table_of typeC) [clsB; clsA] (virt 3 3) (Some typeC) = Calls (1, 6)%Z /\
  exists r m', introduced [clsB; clsA] (over 4 2) r /\ most_derived typeC r m' /\
    virtual_call (table_of typeC) [clsB; clsA] (over 4 2) (Some typeC) = Calls (m_asm m', m_idx m').
Proof.
  repeat (split; [reflexivity|]).
  apply (C77_virtual_call_partial (table_of typeC) [clsC] clsB [clsA] (over 4 2)
    typeC_accepted typeC_laid_out typeC_first typeC_no_new typeC_explicit typeC_loaded).
  - right. now left.
  - right. now left.
Qed.

(** The chain and its most derived method are determined by the classes, so
    the theorem above names one method. *)
Theorem C77_one_method : forall host t m r r' m1 m2,
  accepted host -> In m (all_methods host) -> introduced host m r -> introduced host m r' ->
  accepted t -> no_reintroduction t -> explicit_apart t ->
  most_derived t r m1 -> most_derived t r' m2 -> r = r' /\ m1 = m2.
Proof.
  intros host t m r r' m1 m2 A M I I' A' N X D D'.
  pose proof (introduced_fun host m r r' A M I I') as <-.
  split; [reflexivity|exact (most_derived_fun t r m1 m2 A' N X D D')].
Qed.
Print Assumptions C77_one_method.

(** Whatever order the writer gives the methods, a table that is built has one
    slot for every method that introduces, inherited or not. *)
Theorem C77_table_size : forall methods_at t vs,
  accepted t -> laid_out t -> build_vfunctions methods_at t = Built vs ->
  length vs = length (filter is_virtual (all_methods t)).
Proof. exact table_size. Qed.
Print Assumptions C77_table_size.

Example C77_table_size_somewhere : exists vs, build_vfunctions (table_of typeW) typeW = Built vs /\ length vs = 3.
Proof. eexists. split; reflexivity. Qed.

(** A call through a null reference raises, whatever the method. *)
Theorem C77_null : forall methods_at host m k,
  virtual_offset host m = Some k -> virtual_call methods_at host m None = NullReference.
Proof. intros methods_at host m k H. unfold virtual_call. now rewrite H. Qed.
Print Assumptions C77_null.

Example C77_null_somewhere : virtual_call (table_of typeC) [clsA] (virt 0 1) None = NullReference.
Proof. reflexivity. Qed.

(** Not in general: with an override declared before a virtual method, the
    call of that virtual method reads behind the table... *)
Theorem C77_override_first_refuted :
  exists methods_at c b m, accepted (c :: b) /\ laid_out (c :: b) /\ no_reintroduction (c :: b) /\
    explicit_apart (c :: b) /\ loaded methods_at (c :: b) /\ In m (c_methods c) /\ introducing m /\
    most_derived (c :: b) m m /\
    virtual_call methods_at (c :: b) m (Some (c :: b)) = OutsideTable.
Proof.
  exists (table_of typeW), wB, [wA], (virt 2 2).
  split; [exact (proj2 typeW_accepted)|].
  split; [exact (laid_out_base [wC] _ typeW_laid_out)|].
  split; [exact (proj2 typeW_no_new)|].
  split; [exact (explicit_apart_base [wC] _ typeW_explicit)|].
  split; [exact (loaded_base _ [wC] _ typeW_loaded)|].
  split; [right; now left|]. split; [now left|].
  split; [|reflexivity]. apply most_derived_here; [right; now left|]. constructor. now left.
Qed.
Print Assumptions C77_override_first_refuted.

(** ...and in a class derived from it a call runs another method. *)
Theorem C77_wrong_method_refuted :
  exists methods_at c b m m1, accepted (c :: b) /\ laid_out (c :: b) /\ no_reintroduction (c :: b) /\
    explicit_apart (c :: b) /\ loaded methods_at (c :: b) /\ In m (c_methods c) /\ introducing m /\
    most_derived (c :: b) m m /\ m_sig m1 <> m_sig m /\
    virtual_call methods_at (c :: b) m (Some (c :: b)) = Calls (m_asm m1, m_idx m1).
Proof.
  exists (table_of typeW), wC, [wB; wA], (virt 3 3), (virt 2 2).
  split; [exact typeW_accepted|]. split; [exact typeW_laid_out|].
  split; [exact typeW_no_new|]. split; [exact typeW_explicit|]. split; [exact typeW_loaded|].
  split; [now left|]. split; [now left|].
  split; [apply most_derived_here; [now left|]; constructor; now left|].
  split; [discriminate|reflexivity].
Qed.
Print Assumptions C77_wrong_method_refuted.

(** Nor with `new virtual': the override of the new method takes the slot of
    the old one. *)
Theorem C77_new_virtual_refuted :
  exists methods_at c b m r m1, accepted (c :: b) /\ laid_out (c :: b) /\ introducing_first (c :: b) /\
    loaded methods_at (c :: b) /\ In m (c_methods c) /\ introduced (c :: b) m r /\
    most_derived (c :: b) r m /\ m1 <> m /\
    virtual_call methods_at (c :: b) m (Some (c :: b)) = Calls (m_asm m1, m_idx m1).
Proof.
  exists (table_of typeN), nC, [nB; nA], (over 2 1), (virt 1 1), (virt 1 1).
  assert (IR : introduced [nC; nB; nA] (over 2 1) (virt 1 1)).
  { eapply introduced_base; [reflexivity|find_nearest|]. constructor. now left. }
  split; [exact typeN_accepted|]. split; [exact typeN_laid_out|]. split; [exact typeN_first|].
  split; [exact typeN_loaded|]. split; [now left|]. split; [exact IR|].
  split; [apply most_derived_here; [now left|exact IR]|].
  split; [discriminate|reflexivity].
Qed.
Print Assumptions C77_new_virtual_refuted.

(** Nor when a class in between implements an interface method of the same
    prototype explicitly: the call is refused as an assembly error. *)
Theorem C77_explicit_refuted :
  exists methods_at c b m r, accepted (c :: b) /\ laid_out (c :: b) /\ loaded methods_at (c :: b) /\
    no_reintroduction (c :: b) /\
    In m (c_methods c) /\ introduced (c :: b) m r /\ most_derived (c :: b) r m /\
    virtual_call methods_at (c :: b) m (Some (c :: b)) = Refused.
Proof.
  exists (table_of typeE), eC, [eB; eA], (over 2 1), (virt 0 1).
  assert (IR : introduced [eC; eB; eA] (over 2 1) (virt 0 1)).
  { eapply introduced_base; [reflexivity|find_nearest|]. constructor. now left. }
  split; [exact typeE_accepted|]. split; [exact typeE_laid_out|]. split; [exact typeE_loaded|].
  split.
  { repeat split; intros m m' M I M' I'; each_in M; each_in M';
      exfalso; destruct I as [I|[I _]]; discriminate I. }
  split; [now left|]. split; [exact IR|].
  split; [apply most_derived_here; [now left|exact IR]|reflexivity].
Qed.
Print Assumptions C77_explicit_refuted.

(** Nor for a method whose position does not fit in twenty bits. *)
Theorem C77_method_index_refuted :
  exists methods_at c m, methods_at (m_asm m) (m_idx m) = Some m /\ accepted [c] /\
    c_methods c = [m] /\ introducing m /\ (m_idx m = 2 ^ 20)%Z /\
    virtual_call methods_at [c] m (Some [c]) = Calls (m_asm m, 0%Z).
Proof.
  exists (table_of [Cls 1 [virt (2 ^ 20) 1] []]), (Cls 1 [virt (2 ^ 20) 1] []), (virt (2 ^ 20) 1).
  split; [reflexivity|]. split; [accept|]. split; [reflexivity|]. split; [now left|].
  split; reflexivity.
Qed.
Print Assumptions C77_method_index_refuted.

(** C78: a call of an interface method runs the method by which the object's
    class implements it, with virtual dispatch when that method is virtual,
    and does so after any history of look-ups in the table of the class.
    Missing from the full claim, and refuted below: overrides that the loop
    over the derived classes does not see. *)
Theorem C78_interface_call_partial : forall methods_at t i k s m' tbl h recent,
  accepted t -> no_reintroduction t -> explicit_apart t -> loaded methods_at t ->
  identities t -> itable_of t tbl -> after_searches tbl 0 h = Some recent ->
  nth_error (iface_methods i) k = Some s ->
  override_seen t i s -> interface_target t i s m' ->
  interface_call (iface_id i) k (Some (tbl, recent)) = Calls (m_asm m', m_idx m').
Proof. exact interface_call_spec. Qed.
Print Assumptions C78_interface_call_partial.

Example C78_holds_somewhere :
  accepted typeC /\ identities typeC /\ itable_of typeC [(7, [(1, 5)%Z])] /\
  override_seen typeC iI (fn 1) /\ interface_target typeC iI (fn 1) (over 5 1) /\
  interface_call 7 0 (Some ([(7, [(1, 5)%Z])], 0)) = Calls (1, 5)%Z.
Proof.
  assert (NL : forall c', In c' [clsC; clsB] -> ~ lists c' iI).
  { intros c' C' (j & J & _). each_in C'; destruct J. }
  split; [exact typeC_accepted|]. split; [exact typeC_identities|]. split; [exact typeC_table|].
  split; [|split; [|reflexivity]].
  - intros above c b host m E L N CH O D. right.
    destruct above as [|x1 above]; cbn [app] in E; injection E as <- E.
    { exfalso. apply (NL clsC); [now left|exact L]. }
    destruct above as [|x2 above]; cbn [app] in E; injection E as <- E.
    { exfalso. apply (NL clsB); [right; now left|exact L]. }
    destruct above as [|x3 above]; cbn [app] in E; [|injection E as _ E; destruct above; discriminate E].
    injection E as <- <-. inversion CH; subst.
    + match goal with Q : In m _ |- _ => each_in Q end.
      * split; [now left|]. exists clsC, [clsB]. split; [reflexivity|]. exists (over 5 1).
        split; [now left|split; reflexivity].
      * match goal with Q : candidate _ _ _ |- _ => destruct Q as [Q _]; discriminate Q end.
      * match goal with Q : candidate _ _ _ |- _ => destruct Q as [Q _]; discriminate Q end.
    + match goal with Q : chosen [] _ _ _ _ |- _ => inversion Q end.
  - apply (target_virtual typeC iI (fn 1) [clsC; clsB] clsA [] [clsA] (virt 0 1) (virt 0 1)).
    + reflexivity.
    + exists iI. split; [now left|constructor].
    + exact NL.
    + apply chosen_here; [now left|split; [reflexivity|now left]|].
      intros _ m' M' S' O'. each_in M'; discriminate O'.
    + reflexivity.
    + now left.
    + constructor. now left.
    + apply most_derived_here; [now left|].
      eapply introduced_base; [reflexivity|find_nearest|]. constructor. now left.
Qed.

(** Not in general: when a base class of the object's class overrides the
    implementing method, the overridden method runs. *)
Theorem C78_inherited_override_refuted :
  exists methods_at t i s tbl m' m1, accepted t /\ laid_out t /\ loaded methods_at t /\
    no_reintroduction t /\ explicit_apart t /\ itable_of t tbl /\
    nth_error (iface_methods i) 0 = Some s /\ interface_target t i s m' /\ m1 <> m' /\
    interface_call (iface_id i) 0 (Some (tbl, 0)) = Calls (m_asm m1, m_idx m1).
Proof.
  exists (table_of typeO), typeO, iI, (fn 1), [(7, [(1, 0)%Z])], (over 1 1), (virt 0 1).
  split; [exact typeO_accepted|]. split; [exact typeO_laid_out|]. split; [exact typeO_loaded|].
  split.
  { repeat split; intros m m' M I M' I'; each_in M; each_in M';
      exfalso; destruct I as [I|[I _]]; discriminate I. }
  split; [intros m M O; exfalso; apply O; each_in M; reflexivity|].
  split; [eexists; split; [reflexivity|apply Permutation_refl]|].
  split; [reflexivity|]. split; [|split; [discriminate|reflexivity]].
  apply (target_virtual typeO iI (fn 1) [oC; oB] oA [] [oA] (virt 0 1) (virt 0 1)).
  - reflexivity.
  - exists iI. split; [now left|constructor].
  - intros c' C' (j & J & _). each_in C'; destruct J.
  - apply chosen_here; [now left|split; [reflexivity|now left]|].
    intros _ m' M' S' O'. each_in M'; discriminate O'.
  - reflexivity.
  - now left.
  - constructor. now left.
  - apply most_derived_base.
    + intros m' M' Q. each_in M'. inversion Q; subst; discriminate.
    + apply most_derived_here; [now left|].
      eapply introduced_base; [reflexivity|find_nearest|]. constructor. now left.
Qed.
Print Assumptions C78_inherited_override_refuted.

(** Nor when the implementing method is itself an override: later overrides
    are not looked for. *)
Theorem C78_override_implements_refuted :
  exists methods_at t i s tbl m' m1, accepted t /\ laid_out t /\ loaded methods_at t /\
    no_reintroduction t /\ explicit_apart t /\ itable_of t tbl /\
    nth_error (iface_methods i) 0 = Some s /\ interface_target t i s m' /\ m1 <> m' /\
    interface_call (iface_id i) 0 (Some (tbl, 0)) = Calls (m_asm m1, m_idx m1).
Proof.
  exists (table_of typeV), typeV, iI, (fn 1), [(7, [(1, 1)%Z])], (over 2 1), (over 1 1).
  split; [exact typeV_accepted|]. split; [exact typeV_laid_out|]. split; [exact typeV_loaded|].
  split.
  { repeat split; intros m m' M I M' I'; each_in M; each_in M';
      exfalso; destruct I as [I|[I _]]; discriminate I. }
  split; [intros m M O; exfalso; apply O; each_in M; reflexivity|].
  split; [eexists; split; [reflexivity|apply Permutation_refl]|].
  split; [reflexivity|]. split; [|split; [discriminate|reflexivity]].
  assert (IB : introduced [vB; vA] (over 1 1) (virt 0 1)).
  { eapply introduced_base; [reflexivity|find_nearest|]. constructor. now left. }
  apply (target_virtual typeV iI (fn 1) [vC] vB [vA] [vB; vA] (over 1 1) (virt 0 1)).
  - reflexivity.
  - exists iI. split; [now left|constructor].
  - intros c' C' (j & J & _). each_in C'; destruct J.
  - apply chosen_here; [now left|split; [reflexivity|now left]|].
    intros _ m' M' S' O'. each_in M'; discriminate O'.
  - reflexivity.
  - right. now left.
  - exact IB.
  - apply most_derived_here; [now left|].
    eapply introduced_base; [reflexivity|find_nearest|exact IB].
Qed.
Print Assumptions C78_override_implements_refuted.

(** C79: `is', `as' and a cast agree with the declared relation between types:
    the class and its base classes, the interfaces listed by any of them and
    those they extend; and they do so after any history of look-ups.  Missing
    from the full claim, and refuted below: a test for an interface on an
    object whose classes list none. *)
Theorem C79_cast_partial : forall k t tbl h recent g,
  t <> [] -> identities t -> itable_of t tbl -> after_searches tbl 0 h = Some recent ->
  (match g with ToClass _ => True | ToInterface _ => exists i, implements t i end) ->
  cast_meaning k g t (cast k g (Some (t, tbl, recent))).
Proof. exact cast_spec. Qed.
Print Assumptions C79_cast_partial.

Example C79_holds_somewhere :
  cast CastIs (ToInterface 7) (Some (typeC, [(7, [(1, 5)%Z])], 0)) = BoolResult true /\
  cast CastIs (ToInterface 8) (Some (typeC, [(7, [(1, 5)%Z])], 0)) = BoolResult false /\
  cast CastAs (ToClass 1) (Some (typeC, [(7, [(1, 5)%Z])], 0)) = SameReference /\
  cast CastDefault (ToClass 4) (Some (typeC, [(7, [(1, 5)%Z])], 0)) = InvalidCast /\
  cast_meaning CastIs (ToInterface 7) typeC (cast CastIs (ToInterface 7) (Some (typeC, [(7, [(1, 5)%Z])], 0))).
Proof.
  repeat (split; [reflexivity|]).
  apply (C79_cast_partial CastIs typeC [(7, [(1, 5)%Z])] [(true, 8)] 0).
  - discriminate.
  - exact typeC_identities.
  - exact typeC_table.
  - reflexivity.
  - exists iI. now apply typeC_implements.
Qed.

(** A null reference belongs to no type, stays null under `as', and casts to
    anything. *)
Theorem C79_null : forall g,
  cast CastIs g None = BoolResult false /\ cast CastAs g None = NullResult /\
  cast CastDefault g None = NullResult.
Proof. intro g. repeat split. Qed.
Print Assumptions C79_null.

(** The look-ups of a program that tests freely, and calls interface methods
    only on objects that implement them, never read outside the table of a
    class with an interface. *)
Theorem C79_lookups_defined : forall t tbl h,
  identities t -> itable_of t tbl -> (exists i, implements t i) ->
  (forall checked n, In (checked, n) h ->
     checked = true \/ exists i, implements t i /\ iface_id i = n) ->
  exists recent, after_searches tbl 0 h = Some recent.
Proof. exact searches_defined. Qed.
Print Assumptions C79_lookups_defined.

Example C79_lookups_somewhere :
  after_searches [(7, [(1, 5)%Z])] 0 [(true, 8); (false, 7); (true, 9)] = Some 0.
Proof. reflexivity. Qed.

(** Not in general: testing an object whose classes list no interface for any
    interface reads outside the table. *)
Theorem C79_no_interface_refuted : forall k t n,
  t <> [] -> (forall c, In c t -> c_ifaces c = []) ->
  itable_of t [] /\ ~ belongs t (ToInterface n) /\
  cast k (ToInterface n) (Some (t, [], 0)) = CastReadsOutside.
Proof.
  intros k t n NE H. split; [|split].
  - exists []. split; [|apply Permutation_refl]. clear NE.
    assert (G : forall above, build_ifaces above t [] = Some []).
    { induction t as [|c b IH]; intro above; cbn [build_ifaces]; [reflexivity|].
      rewrite IH by (intros; apply H; now right). rewrite (H c (or_introl eq_refl)). reflexivity. }
    apply G.
  - intros (i & (c & C & j & J & _) & _). rewrite (H c C) in J. destruct J.
  - reflexivity.
Qed.
Print Assumptions C79_no_interface_refuted.

Example C79_no_interface_somewhere :
  cast CastIs (ToInterface 7) (Some (typeP, [], 0)) = CastReadsOutside.
Proof. reflexivity. Qed.
