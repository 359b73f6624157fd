(** C87: what is protected cannot be reached, and what is not can. *)
From Coq Require Import List Arith Bool PeanoNat Relations Lia.
Import ListNotations.
From Verif Require Import OverModel OverSpec AccessModel AccessSpec AccessProofs AccessExamples.

(** A use of a member that is let through is allowed by the language: every use
    from a type [ft], be it nested or an instance of a generic type. *)
Theorem C87_member_protected D U depth fuel ft from m h :
  well_declared D U depth -> enough U depth fuel -> In (TGeneral from) U ->
  declared D ft from -> declared D (m_host m) h ->
  check_member_here D fuel (Some ft) (d_assembly D from) m = Some true ->
  may_use D from h (m_access m).
Proof. intros W E HI H1 H2. exact (member_sound D U depth fuel W E ft m from h HI H1 H2). Qed.
Print Assumptions C87_member_protected.

Example C87_member_protected_case :
  well_declared shop shop_types shop_depth /\ enough shop_types shop_depth 20 /\
  In (TGeneral Derived) shop_types /\
  check_member_here shop 20 (Some (TGeneral Derived)) 1 (mk_member (TGeneral Base) (Some Protected)) = Some true /\
  check_member_here shop 20 (Some (TGeneral Derived)) 1 (mk_member (TGeneral Base) (Some Private)) = Some false /\
  check_member_here shop 20 (Some (TGeneral Other)) 1 (mk_member (TGeneral Base) (Some Protected)) = Some false /\
  check_member_here shop 20 (Some (TGeneral Other)) 1 (mk_member (TGeneral Base) (Some Internal)) = Some false /\
  check_member_here shop 20 (Some (TGeneral Derived)) 1 (mk_member (TGeneral Base) (Some ProtectedAndInternal)) = Some false /\
  check_member_here shop 20 (Some (TGeneral Node)) 0 (mk_member (TGeneral Base) (Some Private)) = Some true /\
  check_member_here shop 20 (Some (TGeneral Object)) 0 (mk_member (TGeneral Node) (Some Public)) = Some false.
Proof.
  split; [exact shop_declared|]. split; [exact shop_enough|]. split; [cbn; tauto|]. repeat split; reflexivity.
Qed.

(** The question is always answered, also for cyclic hierarchies. *)
Theorem C87_decided D U depth fuel ft from m h :
  well_declared D U depth -> enough U depth fuel -> In (TGeneral from) U ->
  declared D ft from -> declared D (m_host m) h ->
  check_member_here D fuel (Some ft) (d_assembly D from) m <> None.
Proof. intros W E HI H1 H2. exact (member_decided D U depth fuel W E ft m from h HI H1 H2). Qed.
Print Assumptions C87_decided.

Example C87_decided_case :
  let D := mk_decls (mk_world (fun t => match t with TGeneral 0 => [TGeneral 1] | TGeneral 1 => [TGeneral 0] | _ => [] end)
                              (fun _ => VMobject))
             (fun _ => None) (fun _ => 0) (fun _ => None) (fun _ => false) 0 in
  well_declared D [TGeneral 0; TGeneral 1; TGeneral 2] (fun _ => 0) /\
  check_member_here D 5 (Some (TGeneral 0)) 0 (mk_member (TGeneral 2) (Some Protected)) = Some false.
Proof.
  split; [|reflexivity]. split; try (intros t h E; discriminate E).
  intros t s HI HS. unfold direct_super in HS. cbn in HI.
  repeat (destruct HI as [<-|HI]; [cbn in HS; cbn; intuition|]). destruct HI.
Qed.

(** The same for naming a type. *)
Theorem C87_type_protected D U depth fuel ft from tt t :
  well_declared D U depth -> enough U depth fuel -> In (TGeneral from) U ->
  declared D ft from -> declared D tt t ->
  check_type_here D fuel (Some ft) (d_assembly D from) tt = Some true -> may_name D from t.
Proof. intros W E HI H1 H2. exact (type_sound D U depth fuel W E ft tt from t HI H1 H2). Qed.
Print Assumptions C87_type_protected.

Example C87_type_protected_case :
  check_type_here shop 20 (Some (TGeneral Derived)) 1 (TGeneral Kit) = Some true /\
  check_type_here shop 20 (Some (TGeneral Other)) 1 (TGeneral Kit) = Some false /\
  check_type_here shop 20 (Some (TGeneral Derived)) 1 (TGeneral Part) = Some false /\
  check_type_here shop 20 (Some (TGeneral Object)) 0 (TGeneral Part) = Some true /\
  check_type_here shop 20 (Some (TGeneral Base)) 0 (TGeneral Node) = Some true.
Proof. repeat split; reflexivity. Qed.

(** Every use the language allows is let through, from types that are not
    nested and whose super types are no instances of generic types. *)
Theorem C87_allowed_use_partial D U depth fuel ft from m h :
  well_declared D U depth -> enough U depth fuel -> In (TGeneral from) U ->
  declared D ft from -> declared D (m_host m) h ->
  d_host D from = None -> plain_supers D from ->
  may_use D from h (m_access m) ->
  check_member_here D fuel (Some ft) (d_assembly D from) m = Some true.
Proof. intros W E HI H1 H2. exact (member_complete D U depth fuel W E ft m from h HI H1 H2). Qed.
Print Assumptions C87_allowed_use_partial.

Example C87_allowed_use_case :
  d_host shop Derived = None /\ plain_supers shop Derived /\
  may_use shop Derived Base (Some Protected) /\ ~ may_use shop Derived Base (Some Private).
Proof.
  split; [reflexivity|]. split; [exact shop_plain_derived|]. split.
  - split; [apply name_top; [reflexivity|left; left; reflexivity]|].
    exists Protected. split; [left; reflexivity|]. exists Derived. split; [constructor|].
    right. exists (TGeneral Base). split; [exact derived_base|left; reflexivity].
  - intros (_ & av & [A|[A _]] & V); [|discriminate A]. injection A as <-. cbn in V.
    inversion V; subst. discriminate H.
Qed.

(** So for naming types. *)
Theorem C87_allowed_name_partial D U depth fuel ft from tt t :
  well_declared D U depth -> enough U depth fuel -> In (TGeneral from) U ->
  declared D ft from -> declared D tt t ->
  d_host D from = None -> plain_supers D from ->
  may_name D from t ->
  check_type_here D fuel (Some ft) (d_assembly D from) tt = Some true.
Proof. intros W E HI H1 H2. exact (type_complete D U depth fuel W E ft tt from t HI H1 H2). Qed.
Print Assumptions C87_allowed_name_partial.

Example C87_allowed_name_case : may_name shop Derived Kit.
Proof.
  eapply name_nested; [reflexivity|apply name_top; [reflexivity|left; left; reflexivity]|left; reflexivity|].
  left. exists Derived. split; [constructor|]. right. exists (TGeneral Base). split; [exact derived_base|left; reflexivity].
Qed.

(** Code inside a type, at any depth of nesting, may use all its members. *)
Theorem C87_own_members D U depth fuel ft from m h :
  well_declared D U depth -> enough U depth fuel -> In (TGeneral from) U ->
  declared D ft from -> declared D (m_host m) h -> inside D from h ->
  check_member_here D fuel (Some ft) (d_assembly D from) m = Some true.
Proof. intros W E HI H1 H2. exact (inside_allowed D U depth fuel W E ft m from h HI H1 H2). Qed.
Print Assumptions C87_own_members.

Example C87_own_members_case : inside shop Node Base /\ In (TGeneral Node) shop_types.
Proof. split; [eapply inside_host; [reflexivity|constructor]|cbn; tauto]. Qed.

(** Public, internal and private members of public and internal types are let
    through exactly as the language says, from anywhere. *)
Theorem C87_open_types D U depth fuel ft from m h :
  well_declared D U depth -> enough U depth fuel -> In (TGeneral from) U ->
  declared D ft from -> declared D (m_host m) h -> open_type D h ->
  (member_access D h (m_access m) Public \/ member_access D h (m_access m) Internal \/
   member_access D h (m_access m) Private) ->
  (check_member_here D fuel (Some ft) (d_assembly D from) m = Some true <->
   may_use D from h (m_access m)).
Proof.
  intros W E HI H1 H2 HO HM. split.
  - exact (member_sound D U depth fuel W E ft m from h HI H1 H2).
  - exact (open_member_complete D U depth fuel W E ft m from h HI H1 H2 HO HM).
Qed.
Print Assumptions C87_open_types.

Example C87_open_types_case :
  open_type shop Head /\
  check_member_here shop 20 (Some (TGeneral Inner)) 1 (mk_member (TGeneral Head) (Some Internal)) = Some true /\
  check_member_here shop 20 (Some (TGeneral Inner)) 1 (mk_member (TGeneral Head) None) = Some false.
Proof.
  split; [|split; reflexivity].
  eapply open_nested; [reflexivity|left; reflexivity|left; reflexivity|apply open_top; reflexivity].
Qed.

(** A private nested type cannot name itself. *)
Theorem C87_private_type_names_itself_refuted :
  ~ (forall D U depth fuel from t,
       well_declared D U depth -> enough U depth fuel -> In (TGeneral from) U ->
       may_name D from t ->
       check_type_here D fuel (Some (TGeneral from)) (d_assembly D from) (TGeneral t) = Some true).
Proof.
  intros H. specialize (H shop shop_types shop_depth 20 Node Node shop_declared shop_enough).
  cut (check_type_here shop 20 (Some (TGeneral Node)) (d_assembly shop Node) (TGeneral Node) = Some true);
    [discriminate|].
  apply H; [cbn; tauto|]. eapply name_nested; [reflexivity|apply name_top; [reflexivity|right; reflexivity]|left; reflexivity|].
  eapply inside_host; [reflexivity|constructor].
Qed.
Print Assumptions C87_private_type_names_itself_refuted.

(** Two private types nested in one type cannot use each other's public members. *)
Theorem C87_private_neighbours_refuted :
  ~ (forall D U depth fuel from m h,
       well_declared D U depth -> enough U depth fuel -> In (TGeneral from) U ->
       declared D (m_host m) h -> may_use D from h (m_access m) ->
       check_member_here D fuel (Some (TGeneral from)) (d_assembly D from) m = Some true).
Proof.
  intros H. specialize (H shop shop_types shop_depth 20 Peer (mk_member (TGeneral Node) (Some Public)) Node
    shop_declared shop_enough).
  cut (check_member_here shop 20 (Some (TGeneral Peer)) (d_assembly shop Peer)
         (mk_member (TGeneral Node) (Some Public)) = Some true); [discriminate|].
  apply H; [cbn; tauto|left; reflexivity|]. split.
  - eapply name_nested; [reflexivity|apply name_top; [reflexivity|right; reflexivity]|left; reflexivity|].
    eapply inside_host; [reflexivity|constructor].
  - exists Public. split; [left; reflexivity|exact I].
Qed.
Print Assumptions C87_private_neighbours_refuted.

(** A type nested in a derived class cannot use what the derived class inherits,
    and a class derived from a generic type cannot use its protected members. *)
Theorem C87_protected_members_refuted :
  ~ (forall D U depth fuel from m h,
       well_declared D U depth -> enough U depth fuel -> In (TGeneral from) U ->
       declared D (m_host m) h -> may_use D from h (m_access m) -> open_type D h -> plain_supers D from ->
       check_member_here D fuel (Some (TGeneral from)) (d_assembly D from) m = Some true) /\
  ~ (forall D U depth fuel from m h,
       well_declared D U depth -> enough U depth fuel -> In (TGeneral from) U ->
       declared D (m_host m) h -> may_use D from h (m_access m) -> open_type D h -> d_host D from = None ->
       check_member_here D fuel (Some (TGeneral from)) (d_assembly D from) m = Some true).
Proof.
  split; intros H.
  - specialize (H shop shop_types shop_depth 20 Inner (mk_member (TGeneral Base) (Some Protected)) Base
      shop_declared shop_enough).
    cut (check_member_here shop 20 (Some (TGeneral Inner)) (d_assembly shop Inner)
           (mk_member (TGeneral Base) (Some Protected)) = Some true); [discriminate|].
    apply H; [cbn; tauto|left; reflexivity| |apply open_top; reflexivity|].
    + split; [apply name_top; [reflexivity|left; left; reflexivity]|].
      exists Protected. split; [left; reflexivity|]. exists Derived.
      split; [eapply inside_host; [reflexivity|constructor]|].
      right. exists (TGeneral Base). split; [exact derived_base|left; reflexivity].
    + intros s HS. assert (HO : s = TGeneral Object).
      { unfold inherits in HS. apply clos_trans_t1n in HS. inversion HS; subst.
        - cbn in H0. destruct H0 as [H0|[]]. congruence.
        - cbn in H0. destruct H0 as [H0|[]]. subst y. inversion H1; subst; cbn in H0; destruct H0. }
      exists Object. exact HO.
  - specialize (H shop shop_types shop_depth 20 IntBox (mk_member (TGeneral Box) (Some Protected)) Box
      shop_declared shop_enough).
    cut (check_member_here shop 20 (Some (TGeneral IntBox)) (d_assembly shop IntBox)
           (mk_member (TGeneral Box) (Some Protected)) = Some true); [discriminate|].
    apply H; [cbn; tauto|left; reflexivity| |apply open_top; reflexivity|reflexivity].
    split; [apply name_top; [reflexivity|left; left; reflexivity]|].
    exists Protected. split; [left; reflexivity|]. exists IntBox. split; [constructor|].
    right. exists (TGeneric Box [TGeneral Object]). split; [exact intbox_box|right; left; eexists; reflexivity].
Qed.
Print Assumptions C87_protected_members_refuted.

(** Outside any type a type is named only as the language allows. *)
Theorem C87_outside_types D U depth fuel asm tt t :
  well_declared D U depth -> enough U depth fuel -> declared D tt t ->
  check_type_here D fuel None asm tt = Some true -> may_name_outside D asm t.
Proof. intros W E. exact (outside_type_sound D U depth fuel W E asm tt t). Qed.
Print Assumptions C87_outside_types.

Example C87_outside_types_case :
  check_type_here shop 20 None 0 (TGeneral Part) = Some true /\
  check_type_here shop 20 None 1 (TGeneral Part) = Some false /\
  check_type_here shop 20 None 1 (TGeneral Head) = Some true /\
  check_type_here shop 20 None 0 (TGeneral Node) = Some false.
Proof. repeat split; reflexivity. Qed.

(** But a private member of the same assembly is let through there. *)
Theorem C87_outside_members_refuted :
  ~ (forall D U depth fuel asm m h,
       well_declared D U depth -> enough U depth fuel -> declared D (m_host m) h ->
       check_member_here D fuel None asm m = Some true -> may_use_outside D asm h (m_access m)).
Proof.
  intros H. specialize (H shop shop_types shop_depth 20 0 (mk_member (TGeneral Base) (Some Private)) Base
    shop_declared shop_enough (or_introl eq_refl) eq_refl).
  destruct H as (_ & av & [A|[A _]] & V); [|discriminate A]. injection A as <-.
  destruct V as [V|[[V|V] _]]; discriminate V.
Qed.
Print Assumptions C87_outside_members_refuted.

(** From another assembly the answer outside any type is exact, for types and members. *)
Theorem C87_other_assembly D U depth fuel asm :
  well_declared D U depth -> enough U depth fuel ->
  (forall tt t, declared D tt t -> asm <> d_assembly D t ->
     (check_type_here D fuel None asm tt = Some true <-> may_name_outside D asm t)) /\
  (forall m h, declared D (m_host m) h -> asm <> d_assembly D h ->
     (check_member_here D fuel None asm m = Some true <-> may_use_outside D asm h (m_access m))).
Proof.
  intros W E. split.
  - exact (cross_type D U depth fuel W E asm).
  - exact (cross_member D U depth fuel W E asm).
Qed.
Print Assumptions C87_other_assembly.

Example C87_other_assembly_case :
  check_member_here shop 20 None 0 (mk_member (TGeneral Head) (Some Public)) = Some true /\
  check_member_here shop 20 None 0 (mk_member (TGeneral Head) (Some Internal)) = Some false /\
  check_member_here shop 20 None 0 (mk_member (TGeneral Other) (Some Public)) = Some false.
Proof. repeat split; reflexivity. Qed.

(** What the language allows outside any type is accepted, for types that are
    public or internal together with the types around them. *)
Theorem C87_outside_allowed_partial D U depth fuel asm :
  well_declared D U depth -> enough U depth fuel ->
  (forall tt t, declared D tt t -> open_type D t -> may_name_outside D asm t ->
     check_type_here D fuel None asm tt = Some true) /\
  (forall m h, declared D (m_host m) h -> open_type D h -> may_use_outside D asm h (m_access m) ->
     check_member_here D fuel None asm m = Some true).
Proof.
  intros W E. split.
  - exact (open_type_outside D U depth fuel W E asm).
  - exact (open_member_outside D U depth fuel W E asm).
Qed.
Print Assumptions C87_outside_allowed_partial.

Example C87_outside_allowed_case : open_type shop Part /\ may_use_outside shop 0 Part (Some ProtectedOrInternal).
Proof.
  split.
  - eapply open_nested; [reflexivity|left; reflexivity|right; reflexivity|apply open_top; reflexivity].
  - split.
    + eapply outside_nested; [reflexivity|apply outside_top; [reflexivity|right; reflexivity]|left; reflexivity|].
      right. split; [left; reflexivity|reflexivity].
    + exists ProtectedOrInternal. split; [left; reflexivity|]. right. split; [right; reflexivity|reflexivity].
Qed.

(** A nested type that is protected or internal is refused in its own assembly. *)
Theorem C87_outside_types_refuted :
  ~ (forall D U depth fuel asm t,
       well_declared D U depth -> enough U depth fuel -> may_name_outside D asm t ->
       check_type_here D fuel None asm (TGeneral t) = Some true).
Proof.
  intros H. specialize (H shop shop_types shop_depth 20 0 Kit shop_declared shop_enough).
  cut (check_type_here shop 20 None 0 (TGeneral Kit) = Some true); [discriminate|].
  apply H. eapply outside_nested; [reflexivity|apply outside_top; [reflexivity|right; reflexivity]|left; reflexivity|].
  right. split; [right; reflexivity|reflexivity].
Qed.
Print Assumptions C87_outside_types_refuted.
