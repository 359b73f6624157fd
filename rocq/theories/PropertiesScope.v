(** C88, C89, C90: what a name stands for, and where the locals of a method are. *)
From Coq Require Import List ZArith Bool Arith Lia.
Import ListNotations.
From Verif Require Import ScopeModel ScopeSpec LayoutModel.
From Verif Require Import ScopeProofs ScopeIndexProofs ScopeTableProofs ScopeWrapProofs ScopeExamples.
Open Scope nat_scope.

(** Every name in a method stands for what the innermost scope that declares it
    declares: the locals of the blocks around the use, the locals and parameters
    of the method, the members of the type, those of the type around it and so
    on; else for a type; else it is undefined. *)
Theorem C88_scoping types_named types params b :
  are_members types -> well_named types params b ->
  exists us, analyse types_named types params b = Analysed [] us /\
    Forall2 (fun use m => meaning types_named (snd use) (fst use) m)
      (uses (method_scope params b :: type_scopes 0 types) 0 b) us.
Proof. exact (names_resolved types_named types params b). Qed.
Print Assumptions C88_scoping.

Example C88_scoping_case :
  are_members around /\ well_named around [Named 2] method /\
  analyse is_seven around [Named 2] method = Analysed []
    [Found VField (DMember 0 0); Found VLocal (DLocal 0); Found VParam (DParam 0);
     Found VLocal (DLocal 1); Found VProperty (DMember 1 1); Found VLocal (DLocal 2);
     Found VLocal (DLocal 4); TypeName; Undefined; Found VMethod (DMember 0 1)].
Proof. split; [exact around_members|]. split; [exact method_named|]. vm_compute. repeat split. Qed.

(** A method is reported exactly if a scope declares a name twice; methods of one
    type may share a name. *)
Theorem C88_duplicates_reported types_named types params b :
  are_members types ->
  match analyse types_named types params b with
  | Crashed reports => reports <> [] /\ ~ well_named types params b
  | Analysed reports _ => reports = [] <-> well_named types params b
  end.
Proof. exact (duplicates_reported types_named types params b). Qed.
Print Assumptions C88_duplicates_reported.

Example C88_duplicates_reported_case :
  analyse is_seven around [Named 3] (Use (Named 3) (Declare (Named 3) End)) =
    Analysed [Named 3] [Found VLocal (DLocal 0)] /\
  analyse is_seven ([(VField, Named 0); (VMethod, Named 0)] :: around) [Named 2] End = Analysed [Named 0] [] /\
  analyse is_seven around [Named 2]
    (Declare (Named 3) (Nested (Block (Declare (Named 3) End) End) End)) = Analysed [] [] /\
  analyse is_seven around [Named 2]
    (Catch (Named 4) (Block (Declare (Named 4) End) End) End) = Analysed [] [] /\
  analyse is_seven around [Named 2]
    (Declare (Named 3) (Nested (Declare (Named 3) End) End)) = Crashed [Named 3].
Proof. vm_compute. repeat split. Qed.

(** A local can be used before it is declared: nothing reports it, the use reads
    the slot of the local. *)
Theorem C88_use_before_declaration_refuted :
  ~ forall types_named types params x rest reports d us,
      well_named types params (Use x rest) ->
      analyse types_named types params (Use x rest) <> Analysed reports (Found VLocal d :: us).
Proof.
  intros H. apply (H is_seven [] [] (Named 0) (Declare (Named 0) End) [] (DLocal 0) []).
  - split; [constructor|]. split; [cbn; constructor; [intros []|constructor]|exact I].
  - reflexivity.
Qed.
Print Assumptions C88_use_before_declaration_refuted.

(** A second local of a name is not only reported: the compiler reads through a
    null pointer after it. *)
Theorem C88_duplicate_local_survived_refuted :
  ~ forall types_named types params b, are_members types ->
      exists reports us, analyse types_named types params b = Analysed reports us.
Proof.
  intros H. destruct (H is_seven [] [] (Declare (Named 0) (Declare (Named 0) End))) as (r & us & E);
    [constructor|]. discriminate E.
Qed.
Print Assumptions C88_duplicate_local_survived_refuted.

(** The table of locals has a row for each local, in the order of the text, and
    its index is the number of locals in scope where it is declared; behind them
    are the temporaries. *)
Theorem C89_table types params b :
  are_members types -> well_named types params b ->
  (Z.of_nat (count b + temps_in b) < 65535)%Z ->
  exists temporaries,
    table types params b =
      combine (map DLocal (seq 0 (count b)))
              (map (fun sc => Z.of_nat (length sc)) (in_scope [] 0 b)) ++ temporaries /\
    map fst temporaries = temp_decls 0 (map fst (live [] 0 b)).
Proof. exact (table_rows types params b). Qed.
Print Assumptions C89_table.

Example C89_table_case :
  are_members around /\ well_named around [Named 2] method /\
  count method = 5 /\ temps_in method = 4 /\
  table around [Named 2] method =
    [(DLocal 0, 0); (DLocal 1, 1); (DLocal 2, 1); (DLocal 3, 2); (DLocal 4, 1);
     (DTemp 0 0, 2); (DTemp 0 1, 3); (DTemp 1 0, 3); (DTemp 2 0, 1)]%Z.
Proof. split; [exact around_members|]. split; [exact method_named|]. vm_compute. repeat split. Qed.

(** A local never has the index of one that is in scope where it is declared. *)
Theorem C89_indices_apart types params b j sc i a c :
  are_members types -> well_named types params b ->
  (Z.of_nat (count b + temps_in b) < 65535)%Z ->
  nth_error (in_scope [] 0 b) j = Some sc -> In i sc ->
  In (DLocal i, a) (table types params b) -> In (DLocal j, c) (table types params b) -> a <> c.
Proof. intros H1 H2 H3. exact (scope_indices_apart types params b H1 H2 H3 j sc i a c). Qed.
Print Assumptions C89_indices_apart.

Example C89_indices_apart_case :
  in_scope [] 0 method = [[]; [0]; [0]; [2; 0]; [0]] /\
  nth_error (in_scope [] 0 method) 3 = Some [2; 0] /\
  In (DLocal 2, 1%Z) (table around [Named 2] method) /\
  In (DLocal 3, 2%Z) (table around [Named 2] method).
Proof. vm_compute; repeat split; tauto. Qed.

(** These are the indices the layout of the frame works with (C35
    and after): blocks of the text are blocks of the frame. *)
Theorem C89_frame sz b :
  map d_index (number 0 (frame sz 0 b BNil)) = map (@length nat) (in_scope [] 0 b).
Proof. exact (scope_frame sz b). Qed.
Print Assumptions C89_frame.

Example C89_frame_case :
  map d_index (number 0 (frame (fun _ => (4%Z, KValue)) 0 method BNil)) = [0; 1; 1; 2; 1].
Proof. reflexivity. Qed.

(** Without the bound on their number two locals in scope can share an index: the
    first and the 65536th of a block. *)
Theorem C89_unbounded_refuted :
  ~ forall types params b j sc i a c,
      are_members types -> well_named types params b ->
      nth_error (in_scope [] 0 b) j = Some sc -> In i sc ->
      In (DLocal i, a) (table types params b) -> In (DLocal j, c) (table types params b) -> a <> c.
Proof.
  intros H. set (k := Z.to_nat 65534). assert (K : Z.of_nat k = 65534%Z) by (unfold k; lia).
  clearbody k. destruct (long_scope k) as (sc & E & HI); [lia|]. destruct (long_wraps k K) as (A & B).
  exact (H [] [] (long k) (S k) sc 0 0%Z 0%Z ltac:(constructor) (long_named k) E HI A B eq_refl).
Qed.
Print Assumptions C89_unbounded_refuted.

(** The temporaries of an expression are apart from each other and from all
    locals declared before it in the blocks around it. *)
Theorem C90_temporaries_apart_partial types params b e k sc pos :
  are_members types -> well_named types params b -> tidy InGroup b ->
  (Z.of_nat (count b + temps_in b) < 65535)%Z ->
  nth_error (live [] 0 b) e = Some (k, sc) -> pos < k ->
  exists idx, In (DTemp e pos, idx) (table types params b) /\
    (forall i a, In i sc -> In (DLocal i, a) (table types params b) -> a <> idx) /\
    (forall pos' a, In (DTemp e pos', a) (table types params b) -> (a = idx <-> pos' = pos)).
Proof.
  intros H1 H2 H3 H4 H5. exact (temporaries_apart types params b H1 H2 H4 H3 e k sc H5 pos).
Qed.
Print Assumptions C90_temporaries_apart_partial.

Example C90_temporaries_apart_case :
  are_members around /\ well_named around [Named 2] method /\ tidy InGroup method /\
  live [] 0 method = [(2, [1; 0]); (1, [3; 2; 0]); (1, [0])] /\
  In (DTemp 0 1, 3%Z) (table around [Named 2] method) /\
  In (DTemp 1 0, 3%Z) (table around [Named 2] method).
Proof.
  split; [exact around_members|]. split; [exact method_named|]. split; [exact method_tidy|].
  vm_compute; repeat split; tauto.
Qed.

(** Not for all methods: after a block that is a statement of its own, the
    temporaries of what follows are put over the locals of the method. *)
Theorem C90_bare_block_refuted :
  ~ forall types params b e k sc pos,
      are_members types -> well_named types params b ->
      (Z.of_nat (count b + temps_in b) < 65535)%Z ->
      nth_error (live [] 0 b) e = Some (k, sc) -> pos < k ->
      exists idx, In (DTemp e pos, idx) (table types params b) /\
        (forall i a, In i sc -> In (DLocal i, a) (table types params b) -> a <> idx).
Proof.
  intros H.
  set (b := Block (Declare (Named 0) End)
              (Declare (Named 1) (Declare (Named 2) (Declare (Named 3) (Temps 1 End))))).
  assert (T : table [] [] b = [(DLocal 0, 0); (DLocal 1, 0); (DLocal 2, 1); (DLocal 3, 2); (DTemp 0 0, 1)]%Z)
    by (vm_compute; reflexivity).
  destruct (H [] [] b 0 1 [3; 2; 1] 0) as (idx & HI & HL); try reflexivity; try (constructor; fail).
  - split; [constructor|]. split; [cbn; apart|cbn; repeat split; apart].
  - rewrite T in HI, HL. cbn in HI. repeat (destruct HI as [HI|HI]; [try discriminate HI; injection HI as <-|]); [|destruct HI].
    refine (HL 2 1%Z _ _ eq_refl); cbn; tauto.
Qed.
Print Assumptions C90_bare_block_refuted.

(** Nor if the body of a for is a single statement: its temporaries are put over
    the variable of the for. *)
Theorem C90_for_without_block_refuted :
  ~ forall types params inner e k sc pos,
      are_members types -> well_named types params (For inner End) -> tidy InGroup inner ->
      (Z.of_nat (count (For inner End) + temps_in (For inner End)) < 65535)%Z ->
      nth_error (live [] 0 (For inner End)) e = Some (k, sc) -> pos < k ->
      exists idx, In (DTemp e pos, idx) (table types params (For inner End)) /\
        (forall i a, In i sc -> In (DLocal i, a) (table types params (For inner End)) -> a <> idx).
Proof.
  intros H.
  assert (T : table [] [] (For (Declare (Named 0) (Temps 1 End)) End) = [(DLocal 0, 0); (DTemp 0 0, 0)]%Z)
    by (vm_compute; reflexivity).
  destruct (H [] [] (Declare (Named 0) (Temps 1 End)) 0 1 [0] 0) as (idx & HI & HL);
    try reflexivity; try (constructor; fail).
  - split; [constructor|]. split; [cbn; apart|cbn; repeat split; apart].
  - cbn. split; [discriminate|reflexivity].
  - rewrite T in HI, HL. cbn in HI. repeat (destruct HI as [HI|HI]; [try discriminate HI; injection HI as <-|]); [|destruct HI].
    refine (HL 0 0%Z _ _ eq_refl); cbn; tauto.
Qed.
Print Assumptions C90_for_without_block_refuted.
