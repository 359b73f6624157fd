(** C109-C111: the values of constant fields. *)
From Coq Require Import ZArith List Bool Lia.
From Coq Require Import Relations.Relation_Operators.
From Verif Require Import CppInt ArithModel ExprModel KonstModel KonstSpec KonstProofs KonstExamples.
Import ListNotations.
Local Open Scope Z_scope.

(** *** C109 *)

(** If the compiler reports nothing, then each constant has the value it means: a field of an
    enum that of its initialiser, or one more than the field before, or 0; a const field that of
    its initialiser, or the default of its type.  Missing: programs in which a constant is needed
    that is not settled earlier and not of just its type (see the refutations). *)
Theorem C109_values_partial P n s :
  source P -> orderly P -> no_negative_ulong P ->
  compile_constants P n = Finished s [] ->
  forall f, In f (in_order P) -> pconst P f = true ->
  exists v, s f = Some (KNum v) /\ means P f v.
Proof. exact (fun A B C => compile_values P A B C n s). Qed.
Print Assumptions C109_values_partial.

Example C109_values_case :
  source colors /\ orderly colors /\ no_negative_ulong colors /\
  exists s, compile_constants colors 9 = Finished s [] /\
    map s [0; 1; 2; 3; 4; 5; 6; 8]%nat =
      map (fun v => Some (KNum v))
        [(Vi I32, 0); (Vi I32, 5); (Vi I32, 6); (Vi U8, 1); (Vi U8, 2); (Vi U8, 3); (Vi I32, 9); (Vi I32, 3)].
Proof.
  split; [exact colors_source|]. split; [exact colors_orderly|]. split; [exact colors_small|].
  eexists. split; [vm_compute; reflexivity | reflexivity].
Qed.

(** A constant has one value at most. *)
Theorem C109_unique P f v w : source P -> means P f v -> means P f w -> v = w.
Proof. exact (fun A M N => proj1 (meanings_unique P A) f v M w N). Qed.
Print Assumptions C109_unique.

Example C109_unique_case : source forward /\ means forward 0%nat (Vi I32, 6).
Proof. split; [exact forward_source | exact forward_means]. Qed.

(** A constant that is needed before its enum is complete is taken as 0: [enum {A = C, B = 5, C}]. *)
Theorem C109_forward_refuted : exists P n s f v w,
  source P /\ no_negative_ulong P /\ compile_constants P n = Finished s [] /\
  In f (in_order P) /\ pconst P f = true /\
  s f = Some (KNum v) /\ means P f w /\ v <> w.
Proof.
  exists forward, 9%nat. eexists. exists 0%nat, (Vi I32, 0), (Vi I32, 6).
  split; [exact forward_source|]. split; [exact forward_small|]. split; [reflexivity|].
  split; [left; reflexivity|]. split; [reflexivity|]. split; [reflexivity|].
  split; [exact forward_means | discriminate].
Qed.
Print Assumptions C109_forward_refuted.

(** A constant that is needed before its enum is walked has the type of its initialiser, so that
    the value depends on the order of the types: [~E.A] with [enum E : uint {A = 5}] is -6. *)
Theorem C109_order_refuted : exists P n s f v w,
  source P /\ no_negative_ulong P /\ compile_constants P n = Finished s [] /\
  In f (in_order P) /\ pconst P f = true /\
  s f = Some (KNum v) /\ means P f w /\ snd v = -6 /\ snd w = 4294967290.
Proof.
  exists complement, 9%nat. eexists. exists 0%nat, (Vi I64, -6), (Vi I64, 4294967290).
  split; [apply sourceb_source; reflexivity|]. split; [exact complement_small|]. split; [reflexivity|].
  split; [left; reflexivity|]. split; [reflexivity|]. split; [reflexivity|].
  split; [exact complement_means | split; reflexivity].
Qed.
Print Assumptions C109_order_refuted.

(** A negative number for a field of a ulong enum is not refused. *)
Theorem C109_negative_refuted : exists P n s f,
  source P /\ compile_constants P n = Finished s [] /\ In f (in_order P) /\ pconst P f = true /\
  s f = Some (KNum (Vi U64, 18446744073709551615)) /\ forall v, ~ means P f v.
Proof.
  exists negative, 9%nat. eexists. exists 0%nat.
  split; [apply sourceb_source; reflexivity|]. split; [reflexivity|]. split; [left; reflexivity|].
  split; [reflexivity|]. split; [reflexivity | exact negative_means].
Qed.
Print Assumptions C109_negative_refuted.

(** A const field is given a number its type does not have: [const byte b = 300]. *)
Theorem C109_narrow_refuted : exists P n s f,
  source P /\ compile_constants P n = Finished s [] /\ In f (in_order P) /\ pconst P f = true /\
  pvt P f = Vi U8 /\ s f = Some (KNum (Vi I32, 300)) /\ forall v, ~ means P f v.
Proof.
  exists narrow, 9%nat. eexists. exists 0%nat.
  split; [apply sourceb_source; reflexivity|]. split; [reflexivity|]. split; [left; reflexivity|].
  split; [reflexivity|]. split; [reflexivity|]. split; [reflexivity | exact narrow_means].
Qed.
Print Assumptions C109_narrow_refuted.

(** A small ulong number for a field of an int enum is refused as too small. *)
Theorem C109_small_refuted : exists P n s f v,
  source P /\ In f (in_order P) /\ pconst P f = true /\ means P f v /\
  compile_constants P n = Finished s [(TooSmall, f)].
Proof.
  exists unsigned, 9%nat. eexists. exists 0%nat, (Vi I32, 3).
  split; [apply sourceb_source; reflexivity|]. split; [left; reflexivity|]. split; [reflexivity|].
  split; [exact unsigned_means | reflexivity].
Qed.
Print Assumptions C109_small_refuted.

(** *** C110 *)

(** The constants of a program are worked out in finitely many steps.  Missing: programs whose
    constants name fields that are no constants, or constants without initialiser of classes. *)
Theorem C110_ends_partial P : source P -> names_constants P ->
  exists n, compile_constants P n <> Running.
Proof. exact (fun A B => compile_ends P A B). Qed.
Print Assumptions C110_ends_partial.

Example C110_ends_case : source colors /\ names_constants colors /\
  compile_constants colors 9 <> Running /\
  source late /\ names_constants late /\
  compile_constants late 2 = Running /\ compile_constants late 3 <> Running.
Proof.
  split; [exact colors_source|]. split; [exact colors_constants|]. split; [vm_compute; discriminate|].
  split; [apply sourceb_source; reflexivity|]. split; [exact late_constants|].
  split; [vm_compute; reflexivity | vm_compute; discriminate].
Qed.

(** If they end with a result, then all constants have a number, whatever was reported. *)
Theorem C110_given P n s log : source P -> compile_constants P n = Finished s log ->
  forall f, In f (in_order P) -> pconst P f = true -> exists v, s f = Some (KNum v).
Proof. exact (fun A Q f => all_given P A n s log f Q). Qed.
Print Assumptions C110_given.

Example C110_given_case : source circle /\
  exists s, compile_constants circle 9 = Finished s [(Circular, 0%nat)].
Proof. split; [apply sourceb_source; reflexivity|]. eexists. vm_compute. reflexivity. Qed.

(** With a constant that is initialised by a static variable the compiler never ends. *)
Theorem C110_variable_refuted : exists P, source P /\
  (forall f g, pconst P f = true -> mentions P f g -> pconst P g = false) /\
  forall n, compile_constants P n = Running.
Proof.
  exists variable. split; [apply sourceb_source; reflexivity|]. split; [|exact variable_running].
  intros f g C (e & E & O). destruct f as [|[|[|f]]]; try discriminate C.
  cbn in E. injection E as <-. cbn in O. subst g. reflexivity.
Qed.
Print Assumptions C110_variable_refuted.

(** Nor with one that is initialised by a call and a constant that has no initialiser. *)
Theorem C110_default_refuted : exists P, source P /\
  (forall f g, mentions P f g -> pconst P g = true) /\
  forall n, compile_constants P n = Running.
Proof.
  exists default. split; [apply sourceb_source; reflexivity|]. split; [|exact default_running].
  intros f g (e & E & O). destruct f as [|[|[|f]]]; cbn in E; try discriminate E.
  injection E as <-. cbn in O. destruct O as [<-|[]]. reflexivity.
Qed.
Print Assumptions C110_default_refuted.

(** *** C111 *)

(** A constant that is defined by itself is reported: a circle is reported at a field that it
    leads to. *)
Theorem C111_reported P n s log f : source P -> compile_constants P n = Finished s log ->
  In f (in_order P) -> pconst P f = true -> clos_trans _ (depends P) f f ->
  exists g, In (Circular, g) log /\ clos_refl_trans _ (depends P) f g.
Proof. exact (fun A => circle_reported P A n s log f). Qed.
Print Assumptions C111_reported.

(** A circle is reported only at a field that leads to one. *)
Theorem C111_only P n s log f : source P -> compile_constants P n = Finished s log ->
  In (Circular, f) log ->
  exists g, clos_refl_trans _ (depends P) f g /\ clos_trans _ (depends P) g g.
Proof. exact (fun A => reported_circle P A n s log f). Qed.
Print Assumptions C111_only.

Example C111_case : source circle /\ clos_trans _ (depends circle) 0%nat 0%nat /\
  In 0%nat (in_order circle) /\ pconst circle 0%nat = true /\
  exists s, compile_constants circle 9 = Finished s [(Circular, 0%nat)].
Proof.
  split; [apply sourceb_source; reflexivity|]. split; [exact circle_circle|]. split; [left; reflexivity|].
  split; [reflexivity|]. eexists. vm_compute. reflexivity.
Qed.
