(* Which type a name in a program means. *)
From Coq Require Import ZArith List Bool Permutation.
From Verif Require Import TnameModel TnameSpec TnameProofs TnameExamples.
Import ListNotations.
Local Open Scope nat_scope.

(* The type a name stands for is the one the rules of scopes give: a generic
   param of the method or of a type around; else a type nested in the closest
   type around that has one with the first part of the name; else the meaning in
   the closest namespace around that has one; else from the outermost namespace
   here or in an imported assembly; else after one of the usings.  A name
   without such a meaning is reported.  Type definitions are left out. *)
Theorem C100_meaning_partial :
  forall C us t, good_context C -> us <> [] ->
    (meaning C GDefault us = Some t <-> means C us t).
Proof. exact (fun C us t G => meaning_iff C G us t). Qed.
Print Assumptions C100_meaning_partial.

Example C100_meaning_case :
  good_context full /\
  (* 10<93>.11 *)
  meaning full GDefault [Unit 10 [TMethodParam 0]; Unit 11 []] =
    Some (TInstance 1 [] (Some (TInstance 0 [TMethodParam 0] None))) /\
  (* 11 and 2.10<93> and 12 *)
  meaning full GDefault [Unit 11 []] = Some (TGeneral 1) /\
  meaning full GDefault [Unit 2 []; Unit 10 [TMethodParam 0]] = Some (TInstance 0 [TMethodParam 0] None) /\
  meaning full GDefault [Unit 12 []] = Some (TGeneral 2) /\
  (* 90 and 93 *)
  meaning full GDefault [Unit 90 []] = Some (TParam 0 0) /\
  meaning full GDefault [Unit 93 []] = Some (TMethodParam 0) /\
  (* 50.51 and 71.51 and 61<12> and 64.61<12> and 62<12> *)
  meaning full GDefault [Unit 50 []; Unit 51 []] = Some (TGeneral 3) /\
  meaning full GDefault [Unit 71 []; Unit 51 []] = Some (TGeneral 7) /\
  meaning full GDefault [Unit 61 [TGeneral 2]] = Some (TInstance 4 [TGeneral 2] None) /\
  meaning full GDefault [Unit 64 []; Unit 61 [TGeneral 2]] = Some (TInstance 6 [TGeneral 2] None) /\
  meaning full GDefault [Unit 62 [TGeneral 2]] = Some (TInstance 5 [TGeneral 2] None) /\
  (* 99 *)
  meaning full GDefault [Unit 99 []] = None.
Proof. split; [exact full_context|]. vm_compute. repeat split. Qed.

(* After global:: and after :: it is the one from the outermost namespace here
   or in an imported assembly, unless it is a generic param. *)
Theorem C100_root_partial :
  forall C g us t, good_context C -> g <> GDefault -> us <> [] -> c_document C <> None ->
    (meaning C g us = Some t <-> root_means C us t).
Proof. exact (fun C g us t G => root_iff C G g us t). Qed.
Print Assumptions C100_root_partial.

Example C100_root_case :
  good_context full /\ c_document full <> None /\
  meaning full GGlobal [Unit 50 []; Unit 51 []] = Some (TGeneral 3) /\
  meaning full GRoot [Unit 1 []; Unit 12 []] = Some (TGeneral 2) /\
  meaning full GRoot [Unit 12 []] = None.
Proof. split; [exact full_context|]. split; [discriminate|]. vm_compute. repeat split. Qed.

(* It is false that a name after global:: is never a generic param. *)
Theorem C100_root_param_refuted :
  ~ forall C g us t, good_context C -> g <> GDefault ->
      meaning C g us = Some t -> ~ is_param t.
Proof.
  intros H. apply (H full GRoot [Unit 90 []] (TParam 0 0) full_context);
    [discriminate|reflexivity|exact Logic.I].
Qed.
Print Assumptions C100_root_param_refuted.

(* What a name means that is known without any other assembly does not change
   with other assemblies, imports and usings. *)
Theorem C101_own_first :
  forall C C' us t, good_context C -> good_context C' -> extends C C' -> us <> [] ->
    meaning C GDefault us = Some t -> meaning C' GDefault us = Some t.
Proof. exact (fun C C' us t G G' X => extends_keeps C C' G G' X us t). Qed.
Print Assumptions C101_own_first.

Example C101_own_first_case :
  good_context alone /\ good_context full /\ extends alone full /\
  meaning alone GDefault [Unit 10 [TMethodParam 0]; Unit 11 []] =
    Some (TInstance 1 [] (Some (TInstance 0 [TMethodParam 0] None))) /\
  meaning alone GDefault [Unit 50 []; Unit 51 []] = None.
Proof.
  split; [exact alone_context|]. split; [exact full_context|]. split; [exact alone_full|].
  vm_compute. repeat split.
Qed.

(* It is false that the order of the usings does not matter: a name that two of
   them give is not reported, the first one is taken. *)
Theorem C101_order_refuted :
  ~ forall D a m ty ns ms ss ss' us,
      good_context (Context D a m ty ns (Some (ms, ss))) -> Permutation ss ss' ->
      meaning (Context D a m ty ns (Some (ms, ss))) GDefault us =
      meaning (Context D a m ty ns (Some (ms, ss'))) GDefault us.
Proof.
  intros H.
  specialize (H (own_decls ++ other_decls) 0 None None [] (fst docs)
    [Using None [50; 60]%Z; Using None [50; 63]%Z] [Using None [50; 63]%Z; Using None [50; 60]%Z]
    [Unit 61 [TGeneral 2]]
    (outside_good _ _ _ _ _ full_good) (perm_swap _ _ _)).
  discriminate H.
Qed.
Print Assumptions C101_order_refuted.

(* It is false that the name a keyword stands for (global::System.Int32 for int)
   always means the type of the imported assembly: here 50.51. *)
Theorem C101_keyword_refuted :
  ~ forall C m ms ss x a i d,
      good_context C -> c_document C = Some (m :: ms, ss) ->
      i_alias m = None -> i_name m = [x] -> i_asm m = Some a ->
      nth_error (c_decls C) i = Some d -> d_host d = None -> d_space d = [] ->
      d_asm d = a -> d_params d = [] ->
      meaning C GGlobal [Unit x []; Unit (d_name d) []] = Some (TGeneral i).
Proof.
  intros H.
  specialize (H taken _ _ _ 50%Z 1 3 _ taken_good eq_refl eq_refl eq_refl eq_refl eq_refl
    eq_refl eq_refl eq_refl eq_refl).
  discriminate H.
Qed.
Print Assumptions C101_keyword_refuted.
