(** C130-C132: internal calls, the console and the integer functions of Math. *)
From Coq Require Import String Ascii.
From Coq Require Import List Bool ZArith Lia.
From Verif Require Import CppInt ArithModel LibModel LibSpec LibProofs LibExamples.
Import ListNotations.
Open Scope Z_scope.

(** *** C130: a call of an internal function of the library runs that function of the
    runtime and replaces its arguments on the stack by its result. *)

(** Missing: the functions in [absent], refuted below. *)
Theorem C130_stack_partial E name d args rest : look name declared = Some d ->
  ~ In name instructions -> ~ In name absent -> Forall2 (passable E) (fst d) args ->
  exists s r, call E name (rev args ++ rest) = Done s (r ++ rest) /\ List.length r = result_units (snd d).
Proof. exact (stack_kept E name d args rest). Qed.
Print Assumptions C130_stack_partial.

Example C130_stack_case : look "Array_GetLengthOfDimension" declared = Some ([LRef; LInt I32], LInt I32) /\
  ~ In "Array_GetLengthOfDimension"%string instructions /\ ~ In "Array_GetLengthOfDimension"%string absent /\
  call toy "Array_GetLengthOfDimension" [4; 1000; 3] = Done [] [1004 + 4294967296 * 77; 3].
Proof. repeat split; try reflexivity; intros H; cbn in H; intuition discriminate. Qed.

(** The functions of numbers are those of the C library, with the arguments in order. *)
Theorem C130_math E m x rest : in_range U64 x ->
  call E (math_name m) (x :: rest) = Done [] (e_math E m x :: rest).
Proof. exact (math_call E m x rest). Qed.
Print Assumptions C130_math.

Theorem C130_pow E x y rest : in_range U64 x -> in_range U64 y ->
  call E "Math_Pow" (y :: x :: rest) = Done [] (e_pow E x y :: rest).
Proof. exact (pow_call E x y rest). Qed.
Print Assumptions C130_pow.

Example C130_math_case : in_range U64 5 /\ call toy "Math_Sin" [5] = Done [] [6] /\
  call toy "Math_Pow" [2; 9] = Done [] [7].
Proof. split; [unfold in_range; cbn; lia|]. split; reflexivity. Qed.

(** The questions about arrays and types, whatever is in the bytes beside the result. *)
Theorem C130_queries E a d rest :
  (in_range I32 (e_rank E a) ->
     exists u, call E "Array_GetRank" (a :: rest) = Done [] (u :: rest) /\ wrap I32 u = e_rank E a) /\
  (in_range I32 (e_length E a) ->
     exists u, call E "Array_GetLength" (a :: rest) = Done [] (u :: rest) /\ wrap I32 u = e_length E a) /\
  (in_range I32 (e_dim E a (wrap I32 d)) ->
     exists u, call E "Array_GetLengthOfDimension" (d :: a :: rest) = Done [] (u :: rest) /\
               wrap I32 u = e_dim E a (wrap I32 d)) /\
  (in_range I32 (e_count E a) ->
     exists u, call E "Tuple_GetCount" (a :: rest) = Done [] (u :: rest) /\ wrap I32 u = e_count E a) /\
  call E "Reflection_GetType" (a :: rest) = Done [] (e_type E a :: rest).
Proof. exact (queries E a d rest). Qed.
Print Assumptions C130_queries.

Example C130_queries_case : in_range I32 (e_rank toy 1) /\ in_range I32 (e_dim toy 1 (wrap I32 2)).
Proof. unfold in_range. cbn. lia. Qed.

(** Three functions that the library declares do not exist. *)
Theorem C130_absent_refuted E name stack : In name absent ->
  In name (map fst declared) /\ call E name stack = Missing.
Proof.
  intros H. split; [|now apply absent_missing].
  cbn in H. destruct H as [<-|[<-|[<-|[]]]]; cbn; tauto.
Qed.
Print Assumptions C130_absent_refuted.

(** The name of every type is the same object, and that is not a text. *)
Theorem C130_type_name_refuted E t rest :
  call E "Reflection_GetTypeName" (t :: rest) = Done [] (e_object E :: rest).
Proof. exact (type_name E t rest). Qed.
Print Assumptions C130_type_name_refuted.

(** The element of a tuple is its type, whatever its index. *)
Theorem C130_tuple_get_refuted E t o i rest :
  call E "Tuple_Get" (i :: o :: t :: rest) = Done [] (t :: rest).
Proof. exact (tuple_element E t o i rest). Qed.
Print Assumptions C130_tuple_get_refuted.

(** *** C131: the console writes the text of a value, and ends the line if asked to. *)
Theorem C131_write_partial E v u stack : constants E -> holds E v u -> no_nul v ->
  exists s, write E (type_of v) u stack = Done s stack /\ text_of E v s.
Proof. exact (write_spec E v u stack). Qed.
Print Assumptions C131_write_partial.

(** Missing: UInt64, Boolean and null, refuted below. *)
Theorem C131_line_partial E v u stack : constants E -> holds E v u -> no_nul v -> line_ok v ->
  exists s, write_line E (type_of v) u stack = Done (s ++ [10]) stack /\ text_of E v s.
Proof. exact (line_spec E v u stack). Qed.
Print Assumptions C131_line_partial.

Theorem C131_empty_line E stack : constants E -> write_empty_line E stack = Done [10] stack.
Proof. exact (empty_line E stack). Qed.
Print Assumptions C131_empty_line.

Example C131_case : holds toy (VInt I8 (-12)) 244 /\ write toy (CInt I8) 244 [3] = Done [45; 49; 50] [3] /\
  write_line toy (CInt I32) 4294967396 [3] = Done [49; 48; 48; 10] [3] /\ decimal [49; 48; 48] 100 /\
  holds toy (VString (Some [104; 105])) 7 /\ write_line toy CString 7 [] = Done [104; 105; 10] [] /\
  constants toy /\ write_line toy CBool 1 [] = Done [84; 114; 117; 101; 13; 10] [].
Proof.
  split; [reflexivity|]. split; [reflexivity|]. split; [reflexivity|]. split.
  { apply decimal_pos; [lia | repeat constructor; unfold digit; lia | reflexivity]. }
  split; [split; [cbn; lia | reflexivity]|]. split; [reflexivity|]. split; [exact toy_constants | reflexivity].
Qed.

(** WriteLine of a UInt64 does not end the line. *)
Theorem C131_uint64_refuted E u stack :
  exists s, write_line E (CInt U64) u stack = Done s stack /\ decimal s (wrap U64 u).
Proof.
  exists (show (wrap U64 u)). split; [|apply show_wrap]. rewrite u64_line. apply int_write.
Qed.
Print Assumptions C131_uint64_refuted.

(** WriteLine of null writes nothing, not even the end of the line. *)
Theorem C131_null_refuted E stack : write_line E CString 0 stack = Done [] stack.
Proof. exact (null_line E stack). Qed.
Print Assumptions C131_null_refuted.

(** WriteLine of a Boolean ends the line with two characters. *)
Theorem C131_bool_refuted E u b stack : constants E -> wrap U8 u = b2z b ->
  exists s, write_line E CBool u stack = Done (s ++ [13; 10]) stack /\ text_of E (VBool b) s.
Proof. intros C H. eexists. split; [exact (bool_line E u b stack C H)|]. now destruct b. Qed.
Print Assumptions C131_bool_refuted.

(** A string is written up to its first NUL. *)
Theorem C131_nul_refuted : ~ (forall E v u stack, holds E v u ->
  exists s, write E (type_of v) u stack = Done s stack /\ text_of E v s).
Proof.
  intros H. destruct (H toy (VString (Some [97; 0; 98])) 8 []) as (s & W & T).
  - split; [cbn; lia | reflexivity].
  - cbn [text_of] in T. subst s. discriminate W.
Qed.
Print Assumptions C131_nul_refuted.

(** The part before the first NUL is what is written. *)
Theorem C131_cut E u s t stack : holds E (VString (Some (s ++ 0 :: t))) u -> ~ In 0 s ->
  write E CString u stack = Done s stack /\ write_line E CString u stack = Done (s ++ [10]) stack.
Proof. exact (cut_write E u s t stack). Qed.
Print Assumptions C131_cut.

Example C131_cut_case : holds toy (VString (Some ([97] ++ 0 :: [98]))) 8 /\ write toy CString 8 [3] = Done [97] [3].
Proof. split; [split; [cbn; lia | reflexivity] | reflexivity]. Qed.

(** *** C132: Max, Min, Abs and Sign. *)
Theorem C132_max t x y : in_range t x -> in_range t y -> math_max t x y = Some (Z.max x y).
Proof. exact (max_spec t x y). Qed.
Print Assumptions C132_max.

Theorem C132_min t x y : in_range t x -> in_range t y -> math_min t x y = Some (Z.min x y).
Proof. exact (min_spec t x y). Qed.
Print Assumptions C132_min.

Theorem C132_sign t x : is_signed t = true -> in_range t x -> math_sign t x = Some (Z.sgn x).
Proof. exact (sign_spec t x). Qed.
Print Assumptions C132_sign.

(** Missing: the least value of the type, refuted below. *)
Theorem C132_abs_partial t x : is_signed t = true -> in_range t x -> x <> tmin t ->
  math_abs t x = Some (Z.abs x).
Proof. exact (abs_spec t x). Qed.
Print Assumptions C132_abs_partial.

Example C132_case : math_max U64 18446744073709551615 1 = Some 18446744073709551615 /\
  math_min I8 (-128) 127 = Some (-128) /\ math_abs I16 (-32767) = Some 32767 /\ math_sign I64 (-5) = Some (-1).
Proof. repeat split. Qed.

(** The absolute value of the least Int8 or Int16 is negative, that of the least Int32
    or Int64 is not defined. *)
Theorem C132_abs_refuted : math_abs I8 (-128) = Some (-128) /\ math_abs I16 (-32768) = Some (-32768) /\
  math_abs I32 (tmin I32) = None /\ math_abs I64 (tmin I64) = None.
Proof. repeat split. Qed.
Print Assumptions C132_abs_refuted.
