(** C136: the method with which a program starts. *)
From Coq Require Import List Bool Arith ZArith Lia.
From Verif Require Import ModiModel EntryModel EntrySpec EntryProofs EntryExamples.
Import ListNotations.
Open Scope nat_scope.

(** C136.  A program that is compiled without complaint starts with the one method
    that is marked, which is static, not generic, without parameters, result and
    modifiers that make no sense; without a mark it is not executable.  Missing: that
    the method is public, refuted below. *)
Theorem C136_start_partial l : log (commit_all l) = [] ->
  (execute (commit_all l) = NoEntryPoint /\ executable (commit_all l) = false /\ (forall m, ~ marked EntryPoint l m)) \/
  (exists m, execute (commit_all l) = Starts (e_id m) /\ executable (commit_all l) = true /\ marked EntryPoint l m /\
     start_shape m /\ (is_public m \/ odd_access m) /\ forall m', marked EntryPoint l m' -> m' = m).
Proof. exact (runs_marked l). Qed.
Print Assumptions C136_start_partial.

(** Exactly these programs are compiled without complaint about their attributes. *)
Theorem C136_accepted l : log (commit_all l) = [] <->
  (forall m, marked EntryPoint l m -> start_shape m /\ (is_public m \/ odd_access m)) /\
  (forall m, marked InternalMethod l m -> internal_shape m) /\ length (entries l) <= 1.
Proof. exact (accepted l). Qed.
Print Assumptions C136_accepted.

Example C136_case : log (commit_all program1) = [] /\ execute (commit_all program1) = Starts 1 /\
  start_shape (main_of 1 Public 0) /\ is_public (main_of 1 Public 0) /\ internal_shape native /\
  log (commit_all [(EntryPoint, bad)]) = [(6, NoReturnType); (6, NotGeneric); (6, NoParams); (6, PublicStatic); (6, NotAllowed [Virtual; New])].
Proof. repeat split; discriminate. Qed.

(** With or without complaints, the first mark counts. *)
Theorem C136_first l : entry (commit_all l) = option_map e_id (hd_error (entries l)).
Proof. exact (entry_first l). Qed.
Print Assumptions C136_first.

(** Every further mark is reported as a duplicate. *)
Theorem C136_duplicates l i : In (i, Duplicated) (log (commit_all l)) <-> In i (map e_id (tl (entries l))).
Proof. exact (duplicates l i). Qed.
Print Assumptions C136_duplicates.

Example C136_duplicates_case :
  log (commit_all [(EntryPoint, main_of 1 Public 0); (EntryPoint, main_of 2 Public 0)]) = [(2, Duplicated)].
Proof. reflexivity. Qed.

(** Each mistake gets its own message, and no other message appears. *)
Theorem C136_messages m e : In e (validate m) <->
  (e_ret m = OtherRet /\ e = NoReturnType) \/
  (0 < e_generics m /\ e = NotGeneric) \/
  (0 < e_params m /\ e = NoParams) \/
  (~ (d_static (decorate_of m) = true /\ (is_public m \/ odd_access m)) /\ e = PublicStatic) \/
  (not_allowed (decorate_of m) <> [] /\ e = NotAllowed (not_allowed (decorate_of m))).
Proof. exact (validate_in m e). Qed.
Print Assumptions C136_messages.

(** A method without any modifiers is no entry point. *)
Theorem C136_without_modifiers m : e_dec m = None -> In PublicStatic (validate m).
Proof. exact (without_modifiers m). Qed.
Print Assumptions C136_without_modifiers.

Example C136_without_case : log (commit_all [(EntryPoint, mk_emethod 3 Void 0 0 None 0)]) = [(3, PublicStatic)].
Proof. reflexivity. Qed.

(** The modifiers that are named are those that are there. *)
Theorem C136_modifiers d k : In k (not_allowed d) <-> has_keyword d k = true.
Proof. exact (not_allowed_in d k). Qed.
Print Assumptions C136_modifiers.

(** Always inlined are the methods that are marked so. *)
Theorem C136_inline l i : In i (inlined (commit_all l)) <-> exists m, marked Inline l m /\ e_id m = i.
Proof. exact (inline_marked l i). Qed.
Print Assumptions C136_inline.

(** A private method, and a protected internal one, are accepted as entry points. *)
Theorem C136_public_refuted :
  (log (commit_all [(EntryPoint, main_of 1 Private 0)]) = [] /\
   execute (commit_all [(EntryPoint, main_of 1 Private 0)]) = Starts 1 /\ ~ is_public (main_of 1 Private 0)) /\
  (log (commit_all [(EntryPoint, main_of 1 ProtectedOrInternal 0)]) = [] /\
   ~ is_public (main_of 1 ProtectedOrInternal 0)) /\
  log (commit_all [(EntryPoint, main_of 1 Internal 0)]) = [(1, PublicStatic)].
Proof. repeat split; discriminate. Qed.
Print Assumptions C136_public_refuted.

(** A method of a generic type is accepted, although there is no type to run it in. *)
Theorem C136_generic_type_refuted n : log (commit_all [(EntryPoint, main_of 1 Public n)]) = [] /\
  e_host_generics (main_of 1 Public n) = n /\ execute (commit_all [(EntryPoint, main_of 1 Public n)]) = Starts 1.
Proof. repeat split. Qed.
Print Assumptions C136_generic_type_refuted.
