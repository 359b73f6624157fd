(** What the attributes EntryPoint, Internal and Inline do with methods, and which
    method a program starts with.
    modules/core/system_type.cpp 866-916, 955-1065; modules/core/core.cpp 3174-3186,
    6306-6320; modules/april/compiler.cpp 491-500; modules/exec/exec.cpp 243-266. *)
From Coq Require Import List Bool Arith ZArith.
From Verif Require Import CppInt CommonModel ModiModel.
Import ListNotations.

(* The return type, as far as it is looked at: none that is known, void or another. *)
Inductive ret : Type := NoRet | Void | OtherRet.

(* A method; [e_host_generics]: the number of generic parameters of its type. *)
Record emethod : Type := mk_emethod {
  e_id : nat; e_ret : ret; e_generics : nat; e_params : nat;
  e_dec : option decorate; e_host_generics : nat
}.

Inductive keyword : Type := Sealed | Override | Virtual | Abstract | New | Const | Readonly.

Inductive error : Type :=
| NoReturnType | NotGeneric | NoParams | PublicStatic | NotAllowed (l : list keyword)
| Duplicated | ShouldStatic | ShouldExtern.

(* access_value_t as a number, core.h 1503-1509, common/__enum.h 252-258. *)
Definition access_number (a : access) : Z :=
  match a with
  | Unspecified => 0 | Public => 1 | Protected => 2 | Private => 3 | Internal => 4
  | ProtectedOrInternal => 5 | ProtectedAndInternal => 6
  end.

(* decorate_value_t::default_value. *)
Definition no_decorate : decorate :=
  mk_decorate Unspecified false false false false false false false false false.

Definition decorate_of (m : emethod) : decorate :=
  match e_dec m with Some d => d | None => no_decorate end.

(* The list of keywords, system_type.cpp 896-902 and 1033-1039. *)
Definition not_allowed (d : decorate) : list keyword :=
  (if d_sealed d then [Sealed] else []) ++ (if d_override d then [Override] else []) ++
  (if d_virtual d then [Virtual] else []) ++ (if d_abstract d then [Abstract] else []) ++
  (if d_new d then [New] else []) ++ (if d_const d then [Const] else []) ++
  (if d_readonly d then [Readonly] else []).

Definition not_allowed_error (d : decorate) : list error :=
  match not_allowed d with [] => [] | l => [NotAllowed l] end.

(* __validate_entry_point, system_type.cpp 1001-1050. *)
Definition validate (m : emethod) : list error :=
  let d := decorate_of m in
  (match e_ret m with OtherRet => [NoReturnType] | _ => [] end) ++
  (if (0 <? e_generics m)%nat then [NotGeneric] else []) ++
  (if (0 <? e_params m)%nat then [NoParams] else []) ++
  (if negb (d_static d) || negb (bit_has_flag I8 (access_number (d_access d)) [access_number Public])
   then [PublicStatic] else []) ++
  not_allowed_error d.

(* The check of a method with Internal, system_type.cpp 881-913. *)
Definition validate_internal (m : emethod) : list error :=
  let d := decorate_of m in
  (if negb (d_static d) then [ShouldStatic] else []) ++
  (if negb (d_extern d) then [ShouldExtern] else []) ++
  not_allowed_error d.

Inductive attribute : Type := EntryPoint | InternalMethod | Inline.

(* What has been committed: assembly_t::entry_point, the methods whose inline_type is
   always, and the errors. *)
Record state : Type := mk_state { entry : option nat; inlined : list nat; log : list (nat * error) }.

Definition logged (m : emethod) (l : list error) : list (nat * error) := map (fun e => (e_id m, e)) l.

(* The functions commit, system_type.cpp 866, 962-969, 987-998, 1053-1060. *)
Definition commit (s : state) (a : attribute * emethod) : state :=
  let m := snd a in
  match fst a with
  | EntryPoint =>
      let log1 := log s ++ logged m (validate m) in
      match entry s with
      | Some _ => mk_state (entry s) (inlined s) (log1 ++ [(e_id m, Duplicated)])
      | None => mk_state (Some (e_id m)) (inlined s) log1
      end
  | InternalMethod => mk_state (entry s) (inlined s) (log s ++ logged m (validate_internal m))
  | Inline => mk_state (entry s) (e_id m :: inlined s) (log s)
  end.

(* module_t::commit, core.cpp 6314-6320: the attributes in their order. *)
Definition commit_all (l : list (attribute * emethod)) : state := fold_left commit l (mk_state None [] []).

(* Whether the assembly is executable, compiler.cpp 491-500. *)
Definition executable (s : state) : bool := match entry s with Some _ => true | None => false end.

(* executor_t::execute, exec.cpp 243-266. *)
Inductive started : Type := NoEntryPoint | Starts (m : nat).

Definition execute (s : state) : started := match entry s with None => NoEntryPoint | Some m => Starts m end.
