(** C128, C129: patterns of file names and the files of an argument. *)
From Coq Require Import List Bool ZArith Lia.
From Verif Require Import WildModel WildSpec WildProofs WildExamples.
Import ListNotations.
Open Scope Z_scope.

(** C128.  A pattern selects the names that are like it.  Missing: patterns with
    + ^ $ | in them and names with ends of lines, for which it is refuted below. *)
Theorem C128_pattern_partial f s : simple f -> one_line s ->
  exists b, filter_matches f s = Some b /\ (b = true <-> glob f s).
Proof. exact (filter_spec f s). Qed.
Print Assumptions C128_pattern_partial.

Example C128_case : simple p_cs /\ simple p_one /\ filter_matches p_cs n_a = Some true /\
  filter_matches p_cs n_b = Some false /\ filter_matches p_one n_a = Some true /\
  filter_matches p_one (98 :: n_a) = Some false /\ filter_matches p_cs (n_a ++ [46]) = Some false.
Proof. split; [now apply simple_check|]. split; [now apply simple_check|]. repeat split. Qed.

(** a+b is not like the pattern a+b, aab is; the pattern *+ is an exception. *)
Theorem C128_plus_refuted :
  filter_matches [97; 43; 98] [97; 43; 98] = Some false /\ glob [97; 43; 98] [97; 43; 98] /\
  filter_matches [97; 43; 98] [97; 97; 98] = Some true /\ ~ glob [97; 43; 98] [97; 97; 98] /\
  filter_matches [42; 43] [43] = None /\ glob [42; 43] [43].
Proof.
  split; [reflexivity|]. split; [repeat (apply glob_same; [lia | lia|]); constructor|].
  split; [reflexivity|]. split; [intros G; inversion G; subst; match goal with X : glob (43 :: _) _ |- _ => inversion X end|].
  split; [reflexivity|]. apply glob_skip. apply glob_same; [lia | lia|constructor].
Qed.
Print Assumptions C128_plus_refuted.

(** With | the pattern selects every name that begins with what is before it or
    ends with what is behind it. *)
Theorem C128_bar_refuted :
  filter_matches [97; 124; 98] [97; 120] = Some true /\ ~ glob [97; 124; 98] [97; 120] /\
  filter_matches [97; 124; 98] [120; 98] = Some true /\ ~ glob [97; 124; 98] [120; 98].
Proof.
  repeat split; intros G; inversion G; subst;
    match goal with X : glob (124 :: _) _ |- _ => inversion X end.
Qed.
Print Assumptions C128_bar_refuted.

(** A name with $ or ^ in it is not selected by itself. *)
Theorem C128_anchor_refuted :
  filter_matches [97; 36; 98] [97; 36; 98] = Some false /\ glob [97; 36; 98] [97; 36; 98] /\
  filter_matches [97; 94; 98] [97; 94; 98] = Some false /\ glob [97; 94; 98] [97; 94; 98].
Proof.
  split; [reflexivity|]. split; [repeat (apply glob_same; [lia | lia|]); constructor|].
  split; [reflexivity|]. repeat (apply glob_same; [lia | lia|]); constructor.
Qed.
Print Assumptions C128_anchor_refuted.

(** The pattern * does not select every name. *)
Theorem C128_line_refuted : filter_matches [42] [97; 10; 98] = Some false /\ glob [42] [97; 10; 98].
Proof. split; [reflexivity|]. repeat apply glob_take. apply glob_skip. constructor. Qed.
Print Assumptions C128_line_refuted.

(** C129.  An argument with a pattern behind its last separator stands for the files
    of that directory with such names. *)
Theorem C129_pattern S d f : simple f -> no_separator f -> is_pattern f -> names_ok S d ->
  fs_exists S d = true -> fs_is_dir S d = true ->
  exists l, each_files S (d ++ [47] ++ f) = Files l /\ forall x, In x l <-> in_directory S d f x.
Proof. exact (each_pattern S d f). Qed.
Print Assumptions C129_pattern.

(** In a directory that does not exist nothing is found, and nothing is reported. *)
Theorem C129_nowhere S d f : simple f -> no_separator f -> is_pattern f -> fs_exists S d = false ->
  each_files S (d ++ [47] ++ f) = Files [].
Proof. exact (each_nowhere S d f). Qed.
Print Assumptions C129_nowhere.

(** An argument whose last part is not a pattern stands for the file of that name, and for nothing
    if there is none. *)
Theorem C129_file S p : plain p -> fs_is_dir S p = false ->
  each_files S p = if fs_exists S p then Files [p] else NotExists.
Proof.
  intros N D. destruct (fs_exists S p) eqn:E; [now apply each_file | now apply each_missing].
Qed.
Print Assumptions C129_file.

Example C129_case : names_ok disk n_src /\ no_separator p_cs /\ is_pattern p_cs /\
  fs_exists disk n_src = true /\ fs_is_dir disk n_src = true /\
  each_files disk (n_src ++ [47] ++ p_cs) = Files [n_src ++ [47] ++ n_a] /\
  each_files disk (n_src ++ [47] ++ n_a) = Files [n_src ++ [47] ++ n_a] /\
  each_files disk n_a = NotExists /\ plain (n_src ++ [47] ++ n_a) /\ plain n_a.
Proof.
  split; [apply disk_names|]. split; [intros H; cbn in H; lia|]. split; [left; now left|].
  do 5 (split; [reflexivity|]). split.
  - right. exists n_src, n_a. split; [reflexivity|]. split; [intros H; cbn in H; lia|]. intros [H|H]; cbn in H; lia.
  - left. intros H. cbn in H. lia.
Qed.

(** A directory stands for no files at all: its name is not used. *)
Theorem C129_directory_refuted S p : plain p -> fs_is_dir S p = true -> fs_exists S [] = false ->
  each_files S p = Files [].
Proof. exact (each_directory S p). Qed.
Print Assumptions C129_directory_refuted.

Example C129_directory_case : plain n_src /\ fs_is_dir disk n_src = true /\ fs_exists disk [] = false /\
  In (n_a, false) (fs_entries disk n_src).
Proof.
  split; [left; intros H; cbn in H; lia|]. repeat split. now left.
Qed.

(** What is listed instead of it are the visible files with a dot in their names of
    the empty path, where such a path can be listed. *)
Theorem C129_listed_partial S p : plain p -> fs_is_dir S p = true -> fs_exists S [] = true ->
  fs_is_dir S [] = true -> names_ok S [] ->
  exists l, each_files S p = Files l /\
    forall x, In x l <-> in_directory S [] [42; 46; 42] x /\ ~ dotted x.
Proof. exact (each_listed S p). Qed.
Print Assumptions C129_listed_partial.

Example C129_listed_case : let S := mk_fs (fun _ => true) (fun _ => true) (fun _ => [(n_a, false); (n_lib, false)]) in
  each_files S n_src = Files [47 :: n_a].
Proof. reflexivity. Qed.

(** A pattern without a directory is taken for the name of a file. *)
Theorem C129_here_refuted S p : no_separator p -> fs_exists S p = false -> fs_is_dir S p = false ->
  each_files S p = NotExists.
Proof. exact (each_here S p). Qed.
Print Assumptions C129_here_refuted.

Example C129_here_case : no_separator p_cs /\ is_pattern p_cs /\ fs_exists disk p_cs = false /\
  each_files disk p_cs = NotExists.
Proof. split; [intros H; cbn in H; lia|]. split; [left; now left|]. repeat split. Qed.

(** Whether a file is hidden is told from the path and not from the name. *)
Theorem C129_hidden_refuted : ~ (forall d n, no_separator n ->
  (is_hidden_file (d ++ [47] ++ n) = true <-> exists r, n = 46 :: r)).
Proof.
  intros H. assert (N : no_separator n_a) by (intros X; cbn in X; lia).
  destruct (proj1 (H [46] n_a N) eq_refl) as [r E]. discriminate E.
Qed.
Print Assumptions C129_hidden_refuted.
