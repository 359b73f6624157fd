(* C108: paths without . and .. sections. *)
From Coq Require Import ZArith List Lia.
From Verif Require Import PathModel PathSpec PathProofs PathExamples.
Import ListNotations.
Local Open Scope Z_scope.

(** For an absolute path that ends in a name and in which every run of . and .. comes right
    behind as many names as it has .., the result is the path to the same place without them. *)
Theorem C108_resolved_partial l s :
  simple l -> Forall good_section l -> good_name s ->
  make_absolute (path_of (l ++ [Name s])) = Done (path_of (resolve (l ++ [Name s]))).
Proof. exact (resolved l s). Qed.
Print Assumptions C108_resolved_partial.

Example C108_resolved_case : simple walked /\ Forall good_section walked /\ good_name [100] /\
  make_absolute (path_of (walked ++ [Name [100]])) = Done (path_of [dir 97; Name [100]]).
Proof.
  split; [exact walked_simple|]. split; [exact walked_good|].
  split; [apply good_letter; lia|]. reflexivity.
Qed.

(** Without the condition it is not: /a/b/../c/../../d is /d and becomes /a/b/d. *)
Theorem C108_again_refuted : exists l s, Forall good_section l /\ good_name s /\
  make_absolute (path_of (l ++ [Name s])) = Done (path_of [dir 97; dir 98; Name s]) /\
  resolve (l ++ [Name s]) = [Name s].
Proof.
  exists [dir 97; dir 98; Up; dir 99; Up; Up], [100]. split.
  - repeat (apply Forall_cons; [first [exact I | apply good_letter; lia]|]). apply Forall_nil.
  - split; [apply good_letter; lia|]. split; reflexivity.
Qed.
Print Assumptions C108_again_refuted.

(** Nor for a simple path that ends in a section .. : /a/b/../c/.. is /a and becomes /a/b/.. *)
Theorem C108_last_refuted : exists l, simple l /\ Forall good_section l /\
  make_absolute (path_of l) = Done (path_of [dir 97; dir 98; Up]) /\ resolve l = [dir 97].
Proof.
  exists [dir 97; dir 98; Up; dir 99; Up]. split.
  - apply (simple_run [dir 97; dir 98; Up] [[99]] [Up]); [|discriminate|repeat constructor|reflexivity].
    apply (simple_run [dir 97] [[98]] [Up]); [|discriminate|repeat constructor|reflexivity].
    apply (simple_name [] [97]). constructor.
  - split; [|split; reflexivity].
    repeat (apply Forall_cons; [first [exact I | apply good_letter; lia]|]). apply Forall_nil.
Qed.
Print Assumptions C108_last_refuted.

(** A path that leads to the root becomes the empty path. *)
Theorem C108_root_refuted : exists l, simple l /\ Forall good_section l /\
  resolve l = [] /\ make_absolute (path_of l) = Done [].
Proof.
  exists [dir 97; Up]. split.
  - apply (simple_run [] [[97]] [Up]); [constructor|discriminate|repeat constructor|reflexivity].
  - split; [|split; reflexivity].
    repeat (apply Forall_cons; [first [exact I | apply good_letter; lia]|]). apply Forall_nil.
Qed.
Print Assumptions C108_root_refuted.

(** Above the root an absolute path becomes a relative one: /../a becomes a.  For the relative
    path a/.. the character before the string is read. *)
Theorem C108_above_refuted : exists s, good_name s /\
  make_absolute (path_of [Up; Name s]) = Done s /\
  make_absolute (s ++ path_of [Up]) = Outside.
Proof. exists [97]. split; [apply good_letter; lia|]. split; reflexivity. Qed.
Print Assumptions C108_above_refuted.

(** A relative path that begins with .. is refused. *)
Theorem C108_begin s : good_name s -> make_absolute ([46; 46] ++ 47 :: s) = Refused.
Proof. exact (begins_up s). Qed.
Print Assumptions C108_begin.

Example C108_begin_case : good_name [97] /\ make_absolute [46; 46; 47; 97] = Refused.
Proof. split; [apply good_letter; lia|]. reflexivity. Qed.
