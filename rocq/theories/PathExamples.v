(* Paths for PropertiesPath.v. *)
From Coq Require Import ZArith List Lia.
From Verif Require Import PathModel PathSpec.
Import ListNotations.
Local Open Scope Z_scope.

(* A directory with a name of one letter *)
Definition dir (c : Z) : section := Name [c].

Lemma good_letter c : 97 <= c <= 122 -> good_name [c].
Proof.
  intros H. unfold good_name. repeat split; try discriminate; cbn; try lia.
  intros E. injection E as ->. lia.
Qed.

(* /a/b/./../c/e/../../d *)
Definition walked : list section := [dir 97; dir 98; Here; Up; dir 99; dir 101; Up; Up].

Lemma walked_simple : simple walked.
Proof.
  apply (simple_run [dir 97; dir 98; Here; Up] [[99]; [101]] [Up; Up]);
    [|discriminate|repeat constructor|reflexivity].
  apply (simple_run [dir 97] [[98]] [Here; Up]); [|discriminate|repeat constructor|reflexivity].
  apply (simple_name [] [97]). constructor.
Qed.

Lemma walked_good : Forall good_section walked.
Proof. repeat (apply Forall_cons; [first [exact I | apply good_letter; lia]|]). apply Forall_nil. Qed.
