(* Programs on which the theorems about type names can be checked. *)
From Coq Require Import ZArith List Bool Lia.
From Verif Require Import TnameModel TnameSpec.
Import ListNotations.
Local Open Scope nat_scope.

(* namespace 1.2 { class 10<90> { class 11 { } } }  namespace 1 { class 12 { } } *)
Definition own_decls : list decl :=
  [Decl 0 [1; 2]%Z 10 [90%Z] false None;
   Decl 0 [] 11 [] false (Some 0);
   Decl 0 [1]%Z 12 [] false None].

(* The assembly 50: class 51, namespace 60 { class 61<91>, class 62<91, params 92> },
   namespace 63 { class 61<91> }, and the assembly 70: class 51 *)
Definition other_decls : list decl :=
  [Decl 1 [] 51 [] false None;
   Decl 1 [60]%Z 61 [91%Z] false None;
   Decl 1 [60]%Z 62 [91; 92]%Z true None;
   Decl 1 [63]%Z 61 [91%Z] false None;
   Decl 2 [] 51 [] false None].

Definition docs : list import * list using_ :=
  ([Import None [50]%Z (Some 1); Import (Some 71%Z) [70]%Z (Some 2)],
   [Using None [50; 60]%Z; Using (Some 64%Z) [50; 63]%Z]).

(* Inside a method <93> of 10<90>.11 *)
Definition alone : context := Context own_decls 0 (Some [93%Z]) (Some 1) [1; 2]%Z None.
Definition full : context :=
  Context (own_decls ++ other_decls) 0 (Some [93%Z]) (Some 1) [1; 2]%Z (Some docs).

Lemma own_good : good_decls own_decls.
Proof.
  intros [|[|[|i]]] d h E H; cbn in E; try discriminate; try (injection E as <-; cbn in H; try discriminate).
  - injection H as <-. split; [lia|]. eexists. split; reflexivity.
  - destruct i; discriminate.
Qed.

Lemma full_good : good_decls (own_decls ++ other_decls).
Proof.
  intros i d h E H. assert (I : In d (own_decls ++ other_decls)) by exact (nth_error_In _ _ E).
  destruct i as [|[|i]]; cbn in E; try (injection E as <-; cbn in H; try discriminate).
  - injection H as <-. split; [lia|]. eexists. split; reflexivity.
  - exfalso. do 6 (destruct i as [|i]; [cbn in E; injection E as <-; discriminate H|]).
    destruct i; discriminate E.
Qed.

Lemma alone_context : good_context alone.
Proof. split; [exact own_good|]. intros i E. injection E as <-. eexists. split; reflexivity. Qed.

Lemma full_context : good_context full.
Proof. split; [exact full_good|]. intros i E. injection E as <-. eexists. split; reflexivity. Qed.

Lemma alone_full : extends alone full.
Proof.
  split; [reflexivity|]. split; [|repeat split].
  exists other_decls. split; [reflexivity|].
  intros d I. repeat (destruct I as [<-|I]; [cbn; lia|]). destruct I.
Qed.

(* An own class 51 in an own namespace 50 *)
Definition taken : context :=
  Context (own_decls ++ other_decls ++ [Decl 0 [50]%Z 51 [] false None])
    0 None None [] (Some docs).

Lemma taken_good : good_context taken.
Proof.
  split; [|intros i E; discriminate E]. intros i d h E H.
  destruct i as [|[|i]]; cbn in E; try (injection E as <-; cbn in H; try discriminate).
  - injection H as <-. split; [lia|]. eexists. split; reflexivity.
  - exfalso. do 7 (destruct i as [|i]; [cbn in E; injection E as <-; discriminate H|]).
    destruct i; discriminate E.
Qed.

Lemma outside_good D a m ns doc : good_decls D -> good_context (Context D a m None ns doc).
Proof. intros G. split; [exact G|]. intros i E. discriminate E. Qed.
