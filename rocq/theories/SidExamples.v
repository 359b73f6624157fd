(** A memory with two texts, and names that are looked up. *)
From Coq Require Import List ZArith Lia.
From Verif Require Import SidModel SidSpec.
Import ListNotations.
Open Scope Z_scope.

(* "ab" at 2 and at 6, "b" at 10. *)
Definition memory1 : memory :=
  fun a => nth a [0; 0; 97; 98; 0; 0; 97; 98; 0; 0; 98; 0] 0.

Definition ab1 : rt_string := mk_rt 2 2.
Definition ab2 : rt_string := mk_rt 6 2.
Definition b1 : rt_string := mk_rt 10 1.

Lemma valid_small s : Forall (fun c => 0 < c < 1000) s -> (length s < 100)%nat -> valid_text s.
Proof.
  intros F L. rewrite Forall_forall in F. split; [intros c H; specialize (F c H); lia | lia].
Qed.

Lemma ab1_text : has_text memory1 ab1 [97; 98].
Proof. split; [apply valid_small; [repeat constructor; lia | cbn; lia] | split; reflexivity]. Qed.
Lemma ab2_text : has_text memory1 ab2 [97; 98].
Proof. split; [apply valid_small; [repeat constructor; lia | cbn; lia] | split; reflexivity]. Qed.
Lemma b1_text : has_text memory1 b1 [98].
Proof. split; [apply valid_small; [repeat constructor; lia | cbn; lia] | split; reflexivity]. Qed.

Definition calls1 : list call := [Text [98; 97]; Given ab1; Text [98]; Text [97; 98]; Given b1; Text [98; 97]].
Definition texts1 : list (list Z) := [[98; 97]; [97; 98]; [98]; [97; 98]; [98]; [98; 97]].

Lemma asks1 : Forall2 (asks memory1 20) calls1 texts1.
Proof.
  unfold calls1, texts1.
  constructor; [apply asks_text; apply valid_small; [repeat constructor; lia | cbn; lia]|].
  constructor; [apply asks_given; [exact ab1_text | cbn; lia]|].
  constructor; [apply asks_text; apply valid_small; [repeat constructor; lia | cbn; lia]|].
  constructor; [apply asks_text; apply valid_small; [repeat constructor; lia | cbn; lia]|].
  constructor; [apply asks_given; [exact b1_text | cbn; lia]|].
  constructor; [apply asks_text; apply valid_small; [repeat constructor; lia | cbn; lia]|].
  constructor.
Qed.
