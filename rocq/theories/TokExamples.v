(** Texts for the examples beside the theorems on the tokeniser. *)

From Coq Require Import String Ascii ZArith List Bool Lia.
Import ListNotations.
From Verif Require Import CppInt StrModel LitModel LitSpec LitProofs TokModel TokSpec TokProofs TokText.
Open Scope Z_scope.

(** A name, a shift and a number. *)
Definition shift_text : list Z := codes "x >> 12".
Definition shift_tokens : list token :=
  [Token (One Name) 0 1 No_data; Token (Any [Right_shift; Right_angle]) 2 2 No_data; Token (Any [Empty; Right_angle]) 2 2 No_data;
   Token (One Value) 5 2 (Number (Integer I32 12 2))].

Lemma twelve_lexeme : lexeme [49; 50] (One Value) (Number (Integer I32 12 2)).
Proof.
  apply (Lex_integer Decimal [] [1; 2] [49; 50] false false [] I32).
  - reflexivity.
  - exists 1, [2]. split; [reflexivity | lia].
  - repeat (apply Forall2_cons; [split; [cbn; lia | unfold digit_char; lia] |]). constructor.
  - vm_compute. tauto.
  - apply Here. vm_compute. split; discriminate.
Qed.

Lemma shift_written : written true 0 shift_text shift_tokens.
Proof.
  apply (Written_lexeme true 0 [] [120] (One Name) No_data [32; 62; 62; 32; 49; 50]
           [Token (Any [Right_shift; Right_angle]) 2 2 No_data; Token (Any [Empty; Right_angle]) 2 2 No_data;
            Token (One Value) 5 2 (Number (Integer I32 12 2))]).
  - constructor.
  - discriminate.
  - apply Lex_word; [split; [unfold name_start; lia | constructor] |].
    apply Word_name; intros H; vm_compute in H; repeat match type of H with _ \/ _ => destruct H as [H | H] end; try contradiction; discriminate H.
  - intros a E. discriminate.
  - apply (Written_lexeme false 1 [32] [62; 62] (Any [Right_shift; Right_angle]) No_data [32; 49; 50]
             [Token (One Value) 5 2 (Number (Integer I32 12 2))]).
    + constructor; [unfold white; lia | constructor].
    + discriminate.
    + apply Lex_symbol. vm_compute. tauto.
    + intros a E. discriminate.
    + apply (Written_lexeme false 4 [32] [49; 50] (One Value) (Number (Integer I32 12 2)) [] []).
      * constructor; [unfold white; lia | constructor].
      * discriminate.
      * exact twelve_lexeme.
      * intros a E. discriminate.
      * apply Written_end. constructor.
Qed.

Lemma shift_read : reads shift_text shift_tokens.
Proof. exists 20%nat, 10%nat. vm_compute. reflexivity. Qed.

(** A text with character literals. *)
Definition quotes_text : list Z := codes "'a'+'\n'".

Lemma quotes_read : reads quotes_text
  [Token (One Value) 0 3 (Char 97 true); Token (Any [Add; Positive]) 3 1 No_data; Token (One Value) 4 4 (Char 10 true)].
Proof. exists 20%nat, 10%nat. vm_compute. reflexivity. Qed.

(** A string with escapes: a, line feed, quote. *)
Lemma escapes_denote : denotes (fun e => e <> 48 /\ e <> 102) (codes "a\n\""") [97; 10; 34].
Proof.
  vm_compute codes. apply Denotes_plain; [lia | lia | lia |]. apply Denotes_escape; [vm_compute; tauto | lia |].
  apply Denotes_escape; [vm_compute; tauto | lia | constructor].
Qed.

(** A subtraction of two literals. *)
Lemma minus_read : reads (codes "1-2")
  [Token (One Value) 0 1 (Number (Integer I32 1 1)); Token (Any [Sub; Minus]) 1 1 No_data; Token (One Value) 2 1 (Number (Integer I32 2 1))].
Proof. exists 20%nat, 10%nat. vm_compute. reflexivity. Qed.

Lemma iff_name : word_value (codes "iff") (One Name).
Proof.
  apply Word_name; intros H; vm_compute in H; repeat match type of H with _ \/ _ => destruct H as [H | H] end; try contradiction; discriminate H.
Qed.
